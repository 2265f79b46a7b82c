(** * Quadrics and triangles (exact arithmetic) *)
From Coq Require Import ZArith Reals Bool List Lra Lia Nsatz.
From Verif Require Import Num NumLaws Outcome GeomModel GeomSpec GeomProofs ObjModel TreeModel ObjSpec ObjProofs BoxProofs CsgProofs.
Import ListNotations.
Local Open Scope R_scope.

(** ** C34 *)
Section Quadric.
  Context {M : Type}.
  Variables (o a : pt) (b : R) (lo hi : pt) (m : option M).
  Let q : quadricData R M := Quadric o a b (BBox lo hi) m.

  Lemma bbInside_R p : bbInside (BBox lo hi) p = true <-> in_open_box lo hi p.
  Proof.
    unfold bbInside, in_open_box. cbn [bMin bMax]. rnum. rewrite !andb_true_iff, !Rltb_true. tauto.
  Qed.

  Definition lead (d : pt) : R := vx a * (vx d)² + vy a * (vy d)² + vz a * (vz d)².

  Lemma quadricABC_eq s d : forall A B C, quadricABC q (Ray s d) = (A, B, C) ->
    A = lead d /\ forall t, quadratic a o (along s d t) - b = A * t * t + B * t + C.
  Proof.
    intros A B C H. unfold quadricABC in H. cbn [rStart rDir q qOrigin qa qb] in H. rnum.
    injection H as <- <- <-. unfold lead, quadratic, along, plus3, scal3, Rsqr. cbn [vx vy vz].
    split; [ring|]. intros t. ring.
  Qed.

  Definition quadric_ok (s d : pt) (h : hit R M) : Prop :=
    let p := along s d (hT h) in
    0 < hT h /\ quadratic a o p = b /\ in_open_box lo hi p /\
    hNormal h = Vec (vx a * (vx p - vx o)) (vy a * (vy p - vy o)) (vz a * (vz p - vz o)) /\
    hLocal h = minus3 p o /\ hMat h = m.

  Lemma quadricHit_ok s d t : 0 < t -> quadratic a o (along s d t) = b -> in_open_box lo hi (along s d t) ->
    quadric_ok s d (quadricHit q (Ray s d) t) /\ hT (quadricHit q (Ray s d) t) = t.
  Proof. intros A B C. split; auto. repeat split; auto; apply C. Qed.

  Theorem quadric_exact s d : lead d <> 0 ->
    let h := quadricIntersect q (Ray s d) in
    (quadric_ok s d h /\ forall t, 0 < t < hT h -> ~ (quadratic a o (along s d t) = b /\ in_open_box lo hi (along s d t))) \/
    (h = noHit /\ forall t, 0 < t -> ~ (quadratic a o (along s d t) = b /\ in_open_box lo hi (along s d t))).
  Proof.
    intros HA. cbv zeta. unfold quadricIntersect.
    destruct (quadricABC q (Ray s d)) as [[A B] C] eqn:E. destruct (quadricABC_eq _ _ _ _ _ E) as [EA P].
    rewrite <- EA in HA. clear E EA. rnum.
    destruct (Rltb_spec (B * B - 4 * A * C) 0) as [L|L].
    - right. split; auto. intros t Ht [S _]. specialize (P t). rewrite S in P.
      assert (A * t * t + B * t + C = 0) as Z by lra.
      assert (0 <= (2 * A * t + B) * (2 * A * t + B)) as SQ by apply Rle_0_sqr.
      replace ((2 * A * t + B) * (2 * A * t + B)) with (4 * A * (A * t * t + B * t + C) + (B * B - 4 * A * C)) in SQ by ring.
      rewrite Z in SQ. lra.
    - set (V := sqrt (B * B - 4 * A * C)).
      assert (V * V = B * B - 4 * A * C) as HV by (apply sqrt_sqrt; exact L).
      set (r1 := (- B - V) / (2 * A)). set (r2 := (- B + V) / (2 * A)).
      assert (forall t, quadratic a o (along s d t) - b = A * (t - r1) * (t - r2)) as F.
      { intros t. rewrite P. unfold r1, r2. 
        replace (A * (t - (- B - V) / (2 * A)) * (t - (- B + V) / (2 * A))) with (A * t * t + B * t + (B * B - V * V) / (4 * A)) by (field; auto).
        rewrite HV. field. auto. }
      assert (exists t1 t2, (if Rltb r2 r1 then (r2, r1) else (r1, r2)) = (t1, t2) /\ t1 <= t2 /\
        forall t, quadratic a o (along s d t) - b = A * (t - t1) * (t - t2)) as (t1 & t2 & -> & Hle & G).
      { destruct (Rltb_spec r2 r1) as [X|X]; [exists r2, r1|exists r1, r2]; (split; [reflexivity|split; [lra|]]); auto.
        intros t. rewrite F. ring. }
      clear F. clearbody r1 r2.
      assert (quadratic a o (along s d t1) = b) as S1 by (generalize (G t1); lra).
      assert (quadratic a o (along s d t2) = b) as S2 by (generalize (G t2); nra).
      assert (forall t, quadratic a o (along s d t) = b -> t = t1 \/ t = t2) as U.
      { intros t St. specialize (G t). rewrite St in G. assert ((t - t1) * (t - t2) = 0) as Z by (apply (Rmult_eq_reg_l A); auto; lra).
        apply Rmult_integral in Z. lra. }
      cbn [qBounds q]. rewrite !rayAt_along.
      destruct (Rltb 0 t1 && bbInside (BBox lo hi) (along s d t1))%bool eqn:E1.
      { apply andb_true_iff in E1. destruct E1 as [L1 I1]. apply Rltb_true in L1. apply bbInside_R in I1.
        left. destruct (quadricHit_ok s d t1 L1 S1 I1) as [K T]. split; auto. rewrite T.
        intros t Ht [St _]. apply U in St. lra. }
      assert (~ (0 < t1 /\ in_open_box lo hi (along s d t1))) as N1.
      { intros [X Y]. apply Rltb_true in X. apply bbInside_R in Y. rewrite X, Y in E1. discriminate. }
      destruct (Rltb 0 t2 && bbInside (BBox lo hi) (along s d t2))%bool eqn:E2.
      + apply andb_true_iff in E2. destruct E2 as [L2 I2]. apply Rltb_true in L2. apply bbInside_R in I2.
        left. destruct (quadricHit_ok s d t2 L2 S2 I2) as [K T]. split; auto. rewrite T.
        intros t Ht [St It]. apply U in St. destruct St as [->| ->]; [|lra]. apply N1. split; [lra|auto].
      + right. split; auto. intros t Ht [St It]. apply U in St. destruct St as [->| ->]; [apply N1; auto|].
        apply Rltb_true in Ht. apply bbInside_R in It. rewrite Ht, It in E2. discriminate.
  Qed.

  (** the reported normal is (half) the gradient of the quadratic form *)
  Lemma quadratic_gradient p u :
    derivable_pt_lim (fun k => quadratic a o (along p u k)) 0
      (2 * dot3 (Vec (vx a * (vx p - vx o)) (vy a * (vy p - vy o)) (vz a * (vz p - vz o))) u).
  Proof.
    set (Cc := vx a * (vx u)² + vy a * (vy u)² + vz a * (vz u)²).
    intros eps He. assert (0 <= Rabs Cc) by apply Rabs_pos.
    assert (0 < eps / (Rabs Cc + 1)) as Hd by (apply Rdiv_lt_0_compat; lra).
    exists (mkposreal _ Hd). intros h Hh Hlt. cbn in Hlt.
    match goal with |- Rabs ?x < _ => replace x with (h * Cc) end.
    - rewrite Rabs_mult. apply Rmult_lt_compat_r with (r := Rabs Cc + 1) in Hlt; [|lra].
      unfold Rdiv in Hlt. rewrite Rmult_assoc, Rinv_l, Rmult_1_r in Hlt by lra.
      assert (0 <= Rabs h) by apply Rabs_pos. nra.
    - unfold quadratic, along, plus3, scal3, dot3, Cc, Rsqr. cbn [vx vy vz]. field. auto.
  Qed.

  Lemma quadricInside_exact p : quadricInside q p = true <-> in_open_box lo hi p /\ quadratic a o p < b.
  Proof.
    unfold quadricInside. cbn [q qBounds qOrigin qa qb]. destruct (bbInside (BBox lo hi) p) eqn:E.
    - apply bbInside_R in E. unfold mul3, vdot, vsub. rnum. cbn [vx vy vz]. rnum. rewrite Rltb_true.
      unfold quadratic, Rsqr. split; [intros H; split; auto; lra|intros [_ H]; lra].
    - split; [discriminate|]. intros [X _]. apply bbInside_R in X. congruence.
  Qed.
End Quadric.

(** *** spheres and cylinders *)
Lemma sphereData_eq {M} (m : option M) diam c : sphereData m diam c =
  Quadric c (Vec 1 1 1) ((diam / 2) * (diam / 2))
    (BBox (Vec (vx c - diam / 2 - tiny) (vy c - diam / 2 - tiny) (vz c - diam / 2 - tiny))
          (Vec (vx c + diam / 2 + tiny) (vy c + diam / 2 + tiny) (vz c + diam / 2 + tiny))) m.
Proof.
  unfold sphereData, bbWithMargin, bbTranslated, vadd. cbn [bMin bMax vx vy vz]. rnum.
  f_equal. f_equal; f_equal; ring.
Qed.
Lemma cylinderData_eq {M} (m : option M) diam height c : cylinderData m diam height c =
  Quadric c (Vec 1 0 1) ((diam / 2) * (diam / 2))
    (BBox (Vec (vx c - diam / 2 - tiny) (vy c - height / 2 - tiny) (vz c - diam / 2 - tiny))
          (Vec (vx c + diam / 2 + tiny) (vy c + height / 2 + tiny) (vz c + diam / 2 + tiny))) m.
Proof.
  unfold cylinderData, bbWithMargin, bbTranslated, vadd. cbn [bMin bMax vx vy vz]. rnum.
  f_equal. f_equal; f_equal; field.
Qed.

Lemma sqr_le_bounds x r : 0 <= r -> x * x <= r * r -> - r <= x <= r.
Proof. intros. split; nra. Qed.

Lemma sum_sq_bounds x y z r : 0 <= r -> x * x + y * y + z * z <= r * r ->
  - r <= x <= r /\ - r <= y <= r /\ - r <= z <= r.
Proof.
  intros Hr H. generalize (Rle_0_sqr x) (Rle_0_sqr y) (Rle_0_sqr z). unfold Rsqr. intros.
  split; [|split]; apply sqr_le_bounds; auto; lra.
Qed.

Definition dist2 (p q : pt) : R := norm2 (minus3 p q).

Theorem sphere_exact {M} (m : option M) diam c s d : 0 <= diam -> d <> zero3 ->
  let h := quadricIntersect (sphereData m diam c) (Ray s d) in
  (0 < hT h /\ dist2 (along s d (hT h)) c = (diam / 2)² /\ hNormal h = minus3 (along s d (hT h)) c /\
     hLocal h = minus3 (along s d (hT h)) c /\ hMat h = m /\
     forall t, 0 < t < hT h -> dist2 (along s d t) c <> (diam / 2)²) \/
  (h = noHit /\ forall t, 0 < t -> dist2 (along s d t) c <> (diam / 2)²).
Proof.
  intros Hdm Hd. cbv zeta. rewrite sphereData_eq.
  set (lo := Vec (vx c - _ - _) _ _). set (hi := Vec (vx c + _ + _) _ _).
  assert (lead (Vec 1 1 1) d <> 0) as HL.
  { unfold lead, Rsqr. cbn. generalize (norm2_pos d Hd). unfold norm2, dot3. lra. }
  assert (forall p, quadratic (Vec 1 1 1) c p = dist2 p c) as Q
    by (intros p; unfold quadratic, dist2, norm2, dot3, minus3, Rsqr; cbn; ring).
  assert (forall p, dist2 p c = (diam / 2)² -> in_open_box lo hi p) as I.
  { intros p. unfold dist2, norm2, dot3, minus3, Rsqr. cbn [vx vy vz]. intros Hp. generalize tiny_pos; intros TP.
    destruct (sum_sq_bounds (vx p - vx c) (vy p - vy c) (vz p - vz c) (diam / 2)) as (B1 & B2 & B3); [lra|lra|].
    unfold in_open_box, lo, hi; cbn [vx vy vz]. repeat split; lra. }
  destruct (quadric_exact c (Vec 1 1 1) (diam / 2 * (diam / 2)) lo hi m s d HL) as [[(A & B & C & D & E & F) N]|[E N]].
  - left. rewrite Q in B. split; auto. split; [exact B|]. split.
    + rewrite D. unfold minus3. cbn [vx vy vz]. apply vec_eq; cbn [vx vy vz]; ring.
    + split; auto. split; auto. intros t Ht X. apply (N t Ht). rewrite Q. split; [exact X|now apply I].
  - right. split; auto. intros t Ht X. apply (N t Ht). rewrite Q. split; [exact X|now apply I].
Qed.

Theorem sphere_inside {M} (m : option M) diam c p : 0 <= diam ->
  oInside (sphere m diam c) p = Val true <-> dist2 p c < (diam / 2)².
Proof.
  intros Hdm. cbn [oInside sphere quadric simpleObj].
  assert (forall x : bool, Val x = Val true <-> x = true) as V by (intros; split; congruence). rewrite V.
  rewrite sphereData_eq, quadricInside_exact.
  assert (quadratic (Vec 1 1 1) c p = dist2 p c) as -> by (unfold quadratic, dist2, norm2, dot3, minus3, Rsqr; cbn; ring).
  split; [intros [_ H]; exact H|]. intros H. split; [|exact H]. revert H.
  unfold dist2, norm2, dot3, minus3, Rsqr. cbn [vx vy vz]. intros Hp. generalize tiny_pos; intros TP.
  destruct (sum_sq_bounds (vx p - vx c) (vy p - vy c) (vz p - vz c) (diam / 2)) as (B1 & B2 & B3); [lra|lra|].
  unfold in_open_box; cbn [vx vy vz]. repeat split; lra.
Qed.

(** distance from the vertical axis through [c], squared *)
Definition radial2 (p c : pt) : R := (vx p - vx c)² + (vz p - vz c)².

Theorem cylinder_exact {M} (m : option M) diam height c s d : 0 <= diam -> vx d <> 0 \/ vz d <> 0 ->
  let h := quadricIntersect (cylinderData m diam height c) (Ray s d) in
  let onSurf p := radial2 p c = (diam / 2)² /\ Rabs (vy p - vy c) < height / 2 + tiny in
  (0 < hT h /\ onSurf (along s d (hT h)) /\ hMat h = m /\
     hNormal h = Vec (vx (along s d (hT h)) - vx c) 0 (vz (along s d (hT h)) - vz c) /\
     forall t, 0 < t < hT h -> ~ onSurf (along s d t)) \/
  (h = noHit /\ forall t, 0 < t -> ~ onSurf (along s d t)).
Proof.
  intros Hdm Hd. cbv zeta. rewrite cylinderData_eq.
  set (lo := Vec (vx c - _ - _) _ _). set (hi := Vec (vx c + _ + _) _ _).
  assert (lead (Vec 1 0 1) d <> 0) as HL.
  { unfold lead, Rsqr. cbn. destruct Hd; nra. }
  assert (forall p, quadratic (Vec 1 0 1) c p = radial2 p c) as Q
    by (intros p; unfold quadratic, radial2, Rsqr; cbn; ring).
  assert (forall p, radial2 p c = (diam / 2)² -> in_open_box lo hi p <-> Rabs (vy p - vy c) < height / 2 + tiny) as I.
  { intros p. unfold radial2, Rsqr. intros Hp. generalize tiny_pos; intros TP.
    destruct (sum_sq_bounds (vx p - vx c) 0 (vz p - vz c) (diam / 2)) as (B1 & _ & B3); [lra|lra|].
    unfold in_open_box, lo, hi; cbn [vx vy vz]. split.
    - intros (_ & (Y1 & Y2) & _). apply Rabs_def1; lra.
    - intros Y. apply Rabs_def2 in Y. repeat split; lra. }
  destruct (quadric_exact c (Vec 1 0 1) (diam / 2 * (diam / 2)) lo hi m s d HL) as [[(A & B & C & D & E & F) N]|[E N]].
  - left. rewrite Q in B. split; auto. split; [split; [exact B|apply I; auto]|]. split; auto. split.
    + rewrite D. cbn [vx vy vz]. apply vec_eq; cbn [vx vy vz]; ring.
    + intros t Ht [X Y]. apply (N t Ht). rewrite Q. split; [exact X|now apply I].
  - right. split; auto. intros t Ht [X Y]. apply (N t Ht). rewrite Q. split; [exact X|now apply I].
Qed.

(** *** a vanishing quadratic coefficient (ray along the axis of a cylinder): always a miss *)
Lemma xinf_nonfinite c : forall r, xinf_of c <> XF r.
Proof. destruct c; cbn; congruence. Qed.
Lemma rayAt_inf_outside lo hi s d t : (forall r, t <> XF r) -> bbInside (xbox lo hi) (rayAt (xray s d) t) = false.
Proof.
  intros Ht. unfold bbInside, rayAt, xray, xbox, xv. cbn [rStart rDir bMin bMax vx vy vz nadd nmul nltb NumX].
  assert (forall a x, exists y, xadd (XF a) (xmul t (XF x)) = y /\ forall r, y <> XF r) as C.
  { intros a x. eexists. split; [reflexivity|]. intros r. destruct t as [u| | |]; [congruence| | |cbn; congruence].
    - cbn. destruct (Rsgn x); cbn; congruence.
    - cbn. destruct (Rsgn x); cbn; congruence. }
  destruct (C (vx s) (vx d)) as (y & -> & Hy).
  destruct y as [u| | |]; [exfalso; eapply Hy; eauto| | |]; reflexivity.
Qed.
Theorem quadric_degenerate {M} (o a : pt) (b : R) (lo hi : pt) (m : option M) s d : lead a d = 0 ->
  quadricIntersect (Quadric (xv o) (xv a) (XF b) (xbox lo hi) m) (xray s d) = noHit.
Proof.
  intros H. unfold quadricIntersect, quadricABC.
  cbn [rStart rDir qOrigin qa qb qBounds xray xv vx vy vz nsub nmul nadd nofZ ndiv nopp nltb nsqrt NumX xsub xadd xopp xmul].
  replace (vx a * vx d * vx d + vy a * vy d * vy d + vz a * vz d * vz d) with 0 by (rewrite <- H; unfold lead, Rsqr; ring).
  set (B := 2 * _). set (C := _ + - b). cbn [xltb xsqrt].
  destruct (Rltb_spec (B * B + - (4 * 0 * C)) 0) as [L|L]; [reflexivity|].
  destruct (Rlt_dec (B * B + - (4 * 0 * C)) 0); [lra|].
  set (V := sqrt _). cbn [xadd xopp xdiv]. replace (2 * 0) with 0 by ring.
  destruct (Req_EM_T 0 0) as [_|]; [|lra].
  set (r1 := xinf_of _). set (r2 := xinf_of _).
  assert (forall r, r1 <> XF r) as H1 by apply xinf_nonfinite.
  assert (forall r, r2 <> XF r) as H2 by apply xinf_nonfinite.
  fold (xv s) (xv d). fold (xray s d).
  destruct (xltb r1 r2);
    rewrite (rayAt_inf_outside lo hi s d r1 H1), (rayAt_inf_outside lo hi s d r2 H2), !andb_false_r; reflexivity.
Qed.

(** ** C37 *)
Section Face.
  Context {M : Type}.
  Variables v0 v1 v2 : pt.
  Let n := cross3 (minus3 v1 v0) (minus3 v2 v0).
  Variables s d : pt.
  Hypothesis Hn : n <> zero3.
  Hypothesis Hnd : dot3 n d <> 0.

  Lemma faceCoords_exact : let g := faceCoords v0 v1 v2 (Ray s d) in
    fg1 g + fg2 g + fg3 g = 1 /\ along s d (fgT g) = weighted (fg1 g) (fg2 g) (fg3 g) v0 v1 v2 /\
    forall t w0 w1 w2, w0 + w1 + w2 = 1 -> along s d t = weighted w0 w1 w2 v0 v1 v2 ->
      t = fgT g /\ w0 = fg1 g /\ w1 = fg2 g /\ w2 = fg3 g.
  Proof.
    assert (0 < norm2 n) as N2 by now apply norm2_pos.
    unfold n in *. clear n Hn. unfold norm2, dot3, cross3, minus3 in *. cbn [vx vy vz] in *.
    unfold faceCoords. cbv zeta. rnum. cbn [fgT fg1 fg2 fg3 rStart rDir].
    destruct v0 as [ox oy oz], v1 as [x1 y1 z1], v2 as [x2 y2 z2], s as [s1 s2 s3], d as [d1 d2 d3]. cbn [vx vy vz] in *.
    set (ax := x1 - ox) in *. set (ay := y1 - oy) in *. set (az := z1 - oz) in *.
    set (bx := x2 - ox) in *. set (by_ := y2 - oy) in *. set (bz := z2 - oz) in *.
    set (nx := ay * bz - az * by_) in *. set (ny := az * bx - ax * bz) in *. set (nz := ax * by_ - ay * bx) in *.
    set (ND := nx * d1 + ny * d2 + nz * d3) in *.
    set (NN := nx * nx + ny * ny + nz * nz) in *.
    set (NS := nx * (s1 - ox) + ny * (s2 - oy) + nz * (s3 - oz)).
    set (t := - NS / ND).
    assert (t * ND = - NS) as Et by (unfold t; field; auto).
    set (px := s1 - ox + t * d1). set (py := s2 - oy + t * d2). set (pz := s3 - oz + t * d3).
    assert (nx * px + ny * py + nz * pz = 0) as Hp.
    { transitivity (NS + t * ND); [unfold px, py, pz, NS, ND; ring|rewrite Et; ring]. }
    set (l1 := _ / NN). set (l3 := _ / NN).
    assert (l1 * NN = nx * ((by_ - ay) * (pz - az) - (bz - az) * (py - ay)) + ny * ((bz - az) * (px - ax) - (bx - ax) * (pz - az)) + nz * ((bx - ax) * (py - ay) - (by_ - ay) * (px - ax))) as E1
      by (unfold l1; field; lra).
    assert (l3 * NN = nx * (ay * pz - az * py) + ny * (az * px - ax * pz) + nz * (ax * py - ay * px)) as E3
      by (unfold l3; field; lra).
    clearbody l1 l3.
    assert (forall ux uy uz, ux * nx + uy * ny + uz * nz = 0 -> 
       NN * ux = (nx * (uy * bz - uz * by_) + ny * (uz * bx - ux * bz) + nz * (ux * by_ - uy * bx)) * ax
               + (nx * (ay * uz - az * uy) + ny * (az * ux - ax * uz) + nz * (ax * uy - ay * ux)) * bx /\
       NN * uy = (nx * (uy * bz - uz * by_) + ny * (uz * bx - ux * bz) + nz * (ux * by_ - uy * bx)) * ay
               + (nx * (ay * uz - az * uy) + ny * (az * ux - ax * uz) + nz * (ax * uy - ay * ux)) * by_ /\
       NN * uz = (nx * (uy * bz - uz * by_) + ny * (uz * bx - ux * bz) + nz * (ux * by_ - uy * bx)) * az
               + (nx * (ay * uz - az * uy) + ny * (az * ux - ax * uz) + nz * (ax * uy - ay * ux)) * bz) as ID.
    { intros ux uy uz Hu. repeat split; apply Rminus_diag_uniq.
      - replace 0 with (nx * (ux * nx + uy * ny + uz * nz)) by (rewrite Hu; ring). unfold NN, nx, ny, nz. ring.
      - replace 0 with (ny * (ux * nx + uy * ny + uz * nz)) by (rewrite Hu; ring). unfold NN, nx, ny, nz. ring.
      - replace 0 with (nz * (ux * nx + uy * ny + uz * nz)) by (rewrite Hu; ring). unfold NN, nx, ny, nz. ring. }
    assert ((1 - l1 - l3) * NN = nx * (py * bz - pz * by_) + ny * (pz * bx - px * bz) + nz * (px * by_ - py * bx)) as E2.
    { rewrite !Rmult_minus_distr_r, E1, E3. unfold NN, nx, ny, nz. ring. }
    destruct (ID px py pz) as (I1 & I2 & I3); [lra|].
    rewrite <- E2, <- E3 in I1, I2, I3.
    split; [ring|]. split.
    - unfold along, weighted, plus3, scal3. cbn [vx vy vz]. apply vec_eq; cbn [vx vy vz].
      + replace (s1 + t * d1) with (ox + px) by (unfold px; ring).
        replace px with ((1 - l1 - l3) * ax + l3 * bx); [unfold ax, bx; ring|]. apply (Rmult_eq_reg_l NN); [|lra]. rewrite I1. ring.
      + replace (s2 + t * d2) with (oy + py) by (unfold py; ring).
        replace py with ((1 - l1 - l3) * ay + l3 * by_); [unfold ay, by_; ring|]. apply (Rmult_eq_reg_l NN); [|lra]. rewrite I2. ring.
      + replace (s3 + t * d3) with (oz + pz) by (unfold pz; ring).
        replace pz with ((1 - l1 - l3) * az + l3 * bz); [unfold az, bz; ring|]. apply (Rmult_eq_reg_l NN); [|lra]. rewrite I3. ring.
    - intros t' w0 w1 w2 Hw HE. unfold along, weighted, plus3, scal3 in HE. cbn [vx vy vz] in HE.
      injection HE as X1 X2 X3. assert (w0 = 1 - w1 - w2) as W by lra.
      assert (s1 - ox + t' * d1 = w1 * ax + w2 * bx) as Y1 by (unfold ax, bx; rewrite W in X1; lra).
      assert (s2 - oy + t' * d2 = w1 * ay + w2 * by_) as Y2 by (unfold ay, by_; rewrite W in X2; lra).
      assert (s3 - oz + t' * d3 = w1 * az + w2 * bz) as Y3 by (unfold az, bz; rewrite W in X3; lra).
      assert (t' = t) as ->.
      { apply (Rmult_eq_reg_r ND); auto. rewrite Et.
        assert (NS + t' * ND = 0); [|lra].
        transitivity (nx * (s1 - ox + t' * d1) + ny * (s2 - oy + t' * d2) + nz * (s3 - oz + t' * d3)); [unfold NS, ND; ring|].
        rewrite Y1, Y2, Y3. unfold nx, ny, nz. ring. }
      fold px in Y1. fold py in Y2. fold pz in Y3. clearbody px py pz. rewrite Y1, Y2, Y3 in E2, E3.
      assert (l3 = w2) as ->. { apply (Rmult_eq_reg_r NN); [|lra]. rewrite E3. unfold NN, nx, ny, nz. ring. }
      assert (1 - l1 - w2 = w1) as <-. { apply (Rmult_eq_reg_r NN); [|lra]. rewrite E2. unfold NN, nx, ny, nz. ring. }
      repeat split; lra.
  Qed.

  Theorem face_exact (n0 n1 n2 : pt) (a0 b0 a1 b1 a2 b2 : R) :
    let h := faceIntersect (Vertex v0 n0 a0 b0) (Vertex v1 n1 a1 b1) (Vertex v2 n2 a2 b2) (Ray s d) : hit R M in
    (exists w0 w1 w2, 0 < hT h /\ 0 <= w0 /\ 0 <= w1 /\ 0 <= w2 /\ w0 + w1 + w2 = 1 /\
       along s d (hT h) = weighted w0 w1 w2 v0 v1 v2 /\
       hNormal h = weighted w0 w1 w2 n0 n1 n2 /\
       hLocal h = Vec (w0 * a0 + w1 * a1 + w2 * a2) (w0 * b0 + w1 * b1 + w2 * b2) 0 /\
       forall t, 0 < t -> in_triangle v0 v1 v2 (along s d t) -> t = hT h) \/
    (h = noHit /\ forall t, 0 < t -> ~ in_triangle v0 v1 v2 (along s d t)).
  Proof.
    cbv zeta. unfold faceIntersect. cbn [vtPos vtNormal vtU vtV].
    destruct faceCoords_exact as (S1 & P & U). rnum.
    set (g := faceCoords v0 v1 v2 (Ray s d)) in *. clearbody g.
    destruct (Rltb_spec 0 (fgT g)) as [L|L]; cbn [negb].
    2:{ right. split; auto. intros t Ht (w0 & w1 & w2 & _ & _ & _ & W & E).
        destruct (U t w0 w1 w2 W E) as (-> & _). lra. }
    destruct (Rltb (fg1 g) 0 || Rltb (fg2 g) 0 || Rltb (fg3 g) 0)%bool eqn:E.
    - right. split; auto. intros t Ht (w0 & w1 & w2 & P0 & P1 & P2 & W & EE).
      destruct (U t w0 w1 w2 W EE) as (-> & -> & -> & ->).
      rewrite !orb_true_iff, !Rltb_true in E. lra.
    - left. rewrite !orb_false_iff, !Rltb_false in E. destruct E as [[E1 E2] E3].
      exists (fg1 g), (fg2 g), (fg3 g). cbn [hT hNormal hLocal].
      split; [auto|]. split; [auto|]. split; [auto|]. split; [auto|]. split; [auto|]. split; [auto|]. split; [|split].
      + unfold vadd, vmul, weighted, plus3, scal3. apply vec_eq; cbn [vx vy vz]; rnum; ring.
      + apply vec_eq; cbn [vx vy vz]; rnum; ring.
      + intros t Ht (w0 & w1 & w2 & P0 & P1 & P2 & W & EE). now destruct (U t w0 w1 w2 W EE).
  Qed.
End Face.
