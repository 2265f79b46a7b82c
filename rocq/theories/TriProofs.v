(** * Triangles in double precision: hits and misses *)
From Coq Require Import ZArith Reals Bool List Lra Lia Psatz.
From Flocq Require Import Core.
From Flocq Require IEEE754.BinarySingleNaN.
Import IEEE754.BinarySingleNaN.
From Verif Require Import Num NumLaws Outcome B64 GeomModel GeomSpec ObjModel TreeModel ObjSpec ParamProofs FloatSpec FloatErr SphereFloat TriSpec TriFloat.
Local Open Scope R_scope.

Definition scaled (k : Z) (v : vec b64) : vec R := Vec (at_scale k (vx v)) (at_scale k (vy v)) (at_scale k (vz v)).
Lemma scaled_le k x : at_most k x -> Rabs (at_scale k x) <= 1.
Proof.
  intros [_ H]. unfold at_scale. destruct (scale_inv k) as [P E]. rewrite Rabs_mult, (Rabs_pos_eq (bpow radix2 (- k))) by lra.
  assert (G := bpow_gt_0 radix2 k). apply Rle_trans with (bpow radix2 k * bpow radix2 (- k)); [apply Rmult_le_compat_r; lra|lra].
Qed.
Lemma self_ap k x : at_most k x -> ap k x (at_scale k x) 0 0.
Proof.
  intros H. split; [apply H|]. split; [|apply scaled_le; exact H]. replace (at_scale k x - at_scale k x) with 0 by ring. rewrite Rabs_R0. lra.
Qed.
Lemma self_vap k v : all3 (at_most k) v -> vap k v (scaled k v) 0 0.
Proof. intros (A & B & C). split; [|split]; apply self_ap; assumption. Qed.
Lemma scale0 x : at_scale 0 x = B2R x.
Proof. unfold at_scale. change (bpow radix2 (- 0)) with 1. ring. Qed.
Lemma dir_vap d : near_unit d -> vap 0 d (real d) 0 1 /\ vdot (real d) (real d) <= 1001 / 1000.
Proof.
  intros [(F & G & H) N]. unfold rdot in N. apply Rabs_le_inv in N.
  assert (E : forall x, is_finite x = true -> B2R x * B2R x <= 1001 / 1000 -> ap 0 x (B2R x) 0 1).
  { intros x Fx Hx. split; [exact Fx|]. rewrite scale0. split; [replace (B2R x - B2R x) with 0 by ring; rewrite Rabs_R0; lra|].
    change (bpow radix2 1) with 2. apply Rabs_le. nra. }
  assert (P1 := Rle_0_sqr (B2R (vx d))). assert (P2 := Rle_0_sqr (B2R (vy d))). assert (P3 := Rle_0_sqr (B2R (vz d))). unfold Rsqr in *.
  split.
  - split; [|split]; (apply E; [assumption|lra]).
  - unfold vdot, real; cbn [vx vy vz]. change (B2R (vx d) * B2R (vx d) + B2R (vy d) * B2R (vy d) + B2R (vz d) * B2R (vz d) <= 1001 / 1000). lra.
Qed.

Section Face.
  Context {M : Type}.
  Variables (k i : Z) (a b c : vertex b64) (s d : vec b64) (t w1 w2 w3 : R).
  Hypothesis Hk : (-100 <= k <= 100)%Z.
  Hypothesis Hi : (0 <= i <= 8)%Z.
  Let A := real (vtPos a). Let B := real (vtPos b). Let C := real (vtPos c).
  Hypothesis Ha : all3 (at_most k) (vtPos a).
  Hypothesis Hb : all3 (at_most k) (vtPos b).
  Hypothesis Hc : all3 (at_most k) (vtPos c).
  Hypothesis Hs : all3 (at_most k) s.
  Hypothesis Hd : near_unit d.
  Hypothesis Hn : bpow radix2 (2 * k - i) <= Rabs (dot3 (cross3 (minus3 B A) (minus3 C A)) (real d)).
  Hypothesis Ht : Rabs t <= bpow radix2 (k + 2).
  Hypothesis Hw : w1 + w2 + w3 = 1.
  Hypothesis Hp : along (real s) (real d) t = weighted w1 w2 w3 A B C.
  Let h := faceIntersect (M := M) a b c (Ray s d).
  Let e := bpow radix2 (3 * i - 31).
  Let et := bpow radix2 (k + i - 42).
  Let z := bpow radix2 (- k).

  Lemma face_ap : let g := faceCoords (vtPos a) (vtPos b) (vtPos c) (Ray s d) in
    within et t (fgT g) /\ ap 0 (fg1 g) w1 (2 ^ 22 * (bpow radix2 i * bpow radix2 i * bpow radix2 i)) (i + 6) /\
    ap 0 (fg2 g) w2 (2 ^ 22 * (bpow radix2 i * bpow radix2 i * bpow radix2 i)) (i + 8) /\ ap 0 (fg3 g) w3 (2 ^ 22 * (bpow radix2 i * bpow radix2 i * bpow radix2 i)) (i + 6).
  Proof.
    intros g. destruct (dir_vap d Hd) as [Vd Ud]. destruct (scale_inv k) as [Z0 Z1]. fold z in Z0, Z1.
    assert (PK := bpow_gt_0 radix2 k).
    assert (Sm : forall v, all3 (at_most k) v -> Rabs (vx (scaled k v)) <= 1 /\ Rabs (vy (scaled k v)) <= 1 /\ Rabs (vz (scaled k v)) <= 1).
    { intros v (X & Y & W). cbn [scaled vx vy vz]. repeat split; apply scaled_le; assumption. }
    assert (G := coords_near k i (vtPos a) (vtPos b) (vtPos c) s d (scaled k (vtPos a)) (scaled k (vtPos b)) (scaled k (vtPos c)) (scaled k s) (real d) (t * z) w1 w2 w3
      Hk Hi (self_vap k _ Ha) (self_vap k _ Hb) (self_vap k _ Hc) (self_vap k _ Hs) Vd (Sm _ Ha) (Sm _ Hb) (Sm _ Hc) (Sm _ Hs) Ud).
    destruct G with (r := Ray s d) (g := g) as (T & L1 & L2 & L3); try reflexivity.
    - (* the volume *)
      assert (E : vdot (vcross (vsub (scaled k (vtPos b)) (scaled k (vtPos a))) (vsub (scaled k (vtPos c)) (scaled k (vtPos a)))) (real d)
        = z * z * dot3 (cross3 (minus3 B A) (minus3 C A)) (real d)).
      { unfold A, B, C, scaled, real, at_scale, vdot, vcross, vsub, dot3, cross3, minus3; cbn [vx vy vz]. cbn -[Rplus Rmult Rminus Ropp bpow B2R]. fold z. ring. }
      rewrite E, Rabs_mult, (Rabs_pos_eq (z * z)) by nra.
      apply Rle_trans with (z * z * bpow radix2 (2 * k - i)); [|apply Rmult_le_compat_l; [nra|exact Hn]].
      rewrite <- bpow_opp. unfold z. rewrite <- !bpow_plus. apply bpow_le. lia.
    - rewrite Rabs_mult, (Rabs_pos_eq z) by lra.
      apply Rle_trans with (bpow radix2 (k + 2) * z); [apply Rmult_le_compat_r; lra|]. unfold z. rewrite <- bpow_plus. replace (k + 2 + - k)%Z with 2%Z by ring. cbn. lra.
    - exact Hw.
    - revert Hp. unfold along, weighted, plus3, scal3, A, B, C, real, vmadd, vadd, vmul, scaled, at_scale; cbn [vx vy vz]. fold z. intros E. injection E as E1 E2 E3.
      cbn -[Rplus Rmult Rminus Ropp bpow B2R]. f_equal.
      + apply (f_equal (Rmult z)) in E1. lra.
      + apply (f_equal (Rmult z)) in E2. lra.
      + apply (f_equal (Rmult z)) in E3. lra.
    - split; [|split; [exact L1|split; [exact L2|exact L3]]]. destruct T as (F & T & _). split; [exact F|].
      unfold at_scale in T. fold z in T. replace (B2R (fgT g) * z - t * z) with ((B2R (fgT g) - t) * z) in T by ring. rewrite Rabs_mult, (Rabs_pos_eq z) in T by lra.
      replace (Rabs (B2R (fgT g) - t)) with (Rabs (B2R (fgT g) - t) * z * bpow radix2 k) by (rewrite Rmult_assoc, Z1; ring).
      apply Rle_trans with (2048 * bpow radix2 i * u * bpow radix2 k); [apply Rmult_le_compat_r; lra|]. right. unfold et.
      replace u with (bpow radix2 (-53)) by (rewrite u_val; reflexivity). change 2048 with (bpow radix2 11). rewrite <- !bpow_plus. f_equal. lia.
  Qed.

  Lemma e_eq : e = 2 ^ 22 * (bpow radix2 i * bpow radix2 i * bpow radix2 i) * u.
  Proof. exact (margin_eq i). Qed.
  Lemma zero_b : is_finite (nofZ 0 : b64) = true /\ B2R (nofZ 0 : b64) = 0.
  Proof. apply Z_b. cbn. lia. Qed.
  Lemma ap_sign x w j : ap 0 x w (2 ^ 22 * (bpow radix2 i * bpow radix2 i * bpow radix2 i)) j ->
    (e <= w -> nltb x (nofZ 0) = false) /\ (w < - e -> nltb x (nofZ 0) = true).
  Proof.
    intros (F & X & _). rewrite <- e_eq, scale0 in X. apply Rabs_le_inv in X. destruct zero_b as [Fz Ez]. rewrite (bltb_eq x (nofZ 0) F Fz), Ez.
    split; intros H; [apply Rltb_false|apply Rltb_true]; lra.
  Qed.
  Lemma tt_sign x : within et t x -> (et < t -> nltb (nofZ 0) x = true) /\ (t < - et -> nltb (nofZ 0) x = false).
  Proof.
    intros (F & X). apply Rabs_le_inv in X. destruct zero_b as [Fz Ez]. rewrite (bltb_eq (nofZ 0) x Fz F), Ez.
    split; intros H; [apply Rltb_true|apply Rltb_false]; lra.
  Qed.

  Theorem face_misses : w1 < - e \/ w2 < - e \/ w3 < - e \/ t < - et -> h = noHit.
  Proof.
    intros H. destruct face_ap as (T & L1 & L2 & L3). unfold h, faceIntersect. set (g := faceCoords _ _ _ _) in *. clearbody g.
    destruct (ap_sign _ _ _ L1) as [_ N1]. destruct (ap_sign _ _ _ L2) as [_ N2]. destruct (ap_sign _ _ _ L3) as [_ N3]. destruct (tt_sign _ T) as [_ N0].
    destruct (nltb (nofZ 0) (fgT g)) eqn:E0; [|reflexivity]. cbn [negb].
    destruct H as [H|[H|[H|H]]].
    - now rewrite N1.
    - rewrite N2 by exact H. now rewrite orb_true_r.
    - rewrite N3 by exact H. now rewrite orb_true_r.
    - exact (False_ind _ (diff_true_false (N0 H))).
  Qed.
  (** the texture coordinates of the hit *)
  Lemma blend_ap g1 g2 g3 x y w : ap 0 g1 w1 (2 ^ 22 * (bpow radix2 i * bpow radix2 i * bpow radix2 i)) (i + 6) ->
    ap 0 g2 w2 (2 ^ 22 * (bpow radix2 i * bpow radix2 i * bpow radix2 i)) (i + 8) -> ap 0 g3 w3 (2 ^ 22 * (bpow radix2 i * bpow radix2 i * bpow radix2 i)) (i + 6) ->
    at_most 0 x -> at_most 0 y -> at_most 0 w ->
    within (4 * e) (w1 * B2R x + w2 * B2R y + w3 * B2R w) (nadd (nadd (nmul x g1) (nmul y g2)) (nmul w g3)).
  Proof.
    intros L1 L2 L3 Hx Hy Hz. apply self_ap in Hx, Hy, Hz. rewrite scale0 in Hx, Hy, Hz.
    assert (Q := q_range i Hi). set (q := bpow radix2 i) in *. assert (Q3 : q <= q * q * q) by nra. assert (U := u_pos).
    assert (B6 : bpow radix2 (i + 6) = q * 64) by (rewrite bpow_plus; reflexivity).
    assert (B8 : bpow radix2 (i + 8) = q * 256) by (rewrite bpow_plus; reflexivity).
    assert (B9 : bpow radix2 (i + 9) = q * 512) by (rewrite bpow_plus; reflexivity).
    assert (B10 : bpow radix2 (i + 10) = q * 1024) by (rewrite bpow_plus; reflexivity).
    set (m := 2 ^ 22 * (q * q * q)) in *. assert (Hm : 0 <= m) by (unfold m; nra).
    assert (K : forall x r g w j, (0 <= j <= 16)%Z -> ap 0 x r 0 0 -> ap 0 g w m j -> ap 0 (nmul x g) (r * w) (m + 1 + bpow radix2 j) j).
    { intros x' r' g' w' j' Hj X' Y'. assert (Z' := ap_mul 0 0 x' g' r' w' 0 m 0 j' ltac:(unfold fits; lia) X' Y' ltac:(lra) Hm ltac:(lra)).
      change (0 + 0)%Z with 0%Z in Z'. change (0 + j')%Z with j' in Z'. change (bpow radix2 0) with 1 in Z'. eapply ap_le; [exact Z'|lra]. }
    assert (X1 := K _ _ _ _ (i + 6)%Z ltac:(lia) Hx L1). assert (X2 := K _ _ _ _ (i + 8)%Z ltac:(lia) Hy L2). assert (X3 := K _ _ _ _ (i + 6)%Z ltac:(lia) Hz L3).
    assert (Y := ap_add 0 _ _ _ _ _ _ _ _ (i + 9) ltac:(unfold fits; lia) X1 X2 ltac:(rewrite B6, B8, B9; lra)).
    assert (W := ap_add 0 _ _ _ _ _ _ _ _ (i + 10) ltac:(unfold fits; lia) Y X3 ltac:(rewrite B9, B6, B10; lra)).
    destruct W as (F & W & _). split; [exact F|]. rewrite scale0 in W. rewrite e_eq. fold q. fold m.
    replace (w1 * B2R x + w2 * B2R y + w3 * B2R w) with (B2R x * w1 + B2R y * w2 + B2R w * w3) by ring.
    eapply Rle_trans; [exact W|]. rewrite <- Rmult_assoc. apply Rmult_le_compat_r; [lra|]. rewrite B6, B8, B9, B10. unfold m in *. lra.
  Qed.
  Theorem face_hits : e <= w1 -> e <= w2 -> e <= w3 -> et < t -> within et t (hT h) /\ nltb (nofZ 0) (hT h) = true /\
    (at_most 0 (vtU a) -> at_most 0 (vtU b) -> at_most 0 (vtU c) -> within (4 * e) (w1 * B2R (vtU a) + w2 * B2R (vtU b) + w3 * B2R (vtU c)) (vx (hLocal h))) /\
    (at_most 0 (vtV a) -> at_most 0 (vtV b) -> at_most 0 (vtV c) -> within (4 * e) (w1 * B2R (vtV a) + w2 * B2R (vtV b) + w3 * B2R (vtV c)) (vy (hLocal h))).
  Proof.
    intros H1 H2 H3 H0. destruct face_ap as (T & L1 & L2 & L3). unfold h, faceIntersect. set (g := faceCoords _ _ _ _) in *. clearbody g.
    destruct (ap_sign _ _ _ L1) as [N1 _]. destruct (ap_sign _ _ _ L2) as [N2 _]. destruct (ap_sign _ _ _ L3) as [N3 _]. destruct (tt_sign _ T) as [N0 _].
    rewrite (N0 H0), (N1 H1), (N2 H2), (N3 H3). cbn [negb orb hT hLocal vx vy].
    split; [exact T|]. split; [exact (N0 H0)|]. split; intros; apply blend_ap; assumption.
  Qed.
End Face.

Section Pinhole.
  Context {M : Type}.
  Variable sortSlice : (object b64 M -> object b64 M -> bool) -> list (object b64 M) -> list (object b64 M).
  Definition pinCenter : vec b64 := Vec (nQ 1 10) (nQ 2 10) (nQ 3 10).
  Definition pinStart : vec b64 := Vec (nQ 2 10) (nofZ 1) (nQ 2 10).
  Definition down : vec b64 := Vec (nofZ 0) (nofZ (-1)) (nofZ 0).
  Lemma pin_compute (m : option M) :
    match rectangle to32b sortSlice m (nofZ 1) (nofZ 1) pinCenter with
    | Val o => match oIntersect o (Ray pinStart down) with Val (h, _) => (nltb (nofZ (10 ^ 98)) (hT h), hMat h) | _ => (false, None) end
    | _ => (false, None)
    end = (true, m).
  Proof. vm_compute. reflexivity. Qed.
  Lemma tenths n : (1 <= n <= 3)%Z -> within (/ 100) (IZR n / 10) (nQ n 10 : b64).
  Proof.
    intros H. unfold nQ. destruct (Z_b n ltac:(lia)) as [Fn En]. destruct (Z_b 10 ltac:(cbn; lia)) as [Ft Et].
    assert (1 <= IZR n <= 3) by (split; apply IZR_le; lia).
    assert (D := div_u 0 (nofZ n) (nofZ 10) ltac:(lia) Fn). rewrite En, Et in D. destruct D as (F & D & _).
    - lra.
    - change (bpow radix2 0) with 1. apply Rabs_le. lra.
    - split; [exact F|]. eapply Rle_trans; [exact D|]. change (bpow radix2 0) with 1. assert (U := u_small). lra.
  Qed.
  Theorem pinhole_in_rectangle (m : option M) : exists (w dp : b64) (c s : vec b64) (o : object b64 M) (h : hit b64 M) (r : ray b64),
    Rabs (B2R (vx s) - B2R (vx c)) <= B2R w / 4 /\ Rabs (B2R (vz s) - B2R (vz c)) <= B2R dp / 4 /\ 1 / 2 <= B2R (vy s) - B2R (vy c) <= 1 /\
    rectangle to32b sortSlice m w dp c = Val o /\ oIntersect o (Ray s down) = Val (h, r) /\
    hMat h = m /\ nltb (nofZ (10 ^ 98)) (hT h) = true.
  Proof.
    assert (P := pin_compute m). exists (nofZ 1), (nofZ 1), pinCenter, pinStart.
    destruct (rectangle to32b sortSlice m (nofZ 1) (nofZ 1) pinCenter) as [o| |] eqn:E; [|injection P as P _; exact (False_ind _ (diff_false_true P))..].
    destruct (oIntersect o (Ray pinStart down)) as [[h r]| |] eqn:E'; [|injection P as P _; exact (False_ind _ (diff_false_true P))..].
    exists o, h, r. assert (P1 := f_equal fst P). assert (P2 := f_equal snd P). cbn [fst snd] in P1, P2.
    destruct (Z_b 1 ltac:(cbn; lia)) as [_ E1].
    destruct (tenths 1 ltac:(lia)) as [_ T1]. destruct (tenths 2 ltac:(lia)) as [_ T2]. destruct (tenths 3 ltac:(lia)) as [_ T3].
    apply Rabs_le_inv in T1, T2, T3. unfold pinStart, pinCenter; cbn [vx vy vz]. rewrite E1.
    split; [apply Rabs_le; lra|]. split; [apply Rabs_le; lra|]. split; [lra|]. auto.
  Qed.
End Pinhole.

(** a triangle with two sides of length 8, hit from five units above *)
Definition plain (x y z : Z) : vertex b64 := Vertex (Vec (nofZ x) (nofZ y) (nofZ z)) vO (nofZ 0) (nofZ 0).
Lemma ints k x y z : (0 <= k <= 10)%Z -> (Z.abs x <= 2 ^ k)%Z -> (Z.abs y <= 2 ^ k)%Z -> (Z.abs z <= 2 ^ k)%Z -> all3 (at_most k) (Vec (nofZ x) (nofZ y) (nofZ z)).
Proof.
  intros Hk Hx Hy Hz. assert (K : (2 ^ k <= 2 ^ 10)%Z) by (apply Z.pow_le_mono_r; lia).
  assert (G : forall w, (Z.abs w <= 2 ^ k)%Z -> at_most k (nofZ w : b64)).
  { intros w Hw. destruct (Z_b w) as [F E]; [change (2 ^ 53)%Z with 9007199254740992%Z; change (2 ^ 10)%Z with 1024%Z in K; lia|]. split; [exact F|]. rewrite E, <- abs_IZR, <- IZR_Zpower by lia.
    apply IZR_le. exact Hw. }
  repeat split; apply G; assumption.
Qed.
Lemma face_example : let h := faceIntersect (M := unit) (plain 0 0 0) (plain 0 0 8) (plain 8 0 0) (Ray (Vec (nofZ 2) (nofZ 5) (nofZ 2)) down) in
  within (bpow radix2 (-39)) 5 (hT h) /\ nltb (nofZ 0) (hT h) = true.
Proof.
  assert (R : forall x y z, (Z.abs x <= 8)%Z -> (Z.abs y <= 8)%Z -> (Z.abs z <= 8)%Z -> real (Vec (nofZ x) (nofZ y) (nofZ z)) = Vec (IZR x) (IZR y) (IZR z)).
  { intros x y z Hx Hy Hz. unfold real; cbn [vx vy vz]. f_equal; apply Z_b; change (2 ^ 53)%Z with 9007199254740992%Z; lia. }
  assert (D : near_unit down).
  { split; [repeat split; reflexivity|]. assert (E := R 0%Z (-1)%Z 0%Z ltac:(cbn; lia) ltac:(cbn; lia) ltac:(cbn; lia)).
    assert (E0 := f_equal vx E). assert (E1 := f_equal vy E). cbn [vx vy real] in E0, E1.
    unfold rdot, down; cbn [vx vy vz]. rewrite E0, E1. apply Rabs_le. lra. }
  assert (H := face_hits (M := unit) 3 0 (plain 0 0 0) (plain 0 0 8) (plain 8 0 0) (Vec (nofZ 2) (nofZ 5) (nofZ 2)) down 5 (1 / 2) (1 / 4) (1 / 4)
    ltac:(lia) ltac:(lia) (ints 3 0 0 0 ltac:(lia) ltac:(cbn; lia) ltac:(cbn; lia) ltac:(cbn; lia)) (ints 3 0 0 8 ltac:(lia) ltac:(cbn; lia) ltac:(cbn; lia) ltac:(cbn; lia))
    (ints 3 8 0 0 ltac:(lia) ltac:(cbn; lia) ltac:(cbn; lia) ltac:(cbn; lia)) (ints 3 2 5 2 ltac:(lia) ltac:(cbn; lia) ltac:(cbn; lia) ltac:(cbn; lia)) D).
  unfold plain, vtPos, down in H |- *. rewrite !R in H by (cbn; lia).
  assert (B1 : bpow radix2 (3 * 0 - 31) <= / 1000) by (cbn; lra).
  assert (B2 : bpow radix2 (3 + 0 - 42) <= / 1000) by (cbn; lra).
  destruct H as (H1 & H2 & _); try lra.
  - unfold dot3, cross3, minus3; cbn [vx vy vz]. rewrite Rabs_left1 by lra. change (bpow radix2 (2 * 3 - 0)) with 64. lra.
  - rewrite Rabs_pos_eq by lra. change (bpow radix2 (3 + 2)) with 32. lra.
  - unfold along, weighted, plus3, scal3; cbn [vx vy vz]. f_equal; lra.
  - split; [exact H1|exact H2].
Qed.
