(** * Single triangles, cylinders with caps and rays handed back by CSG *)
From Coq Require Import ZArith Reals Bool List Lra Lia.
From Verif Require Import Num NumLaws Outcome GeomModel GeomSpec GeomProofs ObjModel TreeModel ObjSpec ObjProofs BoxProofs PrimProofs CsgProofs MeshSpec MeshProofs MeshHits ShapeProofs.
Import ListNotations.
Local Open Scope R_scope.

(** ** One triangle *)
Section Tri.
  Context {M : Type}.
  Variable sortSlice : (object xr M -> object xr M -> bool) -> list (object xr M) -> list (object xr M).
  Hypothesis SP : reorders sortSlice.
  Notation id32 := (fun x : xr => x).
  Variables (m : option M) (a b c s d : pt).
  Let n := cross3 (minus3 b a) (minus3 c a).
  Let ps := [a; b; c].
  Let fs : list face3 := [(0, 1, 2)]%Z.
  Let uv := [(0, 0); (1, 0); (0, 1)].
  Hypothesis Hn : n <> zero3.
  Hypothesis Hnd : dot3 n d <> 0.

  Lemma tri_mesh : triangle id32 sortSlice m (xv a) (xv b) (xv c) = meshWithUV id32 sortSlice m (map xv ps) fs (Some (map xuv uv)).
  Proof. reflexivity. Qed.
  Lemma tri_range f : In f fs -> face_in_range ps f.
  Proof. intros [<-|[]]; cbn; unfold in_range; cbn; lia. Qed.
  Lemma tri_normal f : In f fs -> area_normal ps f = n.
  Proof. intros [<-|[]]. reflexivity. Qed.
  Lemma tri_general : general_position ps fs d.
  Proof. intros f If. rewrite (tri_normal f If). auto. Qed.
  Lemma tri_shade i : (0 < corner_count (0, 1, 2)%Z i)%nat -> normal_sum ps fs i <> zero3 /\ unit_of (normal_sum ps fs i) = unit_of n.
  Proof.
    intros Hi. assert (E : normal_sum ps fs i = scal3 (INR (corner_count (0, 1, 2)%Z i)) (unit_of n)).
    { unfold fs. cbn [normal_sum]. unfold unit_normal. rewrite (tri_normal (0, 1, 2)%Z) by (cbn; auto).
      destruct (Req_EM_T (norm2 n) 0) as [Z|_]; [apply norm2_zero in Z; contradiction|].
      destruct (unit_of n) as [x y z]. unfold plus3, scal3, zero3. cbn [vx vy vz]. f_equal; ring. }
    assert (U : norm2 (unit_of n) = 1) by apply unit_norm2, norm2_nonzero, Hn. apply lt_0_INR in Hi. rewrite E. split.
    - intros Z. assert (norm2 (scal3 (INR (corner_count (0, 1, 2)%Z i)) (unit_of n)) = 0) as Z' by (rewrite Z; unfold norm2, dot3, zero3; cbn [vx vy vz]; ring).
      rewrite norm2_scal, U in Z'. nra.
    - rewrite unit_scal by auto. apply unit_fixed, U.
  Qed.
  Lemma tri_face w0 w1 w2 p : in_face ps (0, 1, 2)%Z w0 w1 w2 p -> 0 <= w1 /\ 0 <= w2 /\ w1 + w2 <= 1 /\ p = para a b c w1 w2.
  Proof.
    unfold in_face. intros (W0 & W1 & W2 & W & ->). unfold corner, ps. znat. cbn [nth]. split; [lra|]. split; [lra|]. split; [lra|].
    assert (w0 = 1 - w1 - w2) as -> by lra.
    destruct a as [a1 a2 a3], b as [b1 b2 b3], c as [c1 c2 c3]; unfold para, weighted, plus3, scal3, minus3; cbn [vx vy vz]; f_equal; ring.
  Qed.
  Lemma tri_on u v : 0 <= u -> 0 <= v -> u + v <= 1 -> on_mesh ps fs (para a b c u v).
  Proof.
    intros U V L. exists (0, 1, 2)%Z, (1 - u - v), u, v. split; [cbn; auto|]. unfold in_face, corner, ps. znat; cbn [nth].
    repeat split; try lra. destruct a as [a1 a2 a3], b as [b1 b2 b3], c as [c1 c2 c3]; unfold para, weighted, plus3, scal3, minus3; cbn [vx vy vz]; f_equal; ring.
  Qed.

  Theorem tri_exact : start_off ps s ->
    (forall t u v, 0 < t -> 0 <= u -> 0 <= v -> u + v <= 1 -> along s d t = para a b c u v -> t < horizon) ->
    exists ob h, triangle id32 sortSlice m (xv a) (xv b) (xv c) = Val ob /\ oIntersect ob (xray s d) = Val (h, xray s d) /\
      ((exists t u v, 0 < t /\ 0 <= u /\ 0 <= v /\ u + v <= 1 /\ along s d t = para a b c u v /\ h = Hit (XF t) (xv (unit_of n)) (xv (Vec u v 0)) m) \/
       ((forall t u v, 0 < t -> 0 <= u -> 0 <= v -> u + v <= 1 -> along s d t <> para a b c u v) /\ (hT h = XF 0 \/ hT h = XF horizon))).
  Proof.
    intros SO HB. rewrite tri_mesh.
    destruct (mesh_exact sortSlice SP m ps uv fs s d eq_refl ltac:(discriminate) tri_range tri_general SO) as (ob & h & E & Eh & D).
    { intros t T (f & w0 & w1 & w2 & [<-|[]] & IF). destruct (tri_face w0 w1 w2 _ IF) as (U & V & L & P). exact (HB t w1 w2 T U V L P). }
    exists ob, h. split; [exact E|]. split; [exact Eh|]. destruct D as [(f & t & w0 & w1 & w2 & [<-|[]] & T & IF & _ & ET & EM & EL & EN)|[NH D]].
    - left. destruct (tri_face w0 w1 w2 _ IF) as (U & V & L & P). exists t, w1, w2. repeat (split; [assumption|]).
      destruct h as [ht hn hl hm]. cbn [hT hMat hLocal hNormal] in *. subst ht hm hl. rewrite EN by (intros i Hi; apply (tri_shade i Hi)).
      f_equal; f_equal.
      + unfold blend3. rewrite !(fun i H => proj2 (tri_shade i H)) by (cbn; lia).
        destruct IF as (_ & _ & _ & W & _). assert (w0 = 1 - w1 - w2) as -> by lra.
        destruct (unit_of n) as [x y z]. unfold weighted, plus3, scal3. cbn [vx vy vz]. f_equal; ring.
      + unfold blend, uv. znat. cbn [nth fst snd]. f_equal; ring.
    - right. split; [|destruct D as [D|[D _]]; auto]. intros t u v T U V L P. apply (NH t T). rewrite P. apply tri_on; auto.
  Qed.
End Tri.

(** ** CSG hands the ray back where it found it, whatever its members do to it *)
Section Back.
  Context {F : Type} {NF : Num F} {NI : NumInf F} {M : Type}.
  Lemma march_back keep (a b : object F M) r mx h r' : march keep a b r mx = Val (h, r') -> rStart r' = rStart r.
  Proof.
    unfold march. intros H. apply obind_val in H. destruct H as ([h1 r1] & _ & H). apply omap_val in H. destruct H as ([h2 r2] & _ & H).
    assert (r' = Ray (rStart r) (rDir r2)) as -> by congruence. reflexivity.
  Qed.
  Lemma marchBoth_back keep (a b : object F M) r h r' : marchBoth keep a b r = Val (h, r') -> rStart r' = rStart r.
  Proof.
    unfold marchBoth. intros H. apply obind_val in H. destruct H as ([h1 r1] & E1 & H). apply omap_val in H. destruct H as ([h2 r2] & E2 & H).
    apply march_back in E1. apply march_back in E2. assert (r' = r2) as -> by congruence. congruence.
  Qed.
  Theorem csg_back (a b : object F M) r h r' :
    oIntersect (cAnd a b) r = Val (h, r') \/ oIntersect (cOr a b) r = Val (h, r') \/ oIntersect (cDifference a b) r = Val (h, r') \/ oIntersect (cRestrict a b) r = Val (h, r') ->
    rStart r' = rStart r.
  Proof.
    intros [H|[H|[H|H]]].
    - exact (marchBoth_back _ _ _ _ _ _ H).
    - exact (marchBoth_back _ _ _ _ _ _ H).
    - exact (marchBoth_back _ _ _ _ _ _ H).
    - exact (march_back _ _ _ _ _ _ _ H).
  Qed.
End Back.

(** ** Boxes in plain real arithmetic, for rays along no coordinate plane *)
Definition slanted (d : pt) : Prop := vx d <> 0 /\ vy d <> 0 /\ vz d <> 0.

Lemma umin_R (x y : R) : umin x y = Rmin x y.
Proof. unfold umin; rnum. unfold Rmin. destruct (Rltb x y) eqn:E; [apply Rltb_true in E|apply Rltb_false in E]; destruct (Rle_dec x y); lra. Qed.
Lemma umax_R (x y : R) : umax x y = Rmax x y.
Proof. unfold umax; rnum. unfold Rmax. destruct (Rltb y x) eqn:E; [apply Rltb_true in E|apply Rltb_false in E]; destruct (Rle_dec x y); lra. Qed.

Lemma slab_R lo hi s d : d <> 0 -> lo <= hi -> let p := (lo - s) * (1 / d) in let q := (hi - s) * (1 / d) in
  (s + Rmin p q * d = lo \/ s + Rmin p q * d = hi) /\ (s + Rmax p q * d = lo \/ s + Rmax p q * d = hi) /\
  (forall t, Rmin p q <= t <= Rmax p q -> lo <= s + t * d <= hi).
Proof.
  intros D L p q. assert (P : p * d = lo - s) by (unfold p; field; auto). assert (Q : q * d = hi - s) by (unfold q; field; auto).
  unfold Rmin, Rmax. destruct (Rle_dec p q) as [H|H].
  - split; [left; lra|]. split; [right; lra|]. intros t T. destruct (Rlt_dec 0 d); [|assert (d < 0) by lra]; nra.
  - split; [right; lra|]. split; [left; lra|]. intros t T. destruct (Rlt_dec 0 d); [|assert (d < 0) by lra]; nra.
Qed.

Ltac cases := repeat match goal with
  | |- context [if Rltb ?a ?b then _ else _] => lazymatch a with context [if _ then _ else _] => fail | _ => lazymatch b with context [if _ then _ else _] => fail | _ => let H := fresh in destruct (Rltb a b) eqn:H; [apply Rltb_true in H|apply Rltb_false in H] end end end.
Lemma max3_R (x y z : R) : (x <= max3 x y z /\ y <= max3 x y z /\ z <= max3 x y z) /\ (max3 x y z = x \/ max3 x y z = y \/ max3 x y z = z).
Proof. unfold max3; rnum. cbv zeta. cases; (split; [lra|auto]). Qed.
Lemma min3_R (x y z : R) : (min3 x y z <= x /\ min3 x y z <= y /\ min3 x y z <= z) /\ (min3 x y z = x \/ min3 x y z = y \/ min3 x y z = z).
Proof. unfold min3; rnum. cbv zeta. cases; (split; [lra|auto]). Qed.

Lemma bbIntersect_R lo hi s d : ordered lo hi -> slanted d -> let t := bbIntersect (BBox lo hi) (Ray s d : ray R) in 0 < t ->
  in_closed_box lo hi (along s d t) /\ on_plane lo hi (along s d t).
Proof.
  intros (O1 & O2 & O3) (D1 & D2 & D3) t. subst t. unfold bbIntersect, bbEnterExit. cbn [bMin bMax rStart rDir]. rewrite !umin_R, !umax_R. rnum.
  pose proof (slab_R _ _ (vx s) _ D1 O1) as (A1 & B1 & C1). pose proof (slab_R _ _ (vy s) _ D2 O2) as (A2 & B2 & C2). pose proof (slab_R _ _ (vz s) _ D3 O3) as (A3 & B3 & C3).
  cbv zeta in *.
  set (p1 := Rmin ((vx lo - vx s) * (1 / vx d)) _) in *. set (q1 := Rmax ((vx lo - vx s) * (1 / vx d)) _) in *.
  set (p2 := Rmin ((vy lo - vy s) * (1 / vy d)) _) in *. set (q2 := Rmax ((vy lo - vy s) * (1 / vy d)) _) in *.
  set (p3 := Rmin ((vz lo - vz s) * (1 / vz d)) _) in *. set (q3 := Rmax ((vz lo - vz s) * (1 / vz d)) _) in *.
  destruct (max3_R p1 p2 p3) as ((U1 & U2 & U3) & U). destruct (min3_R q1 q2 q3) as ((V1 & V2 & V3) & V).
  set (ten := max3 p1 p2 p3) in *. set (tex := min3 q1 q2 q3) in *. cbn beta iota zeta.
  destruct (Rltb tex ten) eqn:E; [intros H; lra|]. apply Rltb_false in E.
  unfold in_closed_box, on_plane, along, plus3, scal3. cbn [vx vy vz].
  destruct (Rltb ten 0); intros _.
  - split; [split; [apply C1; lra|split; [apply C2; lra|apply C3; lra]]|].
    destruct V as [-> |[-> | ->]]; [destruct B1 as [-> | ->]|destruct B2 as [-> | ->]|destruct B3 as [-> | ->]]; auto 10.
  - split; [split; [apply C1; lra|split; [apply C2; lra|apply C3; lra]]|].
    destruct U as [-> |[-> | ->]]; [destruct A1 as [-> | ->]|destruct A2 as [-> | ->]|destruct A3 as [-> | ->]]; auto 10.
Qed.

(** ** Cylinders with caps *)
Section Capped.
  Context {M : Type} {NI : NumInf R}.
  Implicit Types m : option M.

  Lemma box_eq m w ht dp (c : pt) : box m w ht dp c =
    boxWithBounds m (Vec (vx c - w / 2) (vy c - ht / 2) (vz c - dp / 2)) (Vec (vx c + w / 2) (vy c + ht / 2) (vz c + dp / 2)).
  Proof. unfold box, bbTranslated. cbn [bMin bMax]. f_equal; unfold vadd; cbn [vx vy vz]; rnum; f_equal; lra. Qed.

  Lemma box_inside m lo hi (p : pt) b : oInside (boxWithBounds m lo hi) p = Val b -> (b = true <-> in_open_box lo hi p).
  Proof.
    unfold boxWithBounds, simpleObj. cbn [oInside]. intros E. assert (b = bbInside (BBox lo hi) p) as -> by congruence.
    unfold bbInside, in_open_box. cbn [bMin bMax]. rnum. rewrite !andb_true_iff, !Rltb_true. tauto.
  Qed.

  Lemma cylinder_inside m diam height c (p : pt) b : 0 <= diam -> oInside (cylinder m diam height c) p = Val b ->
    (b = true <-> radial2 p c < (diam / 2)² /\ Rabs (vy p - vy c) < height / 2 + tiny).
  Proof.
    intros Hd E. unfold cylinder, quadric, simpleObj in E. cbn [oInside] in E. assert (b = quadricInside (cylinderData m diam height c) p) as -> by congruence.
    rewrite cylinderData_eq, quadricInside_exact. unfold quadratic, radial2, in_open_box, Rsqr. cbn [vx vy vz]. pose proof tiny_pos.
    split.
    - intros ((_ & Y & _) & Q). split; [lra|]. apply Rabs_def1; lra.
    - intros (Q & Y). apply Rabs_def2 in Y. destruct (sum_sq_bounds (vx p - vx c) 0 (vz p - vz c) (diam / 2)) as (B1 & _ & B3); [lra|lra|]. split; [|lra]. repeat split; lra.
  Qed.

  Theorem capped_inside m diam height c (p : pt) : 0 <= diam ->
    oInside (cylinderWithCaps m diam height c) p = Val true <-> radial2 p c < (diam / 2)² /\ Rabs (vy p - vy c) < height / 2.
  Proof.
    intros Hd. unfold cylinderWithCaps, cAnd. cbn [oInside]. unfold oand.
    assert (C : exists x, oInside (cylinder m diam height c) p = Val x) by (eexists; reflexivity). destruct C as (x & Ex). rewrite Ex. cbn [obind].
    pose proof (cylinder_inside _ _ _ _ _ _ Hd Ex) as IC.
    assert (C : exists y, oInside (box m diam height diam c) p = Val y) by (eexists; reflexivity). destruct C as (y & Ey). rewrite Ey.
    rewrite box_eq in Ey. pose proof (box_inside _ _ _ _ _ Ey) as IB. unfold in_open_box in IB. cbn [vx vy vz] in IB. pose proof tiny_pos.
    split.
    - intros H0. destruct x; [|discriminate H0]. assert (y = true) by congruence. destruct (proj1 IC eq_refl) as [Q _]. split; [exact Q|].
      destruct (proj1 IB H1) as (_ & Y & _). apply Rabs_def1; lra.
    - intros (Q & Y). assert (x = true) as -> by (apply IC; split; [exact Q|lra]). f_equal. apply IB. apply Rabs_def2 in Y.
      unfold radial2, Rsqr in Q. destruct (sum_sq_bounds (vx p - vx c) 0 (vz p - vz c) (diam / 2)) as (B1 & _ & B3); [lra|lra|].
      assert (NX : forall a b r, 0 <= r -> a * a + b * b < r * r -> - r < a < r) by (clear; intros; nra).
      pose proof (NX (vx p - vx c) (vz p - vz c) (diam / 2) ltac:(lra) Q). pose proof (NX (vz p - vz c) (vx p - vx c) (diam / 2) ltac:(lra) ltac:(lra)). repeat split; lra.
  Qed.

  Lemma simple_preserves (f : ray R -> outcome (hit R M)) i b : preserves (simpleObj f i b).
  Proof. intros r h r' H. unfold simpleObj in H. cbn [oIntersect] in H. apply omap_val in H. destruct H as (k & _ & H). congruence. Qed.

  Theorem capped_hits m diam height c s d h r' : 0 <= diam -> 0 <= height -> slanted d ->
    oIntersect (cylinderWithCaps m diam height c) (Ray s d) = Val (h, r') -> 0 < hT h ->
    let p := along s d (hT h) in
    hMat h = m /\
    ((radial2 p c = (diam / 2)² /\ Rabs (vy p - vy c) < height / 2 /\ hNormal h = Vec (vx p - vx c) 0 (vz p - vz c)) \/
     (radial2 p c < (diam / 2)² /\ Rabs (vy p - vy c) = height / 2 /\
      (radial2 p c < (diam / 2 - / 10000000)² -> / 10000000 <= diam / 2 -> / 10000000 < height -> (vy p - vy c) * 2 / height = vy (hNormal h) /\ vx (hNormal h) = 0 /\ vz (hNormal h) = 0))).
  Proof.
    intros Hd Hh SD H P. unfold cylinderWithCaps in H.
    assert (PA : preserves (cylinder m diam height c)) by apply simple_preserves. assert (PB : preserves (box m diam height diam c)) by apply simple_preserves.
    destruct (and_sound (cylinder m diam height c) (box m diam height diam c) s d h r' PA PB H P) as [[S I]|[S I]]; cbv zeta.
    - destruct S as (t0 & h0 & T0 & E0 & P0 & ET & EN & _ & EM).
      unfold cylinder, quadric, simpleObj in E0. cbn [oIntersect omap] in E0. assert (EH : h0 = quadricIntersect (cylinderData m diam height c) (Ray (along s d t0) d)) by congruence.
      destruct (cylinder_exact m diam height c (along s d t0) d Hd (or_introl (proj1 SD))) as [(_ & (RR & _) & MM & NN & _)|(Z & _)]; rewrite <- ?EH in *.
      + rewrite !along_along, <- ?ET in *. split; [congruence|]. left. split; [exact RR|].
        rewrite box_eq in I. apply box_inside in I. destruct (proj1 I eq_refl) as (_ & Y & _). cbn [vy] in Y. split; [apply Rabs_def1; lra|]. congruence.
      + exfalso. rewrite Z in P0. cbn in P0. lra.
    - destruct S as (t0 & h0 & T0 & E0 & P0 & ET & EN & _ & EM). rewrite box_eq in E0.
      unfold boxWithBounds, simpleObj in E0. cbn [oIntersect] in E0. apply omap_val in E0. destruct E0 as (h1 & E1 & E0). assert (h1 = h0) as -> by congruence. clear E0.
      unfold boxIntersect in E1. set (lo := Vec (vx c - diam / 2) _ _) in *. set (hi := Vec (vx c + diam / 2) _ _) in *.
      destruct (nltb (nofZ 0) (bbIntersect (BBox lo hi) (Ray (along s d t0) d))) eqn:Q; cbn [negb] in E1.
      2: { exfalso. assert (h0 = noHit) as Z by congruence. rewrite Z in P0. cbn in P0. lra. }
      apply omap_val in E1. destruct E1 as (nn & EB & E1).
      assert (HT : hT h0 = bbIntersect (BBox lo hi) (Ray (along s d t0) d)) by now rewrite E1. assert (HM : hMat h0 = m) by now rewrite E1. assert (HN : hNormal h0 = nn) by now rewrite E1.
      rewrite rayAt_along in EB. rewrite <- HT in EB. rewrite along_along, <- ET in EB.
      destruct (bbIntersect_R lo hi (along s d t0) d) as (IN & ON); [unfold ordered, lo, hi; cbn [vx vy vz]; lra|exact SD|rewrite <- HT; exact P0|].
      rewrite <- HT, along_along, <- ET in IN, ON. set (p := along s d (hT h)) in *.
      split; [congruence|]. right. destruct (proj1 (cylinder_inside _ _ _ _ _ _ Hd I) eq_refl) as [RR _].
      assert (NX : forall a b r, 0 <= r -> a * a + b * b < r * r -> - r < a < r) by (clear; intros; nra).
      unfold radial2, Rsqr in RR. pose proof (NX (vx p - vx c) (vz p - vz c) (diam / 2) ltac:(lra) RR) as X. pose proof (NX (vz p - vz c) (vx p - vx c) (diam / 2) ltac:(lra) ltac:(lra)) as Z.
      assert (Y : vy p = vy lo \/ vy p = vy hi). { unfold on_plane, lo, hi in ON |- *. cbn [vx vy vz] in *. destruct ON as [[O|O]|[O|[O|O]]]; auto; exfalso; lra. }
      split; [exact RR|]. split; [unfold lo, hi in Y; cbn [vy] in Y; destruct Y as [Y|Y]; rewrite Y; [rewrite Rabs_left1 by lra|rewrite Rabs_pos_eq by lra]; lra|].
      intros R' HD HH. unfold radial2, Rsqr in R'.
      pose proof (NX (vx p - vx c) (vz p - vz c) (diam / 2 - / 10000000) ltac:(lra) R') as X'. pose proof (NX (vz p - vz c) (vx p - vx c) (diam / 2 - / 10000000) ltac:(lra) ltac:(lra)) as Z'.
      rewrite EN, HN. unfold boxNormal in EB. cbn [bMin bMax] in EB.
      assert (AF : forall x y : R, / 10000000 <= Rabs (x - y) -> approx x y = false). { intros x y A. unfold approx, nQ; rnum. change (10 ^ 8)%Z with 100000000%Z. apply Rltb_false. lra. }
      assert (AT : forall x : R, approx x x = true). { intros x. unfold approx, nQ; rnum. change (10 ^ 8)%Z with 100000000%Z. apply Rltb_true. rewrite Rminus_diag_eq, Rabs_R0 by reflexivity. lra. }
      rewrite (AF (vx p) (vx lo)), (AF (vx p) (vx hi)) in EB by (unfold lo, hi; cbn [vx]; unfold Rabs; destruct (Rcase_abs _); lra).
      destruct Y as [Y|Y].
      + rewrite Y, AT in EB. assert (nn = vmul vEy (nofZ (-1))) as -> by congruence. unfold vmul, vEy. cbn [vx vy vz]. rnum. rewrite Y. unfold lo. cbn [vy]. split; [field; lra|lra].
      + rewrite (AF (vy p) (vy lo)) in EB by (rewrite Y; unfold lo, hi; cbn [vy]; unfold Rabs; destruct (Rcase_abs _); lra).
        rewrite Y, AT in EB. assert (nn = vEy) as -> by congruence. unfold vEy. cbn [vx vy vz]. rnum. rewrite Y. unfold hi. cbn [vy]. split; [field; lra|lra].
  Qed.
End Capped.
