(** * Transformed objects and their bounding boxes *)
From Coq Require Import ZArith Reals Bool List Lra Lia.
From Flocq Require IEEE754.BinarySingleNaN.
From Verif Require Import Num NumLaws Outcome GeomModel GeomSpec GeomProofs ObjModel TreeModel ObjSpec ObjProofs BoxProofs.
Import ListNotations.
Local Open Scope R_scope.

(** ** Finite numbers compute as in exact arithmetic *)
Lemma xpoint t p : transformPoint (xaff t) (xv p) = xv (transformPoint t p).
Proof. reflexivity. Qed.
Lemma xdir t p : transformDir (xaff t) (xv p) = xv (transformDir t p).
Proof. reflexivity. Qed.
Lemma xbefore t s : before (xaff t) (xaff s) = xaff (before t s).
Proof. reflexivity. Qed.
Lemma xinverse t : det3 (afA t) <> 0 -> ainverse (xaff t) = xaff (ainverse t).
Proof.
  rewrite det3_code. cbv zeta. intros H. unfold ainverse, minverse, xaff, xmat.
  cbn [afA afB m0 m1 m2 xv vx vy vz nofZ nadd nsub nmul ndiv NumX NumR].
  cbn [xsub xadd xopp xmul xdiv].
  match goal with |- context [Req_EM_T ?x 0] => destruct (Req_EM_T x 0) as [E|E] end.
  - exfalso. apply H. rewrite <- E. ring.
  - reflexivity.
Qed.

(** ** C28 *)
Lemma corner_bound (lo hi x c : R) : lo <= x <= hi -> c * x <= c * lo \/ c * x <= c * hi.
Proof. intros H. destruct (Rle_or_lt 0 c); [right|left]; nra. Qed.
Lemma corner_bound' (lo hi x c : R) : lo <= x <= hi -> c * lo <= c * x \/ c * hi <= c * x.
Proof. intros H. destruct (Rle_or_lt 0 c); [left|right]; nra. Qed.

Lemma in_hull lo hi x y z : (x = vx lo \/ x = vx hi) -> (y = vy lo \/ y = vy hi) -> (z = vz lo \/ z = vz hi) ->
  In (xv (Vec x y z)) (bbHull (xbox lo hi)).
Proof.
  unfold bbHull, xbox, xv; cbn [bMin bMax vx vy vz].
  intros [->| ->] [->| ->] [->| ->]; cbn [In]; tauto.
Qed.

Lemma hull_xv lo hi p : In p (bbHull (xbox lo hi)) -> exists q, p = xv q.
Proof.
  unfold bbHull, xbox, xv; cbn [bMin bMax vx vy vz In]. intros H.
  repeat destruct H as [<-|H]; try (eexists (Vec _ _ _); reflexivity). destruct H.
Qed.

Lemma hull_finite lo hi t p : In p (map (transformPoint (xaff t)) (bbHull (xbox lo hi))) -> exists q, p = xv q.
Proof.
  intros H. apply in_map_iff in H. destruct H as (q & <- & Hq).
  apply hull_xv in Hq. destruct Hq as (q' & ->). rewrite xpoint. eauto.
Qed.

Lemma map_cons_nonnil {A B} (f : A -> B) l : l <> nil -> map f l <> nil.
Proof. destruct l; [congruence|discriminate]. Qed.

Theorem transformBounds_encloses lo hi t :
  exists lo' hi', transformBounds (xbox lo hi) (xaff t) = Val (xbox lo' hi') /\
    forall p, in_closed_box lo hi p -> in_closed_box lo' hi' (transformPoint t p).
Proof.
  unfold transformBounds. set (hull := map (transformPoint (xaff t)) (bbHull (xbox lo hi))).
  assert (hull <> nil) as Hne by (unfold hull, bbHull; discriminate).
  destruct (boundingBoxFromHull_spec (F:=xr) hull Hne) as [[E _]|[_ (b & E & I & P1 & P2 & P3 & P4 & P5 & P6)]].
  - exfalso. apply existsb_exists in E. destruct E as (p & Hp & N).
    apply hull_finite in Hp. destruct Hp as (q & ->). discriminate.
  - assert (forall f, (exists p, In p hull /\ f p = vx (bMin b)) -> True) as _ by auto.
    assert (exists a1 a2 a3 a4 a5 a6, b = xbox (Vec a1 a2 a3) (Vec a4 a5 a6)) as (a1 & a2 & a3 & a4 & a5 & a6 & ->).
    { destruct P1 as (p1 & I1 & E1), P2 as (p2 & I2 & E2), P3 as (p3 & I3 & E3),
               P4 as (p4 & I4 & E4), P5 as (p5 & I5 & E5), P6 as (p6 & I6 & E6).
      apply hull_finite in I1, I2, I3, I4, I5, I6.
      destruct I1 as (q1 & ->), I2 as (q2 & ->), I3 as (q3 & ->), I4 as (q4 & ->), I5 as (q5 & ->), I6 as (q6 & ->).
      destruct b as [[b1 b2 b3] [b4 b5 b6]]. cbn in *. subst.
      exists (vx q1), (vy q3), (vz q5), (vx q2), (vy q4), (vz q6). reflexivity. }
    exists (Vec a1 a2 a3), (Vec a4 a5 a6). split; auto.
    intros p ((X1 & X2) & (Y1 & Y2) & (Z1 & Z2)).
    assert (forall x y z, (x = vx lo \/ x = vx hi) -> (y = vy lo \/ y = vy hi) -> (z = vz lo \/ z = vz hi) ->
      in_closed_box (Vec a1 a2 a3) (Vec a4 a5 a6) (transformPoint t (Vec x y z))) as C.
    { intros x y z Hx Hy Hz. specialize (I (xv (transformPoint t (Vec x y z)))).
      assert (In (xv (transformPoint t (Vec x y z))) hull) as J
        by (rewrite <- xpoint; apply in_map; apply in_hull; auto).
      apply I in J. cbn [nleb NumX xbox xv bMin bMax vx vy vz] in J.
      unfold in_closed_box; cbn [vx vy vz].
      destruct J as (J1 & J2 & J3 & J4 & J5 & J6).
      apply xle_XF in J1. apply xle_XF in J2. apply xle_XF in J3. apply xle_XF in J4. apply xle_XF in J5. apply xle_XF in J6. auto. }
    (* each coordinate of the image is a sum c1 x + c2 y + c3 z + c4 *)
    destruct t as [[[m11 m21 m31] [m12 m22 m32] [m13 m23 m33]] [b1 b2 b3]].
    destruct p as [x y z], lo as [lx ly lz], hi as [hx hy hz]. cbn [vx vy vz] in *.
    assert (forall c1 c2 c3, exists x' y' z', (x' = lx \/ x' = hx) /\ (y' = ly \/ y' = hy) /\ (z' = lz \/ z' = hz) /\
       c1 * x + c2 * y + c3 * z <= c1 * x' + c2 * y' + c3 * z') as Up.
    { intros c1 c2 c3.
      assert (exists x', (x' = lx \/ x' = hx) /\ c1 * x <= c1 * x') as (x' & ? & ?)
        by (destruct (corner_bound lx hx x c1); eauto).
      assert (exists y', (y' = ly \/ y' = hy) /\ c2 * y <= c2 * y') as (y' & ? & ?)
        by (destruct (corner_bound ly hy y c2); eauto).
      assert (exists z', (z' = lz \/ z' = hz) /\ c3 * z <= c3 * z') as (z' & ? & ?)
        by (destruct (corner_bound lz hz z c3); eauto).
      exists x', y', z'. repeat split; auto. lra. }
    assert (forall c1 c2 c3, exists x' y' z', (x' = lx \/ x' = hx) /\ (y' = ly \/ y' = hy) /\ (z' = lz \/ z' = hz) /\
       c1 * x' + c2 * y' + c3 * z' <= c1 * x + c2 * y + c3 * z) as Lo.
    { intros c1 c2 c3. destruct (Up (- c1) (- c2) (- c3)) as (x' & y' & z' & A & B & D & L).
      exists x', y', z'. repeat split; auto. lra. }
    geom_unfold. unfold in_closed_box in *. unfold transformPoint, vadd, mmulvec in *. cbn [vx vy vz afA afB m0 m1 m2] in *. rnum.
    repeat split.
    + destruct (Lo m11 m12 m13) as (x' & y' & z' & A & B & D & L). destruct (C x' y' z' A B D). lra.
    + destruct (Up m11 m12 m13) as (x' & y' & z' & A & B & D & L). destruct (C x' y' z' A B D). lra.
    + destruct (Lo m21 m22 m23) as (x' & y' & z' & A & B & D & L). destruct (C x' y' z' A B D). lra.
    + destruct (Up m21 m22 m23) as (x' & y' & z' & A & B & D & L). destruct (C x' y' z' A B D). lra.
    + destruct (Lo m31 m32 m33) as (x' & y' & z' & A & B & D & L). destruct (C x' y' z' A B D). lra.
    + destruct (Up m31 m32 m33) as (x' & y' & z' & A & B & D & L). destruct (C x' y' z' A B D). lra.
Qed.

(** ** C30 *)
Lemma transformed_base {F} `{Num F} {M} (o : object F M) t : oTransf o = None ->
  transformed o t = obind (oBounds o) (fun b => omap (transformedWith o t) (transformBounds b t)).
Proof. destruct o as [i n b tr]; cbn. intros ->. reflexivity. Qed.

Lemma transformed_again {F} `{Num F} {M} (o : object F M) t b s :
  transformed (transformedWith o t b) s = transformed o (before t s).
Proof. reflexivity. Qed.

Lemma transformed_twice {F} {NF : Num F} {M} (o o1 : object F M) t s : oTransf o = None ->
  transformed o t = Val o1 -> transformed o1 s = transformed o (before t s).
Proof.
  intros N H. rewrite transformed_base in H by auto.
  destruct (oBounds o) as [b| |] eqn:B; try discriminate. cbn [obind] in H.
  destruct (transformBounds b t) as [b'| |]; try discriminate. cbn [omap obind] in H.
  injection H as <-. apply transformed_again.
Qed.

Lemma transformed_inside {M} (o o' : object xr M) (t : affine R) : det3 (afA t) <> 0 -> oTransf o = None ->
  transformed o (xaff t) = Val o' ->
  forall q, oInside o' (xv (transformPoint t q)) = oInside o (xv q).
Proof.
  intros D N H q. rewrite transformed_base in H by auto.
  apply obind_val in H. destruct H as (b & _ & H). apply omap_val in H. destruct H as (b' & _ & ->).
  cbn [oInside transformedWith]. rewrite xinverse, xpoint, ainverse_point_l by auto. reflexivity.
Qed.

Lemma along_transform t s d k : transformPoint t (along s d k) = along (transformPoint t s) (transformDir t d) k.
Proof. unfold along, plus3, scal3, transformPoint, transformDir. geom_unfold. apply vec_eq; cbn; ring. Qed.

Lemma dir_nonzero t d : det3 (afA t) <> 0 -> d <> zero3 -> transformDir t d <> zero3.
Proof.
  intros D N E. apply N. rewrite <- (ainverse_dir_l t d D), E.
  unfold transformDir, zero3. geom_unfold. apply vec_eq; cbn; ring.
Qed.

Lemma closed_box_ordered lo hi p : in_closed_box lo hi p -> ordered lo hi.
Proof. unfold in_closed_box, ordered. lra. Qed.

Theorem transformed_intersect {M} (o o' : object xr M) (t : affine R) (lo hi : pt) :
  det3 (afA t) <> 0 -> oTransf o = None -> oBounds o = Val (xbox lo hi) -> ordered lo hi -> respects_bounds o lo hi ->
  transformed o (xaff t) = Val o' ->
  exists lo' hi', oBounds o' = Val (xbox lo' hi') /\ ordered lo' hi' /\
    (forall p, in_closed_box lo hi p -> in_closed_box lo' hi' (transformPoint t p)) /\
    forall s d h r', d <> zero3 -> off_planes lo' hi' (transformPoint t s) ->
      oIntersect o (xray s d) = Val (h, r') ->
      exists h', oIntersect o' (xray (transformPoint t s) (transformDir t d)) =
                   Val (h', xray (transformPoint t s) (transformDir t d)) /\
        (xltb (XF 0) (hT h) = true ->
           hT h' = hT h /\ hLocal h' = hLocal h /\ hMat h' = hMat h /\ hNormal h' = transformDir (xaff t) (hNormal h)) /\
        (xltb (XF 0) (hT h) = false -> xltb (XF 0) (hT h') = false).
Proof.
  intros D N B O R H. rewrite transformed_base, B in H by auto. cbn [obind] in H.
  destruct (transformBounds_encloses lo hi t) as (lo' & hi' & E & I). rewrite E in H. cbn [omap] in H.
  injection H as <-. exists lo', hi'. split; [reflexivity|].
  assert (ordered lo' hi') as O'.
  { assert (in_closed_box lo hi lo) as C by (unfold in_closed_box, ordered in *; lra).
    apply I in C. eapply closed_box_ordered; eauto. }
  split; auto. split; auto.
  intros s d h r' Hd Off Hh. cbn [oIntersect transformedWith].
  assert (transformDir t d <> zero3) as Hd' by now apply dir_nonzero.
  destruct (bbIntersects (xbox lo' hi') (xray (transformPoint t s) (transformDir t d))) eqn:X.
  - cbn [rStart rDir xray]. rewrite xinverse, xpoint, xdir, ainverse_point_l, ainverse_dir_l by auto.
    fold (xray s d). rewrite Hh. cbn [omap]. eexists. split; [reflexivity|]. cbn [hT hLocal hMat hNormal]. split; auto.
  - eexists. split; [reflexivity|]. split.
    + intros P. exfalso. destruct (R _ _ _ _ Hh P) as (k & Ek & Ck).
      rewrite Ek in P. cbn in P. apply Rltb_true in P.
      assert (bbIntersects (xbox lo' hi') (xray (transformPoint t s) (transformDir t d)) = true) as X'.
      { apply bbIntersects_exact; auto. exists k. split; auto. rewrite <- along_transform. auto. }
      congruence.
    + intros _. cbn. apply Rltb_false. lra.
Qed.

(** ** C29 *)
Theorem bounded_objects_transform {M} (o : object xr M) lo hi t :
  oTransf o = None -> oBounds o = Val (xbox lo hi) -> exists o', transformed o (xaff t) = Val o'.
Proof.
  intros N B. rewrite transformed_base, B by auto. cbn [obind].
  destruct (transformBounds_encloses lo hi t) as (lo' & hi' & E & _). rewrite E. cbn. eauto.
Qed.

Section Unbounded.
  Import IEEE754.BinarySingleNaN.

  Lemma b64_inf_sum (a b c d : b64) : exists s1 s2 s3, is_nan
    (nadd (nadd (nadd (nmul a (B754_infinity s1)) (nmul b (B754_infinity s2))) (nmul c (B754_infinity s3))) d) = true.
  Proof.
    assert (forall x : b64, (forall s, nmul x (B754_infinity s) = B754_nan) \/
       exists s0, forall s, nmul x (B754_infinity s) = B754_infinity (xorb s0 s)) as C.
    { intros [s0|s0| |s0 m e p]; [left; reflexivity|right; exists s0; reflexivity|left; reflexivity|right; exists s0; reflexivity]. }
    assert (forall x : b64, nadd B754_nan x = B754_nan) as N1 by (intros [ | | | ]; reflexivity).
    assert (forall x : b64, nadd x B754_nan = B754_nan) as N2 by (intros [ | | | ]; reflexivity).
    destruct (C a) as [Ha|[sa Ha]], (C b) as [Hb|[sb Hb]].
    - exists false, false, false. rewrite Ha, !N1. reflexivity.
    - exists false, false, false. rewrite Ha, !N1. reflexivity.
    - exists false, false, false. rewrite Hb, N2, !N1. reflexivity.
    - exists sa, (negb sb), false. rewrite Ha, Hb. rewrite xorb_nilpotent.
      replace (xorb sb (negb sb)) with true by (destruct sb; reflexivity).
      change (nadd (B754_infinity false : b64) (B754_infinity true)) with (B754_nan : b64). rewrite !N1. reflexivity.
  Qed.

  Lemma inf_hull s1 s2 s3 : In (Vec (B754_infinity s1) (B754_infinity s2) (B754_infinity s3) : vec b64) (bbHull infBox).
  Proof. destruct s1, s2, s3; cbn; tauto. Qed.

  Theorem unbounded_never_transform {M} (o : object b64 M) (t : affine b64) :
    oTransf o = None -> oBounds o = Val infBox -> transformed o t = Panic.
  Proof.
    intros N B. rewrite transformed_base, B by auto. cbn [obind]. unfold transformBounds.
    set (hull := map (transformPoint t) (bbHull infBox)).
    assert (hull <> nil) as Hne by (unfold hull, bbHull; discriminate).
    destruct (boundingBoxFromHull_spec (F:=b64) hull Hne) as [[_ E]|[E _]].
    - rewrite E. reflexivity.
    - exfalso.
      destruct (b64_inf_sum (vx (m0 (afA t))) (vx (m1 (afA t))) (vx (m2 (afA t))) (vx (afB t))) as (s1 & s2 & s3 & H).
      assert (existsb vnan hull = true) as E'; [|congruence].
      apply existsb_exists. eexists. split; [apply in_map, (inf_hull s1 s2 s3)|].
      unfold vnan, transformPoint, vadd, mmulvec. cbn [vx vy vz nisnan NumB]. rewrite H. reflexivity.
  Qed.
End Unbounded.
