(** * Proofs about the geometry model *)
From Coq Require Import ZArith Reals Bool List Lra Lia Nsatz.
From Verif Require Import Num NumLaws GeomModel GeomSpec.
Import ListNotations.
Local Open Scope R_scope.

Ltac spec_unfold :=
  unfold unit_of, det3, vol, dist, norm, norm2, dot3, minus3, plus3, scal3, cross3, zero3 in *;
  cbn [vx vy vz m0 m1 m2] in *.

Lemma vec_eq (a b : pt) : vx a = vx b -> vy a = vy b -> vz a = vz b -> a = b.
Proof. destruct a, b; cbn; congruence. Qed.

Ltac vec_ring := apply vec_eq; cbn [vx vy vz]; try ring.

(** ** Linear and affine maps *)
Lemma mmulvec_mmul (A B : matrix R) (v : pt) : mmulvec (mmul A B) v = mmulvec A (mmulvec B v).
Proof. geom_unfold. vec_ring. Qed.

Lemma mmulvec_unit (v : pt) : mmulvec unitMatrix v = v.
Proof. destruct v; geom_unfold. vec_ring. Qed.

Lemma mmulvec_add (A : matrix R) (u v : pt) : mmulvec A (vadd u v) = vadd (mmulvec A u) (mmulvec A v).
Proof. geom_unfold. vec_ring. Qed.

Lemma det3_code (m : matrix R) : det3 m =
  (let a := vx (m0 m) in let b := vx (m1 m) in let c := vx (m2 m) in
    let d := vy (m0 m) in let e := vy (m1 m) in let f := vy (m2 m) in
    let g := vz (m0 m) in let h := vz (m1 m) in let i := vz (m2 m) in
    a * (e * i - f * h) + b * (f * g - d * i) + c * (d * h - e * g)).
Proof. spec_unfold. ring. Qed.

Lemma minverse_l (m : matrix R) (v : pt) : det3 m <> 0 -> mmulvec (minverse m) (mmulvec m v) = v.
Proof.
  rewrite det3_code. destruct m as [[a d g] [b e h] [c f i]]; destruct v as [x y z].
  cbn [m0 m1 m2 vx vy vz]. intros H. geom_unfold.
  apply vec_eq; cbn [vx vy vz]; field; exact H.
Qed.

Lemma minverse_r (m : matrix R) (v : pt) : det3 m <> 0 -> mmulvec m (mmulvec (minverse m) v) = v.
Proof.
  rewrite det3_code. destruct m as [[a d g] [b e h] [c f i]]; destruct v as [x y z].
  cbn [m0 m1 m2 vx vy vz]. intros H. geom_unfold.
  apply vec_eq; cbn [vx vy vz]; field; exact H.
Qed.

Lemma before_point (t s : affine R) p : transformPoint (before t s) p = transformPoint s (transformPoint t p).
Proof. geom_unfold. vec_ring. Qed.
Lemma before_dir (t s : affine R) p : transformDir (before t s) p = transformDir s (transformDir t p).
Proof. geom_unfold. vec_ring. Qed.
Lemma unit_point p : transformPoint (unitTransform (F:=R)) p = p.
Proof. destruct p; geom_unfold. vec_ring. Qed.
Lemma unit_dir p : transformDir (unitTransform (F:=R)) p = p.
Proof. destruct p; geom_unfold. vec_ring. Qed.

Lemma compose_point_aux ts : forall (t0 : affine R) p,
  transformPoint (fold_left (fun comp t => before comp t) ts t0) p =
  fold_left (fun q t => transformPoint t q) ts (transformPoint t0 p).
Proof.
  induction ts as [|t ts IH]; intros t0 p; cbn [fold_left]; auto.
  rewrite IH, before_point. reflexivity.
Qed.
Lemma compose_dir_aux ts : forall (t0 : affine R) p,
  transformDir (fold_left (fun comp t => before comp t) ts t0) p =
  fold_left (fun q t => transformDir t q) ts (transformDir t0 p).
Proof.
  induction ts as [|t ts IH]; intros t0 p; cbn [fold_left]; auto.
  rewrite IH, before_dir. reflexivity.
Qed.

Lemma composeLR_point (ts : list (affine R)) p :
  transformPoint (composeLR ts) p = fold_left (fun q t => transformPoint t q) ts p.
Proof. unfold composeLR. rewrite compose_point_aux, unit_point. reflexivity. Qed.
Lemma composeLR_dir (ts : list (affine R)) p :
  transformDir (composeLR ts) p = fold_left (fun q t => transformDir t q) ts p.
Proof. unfold composeLR. rewrite compose_dir_aux, unit_dir. reflexivity. Qed.

Lemma mmulvec_neg (A : matrix R) (v : pt) : vmul (mmulvec A v) (IZR (-1)) = mmulvec A (vmul v (IZR (-1))).
Proof. geom_unfold. vec_ring. Qed.

Lemma ainverse_point_l (t : affine R) p : det3 (afA t) <> 0 ->
  transformPoint (ainverse t) (transformPoint t p) = p.
Proof.
  intros H. unfold transformPoint, ainverse; cbn [afA afB nofZ NumR].
  rewrite mmulvec_add, minverse_l by exact H. geom_unfold. vec_ring.
Qed.
Lemma ainverse_point_r (t : affine R) p : det3 (afA t) <> 0 ->
  transformPoint t (transformPoint (ainverse t) p) = p.
Proof.
  intros H. unfold transformPoint, ainverse; cbn [afA afB nofZ NumR].
  rewrite mmulvec_neg, <- mmulvec_add, minverse_r by exact H. geom_unfold. vec_ring.
Qed.
Lemma ainverse_dir_l (t : affine R) p : det3 (afA t) <> 0 ->
  transformDir (ainverse t) (transformDir t p) = p.
Proof. intros H. apply minverse_l; exact H. Qed.
Lemma ainverse_dir_r (t : affine R) p : det3 (afA t) <> 0 ->
  transformDir t (transformDir (ainverse t) p) = p.
Proof. intros H. apply minverse_r; exact H. Qed.

Lemma mmul_minverse_r (m : matrix R) : det3 m <> 0 -> mmul m (minverse m) = unitMatrix.
Proof.
  rewrite det3_code. destruct m as [[a d g] [b e h] [c f i]].
  cbn [m0 m1 m2 vx vy vz]. intros H. geom_unfold.
  f_equal; apply vec_eq; cbn [vx vy vz]; field; exact H.
Qed.
Lemma mmul_minverse_l (m : matrix R) : det3 m <> 0 -> mmul (minverse m) m = unitMatrix.
Proof.
  rewrite det3_code. destruct m as [[a d g] [b e h] [c f i]].
  cbn [m0 m1 m2 vx vy vz]. intros H. geom_unfold.
  f_equal; apply vec_eq; cbn [vx vy vz]; field; exact H.
Qed.

Lemma inverse_compose (t : affine R) : det3 (afA t) <> 0 ->
  before t (ainverse t) = unitTransform /\ after t (ainverse t) = unitTransform.
Proof.
  intros H. split; unfold after, before, ainverse, unitTransform; cbn [afA afB nofZ NumR]; f_equal.
  - now apply mmul_minverse_l.
  - geom_unfold. vec_ring.
  - now apply mmul_minverse_r.
  - rewrite mmulvec_neg, minverse_r by exact H. geom_unfold. vec_ring.
Qed.

(** ** Origins *)
Lemma withOrigin_point (t : affine R) o p :
  transformPoint (withOrigin t o) p = vadd (transformPoint t (vsub p o)) o.
Proof.
  unfold withOrigin. rewrite composeLR_point. cbn [fold_left].
  destruct p, o. geom_unfold. vec_ring.
Qed.
Lemma withOrigin_dir (t : affine R) o d : transformDir (withOrigin t o) d = transformDir t d.
Proof.
  unfold withOrigin. rewrite composeLR_dir. cbn [fold_left].
  destruct d. geom_unfold. vec_ring.
Qed.

(** ** Rotations *)
Lemma uSin_sin (x : R) : uSin x = sin x.
Proof.
  unfold uSin; rnum. rcase; cbn; auto; subst; symmetry.
  - apply sin_PI.
  - apply sin_PI.
  - rewrite sin_neg, sin_PI. ring.
Qed.
Lemma uCos_cos (x : R) : uCos x = cos x.
Proof.
  unfold uCos; rnum. rcase; cbn; auto; subst; symmetry.
  - apply cos_PI2.
  - apply cos_PI2.
  - replace (- PI / 2) with (- (PI / 2)) by field. rewrite cos_neg. apply cos_PI2.
Qed.

Lemma norm2_nonneg (a : pt) : 0 <= norm2 a.
Proof. spec_unfold. nra. Qed.
Lemma norm2_pos (a : pt) : a <> zero3 -> 0 < norm2 a.
Proof.
  intros H. destruct (norm2_nonneg a) as [|E]; auto. exfalso; apply H.
  destruct a as [x y z]; spec_unfold. f_equal; nra.
Qed.
Lemma norm_pos (a : pt) : a <> zero3 -> 0 < norm a.
Proof. intros H. unfold norm. apply sqrt_lt_R0. now apply norm2_pos. Qed.
Lemma norm_sqr (a : pt) : norm a * norm a = norm2 a.
Proof. unfold norm. apply sqrt_sqrt. apply norm2_nonneg. Qed.

Lemma vnormalized_unit_of (a : pt) : vnormalized a = unit_of a.
Proof.
  geom_unfold. spec_unfold. unfold Rdiv. rewrite Rmult_1_l.
  apply vec_eq; cbn [vx vy vz]; ring.
Qed.

Lemma unit_of_norm2 (a : pt) : a <> zero3 -> norm2 (unit_of a) = 1.
Proof.
  intros H. generalize (norm_pos a H) (norm_sqr a); intros Hp Hs.
  unfold unit_of. replace (norm2 (scal3 (/ norm a) a)) with (/ norm a * / norm a * norm2 a).
  - rewrite <- Hs. field. lra.
  - unfold norm2, dot3, scal3; cbn [vx vy vz]. ring.
Qed.

Lemma vnormalized_norm2 (a : pt) : a <> zero3 -> norm2 (vnormalized a) = 1.
Proof. intros; rewrite vnormalized_unit_of; now apply unit_of_norm2. Qed.

(** Rodrigues' formula for the rotation matrix *)
Definition rodrigues (u : pt) (theta : R) (v : pt) : pt :=
  plus3 (plus3 (scal3 (cos theta) v) (scal3 (sin theta) (cross3 u v)))
        (scal3 ((1 - cos theta) * dot3 u v) u).

Lemma rotationMatrix_rodrigues (a : pt) theta v :
  mmulvec (rotationMatrix a theta) v = rodrigues (unit_of a) theta v.
Proof.
  rewrite <- vnormalized_unit_of. unfold rotationMatrix, rodrigues.
  rewrite uSin_sin, uCos_cos. generalize (vnormalized a); intros u.
  geom_unfold. spec_unfold. vec_ring.
Qed.

Lemma rotate_dir (o a : pt) theta v :
  transformDir (rotate o a theta) v = rodrigues (unit_of a) theta v.
Proof. unfold rotate. rewrite withOrigin_dir. apply rotationMatrix_rodrigues. Qed.

Lemma rotate_point (o a : pt) theta p :
  transformPoint (rotate o a theta) p = plus3 (rodrigues (unit_of a) theta (minus3 p o)) o.
Proof.
  unfold rotate. rewrite withOrigin_point. unfold transformPoint; cbn [afA afB].
  change (vsub p o) with (minus3 p o).
  rewrite rotationMatrix_rodrigues. generalize (rodrigues (unit_of a) theta (minus3 p o)).
  intros q. geom_unfold. spec_unfold. vec_ring.
Qed.

Lemma cs1 theta : cos theta * cos theta + sin theta * sin theta = 1.
Proof. generalize (sin2_cos2 theta). unfold Rsqr. lra. Qed.

Lemma rodrigues_dot (u v w : pt) theta : norm2 u = 1 ->
  dot3 (rodrigues u theta v) (rodrigues u theta w) = dot3 v w.
Proof.
  intros Hu. generalize (cs1 theta); intros Hc.
  destruct u as [a b c], v as [x y z], w as [p q r]. unfold rodrigues. spec_unfold.
  set (C := cos theta) in *. set (S := sin theta) in *. clearbody C S. nsatz.
Qed.

Lemma rodrigues_vol (u v w s : pt) theta : norm2 u = 1 ->
  vol (rodrigues u theta v) (rodrigues u theta w) (rodrigues u theta s) = vol v w s.
Proof.
  intros Hu. generalize (cs1 theta); intros Hc.
  assert (cross3 (rodrigues u theta w) (rodrigues u theta s) = rodrigues u theta (cross3 w s)) as E.
  { destruct u as [a b c], w as [p q r], s as [i j k]. unfold rodrigues. spec_unfold.
    set (C := cos theta) in *. set (S := sin theta) in *. clearbody C S.
    apply vec_eq; cbn [vx vy vz]; nsatz. }
  unfold vol. rewrite E. now apply rodrigues_dot.
Qed.

Lemma rodrigues_add (u v : pt) t1 t2 : norm2 u = 1 ->
  rodrigues u t2 (rodrigues u t1 v) = rodrigues u (t1 + t2) v.
Proof.
  intros Hu. unfold rodrigues. rewrite cos_plus, sin_plus.
  destruct u as [a b c], v as [x y z]. spec_unfold.
  set (C1 := cos t1) in *. set (S1 := sin t1) in *. set (C2 := cos t2) in *. set (S2 := sin t2) in *.
  clearbody C1 S1 C2 S2. apply vec_eq; cbn [vx vy vz]; nsatz.
Qed.

Lemma rodrigues_0 (u v : pt) : rodrigues u 0 v = v.
Proof. unfold rodrigues. rewrite cos_0, sin_0. destruct v; spec_unfold. vec_ring. Qed.

Lemma rodrigues_minus (u p q : pt) theta :
  minus3 (rodrigues u theta p) (rodrigues u theta q) = rodrigues u theta (minus3 p q).
Proof. unfold rodrigues. spec_unfold. vec_ring. Qed.

Lemma rodrigues_axis (u : pt) theta k : norm2 u = 1 -> rodrigues u theta (scal3 k u) = scal3 k u.
Proof.
  intros Hu. destruct u as [a b c]. unfold rodrigues. spec_unfold.
  set (C := cos theta). set (S := sin theta). clearbody C S. apply vec_eq; cbn [vx vy vz]; nsatz.
Qed.

Lemma rodrigues_perp (u v : pt) theta : dot3 u v = 0 ->
  rodrigues u theta v = plus3 (scal3 (cos theta) v) (scal3 (sin theta) (cross3 u v)).
Proof. intros H. unfold rodrigues. rewrite H. spec_unfold. vec_ring. Qed.

(** ** Collected statements *)
Lemma rotate_fixes_axis (o a : pt) theta k : a <> zero3 ->
  transformPoint (rotate o a theta) (plus3 o (scal3 k a)) = plus3 o (scal3 k a).
Proof.
  intros H. rewrite rotate_point.
  replace (minus3 (plus3 o (scal3 k a)) o) with (scal3 (k * norm a) (unit_of a)).
  - rewrite rodrigues_axis by now apply unit_of_norm2.
    generalize (norm_pos a H); intros Hp.
    unfold unit_of, plus3, scal3; cbn [vx vy vz]. apply vec_eq; cbn [vx vy vz]; field; lra.
  - generalize (norm_pos a H); intros Hp.
    unfold unit_of, plus3, minus3, scal3; cbn [vx vy vz]. apply vec_eq; cbn [vx vy vz]; field; lra.
Qed.

Lemma rotate_dist (o a p q : pt) theta : a <> zero3 ->
  dist (transformPoint (rotate o a theta) p) (transformPoint (rotate o a theta) q) = dist p q.
Proof.
  intros H. rewrite !rotate_point. unfold dist, norm. f_equal.
  generalize (unit_of_norm2 a H); set (u := unit_of a); intros Hu.
  replace (minus3 (plus3 (rodrigues u theta (minus3 p o)) o) (plus3 (rodrigues u theta (minus3 q o)) o))
    with (rodrigues u theta (minus3 p q)).
  - unfold norm2. now apply rodrigues_dot.
  - transitivity (minus3 (rodrigues u theta (minus3 p o)) (rodrigues u theta (minus3 q o))).
    + rewrite rodrigues_minus. f_equal. spec_unfold. vec_ring.
    + generalize (rodrigues u theta (minus3 p o)) (rodrigues u theta (minus3 q o)); intros.
      spec_unfold. vec_ring.
Qed.

Lemma rotate_vol (o a u v w : pt) theta : a <> zero3 ->
  vol (transformDir (rotate o a theta) u) (transformDir (rotate o a theta) v) (transformDir (rotate o a theta) w)
  = vol u v w.
Proof. intros H. rewrite !rotate_dir. apply rodrigues_vol. now apply unit_of_norm2. Qed.

Lemma rotate_perp (o a v : pt) theta : a <> zero3 -> dot3 a v = 0 ->
  transformDir (rotate o a theta) v
  = plus3 (scal3 (cos theta) v) (scal3 (sin theta) (cross3 (unit_of a) v)).
Proof.
  intros H Hp. rewrite rotate_dir. apply rodrigues_perp.
  transitivity (/ norm a * dot3 a v).
  - unfold unit_of, dot3, scal3; cbn [vx vy vz]. ring.
  - rewrite Hp. ring.
Qed.

Lemma rotate_add (o a p : pt) t1 t2 : a <> zero3 ->
  transformPoint (rotate o a t2) (transformPoint (rotate o a t1) p) = transformPoint (rotate o a (t1 + t2)) p.
Proof.
  intros H. rewrite !rotate_point.
  rewrite <- (rodrigues_add _ _ t1 t2) by now apply unit_of_norm2.
  generalize (rodrigues (unit_of a) t1 (minus3 p o)); intros q.
  replace (minus3 (plus3 q o) o) with q by (spec_unfold; vec_ring). reflexivity.
Qed.

Lemma rotate_back (o a p : pt) theta : a <> zero3 ->
  transformPoint (rotate o a (- theta)) (transformPoint (rotate o a theta) p) = p.
Proof.
  intros H. rewrite rotate_add by exact H. replace (theta + - theta) with 0 by ring.
  rewrite rotate_point, rodrigues_0. spec_unfold. vec_ring.
Qed.

Lemma unit_of_unit (a : pt) : norm2 a = 1 -> unit_of a = a.
Proof.
  intros H. unfold unit_of, norm. rewrite H, sqrt_1, Rinv_1. destruct a as [ax ay az]; unfold scal3; cbn [vx vy vz]. vec_ring.
Qed.

Lemma yaw_point theta x y z :
  transformPoint (yaw theta) (Vec x y z) = Vec (x * cos theta + z * sin theta) y (z * cos theta - x * sin theta).
Proof.
  unfold yaw. rewrite rotate_point, unit_of_unit.
  - unfold rodrigues, vEy, vO. spec_unfold. rnum. vec_ring.
  - unfold vEy; rnum. spec_unfold. ring.
Qed.
Lemma pitch_point theta x y z :
  transformPoint (pitch theta) (Vec x y z) = Vec x (y * cos theta - z * sin theta) (z * cos theta + y * sin theta).
Proof.
  unfold pitch. rewrite rotate_point, unit_of_unit.
  - unfold rodrigues, vEx, vO. spec_unfold. rnum. vec_ring.
  - unfold vEx; rnum. spec_unfold. ring.
Qed.
Lemma roll_point theta x y z :
  transformPoint (roll theta) (Vec x y z) = Vec (x * cos theta - y * sin theta) (y * cos theta + x * sin theta) z.
Proof.
  unfold roll. rewrite rotate_point, unit_of_unit.
  - unfold rodrigues, vEz, vO. spec_unfold. rnum. vec_ring.
  - unfold vEz; rnum. spec_unfold. ring.
Qed.
Lemma yawPitchRoll_order y p r q :
  transformPoint (yawPitchRoll y p r) q = transformPoint (yaw y) (transformPoint (pitch p) (transformPoint (roll r) q)).
Proof. unfold yawPitchRoll, after. rewrite !before_point. reflexivity. Qed.

(** ** Scale, translate, frames *)
Lemma translate_point (d p : pt) : transformPoint (translate d) p = plus3 p d.
Proof. geom_unfold. spec_unfold. vec_ring. Qed.
Lemma translate_dir (d v : pt) : transformDir (translate d) v = v.
Proof. destruct v; geom_unfold. vec_ring. Qed.
Lemma scale_point (o p : pt) s : transformPoint (scale o s) p = plus3 o (scal3 s (minus3 p o)).
Proof. unfold scale. rewrite withOrigin_point. geom_unfold. spec_unfold. vec_ring. Qed.
Lemma scale_fix (o : pt) s : transformPoint (scale o s) o = o.
Proof. rewrite scale_point. destruct o; spec_unfold. vec_ring. Qed.
Lemma scale_dist (o p q : pt) s :
  dist (transformPoint (scale o s) p) (transformPoint (scale o s) q) = Rabs s * dist p q.
Proof.
  rewrite !scale_point. unfold dist, norm.
  rewrite <- (sqrt_Rsqr_abs s), <- sqrt_mult_alt by apply Rle_0_sqr. f_equal.
  unfold Rsqr. spec_unfold. ring.
Qed.
Lemma withOrigin_fix (t : affine R) o : afB t = zero3 -> transformPoint (withOrigin t o) o = o.
Proof.
  intros H. rewrite withOrigin_point. unfold transformPoint. rewrite H. destruct o.
  geom_unfold. spec_unfold. vec_ring.
Qed.
Lemma mapBaseTo_spec (o x y z : pt) :
  transformPoint (mapBaseTo o x y z) vO = o /\ transformPoint (mapBaseTo o x y z) vEx = x /\
  transformPoint (mapBaseTo o x y z) vEy = y /\ transformPoint (mapBaseTo o x y z) vEz = z.
Proof. destruct o, x, y, z. geom_unfold. repeat split; vec_ring. Qed.
