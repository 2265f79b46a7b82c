(** * Properties C01-C04: affine geometry (exact real arithmetic) *)
From Coq Require Import ZArith Reals Bool List Lra.
From Verif Require Import Num NumLaws GeomModel GeomSpec GeomProofs.
Import ListNotations.
Local Open Scope R_scope.

(** ** C01: inverse *)
Theorem C01_inverse_undoes_points_and_directions :
  forall (t : affine R) (p : pt), det3 (afA t) <> 0 ->
    transformPoint (ainverse t) (transformPoint t p) = p /\
    transformPoint t (transformPoint (ainverse t) p) = p /\
    transformDir (ainverse t) (transformDir t p) = p /\
    transformDir t (transformDir (ainverse t) p) = p.
Proof.
  exact (fun t p H => conj (ainverse_point_l t p H) (conj (ainverse_point_r t p H)
    (conj (ainverse_dir_l t p H) (ainverse_dir_r t p H)))).
Qed.
Print Assumptions C01_inverse_undoes_points_and_directions.

Theorem C01_inverse_composes_to_unit :
  forall t : affine R, det3 (afA t) <> 0 ->
    before t (ainverse t) = unitTransform /\ after t (ainverse t) = unitTransform.
Proof. exact inverse_compose. Qed.
Print Assumptions C01_inverse_composes_to_unit.

(** hypotheses are met by a transform that is neither symmetric nor a rotation *)
Example C01_example : det3 (afA (Affine (Matrix (Vec 1 2 3) (Vec 3 (-1) 2) (Vec 2 3 (-1))) (Vec 5 6 7))) <> 0.
Proof. spec_unfold. cbn [afA m0 m1 m2 vx vy vz]. lra. Qed.

(** ** C02: composition *)
Theorem C02_before_after :
  forall (a b : affine R) (p : pt),
    transformPoint (before a b) p = transformPoint b (transformPoint a p) /\
    transformDir (before a b) p = transformDir b (transformDir a p) /\
    transformPoint (after a b) p = transformPoint a (transformPoint b p) /\
    transformDir (after a b) p = transformDir a (transformDir b p).
Proof.
  exact (fun a b p => conj (before_point a b p) (conj (before_dir a b p)
    (conj (before_point b a p) (before_dir b a p)))).
Qed.
Print Assumptions C02_before_after.

Theorem C02_composeLR_applies_left_to_right :
  forall (ts : list (affine R)) (p : pt),
    transformPoint (composeLR ts) p = fold_left (fun q t => transformPoint t q) ts p /\
    transformDir (composeLR ts) p = fold_left (fun q t => transformDir t q) ts p.
Proof. exact (fun ts p => conj (composeLR_point ts p) (composeLR_dir ts p)). Qed.
Print Assumptions C02_composeLR_applies_left_to_right.

(** a list on which the order matters *)
Example C02_example :
  transformPoint (composeLR [scale vO 2; translate (Vec 1 0 0)]) (Vec 1 0 0) = Vec 3 0 0 /\
  transformPoint (composeLR [translate (Vec 1 0 0); scale vO 2]) (Vec 1 0 0) = Vec 4 0 0.
Proof.
  split; rewrite composeLR_point; cbn [fold_left]; rewrite ?scale_point, ?translate_point, ?scale_point;
  unfold vO; rnum; spec_unfold; apply vec_eq; cbn [vx vy vz]; ring.
Qed.

(** ** C03: rotations *)
Theorem C03_rotation_fixes_its_axis :
  forall (o a : pt) (theta k : R), a <> zero3 ->
    transformPoint (rotate o a theta) (plus3 o (scal3 k a)) = plus3 o (scal3 k a).
Proof. exact rotate_fixes_axis. Qed.
Print Assumptions C03_rotation_fixes_its_axis.

Theorem C03_rotation_preserves_distance :
  forall (o a p q : pt) (theta : R), a <> zero3 ->
    dist (transformPoint (rotate o a theta) p) (transformPoint (rotate o a theta) q) = dist p q.
Proof. exact rotate_dist. Qed.
Print Assumptions C03_rotation_preserves_distance.

Theorem C03_rotation_preserves_orientation :
  forall (o a u v w : pt) (theta : R), a <> zero3 ->
    vol (transformDir (rotate o a theta) u) (transformDir (rotate o a theta) v)
        (transformDir (rotate o a theta) w) = vol u v w.
Proof. exact rotate_vol. Qed.
Print Assumptions C03_rotation_preserves_orientation.

(** a vector v perpendicular to the axis goes to cos(theta) v + sin(theta) (u x v), u the
    unit vector along the axis: a counter-clockwise turn by theta seen from the tip of u *)
Theorem C03_rotation_turns_by_angle :
  forall (o a v : pt) (theta : R), a <> zero3 -> dot3 a v = 0 ->
    transformDir (rotate o a theta) v
    = plus3 (scal3 (cos theta) v) (scal3 (sin theta) (cross3 (unit_of a) v)).
Proof. exact rotate_perp. Qed.
Print Assumptions C03_rotation_turns_by_angle.

Theorem C03_rotations_add_up :
  forall (o a p : pt) (t1 t2 : R), a <> zero3 ->
    transformPoint (rotate o a t2) (transformPoint (rotate o a t1) p)
    = transformPoint (rotate o a (t1 + t2)) p /\
    transformPoint (rotate o a (- t1)) (transformPoint (rotate o a t1) p) = p.
Proof. exact (fun o a p t1 t2 H => conj (rotate_add o a p t1 t2 H) (rotate_back o a p t1 H)). Qed.
Print Assumptions C03_rotations_add_up.

Theorem C03_yaw_pitch_roll :
  forall theta x y z : R,
    transformPoint (yaw theta) (Vec x y z)
      = Vec (x * cos theta + z * sin theta) y (z * cos theta - x * sin theta) /\
    transformPoint (pitch theta) (Vec x y z)
      = Vec x (y * cos theta - z * sin theta) (z * cos theta + y * sin theta) /\
    transformPoint (roll theta) (Vec x y z)
      = Vec (x * cos theta - y * sin theta) (y * cos theta + x * sin theta) z.
Proof.
  exact (fun t x y z => conj (yaw_point t x y z) (conj (pitch_point t x y z) (roll_point t x y z))).
Qed.
Print Assumptions C03_yaw_pitch_roll.

Theorem C03_yawPitchRoll_rolls_first :
  forall (y p r : R) (q : pt),
    transformPoint (yawPitchRoll y p r) q
    = transformPoint (yaw y) (transformPoint (pitch p) (transformPoint (roll r) q)).
Proof. exact yawPitchRoll_order. Qed.
Print Assumptions C03_yawPitchRoll_rolls_first.

Example C03_example : (Vec 1 2 (-2) : pt) <> zero3 /\ dot3 (Vec 1 2 (-2)) (Vec 2 0 1) = 0.
Proof. split; [intros H; injection H; lra | spec_unfold; ring]. Qed.

(** ** C04: origins, scaling, frames *)
Theorem C04_translate :
  forall d p v : pt, transformPoint (translate d) p = plus3 p d /\ transformDir (translate d) v = v.
Proof. exact (fun d p v => conj (translate_point d p) (translate_dir d v)). Qed.
Print Assumptions C04_translate.

Theorem C04_scale :
  forall (o p q : pt) (s : R),
    transformPoint (scale o s) o = o /\
    transformPoint (scale o s) p = plus3 o (scal3 s (minus3 p o)) /\
    dist (transformPoint (scale o s) p) (transformPoint (scale o s) q) = Rabs s * dist p q.
Proof. exact (fun o p q s => conj (scale_fix o s) (conj (scale_point o p s) (scale_dist o p q s))). Qed.
Print Assumptions C04_scale.

(** t.WithOrigin(o) does to displacements from o what t does to displacements from the origin *)
Theorem C04_withOrigin :
  forall (t : affine R) (o p : pt),
    transformPoint (withOrigin t o) p = plus3 (transformPoint t (minus3 p o)) o /\
    transformDir (withOrigin t o) p = transformDir t p /\
    (afB t = zero3 -> transformPoint (withOrigin t o) o = o).
Proof.
  exact (fun t o p => conj (withOrigin_point t o p) (conj (withOrigin_dir t o p) (withOrigin_fix t o))).
Qed.
Print Assumptions C04_withOrigin.

Theorem C04_mapBaseTo :
  forall o x y z : pt,
    transformPoint (mapBaseTo o x y z) (Vec 0 0 0) = o /\
    transformPoint (mapBaseTo o x y z) (Vec 1 0 0) = x /\
    transformPoint (mapBaseTo o x y z) (Vec 0 1 0) = y /\
    transformPoint (mapBaseTo o x y z) (Vec 0 0 1) = z.
Proof. exact mapBaseTo_spec. Qed.
Print Assumptions C04_mapBaseTo.

Example C04_example :
  transformPoint (scale (Vec 1 0 0) 3) (Vec 2 5 0) = Vec 4 15 0.
Proof. rewrite scale_point. spec_unfold. apply vec_eq; cbn [vx vy vz]; ring. Qed.
