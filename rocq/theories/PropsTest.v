(** * Properties C130-C131: the pictures, shapes and materials that tests are made of *)
From Coq Require Import ZArith Reals Bool List.
From Flocq Require Import Core.
From Flocq Require IEEE754.BinarySingleNaN.
Import IEEE754.BinarySingleNaN.
From Verif Require Import Num Outcome B64 GeomModel GeomSpec ColorModel ObjModel ObjSpec TestModel TestSpec TestProofs TestObjects.
Import ListNotations.
Local Open Scope R_scope.

(** ** C130 *)
Theorem C130_Diff_is_proportional_to_the_mean_deviation :
  forall (w h : nat) (A B : shot), (0 < w)%nat -> (0 < h)%nat -> sized w h A ->
    diffShots A B = 257 * (INR w * INR h) / (INR w + 1)² * mean_deviation w h (shAt A) (shAt B).
Proof. exact diff_mean. Qed.
Print Assumptions C130_Diff_is_proportional_to_the_mean_deviation.

Theorem C130_passed_tests_bound_every_pixel :
  forall (w h : nat) (A B : shot) (tol : R) (x y : nat), sized w h A -> passes tol A B = true -> (x < w)%nat -> (y < h)%nat ->
    apart (shAt A (Z.of_nat x) (Z.of_nat y)) (shAt B (Z.of_nat x) (Z.of_nat y)) <= tol * (INR w + 1)² * 3 / 257.
Proof. exact passed_pixels. Qed.
Print Assumptions C130_passed_tests_bound_every_pixel.

(** in double precision *)
Theorem C130_without_tolerance_pictures_must_be_equal :
  forall (w h : nat) (A B : shot), sized w h A -> (Z.of_nat w < 2 ^ 20)%Z -> (diffSum A B <= 2 ^ 53)%Z ->
    passes (nofZ 0 : b64) A B = true <->
    forall x y, (x < w)%nat -> (y < h)%nat -> shAt A (Z.of_nat x) (Z.of_nat y) = shAt B (Z.of_nat x) (Z.of_nat y).
Proof. exact no_tolerance. Qed.
Print Assumptions C130_without_tolerance_pictures_must_be_equal.

Theorem C130_Diff_exceeds_one_refuted :
  exists A B, sized 1 1 A /\ sized 1 1 B /\ channels_ok A /\ channels_ok B /\ 64 < diffShots (F := R) A B.
Proof. exact diff_above_one. Qed.
Print Assumptions C130_Diff_exceeds_one_refuted.

Theorem C130_Diff_ignores_what_lies_outside_the_first_picture_refuted :
  exists A B, sized 1 1 A /\ sized 2 1 B /\ channels_ok A /\ channels_ok B /\ diffShots (F := R) A B = 0 /\ 28 < diffShots (F := R) B A.
Proof. exact diff_one_sided. Qed.
Print Assumptions C130_Diff_ignores_what_lies_outside_the_first_picture_refuted.

(** the error that Convergence records *)
Theorem C130_rmsError_shrinks_with_the_size :
  forall (w : nat) (img gold : list (list (color R))), (0 < w)%nat -> img <> nil -> same_shape w img gold ->
    rmsError img gold = Val (rms img gold / sqrt (INR (length (concat img)))).
Proof. exact rmsError_eq. Qed.
Print Assumptions C130_rmsError_shrinks_with_the_size.

Theorem C130_rmsError_is_not_the_rms_error_refuted :
  exists img gold, same_shape 2 img gold /\ length (concat img) = 4%nat /\ rmsError (F := R) img gold <> Val (rms img gold).
Proof. exact rmsError_small. Qed.
Print Assumptions C130_rmsError_is_not_the_rms_error_refuted.

(** pictures of the default size 300 x 200, with the default tolerance 1e-5: one channel of one pixel may be off by one step
    of 8 bit, but not three *)
Example C130_example :
  let pic (n : Z) := Shot 0 0 300 200 (fun x y => if ((y =? 100) && (x <? n))%Z%bool then (257, 0, 0)%Z else (0, 0, 0)%Z) in
  passes (nQ 1 100000 : b64) (pic 1%Z) (pic 0%Z) = true /\ passes (nQ 1 100000 : b64) (pic 3%Z) (pic 0%Z) = false.
Proof. vm_compute. split; reflexivity. Qed.

(** ** C131 *)
Theorem C131_test_spheres_are_spheres :
  forall (M : Type) (m : option M) (diam : R) (c s d : pt), 0 <= diam -> norm2 d = 1 -> norm2 (minus3 s c) <> (diam / 2)² ->
    oIntersect (sphere m diam c) (Ray s d) = omap (fun h => (h, Ray s d)) (testSphere m diam c (Ray s d)).
Proof. exact @testSphere_agrees. Qed.
Print Assumptions C131_test_spheres_are_spheres.

Theorem C131_test_spheres_are_missed_from_their_surface_refuted :
  forall (M : Type) (m : option M) (diam : R) (c d : pt), 0 < diam -> norm2 d = 1 ->
    let s := along c d (- (diam / 2)) in
    testSphere m diam c (Ray s d) = Val noHit /\
    exists h, oIntersect (sphere m diam c) (Ray s d) = Val (h, Ray s d) /\ hT h = diam.
Proof. exact @testSphere_misses_from_the_surface. Qed.
Print Assumptions C131_test_spheres_are_missed_from_their_surface_refuted.

Theorem C131_test_sheets_are_horizontal_planes :
  forall (M : Type) (m : option M) (height : R) (s d : pt), vy d <> 0 ->
    let t := (height - vy s) / vy d in
    testSheet (fun _ => false) m height (Ray s d) =
      if Rlt_dec t 0 then noHit else Hit t (Vec 0 1 0) (Vec (vx (along s d t)) (vz (along s d t)) 0) m.
Proof. exact @testSheet_exact. Qed.
Print Assumptions C131_test_sheets_are_horizontal_planes.

Theorem C131_rays_inside_a_test_sheet_hit_at_NaN_refuted :
  forall (M : Type) (m : option M), let isinf (x : b64) := neqb x (B754_infinity false) in
    nisnan (hT (testSheet isinf m (nofZ 1) (Ray (Vec (nofZ 0) (nofZ 1) (nofZ 0)) (Vec (nofZ 1) (nofZ 0) (nofZ 0))))) = true.
Proof. exact @testSheet_nan. Qed.
Print Assumptions C131_rays_inside_a_test_sheet_hit_at_NaN_refuted.

(** the path from a point to the sampled point of a test light stays outside the light's ball of radius 1/10 *)
Theorem C131_test_lights_do_not_shadow_themselves :
  forall (pos dst : pt) (l : R), (101 / 1000)² <= norm2 (minus3 pos dst) -> 0 <= l <= 1 ->
    let p := testLightPos pos dst in (101 / 1000)² <= norm2 (minus3 (along dst (minus3 p dst) l) pos).
Proof. exact testLight_clear. Qed.
Print Assumptions C131_test_lights_do_not_shadow_themselves.

Theorem C131_test_checkers_are_squares :
  forall u v : R, -5000 <= u -> -5000 <= v -> testCheckers u v = Z.even (Zfloor (2 * u) + Zfloor (2 * v)).
Proof. exact testCheckers_squares. Qed.
Print Assumptions C131_test_checkers_are_squares.

Theorem C131_a_test_checker_is_twice_as_wide_refuted : testCheckers (F := R) (-5000 - 1 / 4) 0 = testCheckers (-5000 + 1 / 4) 0.
Proof. exact testCheckers_far. Qed.
Print Assumptions C131_a_test_checker_is_twice_as_wide_refuted.

(** facing surfaces in their colour, others in red, by the cosine *)
Theorem C131_test_normals_show_the_cosine :
  forall (c : color R) (s d n : pt), norm2 d = 1 -> norm2 n = 1 ->
    exists k, 0 <= k <= 1 /\ (dot3 n d < 0 -> testNormal c (Ray s d) n = Val (Color (k * cR c) (k * cG c) (k * cB c)) /\ k = - dot3 n d) /\
      (0 <= dot3 n d -> testNormal c (Ray s d) n = Val (Color k 0 0) /\ k = dot3 n d).
Proof. exact testNormal_shows. Qed.
Print Assumptions C131_test_normals_show_the_cosine.

Example C131_example :
  match testSphere (None : option unit) (nofZ 2) (Vec (nofZ 0) (nofZ 0) (nofZ (-5))) (Ray (Vec (nofZ 0) (nofZ 0) (nofZ 0)) (Vec (nofZ 0) (nofZ 0) (nofZ (-1)))) with
  | Val h => neqb (hT h : b64) (nofZ 4) | _ => false end = true /\
  testCheckers (nQ 1 4 : b64) (nQ 1 4) = true /\ testCheckers (nQ 3 4 : b64) (nQ 1 4) = false.
Proof. vm_compute. repeat split; reflexivity. Qed.
