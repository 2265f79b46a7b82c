(** * Properties C20-C23, C44-C56, C80-C85: scenes, cameras, materials, lights and media *)
From Coq Require Import ZArith Reals Bool List Permutation Lra Lia.
From Verif Require Import Num NumLaws Outcome GeomModel GeomSpec GeomProofs ColorModel SeqModel ObjModel TreeModel ObjSpec ObjProofs BoxProofs ObjFacts SceneModel SceneSpec LookSpec SceneProofs CtxProofs ShadeProofs LightProofs MediaProofs CamProofs LookProofs SceneFacts FinishProofs SunProofs SceneMore.
Import ListNotations.
Local Open Scope R_scope.
(** the sine and cosine of the examples *)
#[local] Existing Instance toyTrig.

(** ** C20 *)
Theorem C20_frontmost_hit_wins :
  forall (G : Type) (objs : list (object b64 (material b64))) (r : nat) (q : ray b64) (hits : list (hit b64 (material b64))) (c : ctx b64 G),
    nth_error (cHeap c) r = Some q -> hits_of objs q hits ->
    (forall h, last_nearest hits h -> intersectFrontmost objs r c = Val (h, c)) /\
    (no_hit hits -> intersectFrontmost objs r c = Val (Hit ninf (rDir q) vO (Some MBlack), c)) /\
    ((exists h, last_nearest hits h) \/ no_hit hits).
Proof. exact @frontmost_b64. Qed.
Print Assumptions C20_frontmost_hit_wins.

Theorem C20_flat_scenes_show_the_frontmost_surface :
  forall (TF : Trig b64) (G : Type) (rand2 : G -> (b64 * b64) * G) (s : scene b64), sMedia s = nil ->
    forall n w r q hits (c : ctx b64 G) h t col, cDepth c <> sRecursionDepth s ->
      nth_error (cHeap c) r = Some q -> hits_of (whoObjects s w) q hits -> last_nearest hits h ->
      hMat h = Some (MFlat t) -> t (hLocal h) = Val col ->
      lightField rand2 (S n) s w r c = Val (col, withNumRays c (cNumRays c + 1)%Z).
Proof. exact @flat_light. Qed.
Print Assumptions C20_flat_scenes_show_the_frontmost_surface.

Theorem C20_nothing_hit_is_black :
  forall (TF : Trig b64) (G : Type) (rand2 : G -> (b64 * b64) * G) (s : scene b64), sMedia s = nil ->
    forall n w r q hits (c : ctx b64 G), cDepth c <> sRecursionDepth s ->
      nth_error (cHeap c) r = Some q -> hits_of (whoObjects s w) q hits -> no_hit hits ->
      lightField rand2 (S n) s w r c = Val (black, withNumRays c (cNumRays c + 1)%Z).
Proof. exact @empty_light. Qed.
Print Assumptions C20_nothing_hit_is_black.

(** hits at 3, NaN, 2, -1 and again 2: the last one at 2 is the frontmost *)
Definition hitAt (t : b64) (k : Z) : hit b64 (material b64) := Hit t (Vec (nofZ k) (nofZ 0) (nofZ 0)) vO None.
Definition fixedHit (h : hit b64 (material b64)) : object b64 (material b64) := plainObject (fun r => Val (h, r)).
Example C20_example :
  match intersectFrontmost (map fixedHit
      [hitAt (nofZ 3) 0; hitAt (ndiv (nofZ 0) (nofZ 0)) 1; hitAt (nofZ 2) 2; hitAt (nofZ (-1)) 3; hitAt (nofZ 2) 4]) 0 toyCtx with
  | Val (h, _) => neqb (vx (hNormal h)) (nofZ 4)
  | _ => false end = true.
Proof. vm_compute. reflexivity. Qed.

(** ** C21 *)
Theorem C21_opaque_objects_in_between_block :
  forall (F : Type) (NF : Num F) (G : Type) (s : scene F) r q hits len orig (c : ctx F G),
    nth_error (cHeap c) r = Some q -> hits_of (sObjects s) q hits ->
    (forall h, In h hits -> between len h -> is_transparent h -> exists f, filters_by h f) ->
    (exists h, In h hits /\ between len h /\ ~ is_transparent h) ->
    occlude s r len orig c = Val (black, c).
Proof. exact @occlude_blocked. Qed.
Print Assumptions C21_opaque_objects_in_between_block.

Theorem C21_otherwise_every_filter_in_between_applies_once :
  forall (F : Type) (NF : Num F) (G : Type) (s : scene F) r q hits len orig (c : ctx F G),
    nth_error (cHeap c) r = Some q -> hits_of (sObjects s) q hits ->
    (forall h, In h hits -> between len h -> exists f, filters_by h f) ->
    exists fs, filtering len hits fs /\ occlude s r len orig c = Val (fold_left clmul3 fs orig, c).
Proof. exact @occlude_passes. Qed.
Print Assumptions C21_otherwise_every_filter_in_between_applies_once.

Theorem C21_order_of_objects_does_not_matter :
  forall (G : Type) (s s' : scene R) r q hits len orig (c : ctx R G),
    Permutation (sObjects s) (sObjects s') ->
    nth_error (cHeap c) r = Some q -> hits_of (sObjects s) q hits ->
    (forall h, In h hits -> between len h -> is_transparent h -> exists f, filters_by h f) ->
    occlude s r len orig c = occlude s' r len orig c.
Proof. exact @occlude_order. Qed.
Print Assumptions C21_order_of_objects_does_not_matter.

Theorem C21_lights_never_occlude :
  forall (F : Type) (NF : Num F) (NI : NumInf F) (TF : Trig F) (G : Type) rd media lights objs r len orig (c : ctx F G),
    occlude (newScene rd media lights objs) r len orig c = occlude (newScene rd nil nil objs) r len orig c.
Proof. reflexivity. Qed.
Print Assumptions C21_lights_never_occlude.

(** a window at 2 and a wall at 6: light at 4 arrives tinted, light at 8 does not *)
Definition halfWindow : hit b64 (material b64) := Hit (nofZ 2) vO vO (Some (MTransparent (fun _ => Val (Color (nQ 1 2) (nofZ 1) (nofZ 0))))).
Definition wall : hit b64 (material b64) := Hit (nofZ 6) vO vO (Some MBlack).
Definition windowScene : scene b64 := newScene 1 nil nil [fixedHit halfWindow; fixedHit wall].
Example C21_example :
  match occlude windowScene 0 (nofZ 4) (Color (nofZ 1) (nofZ 1) (nofZ 1)) toyCtx, occlude windowScene 0 (nofZ 8) (Color (nofZ 1) (nofZ 1) (nofZ 1)) toyCtx with
  | Val (a, _), Val (b, _) => neqb (cR a) (nQ 1 2) && neqb (cG a) (nofZ 1) && neqb (cB a) (nofZ 0) && neqb (cR b) (nofZ 0) && neqb (cG b) (nofZ 0)
  | _, _ => false end = true.
Proof. vm_compute. reflexivity. Qed.

(** ** C22 *)
Theorem C22_terminates_within_the_depth_limit :
  forall (F : Type) (NF : Num F) (NI : NumInf F) (TF : Trig F) (G : Type) (rand2 : G -> (F * F) * G) fuel (s : scene F) w r (c : ctx F G),
    restoring s -> finishing s -> seq_finishing (cSeq c) -> pool_ok c -> in_use c r ->
    (cDepth c <= sRecursionDepth s)%Z -> (Z.to_nat (sRecursionDepth s - cDepth c) < fuel)%nat ->
    (* [watched] checks on every nested evaluation that the depth is within the limit *)
    watched rand2 fuel s nil w r c = lightField rand2 fuel s w r c /\ lightField rand2 fuel s w r c <> NoFuel.
Proof. exact @eval_terminates. Qed.
Print Assumptions C22_terminates_within_the_depth_limit.

(** the hypotheses hold for everything the constructors produce, height fields excepted (see C42) *)
Theorem C22_every_scene_terminates :
  forall (TF : Trig b64) (G : Type) (rand2 : G -> (b64 * b64) * G) (to32 : b64 -> b64) sortSlice rd media lights objs,
    reorders sortSlice ->
    (forall o, In o objs -> iso_free to32 sortSlice o) -> (forall l, In l lights -> built_light to32 sortSlice l) ->
    (forall m, shown (newScene rd media lights objs) m -> textures (fun t => forall p, t p <> NoFuel) m) ->
    forall fuel w r (c : ctx b64 G) shifts pixel pass,
      ctxseq_init (newCtxSeq shifts) pixel pass = Val (cSeq c) -> (0 <= pass < 2 ^ 53 - 1)%Z ->
      pool_ok c -> in_use c r -> (cDepth c <= rd)%Z -> (Z.to_nat (rd - cDepth c) < fuel)%nat ->
      lightField rand2 fuel (newScene rd media lights objs) w r c <> NoFuel.
Proof. exact @built_scene_terminates. Qed.
Print Assumptions C22_every_scene_terminates.

Theorem C22_depth_is_restored :
  forall (F : Type) (NF : Num F) (NI : NumInf F) (TF : Trig F) (G : Type) (rand2 : G -> (F * F) * G) fuel (s : scene F) w r (c c' : ctx F G) b,
    restoring s -> pool_ok c -> in_use c r -> (cDepth c <= sRecursionDepth s)%Z ->
    lightField rand2 fuel s w r c = Val (b, c') -> cDepth c' = cDepth c.
Proof. exact (fun F NF NI TF G rand2 fuel s w r c c' b H1 H2 H3 H4 H5 => proj1 (proj2 (eval_rays rand2 fuel s w r c c' b H1 H2 H3 H4 H5))). Qed.
Print Assumptions C22_depth_is_restored.

Theorem C22_black_at_the_limit :
  forall (F : Type) (NF : Num F) (NI : NumInf F) (TF : Trig F) (G : Type) (rand2 : G -> (F * F) * G) n (s : scene F) w r (c : ctx F G),
    cDepth c = sRecursionDepth s -> lightField rand2 (S n) s w r c = Val (black, c).
Proof. exact (fun F NF NI TF G => @eval_limit F G NF NI TF). Qed.
Print Assumptions C22_black_at_the_limit.

Theorem C22_more_fuel_changes_nothing :
  forall (F : Type) (NF : Num F) (NI : NumInf F) (TF : Trig F) (G : Type) (rand2 : G -> (F * F) * G) f1 f2 (s : scene F) w r (c : ctx F G),
    restoring s -> pool_ok c -> (cDepth c <= sRecursionDepth s)%Z ->
    (Z.to_nat (sRecursionDepth s - cDepth c) < f1)%nat -> (Z.to_nat (sRecursionDepth s - cDepth c) < f2)%nat ->
    lightField rand2 f1 s w r c = lightField rand2 f2 s w r c.
Proof. exact (fun F NF NI TF G => @eval_fuel F G NF NI TF). Qed.
Print Assumptions C22_more_fuel_changes_nothing.

(** matte and mirror balls, four levels deep; the counter is back at 0, several rays were evaluated *)
Example C22_example :
  match lightField toyRand 5 (toyScene 4) All 0 toyCtx with
  | Val (col, c') => (cDepth c' =? 0)%Z && (1 <? cNumRays c')%Z && nltb (nofZ 0) (cR col)
  | _ => false end = true.
Proof. vm_compute. reflexivity. Qed.

(** ** C23 *)
Theorem C23_rays_in_use_are_never_handed_out :
  forall (F : Type) (NF : Num F) (NI : NumInf F) (TF : Trig F) (G : Type) (rand2 : G -> (F * F) * G) fuel (s : scene F) w r (c : ctx F G),
    restoring s -> finishing s -> seq_finishing (cSeq c) -> pool_ok c -> in_use c r ->
    (cDepth c <= sRecursionDepth s)%Z -> (Z.to_nat (sRecursionDepth s - cDepth c) < fuel)%nat ->
    (* [watched] fails if on any nested evaluation the rays of the active evaluations are not distinct and out of the pool *)
    watched rand2 fuel s nil w r c = lightField rand2 fuel s w r c /\ watched rand2 fuel s nil w r c <> NoFuel.
Proof. exact (fun F NF NI TF G => @eval_watched F G NF NI TF). Qed.
Print Assumptions C23_rays_in_use_are_never_handed_out.

Theorem C23_evaluation_returns_all_its_rays :
  forall (F : Type) (NF : Num F) (NI : NumInf F) (TF : Trig F) (G : Type) (rand2 : G -> (F * F) * G) fuel (s : scene F) w r (c c' : ctx F G) b,
    restoring s -> pool_ok c -> in_use c r -> (cDepth c <= sRecursionDepth s)%Z ->
    lightField rand2 fuel s w r c = Val (b, c') -> same_rays c c'.
Proof. exact (fun F NF NI TF G rand2 fuel s w r c c' b H1 H2 H3 H4 H5 => proj1 (eval_rays rand2 fuel s w r c c' b H1 H2 H3 H4 H5)). Qed.
Print Assumptions C23_evaluation_returns_all_its_rays.

Theorem C23_image_samples_return_all_their_rays :
  forall (F : Type) (NF : Num F) (NI : NumInf F) (TF : Trig F) (G : Type) (rand2 : G -> (F * F) * G) fuel (s : scene F) cam u v (c c' : ctx F G) b,
    restoring s -> pool_ok c -> (cDepth c <= sRecursionDepth s)%Z ->
    imageFuncOf rand2 fuel s cam u v c = Val (b, c') -> same_rays c c' /\ cDepth c' = cDepth c.
Proof. exact (fun F NF NI TF G => @image_rays F G NF NI TF). Qed.
Print Assumptions C23_image_samples_return_all_their_rays.

Theorem C23_new_rays_are_zero_and_unused :
  forall (F : Type) (NF : Num F) (G : Type) (c : ctx F G), pool_ok c ->
    exists i c', newRay c = Val (i, c') /\ ~ in_use c i /\ in_use c' i /\ nth_error (cHeap c') i = Some (Ray vO vO) /\
      pool_ok c' /\ (forall j, in_use c j -> in_use c' j /\ nth_error (cHeap c') j = nth_error (cHeap c) j).
Proof. exact (fun F NF G => @new_ray_zero F G NF). Qed.
Print Assumptions C23_new_rays_are_zero_and_unused.

Theorem C23_scenes_of_constructed_objects_qualify :
  forall (F : Type) (NF : Num F) (NI : NumInf F) (TF : Trig F) (to32 : F -> F) sortSlice, reorders sortSlice ->
    forall rd media lights objs,
    (forall o, In o objs -> built to32 sortSlice o) -> (forall l, In l lights -> built_light to32 sortSlice l) ->
    restoring (newScene rd media lights objs).
Proof. exact @newScene_restoring. Qed.
Print Assumptions C23_scenes_of_constructed_objects_qualify.

(** four levels deep the heap grew by exactly the rays now in the pool *)
Example C23_example :
  match lightField toyRand 5 (toyScene 4) All 0 toyCtx with
  | Val (_, c') => (length (cHeap c') =? S (length (cPool c')))%nat && (0 <? length (cPool c'))%nat && negb (memb 0 (cPool c'))
  | _ => false end = true.
Proof. vm_compute. reflexivity. Qed.

(** ** C44 *)
Theorem C44_pinhole_camera_rays :
  forall (G : Type) (NI : NumInf R) (rand2 : G -> (R * R) * G) fov, 0 < fov < PI ->
    exists cam, projective fov = Val cam /\ forall u v (c : ctx R G), pool_ok c ->
      shoots rand2 cam u v c (Ray zero3 (unit_of (Vec (u - / 2) (v - / 2) (- / (2 * tan (fov / 2)))))).
Proof. exact @pinhole. Qed.
Print Assumptions C44_pinhole_camera_rays.

Theorem C44_pinhole_directions :
  forall fov, 0 < fov < PI ->
    let f := / (2 * tan (fov / 2)) in
    let dir u v := unit_of (Vec (u - / 2) (v - / 2) (- f)) in
    0 < f /\ (forall u v, norm2 (dir u v) = 1) /\ dir (/ 2) (/ 2) = Vec 0 0 (-1) /\
    (forall u v, (/ 2 < u <-> 0 < vx (dir u v)) /\ (/ 2 < v <-> 0 < vy (dir u v)) /\ vz (dir u v) < 0) /\
    dot3 (dir 0 (/ 2)) (dir 1 (/ 2)) = cos fov.
Proof. exact pinhole_dirs. Qed.
Print Assumptions C44_pinhole_directions.

Theorem C44_other_fields_of_view_panic :
  forall fov, fov <= 0 \/ PI <= fov -> projective (F:=R) fov = Panic.
Proof. exact pinhole_bad. Qed.
Print Assumptions C44_other_fields_of_view_panic.

(** with a field of view of 90 degrees, u = 1 is seen at 45 degrees to the right *)
Example C44_example : unit_of (Vec (1 - / 2) (/ 2 - / 2) (- / (2 * tan (PI / 2 / 2)))) = Vec (/ sqrt 2) 0 (- / sqrt 2).
Proof.
  replace (PI / 2 / 2) with (PI / 4) by field. rewrite tan_PI4.
  assert (S : sqrt 2 * sqrt 2 = 2) by (apply sqrt_sqrt; lra). assert (P : 0 < sqrt 2) by (apply sqrt_lt_R0; lra).
  assert (N : norm (Vec (1 - / 2) (/ 2 - / 2) (- / (2 * 1))) = sqrt 2 / 2).
  { apply norm_sq_eq; [lra|]. unfold norm2, dot3; cbn [vx vy vz]. replace (sqrt 2 / 2 * (sqrt 2 / 2)) with (sqrt 2 * sqrt 2 / 4) by field. rewrite S. field. }
  unfold unit_of. rewrite N. unfold scal3; cbn [vx vy vz]. f_equal; field; lra.
Qed.

(** ** C45: the rays of a pixel meet in one point, but not at the focus distance *)
Theorem C45_focus_is_not_at_the_focus_distance_refuted :
  forall (G : Type) (NI : NumInf R) (rand2 : G -> (R * R) * G) fov aperture fd,
    (forall g, 0 <= snd (fst (rand2 g)) <= 1) -> 0 < fov < PI -> 0 < aperture -> 0 < fd -> 2 * tan (fov / 2) <> 1 ->
    exists cam, projectiveAperture fov aperture fd = Val cam /\
    forall u v (c1 c2 : ctx R G) q1 q2, pool_ok c1 -> pool_ok c2 -> shoots rand2 cam u v c1 q1 -> shoots rand2 cam u v c2 q2 ->
      rStart q1 <> rStart q2 ->
      forall t1 t2, vz (along (rStart q1) (rDir q1) t1) = - fd ->
        along (rStart q1) (rDir q1) t1 <> along (rStart q2) (rDir q2) t2.
Proof. exact @two_lens_rays. Qed.
Print Assumptions C45_focus_is_not_at_the_focus_distance_refuted.

Theorem C45_rays_of_a_pixel_meet_in_one_point :
  forall (G : Type) (NI : NumInf R) (rand2 : G -> (R * R) * G) fov aperture fd,
    (forall g, 0 <= snd (fst (rand2 g)) <= 1) -> 0 < fov < PI -> 0 < aperture -> 0 < fd ->
    exists cam, projectiveAperture fov aperture fd = Val cam /\ forall u v,
      exists p, vz p = - (fd / (2 * tan (fov / 2))) /\
      forall (c : ctx R G), pool_ok c -> exists q, shoots rand2 cam u v c q /\ norm2 (rDir q) = 1 /\
        vz (rStart q) = 0 /\ norm2 (rStart q) <= aperture * aperture /\ exists t, 0 < t /\ along (rStart q) (rDir q) t = p.
Proof. exact @lens_focus. Qed.
Print Assumptions C45_rays_of_a_pixel_meet_in_one_point.

(** two lens samples of the centre pixel do differ: field of view 90 degrees, focus distance 1 *)
Example C45_example : exists (c1 c2 : ctx R (R * R)) cam q1 q2, pool_ok c1 /\ pool_ok c2 /\
  projectiveAperture (PI / 2) 1 1 = Val cam /\
  shoots (NI := {| ninf := 1 |}) (fun g => (g, g)) cam (/ 2) (/ 2) c1 q1 /\ shoots (NI := {| ninf := 1 |}) (fun g => (g, g)) cam (/ 2) (/ 2) c2 q2 /\
  rStart q1 <> rStart q2 /\ 2 * tan (PI / 2 / 2) <> 1.
Proof. exact lens_witness. Qed.

(** ** C46 *)
Theorem C46_environment_rays :
  forall (G : Type) (NI : NumInf R) (rand2 : G -> (R * R) * G) u v (c : ctx R G), pool_ok c ->
    shoots rand2 environmentMap u v c
      (Ray zero3 (Vec (- (sin (2 * PI * u) * cos (PI * (v - / 2)))) (sin (PI * (v - / 2))) (cos (2 * PI * u) * cos (PI * (v - / 2))))).
Proof. exact @env_ray. Qed.
Print Assumptions C46_environment_rays.

Theorem C46_every_direction_is_seen_exactly_once :
  let dir u v := Vec (- (sin (2 * PI * u) * cos (PI * (v - / 2)))) (sin (PI * (v - / 2))) (cos (2 * PI * u) * cos (PI * (v - / 2))) in
  (forall u v, norm2 (dir u v) = 1) /\ dir (/ 2) (/ 2) = Vec 0 0 (-1) /\
  (forall u, dir u 0 = Vec 0 (-1) 0 /\ dir u 1 = Vec 0 1 0) /\
  (forall d, norm2 d = 1 -> (vx d <> 0 \/ vz d <> 0) -> exists u v, 0 <= u < 1 /\ 0 < v < 1 /\ dir u v = d) /\
  (forall u v u' v', 0 <= u < 1 -> 0 < v < 1 -> 0 <= u' < 1 -> 0 < v' < 1 -> dir u v = dir u' v' -> u = u' /\ v = v').
Proof. exact env_covers. Qed.
Print Assumptions C46_every_direction_is_seen_exactly_once.

(** u = 3/4 on the horizon looks along +X *)
Example C46_example : env_dir (3 / 4) (/ 2) = Vec 1 0 0.
Proof.
  unfold env_dir. replace (2 * PI * (3 / 4)) with (PI / 2 + PI) by field. replace (PI * (/ 2 - / 2)) with 0 by ring.
  rewrite neg_sin, neg_cos, sin_PI2, cos_PI2, cos_0, sin_0. f_equal; ring.
Qed.

(** ** C47 *)
Theorem C47_moving_a_camera_moves_its_rays :
  forall (G : Type) (NI : NumInf R) (rand2 : G -> (R * R) * G) (cam : camera R) ms u v (c : ctx R G) q,
    pool_ok c -> shoots rand2 cam u v c q ->
    shoots rand2 (fold_left call ms cam) u v c
      (Ray (plus3 (shifted ms (camPos cam)) (turned ms (minus3 (rStart q) (camPos cam)))) (turned ms (rDir q))).
Proof. exact @moved_camera. Qed.
Print Assumptions C47_moving_a_camera_moves_its_rays.

Theorem C47_turning_is_rigid :
  forall ms a b, dot3 (turned ms a) (turned ms b) = dot3 a b /\ turned ms (minus3 a b) = minus3 (turned ms a) (turned ms b).
Proof. exact (fun ms a b => conj (turned_dot ms a b) (turned_minus ms a b)). Qed.
Print Assumptions C47_turning_is_rigid.

Example C47_example : turned [Shift (Vec 1 2 3); Turn PI 0 0] (Vec 0 0 (-1)) = Vec 0 0 1 /\
  shifted [Shift (Vec 1 2 3); Turn PI 0 0; Shift (Vec 1 0 0)] zero3 = Vec 2 2 3.
Proof.
  split; cbn [turned shifted fold_left]; unfold turn, plus3, zero3; cbn [vx vy vz];
  rewrite ?cos_0, ?sin_0, ?cos_PI, ?sin_PI; f_equal; ring.
Qed.

(** ** C48 *)
Theorem C48_mirror_reflection :
  forall v n : pt, norm2 n = 1 ->
    norm2 (reflect v n) = norm2 v /\ dot3 (reflect v n) n = - dot3 v n /\
    tangential (reflect v n) n = tangential v n /\ reflect (reflect v n) n = v.
Proof. exact (fun v n H => conj (reflect_norm v n H) (conj (reflect_dot v n H) (conj (reflect_tangential v n H) (reflect_twice v n H)))). Qed.
Print Assumptions C48_mirror_reflection.

Example C48_example : reflect (Vec 1 (-2) 3 : pt) (Vec 0 1 0) = Vec 1 2 3.
Proof. unfold reflect, vmadd, vdot; cbn [vx vy vz]; rnum. f_equal; ring. Qed.

(** ** C49 *)
Theorem C49_fresnel_reflectance_is_a_fraction :
  forall n1 n2 ci, 0 <= n1 -> 0 <= n2 -> 0 <= ci -> 0 <= fresnelReflection (F:=R) n1 n2 ci <= 1.
Proof. exact fresnelReflection_range. Qed.
Print Assumptions C49_fresnel_reflectance_is_a_fraction.

Theorem C49_fresnel_formula_and_reciprocity :
  forall n1 n2 ci ct, 0 < n1 -> 0 < n2 -> 0 <= ci -> snell n1 n2 ci ct ->
    fresnelReflection n1 n2 ci = reflectance n1 n2 ci ct /\
    fresnelReflection n1 n2 ci = fresnelReflection n2 n1 ct.
Proof. exact (fun n1 n2 ci ct H1 H2 H3 H4 => conj (fresnel_formula n1 n2 ci ct H1 H2 H4) (fresnel_symmetric n1 n2 ci ct H1 H2 H3 H4)). Qed.
Print Assumptions C49_fresnel_formula_and_reciprocity.

(** glass at normal incidence reflects 4 percent *)
Example C49_example : snell 1 (3 / 2) 1 1 /\ reflectance 1 (3 / 2) 1 1 = 4 / 100.
Proof. unfold snell, reflectance. split; [split; lra|field]. Qed.

(** ** C50 *)
Theorem C50_transmitted_ray_obeys_snell :
  forall n1 n2 d nn, 0 < n1 -> 0 < n2 -> d <> zero3 -> nn <> zero3 ->
    let f := refract n1 n2 d nn in
    (* the indices and the normal are those of the side the ray comes from *)
    ((dot3 d nn <= 0 /\ rfN f = unit_of nn /\ rfN1 f = n1 /\ rfN2 f = n2) \/
     (0 < dot3 d nn /\ rfN f = scal3 (-1) (unit_of nn) /\ rfN1 f = n2 /\ rfN2 f = n1)) /\
    rfI f = unit_of d /\
    snell_vec (rfN1 f) (rfN2 f) (rfI f) (rfN f) (transmitted f) /\
    (totalReflection f = false -> norm2 (transmitted f) = 1 /\ dot3 (transmitted f) (rfN f) <= 0 /\
       forall t, norm2 t = 1 -> dot3 t (rfN f) <= 0 -> snell_vec (rfN1 f) (rfN2 f) (rfI f) (rfN f) t -> t = transmitted f) /\
    (totalReflection f = true <-> ~ exists t, norm2 t = 1 /\ snell_vec (rfN1 f) (rfN2 f) (rfI f) (rfN f) t).
Proof. exact refraction_spec. Qed.
Print Assumptions C50_transmitted_ray_obeys_snell.

(** from glass to air at 30 degrees: sin t = 3/4 *)
Example C50_example : snell_vec (3 / 2) 1 (Vec (/ 2) (- (sqrt 3 / 2)) 0) (Vec 0 1 0) (Vec (3 / 4) (- (sqrt 7 / 4)) 0).
Proof. unfold snell_vec, scal3, cross3. cbn [vx vy vz]. f_equal; lra. Qed.

(** ** C51 *)
Theorem C51_surfaces_never_create_energy :
  forall (M : R), 0 <= M -> forall (G : Type) (NI : NumInf R) (rand2 : G -> (R * R) * G) (s : scene R),
    sLights s = nil -> (forall m, shown s m -> passive M m) -> (forall m, In m (sMedia s) -> passive_medium M m) ->
    forall fuel w r c col c', lightField rand2 fuel s w r c = Val (col, c') -> within M col.
Proof. exact (fun M HM G NI rand2 s H1 H2 H3 fuel w r => energy M HM rand2 s H1 H2 H3 fuel w r). Qed.
Print Assumptions C51_surfaces_never_create_energy.

(** half a mirror, half a grey surface, in light of brightness 1: five levels deep *)
Definition halfMirror : material b64 := MBlend (nQ 1 2) (MReflective (Color (nofZ 1) (nofZ 1) (nofZ 1))) (nQ 1 2) (MMatte (fun _ => Val grey)).
Example C51_example :
  match lightField toyRand 6 (newScene 5 nil nil [toyBall halfMirror (-5); toyBall halfMirror 5; backdrop (Some (MFlat (fun _ => Val (Color (nofZ 1) (nofZ 1) (nofZ 1)))))]) All 0 toyCtx with
  | Val (col, _) => nltb (nofZ 0) (cR col) && nltb (cR col) (nofZ 1)
  | _ => false end = true.
Proof. vm_compute. reflexivity. Qed.

(** ** C52 *)
Theorem C52_point_light_inverse_square_law :
  forall (G : Type) (rand2 : G -> (R * R) * G) (power : color R) (pos target : pt) (c : ctx R G), target <> pos ->
    lightSample rand2 (pointLight power pos) target c =
      Val ((pos, scaled (/ (4 * PI * (dist target pos * dist target pos))) power), c).
Proof. exact @point_light_sample. Qed.
Print Assumptions C52_point_light_inverse_square_law.

Example C52_example : dist (Vec 0 3 0) (Vec 4 0 0) = 5.
Proof. unfold dist. apply norm_sq_eq; [lra|]. unfold norm2, dot3, minus3. cbn [vx vy vz]. ring. Qed.

(** ** C53 *)
Theorem C53_rectangle_light_samples :
  forall (G : Type) (NI : NumInf R) (rand2 : G -> (R * R) * G) to32 sortSlice b w h center l,
    0 <= w -> 0 <= h -> rectangleLight to32 sortSlice b w h center = Val l ->
    forall target (c c' : ctx R G) u v, generate2 rand2 c = Val ((u, v), c') -> 0 <= u <= 1 -> 0 <= v <= 1 ->
    exists p k, lightSample rand2 l target c = Val ((p, scaled (k * (w * h)) b), c') /\
      vy p = vy center + tinyR /\ Rabs (vx p - vx center) <= w / 2 /\ Rabs (vz p - vz center) <= h / 2 /\
      0 <= k /\ (vy p <= vy target -> k = 0) /\
      (vy target < vy p -> k = (vy p - vy target) / dist target p / (PI * (dist target p * dist target p))).
Proof. exact @rect_light. Qed.
Print Assumptions C53_rectangle_light_samples.

Theorem C53_disk_light_samples :
  forall (G : Type) (NI : NumInf R) (rand2 : G -> (R * R) * G) to32 sortSlice b diam center l,
    0 <= diam -> diskLight to32 sortSlice b diam center = Val l ->
    forall target (c c' : ctx R G) u v, generate2 rand2 c = Val ((u, v), c') -> 0 <= v <= 1 ->
    exists p k, lightSample rand2 l target c = Val ((p, scaled (k * (PI * (diam / 2) ^ 2)) b), c') /\
      vy p = vy center + tinyR /\ (vx p - vx center) ^ 2 + (vz p - vz center) ^ 2 = v * (diam / 2) ^ 2 /\
      0 <= k /\ (vy p <= vy target -> k = 0) /\
      (vy target < vy p -> k = (vy p - vy target) / dist target p / (PI * (dist target p * dist target p))).
Proof. exact @disk_light. Qed.
Print Assumptions C53_disk_light_samples.

(** such lights exist; below the middle of one the intensity is positive (double precision) *)
Example C53_example :
  match rectangleLight to32b (fun _ l => l) grey (nofZ 2) (nofZ 2) (Vec (nofZ 0) (nofZ 3) (nofZ 0)) with
  | Val l => match lightSample toyRand l vO (withDepth toyCtx 1) with
             | Val ((_, col), _) => nltb (nofZ 0) (cR col)
             | _ => false end
  | _ => false end = true.
Proof. vm_compute. reflexivity. Qed.

(** ** C54 *)
Theorem C54_fog_length_is_never_negative :
  forall (height tMax : b64) (q : ray b64),
    nleb (nofZ 0) (nsub (snd (fogInterval height tMax q)) (fst (fogInterval height tMax q))) = true.
Proof. exact fog_assertion. Qed.
Print Assumptions C54_fog_length_is_never_negative.

(** the model writes the division of a height by zero in expfog.go as three cases *)
Theorem C54_division_by_zero :
  forall x : b64, over0 x = ndiv x (nofZ 0).
Proof. exact over0_div. Qed.
Print Assumptions C54_division_by_zero.
Theorem C54_exponential_fog_never_panics :
  forall (TF : Trig b64) (G : Type) (rand2 : G -> (b64 * b64) * G) s density ambient height r tMax orig (c : ctx b64 G) q,
    cDepth c <> 0%Z -> nth_error (cHeap c) r = Some q ->
    exists b, mediumFilter rand2 s (MedExpFog density ambient height) r tMax orig c = Val (b, c).
Proof. exact (fun TF G rand2 s density ambient height r tMax orig c q => expfog_never_panics TF rand2 s density ambient height r tMax orig c q). Qed.
Print Assumptions C54_exponential_fog_never_panics.

Theorem C54_fog_blends :
  forall (G : Type) (NI : NumInf R) (rand2 : G -> (R * R) * G) s density ambient height r tMax orig (c c' : ctx R G) b,
    0 <= density -> mediumFilter rand2 s (MedExpFog density ambient height) r tMax orig c = Val (b, c') ->
    c' = c /\ exists k, 0 <= k <= 1 /\
      cR b = k * cR orig + (1 - k) * cR ambient /\ cG b = k * cG orig + (1 - k) * cG ambient /\ cB b = k * cB orig + (1 - k) * cB ambient /\
      (cDepth c <> 1%Z -> k = 1) /\
      (forall q, cDepth c = 1%Z -> nth_error (cHeap c) r = Some q ->
         k = exp (- ((snd (fogInterval height tMax q) - fst (fogInterval height tMax q)) * density))).
Proof. exact @expfog_blend. Qed.
Print Assumptions C54_fog_blends.

(** a NaN direction and an infinite distance *)
Example C54_example :
  match mediumFilter toyRand (toyScene 1) (MedExpFog (nofZ 1) grey (nofZ 1)) 0 ninf grey
      (Ctx 1 (newCtxSeq nil) 0%Z nil [Ray vO (Vec (nofZ 0) (ndiv (nofZ 0) (nofZ 0)) (nofZ 1))] 0) with
  | Val (b, _) => neqb (cR b) (nQ 1 2)
  | _ => false end = true.
Proof. vm_compute. reflexivity. Qed.

(** ** C55: horizontal rays below the ceiling see no fog at all *)
Theorem C55_horizontal_rays_see_no_fog_refuted :
  forall height (q : ray R) tMax, vy (rDir q) = 0 -> vy (rStart q) < height -> 0 < tMax ->
    fogInterval (XF height) (XF tMax) (xray (rStart q) (rDir q)) = (XF 0, XF 0) /\
    forall t, 0 < t < tMax -> vy (along (rStart q) (rDir q) t) < height.
Proof. exact horizontal_fog. Qed.
Print Assumptions C55_horizontal_rays_see_no_fog_refuted.

Theorem C55_fog_interval_is_the_part_below_the_ceiling_partial :
  forall height (q : ray R) (tMax : xr) (t : R), vy (rDir q) <> 0 -> xnan tMax = false ->
    let '(x, y) := fogInterval (XF height) tMax (xray (rStart q) (rDir q)) in
    (xltb x (XF t) = true /\ xltb (XF t) y = true) <-> (0 < t /\ xltb (XF t) tMax = true /\ vy (along (rStart q) (rDir q) t) < height).
Proof. exact fog_interval_geometric. Qed.
Print Assumptions C55_fog_interval_is_the_part_below_the_ceiling_partial.

Theorem C55_fog_interval_ends_in_order_partial :
  forall height (q : ray R) (tMax : xr), vy (rDir q) <> 0 -> xnan tMax = false ->
    exists a, fst (fogInterval (XF height) tMax (xray (rStart q) (rDir q))) = XF a /\ 0 <= a /\
      (snd (fogInterval (XF height) tMax (xray (rStart q) (rDir q))) = XP \/
       exists b, snd (fogInterval (XF height) tMax (xray (rStart q) (rDir q))) = XF b /\ a <= b).
Proof. exact fog_interval_ends. Qed.
Print Assumptions C55_fog_interval_ends_in_order_partial.

(** double precision: looking along the ground below a ceiling at 2 for a distance of 10, and the same ray tilted up *)
Example C55_example :
  let i y := fogInterval (nofZ 2) (nofZ 10) (Ray vO (Vec (nofZ 1) y (nofZ 0)) : ray b64) in
  (neqb (fst (i (nofZ 0))) (snd (i (nofZ 0))) && neqb (snd (i (nofZ 1))) (nofZ 2) && neqb (fst (i (nofZ 1))) (nofZ 0))%bool = true.
Proof. vm_compute. reflexivity. Qed.

(** ** C56 *)
Theorem C56_scattering_position_is_the_exact_quantile :
  forall u density mx, 0 <= u < 1 -> 0 < density -> 0 < mx ->
    let '(t, weight) := randExpInterval (F:=R) u density mx in
    0 <= t < mx /\ (1 - exp (- density * t)) / (1 - exp (- density * mx)) = u /\ weight = 1 - exp (- density * mx).
Proof. exact scatter_spec. Qed.
Print Assumptions C56_scattering_position_is_the_exact_quantile.

Example C56_example : fst (randExpInterval (F:=R) 0 3 2) = 0.
Proof.
  unfold randExpInterval. rnum. cbn [fst].
  match goal with |- _ * ln ?x = _ => replace x with 1 by (field; assert (H := exp_neg_lt1 6 ltac:(lra)); replace (- (3) * 2) with (- (6)) by ring; lra) end.
  rewrite ln_1. ring.
Qed.

(** ** C80: a negative recursion depth never stops *)
Theorem C80_negative_depth_never_stops_refuted :
  forall (TF : Trig b64) (G : Type) (rand2 : G -> (b64 * b64) * G) fuel w r (c : ctx b64 G),
    (0 <= cDepth c)%Z -> pool_ok c -> in_use c r -> lightField rand2 fuel mirrorWorld w r c = NoFuel.
Proof. exact (fun TF G rand2 fuel w r c => negative_depth rand2 fuel w r c). Qed.
Print Assumptions C80_negative_depth_never_stops_refuted.

Theorem C80_other_depths_stop_partial :
  forall (F : Type) (NF : Num F) (NI : NumInf F) (TF : Trig F) (G : Type) (rand2 : G -> (F * F) * G) (s : scene F) w r (c : ctx F G),
    restoring s -> finishing s -> seq_finishing (cSeq c) -> pool_ok c -> in_use c r -> (cDepth c <= sRecursionDepth s)%Z ->
    exists fuel, lightField rand2 fuel s w r c <> NoFuel.
Proof. exact @eval_stops. Qed.
Print Assumptions C80_other_depths_stop_partial.

Example C80_example : lightField toyRand 30 mirrorWorld All 0 toyCtx = NoFuel /\ pool_ok toyCtx /\ in_use toyCtx 0.
Proof. split; [vm_compute; reflexivity|]. split; [split; [constructor|intros i []]|split; [cbn; lia|intros []]]. Qed.

(** ** C81 *)
Theorem C81_isometric_camera_rays :
  forall (G : Type) (NI : NumInf R) (rand2 : G -> (R * R) * G) dir size, (0 <= dir <= 2)%Z ->
    exists cam, isometric dir size = Val cam /\ forall u v (c : ctx R G), pool_ok c ->
      let '(rt, up, back) := iso_frame dir in
      shoots rand2 cam u v c (Ray (plus3 (plus3 (scal3 ((u - / 2) * size) rt) (scal3 ((v - / 2) * size) up)) (scal3 4096 back)) (scal3 (-1) back)).
Proof. exact @iso_rays. Qed.
Print Assumptions C81_isometric_camera_rays.

Theorem C81_isometric_frames_are_right_handed :
  forall dir, (0 <= dir <= 2)%Z -> let '(rt, up, back) := iso_frame dir in
    cross3 rt up = back /\ norm2 rt = 1 /\ norm2 up = 1 /\ norm2 back = 1.
Proof. exact iso_frames. Qed.
Print Assumptions C81_isometric_frames_are_right_handed.

Example C81_example : iso_frame 1 = (Vec 1 0 0, Vec 0 0 (-1), Vec 0 1 0).
Proof. reflexivity. Qed.

(** ** C82: what an evaluation means *)
Theorem C82_evaluation_is_the_light_along_the_ray :
  forall (G : Type) (NI : NumInf R) (rand2 : G -> (R * R) * G) (s : scene R),
    0 < ninf -> (forall o, In o (all_objects s) -> sound_object o) -> sMedia s = nil ->
    forall fuel w r q (c : ctx R G), (0 <= cDepth c <= sRecursionDepth s)%Z ->
      (Z.to_nat (sRecursionDepth s - cDepth c) < fuel)%nat ->
      pool_ok c -> in_use c r -> random_ok rand2 (cSeq c) -> nth_error (cHeap c) r = Some q -> norm2 (rDir q) = 1 ->
      exists col c', lightField rand2 fuel s w r c = Val (col, c') /\
        light_at rand2 s (cSeq c) (Z.to_nat (sRecursionDepth s - cDepth c)) w q col /\ same_rays c c' /\ cDepth c' = cDepth c.
Proof. exact @evaluation_meaning. Qed.
Print Assumptions C82_evaluation_is_the_light_along_the_ray.

Theorem C82_contexts_of_the_sampler_qualify :
  forall (G : Type) (rand2 : G -> (R * R) * G) shifts pixel pass (q : ctxseq R),
    (forall g, 0 <= fst (fst (rand2 g)) <= 1 /\ 0 <= snd (fst (rand2 g)) <= 1) -> (0 <= pass)%Z ->
    ctxseq_init (newCtxSeq shifts) pixel pass = Val q -> random_ok rand2 q.
Proof. exact @init_random. Qed.
Print Assumptions C82_contexts_of_the_sampler_qualify.

(** balls and backdrops are sound objects *)
Theorem C82_balls_and_backdrops_qualify :
  forall (NI : NumInf R),
  (forall m, (forall p, definite p m) -> sound_object (backdrop (Some m))) /\
  (forall m diam center, 0 < diam -> (forall p, definite p m) -> sound_object (sphere (Some m) diam center)).
Proof. exact sound_balls. Qed.
Print Assumptions C82_balls_and_backdrops_qualify.

(** a mirror in an evenly lit world: what the relation says about it *)
Example C82_example : forall (NI : NumInf R) (rand2 : unit -> (R * R) * unit), 10 ^ 99 <= ninf ->
  forall sq col, light_at rand2 (newScene 2 nil nil [backdrop (Some (MReflective (Color 1 0 (/ 2))))]) sq 1 All (Ray zero3 (Vec 0 0 1)) col ->
  col = Color 0 0 0.
Proof. exact mirror_one. Qed.

(** ** C83: direct light on a matte surface *)
Theorem C83_direct_light_is_lambertian :
  forall (G : Type) (NI : NumInf R) (rand2 : G -> (R * R) * G) (here : ctx R G -> Prop) (s : scene R) (L : who -> ray R -> color R -> Prop) p d n t local tex col,
    looks rand2 here (sObjects s) (sLights s) L p d n t local (MMatte tex) col ->
    exists refl m total c c' x y w b, tex local = Val refl /\ facing d n m /\
      here c /\ generate2 rand2 c = Val ((x, y), c') /\ w = cosineSphere x y m /\
      direct rand2 here (sObjects s) (plus3 (along p d t) (scal3 tinyR m)) m (sLights s) total /\
      norm2 w = 1 /\ 0 <= dot3 w m /\ L MinusLights (Ray (plus3 (along p d t) (scal3 (2 * tinyR) m)) w) b /\
      col = mul_color (add_color total b) refl.
Proof. exact @matte_looks. Qed.
Print Assumptions C83_direct_light_is_lambertian.

Theorem C83_unshadowed_point_light :
  forall (G : Type) (NI : NumInf R) (rand2 : G -> (R * R) * G) here objs power pos p n hits col,
    p <> pos -> hits_of objs (Ray p (unit_of (minus3 pos p))) hits ->
    (forall h, In h hits -> ~ between (dist pos p) h) -> 0 < dot3 (unit_of (minus3 pos p)) n ->
    contribution rand2 here objs p n (pointLight power pos) col ->
    col = scaled (dot3 (unit_of (minus3 pos p)) n / (4 * PI * (dist p pos * dist p pos))) power.
Proof. exact @lambert_point. Qed.
Print Assumptions C83_unshadowed_point_light.

(** light at height 2 straight above: cosine 1 *)
Example C83_example : dot3 (unit_of (minus3 (Vec 0 2 0) zero3)) (Vec 0 1 0) = 1.
Proof.
  assert (N : norm (minus3 (Vec 0 2 0) zero3) = 2) by (apply norm_sq_eq; [lra|]; unfold norm2, dot3, minus3, zero3; cbn [vx vy vz]; ring).
  unfold unit_of. rewrite N. unfold dot3, scal3, minus3, zero3; cbn [vx vy vz]. field.
Qed.

(** ** C84 *)
Theorem C84_sunlight :
  forall (G : Type) (NI : NumInf R) (rand2 : G -> (R * R) * G) to32 sortSlice b ad yw pt l target (c c' : ctx R G) u v,
    0 < ad -> sunLight to32 sortSlice b ad yw pt = Val l -> generate2 rand2 c = Val ((u, v), c') -> 0 <= v <= 1 ->
    exists off, let r := 10 ^ 6 in
      let pos := plus3 (scal3 (r + tinyR) (sun_dir yw pt)) off in
      dot3 off (sun_dir yw pt) = 0 /\ norm off <= ad * r / 2 /\
      (dot3 target (sun_dir yw pt) < r + tinyR ->
       lightSample rand2 l target c =
        Val ((pos, scaled (r * r * (r + tinyR - dot3 target (sun_dir yw pt)) / (dist target pos * dist target pos * dist target pos)) b), c')).
Proof. exact @sun_sample. Qed.
Print Assumptions C84_sunlight.

(** suns exist (double precision) *)
Example C84_example :
  match sunLight to32b (fun _ l => l) grey (nQ 1 100) (nQ 1 2) (nQ 1 2) with Val (LTransformed _ _ _ _) => true | _ => false end = true.
Proof. vm_compute. reflexivity. Qed.

(** ** C85: a ray past the members of a tree crashes the renderer *)
Theorem C85_phantom_hit_panics_refuted :
  forall (TF : Trig b64) (G : Type) (rand2 : G -> (b64 * b64) * G) sortSlice (m : option (material b64)),
    exists o, tree to32b sortSlice [ball m] = Val o /\
      forall fuel rd media r (c : ctx b64 G), (0 <= cDepth c < rd)%Z -> nth_error (cHeap c) r = Some cornerRay ->
        lightField rand2 (S fuel) (newScene rd media nil [o]) All r c = Panic.
Proof. exact (fun TF G rand2 sortSlice m => phantom_crash rand2 sortSlice m). Qed.
Print Assumptions C85_phantom_hit_panics_refuted.

(** objects whose hits have a normal and a material are rendered without panic (C82) *)
Theorem C85_sound_scenes_never_panic_partial :
  forall (G : Type) (NI : NumInf R) (rand2 : G -> (R * R) * G) (s : scene R),
    0 < ninf -> (forall o, In o (all_objects s) -> sound_object o) -> sMedia s = nil ->
    forall fuel w r q (c : ctx R G), (0 <= cDepth c <= sRecursionDepth s)%Z ->
      (Z.to_nat (sRecursionDepth s - cDepth c) < fuel)%nat ->
      pool_ok c -> in_use c r -> random_ok rand2 (cSeq c) -> nth_error (cHeap c) r = Some q -> norm2 (rDir q) = 1 ->
      lightField rand2 fuel s w r c <> Panic.
Proof. exact @evaluation_safe. Qed.
Print Assumptions C85_sound_scenes_never_panic_partial.

Example C85_example : match tree to32b (fun _ l => l) [ball (Some (MFlat (fun _ => Val grey)))] with
  | Val o => match lightField toyRand 2 (newScene 1 nil nil [o]) All 0 (Ctx 0 (newCtxSeq nil) 0%Z nil [cornerRay] 0) with Panic => true | _ => false end
  | _ => false end = true.
Proof. vm_compute. reflexivity. Qed.
