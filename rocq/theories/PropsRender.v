(** * Properties C104-C106, and C13, C79 for scenes: whole renderings *)
From Coq Require Import ZArith Reals Bool List Lra Lia.
From Verif Require Import Num NumLaws Outcome B64 GeomModel GeomSpec ColorModel SeqModel SeqSpec SamplerModel SamplerSpec SamplerProofs PoolProofs SamplerNum SamplerFacts
  ObjModel TreeModel ObjSpec SceneModel SceneSpec LookSpec SceneFacts SceneMore RenderModel RenderSpec RenderProofs RenderFacts.
Import ListNotations.
Local Open Scope R_scope.
(** the sine and cosine of the examples *)
#[local] Existing Instance toyTrig.

(** ** C104: what a sample depends on *)
(** not on the recycled rays, their contents, or the ray count; of the sequences, on the numbers for the first two surfaces only *)
Theorem C104_a_sample_depends_on_sequences_and_generator_only :
  forall (F G : Type) (NF : Num F) (NI : NumInf F) (TF : Trig F) (rand2 : G -> (F * F) * G) fuel (s : scene F) (cam : camera F) u v (c1 c2 : ctx F G),
    idle_ctx c1 -> idle_ctx c2 -> same_numbers (cSeq c1) (cSeq c2) -> cRng c1 = cRng c2 ->
    same_result (imageFuncOf rand2 fuel s cam u v c1) (imageFuncOf rand2 fuel s cam u v c2) /\
    (forall x1 d1 x2 d2, imageFuncOf rand2 fuel s cam u v c1 = Val (x1, d1) -> imageFuncOf rand2 fuel s cam u v c2 = Val (x2, d2) ->
      cRng d1 = cRng d2 /\ idle_ctx d1).
Proof. exact @sample_pure. Qed.
Print Assumptions C104_a_sample_depends_on_sequences_and_generator_only.

(** two surfaces deep, not on the time-seeded generator either *)
Theorem C104_a_shallow_sample_uses_no_generator :
  forall (F G : Type) (NF : Num F) (NI : NumInf F) (TF : Trig F) (rand2 : G -> (F * F) * G) fuel (s : scene F) (cam : camera F) u v (c1 c2 : ctx F G),
    (0 <= sRecursionDepth s <= 2)%Z -> lensless cam ->
    idle_ctx c1 -> idle_ctx c2 -> same_numbers (cSeq c1) (cSeq c2) ->
    same_result (imageFuncOf rand2 fuel s cam u v c1) (imageFuncOf rand2 fuel s cam u v c2).
Proof. exact @sample_shallow. Qed.
Print Assumptions C104_a_shallow_sample_uses_no_generator.

(** a lit matte ball seen from two contexts: one has two recycled rays, the other a ray in use and another generator *)
Definition usedCtx (g : b64) : ctx b64 (b64 * b64) :=
  Ctx 0 (newCtxSeq [(nQ 1 3, nQ 2 3)]) (g, g) [1; 0]%nat [Ray vO vO; Ray (Vec g g g) (Vec g g g)] 5.
Definition otherCtx (g : b64) : ctx b64 (b64 * b64) := Ctx 0 (newCtxSeq [(nQ 1 3, nQ 2 3)]) (g, g) nil [zeroRay] 0.
Example C104_example :
  idle_ctx (usedCtx (nQ 1 4)) /\ idle_ctx (otherCtx (nQ 1 2)) /\
  match imageFuncOf stuck 3 (toyScene 2) frontCam (nQ 1 2) (nQ 1 2) (usedCtx (nQ 1 4)),
        imageFuncOf stuck 3 (toyScene 2) frontCam (nQ 1 2) (nQ 1 2) (otherCtx (nQ 1 2)) with
  | Val (x, _), Val (y, _) => nltb (nofZ 0) (cR x) && neqb (cR x) (cR y)
  | _, _ => false end = true.
Proof.
  split; [|split; [|vm_compute; reflexivity]].
  - split; [split|reflexivity]; cbn; [repeat constructor; cbn; intuition discriminate|]. intros i [<-|[<-|[]]]; lia.
  - split; [split|reflexivity]; cbn; [constructor|intros i []].
Qed.

(** ** C13 for scenes that use random numbers: any scene, camera, schedule, number of workers and generators *)
Theorem C13_scenes_render_without_races_or_gaps :
  forall (G : Type) (NI : NumInf b64) (TF : Trig b64) (rand2 : G -> (b64 * b64) * G) fuel (s : scene b64) (cam : camera b64)
      (aa : bool) (shifts : list (b64 * b64)) (w h : Z) (n : nat) (m : mem b64) (rngs : list G) (q : list tile),
    (0 <= w <= 2 ^ 53)%Z -> (0 <= h <= 2 ^ 53)%Z -> Z.of_nat (length shifts) = (w * h)%Z ->
    rngs <> nil -> tessellate w h 16 = Val q ->
    exists bound, forall k st, steps (sceneFunc rand2 fuel s cam) aa w h n k (initSys shifts (map (freshCtx shifts) rngs) q m) st ->
      (k <= bound)%nat /\
      (forall ws1 x ws2 y ws3 p, sWorkers st = ws1 ++ x :: ws2 ++ y :: ws3 -> pending x = Some p -> pending y <> Some p) /\
      (forall x p, In x (sWorkers st) -> pending x = Some p -> in_image w h p) /\
      (forall x, In x (sWorkers st) -> ~ crashed x) /\
      ((forall st', ~ step (sceneFunc rand2 fuel s cam) aa w h n st st') -> finished st) /\
      (finished st -> sQueue st = nil /\ forall p,
        if in_imageb w h p then aN (acc_at (sMem st) p) = (aN (acc_at m p) + Z.of_nat n)%Z else acc_at (sMem st) p = acc_at m p).
Proof.
  exact (fun G NI TF rand2 fuel s cam aa shifts w h n m rngs q Hw Hh Hs =>
    scene_schedules rand2 fuel s cam aa shifts w h (proj1 Hw) (proj1 Hh)
      (fun p k => sample_pos_b64 aa shifts w h p k (proj2 Hw) (proj2 Hh) Hs) n m rngs q).
Qed.
Print Assumptions C13_scenes_render_without_races_or_gaps.

(** ** C79 for scenes *)
(** false at recursion depth 3: two renderings of the same scene by one worker, differing in the time-seeded generator *)
Theorem C79_deep_scenes_are_not_reproducible_refuted :
  exists s m1 m2, litScene = Val s /\
    renderCall stuck 5 s frontCam false dark 1 1 1 newMem m1 /\
    renderCall stuck 5 s frontCam false dark 1 1 1 newMem m2 /\
    nltb (nofZ 0) (cR (imagef m1 (0, 0)%Z)) = true /\ nltb (cR (imagef m1 (0, 0)%Z)) (cR (imagef m2 (0, 0)%Z)) = true.
Proof. exact deep_scenes_differ. Qed.
Print Assumptions C79_deep_scenes_are_not_reproducible_refuted.

(** up to recursion depth 2, without a lens: bit for bit the same, for any schedules, workers, generators and split into calls *)
Theorem C79_shallow_scenes_are_reproducible :
  forall (G : Type) (NI : NumInf b64) (TF : Trig b64) (rand2 : G -> (b64 * b64) * G) fuel (s : scene b64) (cam : camera b64)
      (aa : bool) (shifts : list (b64 * b64)) (w h : Z) (g0 : G) ns ns' m m1 m2,
    (0 <= w <= 2 ^ 53)%Z -> (0 <= h <= 2 ^ 53)%Z -> Z.of_nat (length shifts) = (w * h)%Z ->
    (0 <= sRecursionDepth s <= 2)%Z -> lensless cam ->
    Forall (fun n => 0 <= n)%Z ns -> Forall (fun n => 0 <= n)%Z ns' -> total ns = total ns' ->
    renderCalls rand2 fuel s cam aa shifts w h ns m m1 -> renderCalls rand2 fuel s cam aa shifts w h ns' m m2 ->
    forall p, acc_at m1 p = acc_at m2 p.
Proof.
  exact (fun G NI TF rand2 fuel s cam aa shifts w h g0 ns ns' m m1 m2 Hw Hh Hs =>
    renders_agree rand2 fuel s cam aa shifts w h (proj1 Hw) (proj1 Hh)
      (fun p k => sample_pos_b64 aa shifts w h p k (proj2 Hw) (proj2 Hh) Hs) g0 ns ns' m m1 m2).
Qed.
Print Assumptions C79_shallow_scenes_are_reproducible.

(** such renderings exist *)
Example C79_scene_example : exists m, renderCalls stuck 5 (toyScene 2) frontCam true [(nQ 1 3, nQ 2 3); (nofZ 0, nofZ 0)] 2 1 [1; 2]%Z newMem m /\
  lensless frontCam.
Proof.
  destruct (renders_exist stuck 5 (toyScene 2) frontCam true [(nQ 1 3, nQ 2 3); (nofZ 0, nofZ 0)] 2 1 ltac:(lia) ltac:(lia)
    (fun p k => sample_pos_b64 true [(nQ 1 3, nQ 2 3); (nofZ 0, nofZ 0)] 2 1 p k ltac:(lia) ltac:(lia) eq_refl) [1; 2]%Z (nofZ 0, nofZ 0) newMem) as (m & Hm).
  exists m. split; [exact Hm|exact I].
Qed.

(** ** C105: the finished image *)
Theorem C105_pixels_are_means_of_the_light_along_camera_rays :
  forall (G : Type) (NI : NumInf R) (rand2 : G -> (R * R) * G) fuel (s : scene R) (cam : camera R) aa shifts w h ns m,
    0 < ninf -> (forall o, In o (all_objects s) -> sound_object o) -> sMedia s = nil ->
    unit_camera rand2 cam -> (0 <= sRecursionDepth s)%Z -> (Z.to_nat (sRecursionDepth s) < fuel)%nat ->
    (forall g, 0 <= fst (fst (rand2 g)) <= 1 /\ 0 <= snd (fst (rand2 g)) <= 1) ->
    (0 <= w)%Z -> (0 <= h)%Z -> Z.of_nat (length shifts) = (w * h)%Z ->
    Forall (fun n => 0 <= n)%Z ns -> renderCalls rand2 fuel s cam aa shifts w h ns newMem m ->
    forall p, in_image w h p -> exists col : Z -> color R,
      (forall k, (0 <= k < total ns)%Z -> exists q x y, sample_pos aa shifts w h p k = Val (q, (x, y)) /\ seen rand2 s cam q x y (col k)) /\
      let l := first_samples col (Z.to_nat (total ns)) in
      imagef m p = Color (mean (map cR l)) (mean (map cG l)) (mean (map cB l)).
Proof. exact @render_means. Qed.
Print Assumptions C105_pixels_are_means_of_the_light_along_camera_rays.

Theorem C105_rendering_completes :
  forall (G : Type) (NI : NumInf R) (rand2 : G -> (R * R) * G) fuel (s : scene R) (cam : camera R) aa shifts w h (g : G) ns m,
    (0 <= w)%Z -> (0 <= h)%Z -> Z.of_nat (length shifts) = (w * h)%Z ->
    exists m', renderCalls rand2 fuel s cam aa shifts w h ns m m'.
Proof.
  exact (fun G NI rand2 fuel s cam aa shifts w h g ns m Hw Hh Hs =>
    renders_exist rand2 fuel s cam aa shifts w h Hw Hh (fun p k => sample_pos_R aa shifts w h p k Hs) ns g m).
Qed.
Print Assumptions C105_rendering_completes.

(** all cameras of the package qualify, wherever they are moved and turned *)
Theorem C105_cameras_qualify :
  forall (G : Type) (NI : NumInf R) (rand2 : G -> (R * R) * G),
    (forall fov cam, 0 < fov < PI -> projective fov = Val cam -> unit_camera rand2 cam) /\
    (forall fov aperture fd cam, (forall g, 0 <= snd (fst (rand2 g)) <= 1) -> 0 < fov < PI -> 0 < aperture -> 0 < fd ->
      projectiveAperture fov aperture fd = Val cam -> unit_camera rand2 cam) /\
    unit_camera rand2 environmentMap /\
    (forall dir size cam, (0 <= dir <= 2)%Z -> isometric dir size = Val cam -> unit_camera rand2 cam) /\
    (forall cam ms, unit_camera rand2 cam -> unit_camera rand2 (fold_left call ms cam)).
Proof. exact @unit_cameras. Qed.
Print Assumptions C105_cameras_qualify.

(** an evenly lit world is evenly bright, whatever the camera, size and number of passes *)
Example C105_example : forall (NI : NumInf R) (rand2 : unit -> (R * R) * unit) cam aa shifts w h n m,
  10 ^ 99 <= ninf -> unit_camera rand2 cam ->
  (forall g, 0 <= fst (fst (rand2 g)) <= 1 /\ 0 <= snd (fst (rand2 g)) <= 1) ->
  (0 <= w)%Z -> (0 <= h)%Z -> Z.of_nat (length shifts) = (w * h)%Z -> (0 < n)%Z ->
  renderCalls rand2 2 (newScene 1 nil nil [backdrop (Some (MFlat (fun _ => Val (Color 1 0 (/ 2)))))]) cam aa shifts w h [n] newMem m ->
  forall p, in_image w h p -> imagef m p = Color 1 0 (/ 2).
Proof. exact even_world. Qed.

(** ** C106: no pixel is brighter than what emits *)
Theorem C106_pixels_are_no_brighter_than_the_emitters :
  forall (M : R) (G : Type) (NI : NumInf R) (rand2 : G -> (R * R) * G) fuel (s : scene R) (cam : camera R) aa shifts w h ns m,
    0 <= M -> sLights s = nil -> (forall mat, shown s mat -> passive M mat) -> (forall med, In med (sMedia s) -> passive_medium M med) ->
    (0 <= w)%Z -> (0 <= h)%Z -> Z.of_nat (length shifts) = (w * h)%Z ->
    Forall (fun n => 0 <= n)%Z ns -> (0 < total ns)%Z -> renderCalls rand2 fuel s cam aa shifts w h ns newMem m ->
    forall p, in_image w h p -> within M (imagef m p).
Proof. exact @render_energy. Qed.
Print Assumptions C106_pixels_are_no_brighter_than_the_emitters.

(** a half mirror, half grey ball in a white world *)
Example C106_example : forall (NI : NumInf R) (rand2 : unit -> (R * R) * unit) aa shifts w h m,
  Z.of_nat (length shifts) = (w * h)%Z -> (0 <= w)%Z -> (0 <= h)%Z ->
  renderCalls rand2 9 whiteRoom environmentMap aa shifts w h [4]%Z newMem m ->
  forall p, in_image w h p -> within 1 (imagef m p).
Proof.
  intros NI rand2 aa shifts w h m Hl Hw Hh H p Hp.
  refine (render_energy 1 rand2 9 whiteRoom environmentMap aa shifts w h [4]%Z m ltac:(lra) eq_refl whiteRoom_passive (fun _ F => match F with end) Hw Hh Hl _ _ H p Hp).
  - repeat constructor. lia.
  - reflexivity.
Qed.
