(** * C107-C110: what a rendering tends to as passes are added *)
From Coq Require Import ZArith Reals List Lia Lra.
From Verif Require Import Num Outcome GeomModel GeomSpec ColorModel SeqModel SeqSpec SamplerModel SamplerSpec ObjModel TreeModel ObjSpec SceneModel SceneSpec LookSpec
  RenderModel RenderSpec EquiSpec EquiIntSpec EquiProofs EquiMean EquiInt DiffuseSpec LimitSpec LimitProofs PrimProofs LimitFacts.
Import ListNotations.
Local Open Scope R_scope.

(** ** C107: the numbers of the passes fill the cube evenly *)
Theorem C107_the_first_two_surfaces_get_even_numbers_jointly :
  forall shifts pixel (q : nat -> ctxseq R) (x : nat -> list R),
    (forall k, ctxseq_init (newCtxSeq shifts) pixel (Z.of_nat k) = Val (q k)) -> (forall k, gives (q k) (x k)) -> equidistributed 4 x.
Proof. exact passes_even. Qed.
Print Assumptions C107_the_first_two_surfaces_get_even_numbers_jointly.

(** the numbers are there for every pixel and pass *)
Theorem C107_every_pixel_has_its_numbers :
  forall (shifts : list (R * R)) pixel, (pixel < length shifts)%nat -> exists (q : nat -> ctxseq R) (x : nat -> list R),
    forall k, ctxseq_init (newCtxSeq shifts) pixel (Z.of_nat k) = Val (q k) /\ gives (q k) (x k) /\ in_unit_cube (x k).
Proof. exact gives_even. Qed.
Print Assumptions C107_every_pixel_has_its_numbers.

(** any two coprime bases, any shifts *)
Theorem C107_coprime_bases_fill_the_square_evenly :
  forall b1 b2 shifts pixel (s : nat -> hseq R) (x : nat -> list R), (2 <= b1)%Z -> (2 <= b2)%Z -> Z.gcd b1 b2 = 1%Z ->
    (forall k, hseq_init (newHalton b1 b2 shifts) pixel (Z.of_nat k) = Val (s k)) ->
    (forall k, exists u v, hseq_generate2 (s k) = Val (u, v) /\ x k = [u; v]) -> equidistributed 2 x.
Proof. exact pair_even. Qed.
Print Assumptions C107_coprime_bases_fill_the_square_evenly.

(** cut the cube in n^d cells: each gets its share of the passes *)
Theorem C107_every_cell_gets_its_share :
  forall n d c chi x, (0 < n)%Z -> length c = d -> Forall (fun a => 0 <= a < n)%Z c -> equidistributed d x ->
    (forall x, in_cell n c x -> chi x = 1) -> (forall x, ~ in_cell n c x -> chi x = 0) ->
    Un_cv (running_mean (fun k => chi (x k))) (/ IZR n ^ d).
Proof. exact (fun n d c chi x Hn Hl Hb Hx H1 H0 => Hx chi _ (cell_integral n d c chi Hn Hl Hb H1 H0)). Qed.
Print Assumptions C107_every_cell_gets_its_share.

Example C107_example : forall (q : nat -> ctxseq R) (x : nat -> list R),
  (forall k, ctxseq_init (newCtxSeq [(/ 3, sqrt 2 - 1)]) 0 (Z.of_nat k) = Val (q k)) -> (forall k, gives (q k) (x k)) ->
  Un_cv (running_mean (fun k => match x k with u :: _ => if Rlt_dec u (/ 2) then 1 else 0 | nil => 0 end)) (/ 2).
Proof. exact (fun q x Hq Hx => passes_even _ _ q x Hq Hx _ _ half_integral). Qed.

(** ** C108: pixels tend to the integral of the samples *)
Theorem C108_pixels_tend_to_the_integral :
  forall (G : Type) (NI : NumInf R) (rand2 : G -> (R * R) * G) fuel (s : scene R) (cam : camera R) aa shifts w h (m : nat -> mem R) p q0 x y f I,
    (0 <= w)%Z -> (0 <= h)%Z -> Z.of_nat (length shifts) = (w * h)%Z -> in_image w h p ->
    sample_pos aa shifts w h p 0 = Val (q0, (x, y)) -> sample_function rand2 fuel s cam x y f -> color_integral 4 f I ->
    renderings rand2 fuel s cam aa shifts w h m -> tends_to (fun n => imagef (m n) p) I.
Proof. exact @pixel_limit. Qed.
Print Assumptions C108_pixels_tend_to_the_integral.

(** two surfaces deep, the samples are such a function, and its values are the light seen *)
Theorem C108_samples_are_a_function_of_the_numbers :
  forall (G : Type) (NI : NumInf R) (rand2 : G -> (R * R) * G) fuel (s : scene R) (cam : camera R) (g : G) x y,
    0 < ninf -> (forall o, In o (all_objects s) -> sound_object o) -> sMedia s = nil ->
    unit_camera rand2 cam -> lensless cam -> (0 <= sRecursionDepth s <= 2)%Z -> (Z.to_nat (sRecursionDepth s) < fuel)%nat ->
    (forall g, 0 <= fst (fst (rand2 g)) <= 1 /\ 0 <= snd (fst (rand2 g)) <= 1) ->
    exists f, sample_function rand2 fuel s cam x y f /\
      forall l, length l = 4%nat -> in_unit_cube l -> exists q, gives q l /\ seen rand2 s cam q x y (f l).
Proof. exact @sample_function_exists. Qed.
Print Assumptions C108_samples_are_a_function_of_the_numbers.

(** continuous functions have the integral of calculus *)
Theorem C108_continuous_functions_have_iterated_integrals :
  forall d f, continuous_on_cube d f -> cube_integral d f (iterated d f).
Proof. exact continuous_integral. Qed.
Print Assumptions C108_continuous_functions_have_iterated_integrals.

(** a jump is no obstacle *)
Example C108_example : cube_integral 4 (fun l => match l with u :: _ => if Rlt_dec u (/ 2) then 1 else 0 | nil => 0 end) (/ 2).
Proof. exact half_integral. Qed.

(** ** C109: scattered directions follow the cosine law, lens points are uniform *)
Theorem C109_scattered_directions_follow_the_cosine_law :
  forall x L ex ey n, equidistributed 2 x -> orthonormal ex ey n -> continuous_light L ->
    Un_cv (running_mean (fun k => match x k with [u; v] => L (cosineSphere u v n) | _ => 0 end)) (cosine_average ex ey n L).
Proof. exact cosine_law. Qed.
Print Assumptions C109_scattered_directions_follow_the_cosine_law.

Theorem C109_disk_points_are_uniform :
  forall x f, equidistributed 2 x -> continuous_on_disk f ->
    Un_cv (running_mean (fun k => match x k with [u; v] => let '(a, b) := uniformDisk u v in f a b | _ => 0 end)) (disk_average f).
Proof. exact disk_law. Qed.
Print Assumptions C109_disk_points_are_uniform.

(** light that grows along b: two thirds of the growth along the normal arrive *)
Example C109_example : forall x ex ey n a b, equidistributed 2 x -> orthonormal ex ey n ->
  Un_cv (running_mean (fun k => match x k with [u; v] => a + dot3 b (cosineSphere u v n) | _ => 0 end)) (a + 2 / 3 * dot3 b n).
Proof.
  intros x ex ey n a b Hx HF. rewrite <- (affine_average ex ey n a b).
  exact (cosine_law x (fun w => a + dot3 b w) ex ey n Hx HF (affine_continuous a b)).
Qed.

(** ** C110: matte surfaces show the light of the hemisphere above them *)
Theorem C110_matte_surfaces_tend_to_the_cosine_average :
  forall (G : Type) (NI : NumInf R) (rand2 : G -> (R * R) * G) fuel (s : scene R) (cam : camera R) aa shifts w h (m : nat -> mem R) p q0 x y Q hits ht tex refl n ex ey
    (L : pt -> color R) (g : G),
    0 < ninf -> (forall o, In o (all_objects s) -> sound_object o) -> sMedia s = nil -> sLights s = nil -> sRecursionDepth s = 2%Z -> (2 < fuel)%nat ->
    unit_camera rand2 cam -> lensless cam -> (forall g, 0 <= fst (fst (rand2 g)) <= 1 /\ 0 <= snd (fst (rand2 g)) <= 1) ->
    (0 <= w)%Z -> (0 <= h)%Z -> Z.of_nat (length shifts) = (w * h)%Z -> in_image w h p -> sample_pos aa shifts w h p 0 = Val (q0, (x, y)) ->
    renderings rand2 fuel s cam aa shifts w h m ->
    (forall (c : ctx R G) r, pool_ok c -> shoots rand2 cam x y c r -> r = Q) ->
    hits_of (sObjectsAndLights s) Q hits -> last_nearest hits ht -> hT ht <= ninf -> hMat ht = Some (MMatte tex) -> tex (hLocal ht) = Val refl ->
    facing (rDir Q) (unit_of (hNormal ht)) n -> orthonormal ex ey n ->
    continuous_light (fun w => cR (L w)) -> continuous_light (fun w => cG (L w)) -> continuous_light (fun w => cB (L w)) ->
    (forall w sq b, norm2 w = 1 -> 0 <= dot3 w n ->
      light_at rand2 s sq 1 MinusLights (Ray (plus3 (along (rStart Q) (rDir Q) (hT ht)) (scal3 (2 * tinyR) n)) w) b -> b = L w) ->
    tends_to (fun k => imagef (m k) p)
      (Color (cosine_average ex ey n (fun w => cR (L w)) * cR refl) (cosine_average ex ey n (fun w => cG (L w)) * cG refl)
             (cosine_average ex ey n (fun w => cB (L w)) * cB refl)).
Proof. exact @matte_limit. Qed.
Print Assumptions C110_matte_surfaces_tend_to_the_cosine_average.

(** a ball of any place and size under any continuous sky, seen from outside *)
Theorem C110_balls_under_the_sky :
  forall (G : Type) (NI : NumInf R) (rand2 : G -> (R * R) * G), 10 ^ 99 <= ninf ->
  forall (tex sky : texture R) (diam : R) (center : pt), 0 < diam -> (forall p, exists c, tex p = Val c) ->
  forall L : pt -> color R, (forall w, sky w = Val (L w)) ->
  forall fuel cam aa shifts w h (m : nat -> mem R) p q0 x y S D t n refl ex ey (g : G),
    (2 < fuel)%nat -> unit_camera rand2 cam -> lensless cam -> (forall g, 0 <= fst (fst (rand2 g)) <= 1 /\ 0 <= snd (fst (rand2 g)) <= 1) ->
    (0 <= w)%Z -> (0 <= h)%Z -> Z.of_nat (length shifts) = (w * h)%Z -> in_image w h p -> sample_pos aa shifts w h p 0 = Val (q0, (x, y)) ->
    renderings rand2 fuel (newScene 2 nil nil [sphere (Some (MMatte tex)) diam center; backdrop (Some (MFlat sky))]) cam aa shifts w h m ->
    (forall (c : ctx R G) r, pool_ok c -> shoots rand2 cam x y c r -> r = Ray S D) -> norm2 D = 1 ->
    (diam / 2)² < norm2 (minus3 S center) -> 0 < t < 10 ^ 99 -> along S D t = plus3 center (scal3 (diam / 2) n) -> norm2 n = 1 ->
    (forall t', 0 < t' < t -> norm2 (minus3 (along S D t') center) <> (diam / 2)²) ->
    tex (scal3 (diam / 2) n) = Val refl -> orthonormal ex ey n ->
    continuous_light (fun w => cR (L w)) -> continuous_light (fun w => cG (L w)) -> continuous_light (fun w => cB (L w)) ->
    tends_to (fun k => imagef (m k) p)
      (Color (cosine_average ex ey n (fun w => cR (L w)) * cR refl) (cosine_average ex ey n (fun w => cG (L w)) * cG refl)
             (cosine_average ex ey n (fun w => cB (L w)) * cB refl)).
Proof. exact @ball_limit. Qed.
Print Assumptions C110_balls_under_the_sky.

Example C110_example : forall (NI : NumInf R) (rand2 : unit -> (R * R) * unit) fov cam su sv m, 10 ^ 99 <= ninf ->
  (forall g, 0 <= fst (fst (rand2 g)) <= 1 /\ 0 <= snd (fst (rand2 g)) <= 1) -> 0 < fov < PI -> projective fov = Val cam ->
  renderings rand2 3 (newScene 2 nil nil [sphere (Some (MMatte (fun _ => Val (Color 1 (/ 2) 0)))) 2 (Vec 0 0 (-3)); backdrop (Some (MFlat (fun w => Val (frontSky w))))])
    cam false [(su, sv)] 1 1 m ->
  tends_to (fun k => imagef (m k) (0, 0)%Z) (Color (5 / 6) (5 / 12) 0).
Proof. exact ball_example. Qed.
