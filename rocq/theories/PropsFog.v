(** * C120-C121: what fog does to the light along a ray *)
From Coq Require Import ZArith Reals List.
From Coquelicot Require Import Coquelicot.
From Verif Require Import Num Outcome GeomModel GeomSpec ColorModel SeqModel SamplerModel SamplerSpec ObjModel TreeModel ObjSpec SceneModel SceneSpec LookSpec
  RenderModel RenderSpec EquiSpec EquiIntSpec LimitSpec FogSpec FogProofs FogLimit.
Import ListNotations.
Local Open Scope R_scope.

(** ** C120: the light of a foggy scene is the light of its surfaces, veiled *)
Theorem C120_fog_veils_the_light_of_surfaces :
  forall (G : Type) (NI : NumInf R) (rand2 : G -> (R * R) * G) (s : scene R) sq k fuel w i q (c : ctx R G),
    0 < ninf -> (forall o, In o (all_objects s) -> sound_object o) -> (forall l, In l (sLights s) -> honest_light l) ->
    List.Forall real_medium (sMedia s) -> (S k < fuel)%nat -> sRecursionDepth s = Z.of_nat (S k) ->
    pool_ok c -> in_use c i -> cDepth c = 0%Z -> cSeq c = sq -> random_ok rand2 sq -> nth_error (cHeap c) i = Some q -> norm2 (rDir q) = 1 ->
    exists col c' t orig, lightField rand2 fuel s w i c = Val (col, c') /\ surface_light rand2 s sq k w q t orig /\
      veils rand2 (drawing sq 1) s q t (sMedia s) orig col /\ same_rays c c' /\ cDepth c' = 0%Z /\ cSeq c' = sq.
Proof. exact @lightField_foggy. Qed.
Print Assumptions C120_fog_veils_the_light_of_surfaces.

(** the part of a ray below the ceiling is unique, up to where an empty part lies *)
Theorem C120_there_is_one_part_below_the_ceiling :
  forall height (q : ray R) T a b a' b', below height q T a b -> below height q T a' b' -> (a = b /\ a' = b') \/ (a = a' /\ b = b').
Proof. exact below_unique. Qed.
Print Assumptions C120_there_is_one_part_below_the_ceiling.

(** straight up through white fog, a blue sky *)
Example C120_example :
  forall (G : Type) (NI : NumInf R) (rand2 : G -> (R * R) * G) density i (c : ctx R G), 10 ^ 99 <= ninf ->
    pool_ok c -> in_use c i -> cDepth c = 0%Z -> random_ok rand2 (cSeq c) -> nth_error (cHeap c) i = Some (Ray (Vec 0 0 0) (Vec 0 1 0)) ->
    exists c', lightField rand2 2 (newScene 1 [MedExpFog density (Color 1 1 1) 4] nil [backdrop (Some (MFlat (fun _ => Val (Color 0 0 8))))]) All i c =
      Val (Color (1 - exp (- (density * 4))) (1 - exp (- (density * 4))) (1 + 7 * exp (- (density * 4))), c').
Proof. exact @haze_example. Qed.

(** ** C121: the samples of fog average to the light scattered along the ray *)
Theorem C121_fog_samples_tend_to_the_scattered_light :
  forall x density a b f, equidistributed 2 x -> 0 < density -> a <= b -> (forall t, continuous f t) ->
    Un_cv (running_mean (fun k => match x k with [u; v] => let '(t, weight) := randExpInterval u density (b - a) in weight * f (a + t) | _ => 0 end))
      (scattered density a b f).
Proof. exact fog_law. Qed.
Print Assumptions C121_fog_samples_tend_to_the_scattered_light.

(** pixels that show a surface of one colour through fog *)
Theorem C121_pixels_tend_to_dimmed_light_plus_scattered_light :
  forall (G : Type) (NI : NumInf R) (rand2 : G -> (R * R) * G) fuel s cam aa shifts w h (m : nat -> mem R) p q0 x y Q density height n k T a b O (L : R -> color R),
    0 < ninf -> (forall o, In o (all_objects s) -> sound_object o) -> (forall l, In l (sLights s) -> honest_light l) ->
    sMedia s = [MedFog density height n] -> 0 < density -> sRecursionDepth s = Z.of_nat (S k) -> (S k < fuel)%nat ->
    unit_camera rand2 cam -> (forall g, 0 <= fst (fst (rand2 g)) <= 1 /\ 0 <= snd (fst (rand2 g)) <= 1) ->
    (0 <= w)%Z -> (0 <= h)%Z -> Z.of_nat (length shifts) = (w * h)%Z -> in_image w h p -> sample_pos aa shifts w h p 0 = Val (q0, (x, y)) ->
    renderings rand2 fuel s cam aa shifts w h m ->
    (forall (c : ctx R G) r, pool_ok c -> shoots rand2 cam x y c r -> r = Q) ->
    (forall sq t orig, surface_light rand2 s sq k All Q t orig -> t = T /\ orig = O) ->
    below height Q T a b ->
    (forall sq t total, a <= t <= b -> lits rand2 (drawing sq 1) s (along (rStart Q) (rDir Q) (t - tinyR)) (some_lights n (sLights s)) total -> total = L t) ->
    (forall t, continuous (fun t => cR (L t)) t) -> (forall t, continuous (fun t => cG (L t)) t) -> (forall t, continuous (fun t => cB (L t)) t) ->
    tends_to (fun k => imagef (m k) p)
      (add_color (scaled (clear density (b - a)) O)
        (Color (scattered density a b (fun t => cR (L t))) (scattered density a b (fun t => cG (L t))) (scattered density a b (fun t => cB (L t))))).
Proof. exact @fog_limit. Qed.
Print Assumptions C121_pixels_tend_to_dimmed_light_plus_scattered_light.

(** a lamp anywhere off the line of sight, a ray that leaves the fog upwards *)
Theorem C121_a_lamp_in_the_fog :
  forall (G : Type) (NI : NumInf R) (rand2 : G -> (R * R) * G), 10 ^ 99 <= ninf ->
  forall (sky : texture R) (L : pt -> color R) (power : color R) (pos : pt) density height, (forall w, sky w = Val (L w)) -> 0 < density ->
  forall fuel cam aa shifts w h (m : nat -> mem R) p q0 x y S D,
    (1 < fuel)%nat -> unit_camera rand2 cam -> (forall g, 0 <= fst (fst (rand2 g)) <= 1 /\ 0 <= snd (fst (rand2 g)) <= 1) ->
    (0 <= w)%Z -> (0 <= h)%Z -> Z.of_nat (length shifts) = (w * h)%Z -> in_image w h p -> sample_pos aa shifts w h p 0 = Val (q0, (x, y)) ->
    renderings rand2 fuel (newScene 1 [MedFog density height 1] [pointLight power pos] [backdrop (Some (MFlat sky))]) cam aa shifts w h m ->
    (forall (c : ctx R G) r, pool_ok c -> shoots rand2 cam x y c r -> r = Ray S D) -> 0 < vy D -> vy S < height ->
    let b := (height - vy S) / vy D in
    b < 10 ^ 99 -> (forall t, - tinyR <= t <= b -> dist pos (along S D t) < 10 ^ 99) -> (forall t, along S D t <> pos) ->
    let air := scattered density 0 b (fun t => / (4 * PI * norm2 (minus3 pos (along S D (t - tinyR))))) in
    tends_to (fun k => imagef (m k) p) (add_color (scaled (clear density b) (L D)) (scaled air power)).
Proof. exact @lamp_limit. Qed.
Print Assumptions C121_a_lamp_in_the_fog.

Example C121_example : forall (NI : NumInf R) (rand2 : unit -> (R * R) * unit) fov cam su sv density m, 10 ^ 99 <= ninf -> 0 < density ->
  (forall g, 0 <= fst (fst (rand2 g)) <= 1 /\ 0 <= snd (fst (rand2 g)) <= 1) -> 0 < fov < PI -> projective fov = Val cam ->
  renderings rand2 2 (newScene 1 [MedFog density 4 1] [pointLight (Color 1 2 3) (Vec 3 0 0)] [backdrop (Some (MFlat (fun _ => Val (Color 8 8 8))))])
    (camYawPitchRoll cam 0 (PI / 2) 0) false [(su, sv)] 1 1 m ->
  let air := RInt (fun t => density * exp (- (density * t)) / (4 * PI * (9 + (t - tinyR) * (t - tinyR)))) 0 4 in
  let through := exp (- (density * 4)) in
  tends_to (fun k => imagef (m k) (0, 0)%Z) (Color (through * 8 + air) (through * 8 + air * 2) (through * 8 + air * 3)).
Proof. exact lamp_example. Qed.
