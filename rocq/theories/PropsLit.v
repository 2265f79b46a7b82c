(** * C128: what a rendering tends to when lights shine on a matte surface *)
From Coq Require Import ZArith Reals List Lia Lra.
From Verif Require Import Num Outcome GeomModel GeomSpec ColorModel SeqModel SeqSpec SamplerModel SamplerSpec ObjModel TreeModel ObjSpec SceneModel SceneSpec LookSpec
  RenderModel RenderSpec EquiSpec EquiIntSpec DiffuseSpec LimitSpec LimitFacts LampSpec LitSpec LitFacts LitBall LitPoint LitExample.
Import ListNotations.
Local Open Scope R_scope.

(** the light drawn at the lamps is integrated, the rest is the cosine average *)
Theorem C128_lit_surfaces_tend_to_the_direct_light_plus_the_cosine_average :
  forall (G : Type) (NI : NumInf R) (rand2 : G -> (R * R) * G) fuel s cam aa shifts w h (m : nat -> mem R) p q0 x y Q hits ht tex refl n ex ey (L : pt -> color R) (Dir : R -> R -> color R) E (g : G),
    0 < ninf -> (forall o, In o (all_objects s) -> sound_object o) -> sMedia s = nil -> sRecursionDepth s = 2%Z -> (2 < fuel)%nat ->
    unit_camera rand2 cam -> lensless cam -> (forall g, 0 <= fst (fst (rand2 g)) <= 1 /\ 0 <= snd (fst (rand2 g)) <= 1) ->
    (0 <= w)%Z -> (0 <= h)%Z -> Z.of_nat (length shifts) = (w * h)%Z -> in_image w h p -> sample_pos aa shifts w h p 0 = Val (q0, (x, y)) ->
    renderings rand2 fuel s cam aa shifts w h m ->
    (forall (c : ctx R G) r, pool_ok c -> shoots rand2 cam x y c r -> r = Q) ->
    hits_of (sObjectsAndLights s) Q hits -> last_nearest hits ht -> hT ht <= ninf -> hMat ht = Some (MMatte tex) -> tex (hLocal ht) = Val refl ->
    facing (rDir Q) (unit_of (hNormal ht)) n -> orthonormal ex ey n ->
    (forall sq u v total, hseq_generate2 (cs_1 sq) = Val (u, v) -> 0 <= u < 1 -> 0 <= v < 1 ->
      direct rand2 (drawing sq 1) (sObjects s) (plus3 (along (rStart Q) (rDir Q) (hT ht)) (scal3 tinyR n)) n (sLights s) total -> total = Dir u v) ->
    color_integral 2 (fun l => match l with [u; v] => Dir u v | _ => no_light end) E ->
    continuous_light (fun w => cR (L w)) -> continuous_light (fun w => cG (L w)) -> continuous_light (fun w => cB (L w)) ->
    (forall w sq' b, norm2 w = 1 -> 0 <= dot3 w n ->
      light_at rand2 s sq' 1 MinusLights (Ray (plus3 (along (rStart Q) (rDir Q) (hT ht)) (scal3 (2 * tinyR) n)) w) b -> b = L w) ->
    tends_to (fun k => imagef (m k) p)
      (Color ((cR E + cosine_average ex ey n (fun w => cR (L w))) * cR refl) ((cG E + cosine_average ex ey n (fun w => cG (L w))) * cG refl)
             ((cB E + cosine_average ex ey n (fun w => cB (L w))) * cB refl)).
Proof. exact @lit_limit. Qed.
Print Assumptions C128_lit_surfaces_tend_to_the_direct_light_plus_the_cosine_average.

(** a ball under a rectangle light: the light is summed over the lamp, with both cosines over the squared distance *)
Theorem C128_balls_under_a_rectangle_light :
  forall (G : Type) (NI : NumInf R) (rand2 : G -> (R * R) * G), 1 < ninf <= 9 * 10 ^ 99 ->
  forall (to32 : R -> R) (ss : (object R (material R) -> object R (material R) -> bool) -> list (object R (material R)) -> list (object R (material R)))
    (tex : texture R) (diam : R) (center : pt), 0 < diam -> (forall p, exists c, tex p = Val c) ->
  forall (b : color R) (c : pt) (l : light R) lw lh fuel cam aa shifts w h (m : nat -> mem R) p q0 x y S D t n refl (g : G),
    0 < lw -> 0 < lh -> rectangleLight to32 ss b lw lh c = Val l ->
    (2 < fuel)%nat -> unit_camera rand2 cam -> lensless cam -> (forall g, 0 <= fst (fst (rand2 g)) <= 1 /\ 0 <= snd (fst (rand2 g)) <= 1) ->
    (0 <= w)%Z -> (0 <= h)%Z -> Z.of_nat (length shifts) = (w * h)%Z -> in_image w h p -> sample_pos aa shifts w h p 0 = Val (q0, (x, y)) ->
    renderings rand2 fuel (newScene 2 nil [l] [sphere (Some (MMatte tex)) diam center]) cam aa shifts w h m ->
    (forall (c : ctx R G) r, pool_ok c -> shoots rand2 cam x y c r -> r = Ray S D) -> norm2 D = 1 ->
    (diam / 2)² < norm2 (minus3 S center) -> 0 < t <= ninf -> along S D t = plus3 center (scal3 (diam / 2) n) -> norm2 n = 1 ->
    (forall t', 0 < t' < t -> norm2 (minus3 (along S D t') center) <> (diam / 2)²) -> (forall t', 0 < t' <= t -> ~ on_rect lw lh c (along S D t')) ->
    tex (scal3 (diam / 2) n) = Val refl ->
    tends_to (fun k => imagef (m k) p)
      (mul_color (scaled (over_rect lw lh c (sent (plus3 (plus3 center (scal3 (diam / 2) n)) (scal3 tinyR n)) n)) b) refl).
Proof. exact @rect_ball_limit. Qed.
Print Assumptions C128_balls_under_a_rectangle_light.

Theorem C128_balls_under_a_disk_light :
  forall (G : Type) (NI : NumInf R) (rand2 : G -> (R * R) * G), 1 < ninf <= 9 * 10 ^ 99 ->
  forall (to32 : R -> R) (ss : (object R (material R) -> object R (material R) -> bool) -> list (object R (material R)) -> list (object R (material R)))
    (tex : texture R) (diam : R) (center : pt), 0 < diam -> (forall p, exists c, tex p = Val c) ->
  forall (b : color R) (c : pt) (l : light R) ld fuel cam aa shifts w h (m : nat -> mem R) p q0 x y S D t n refl (g : G),
    0 < ld -> diskLight to32 ss b ld c = Val l ->
    (2 < fuel)%nat -> unit_camera rand2 cam -> lensless cam -> (forall g, 0 <= fst (fst (rand2 g)) <= 1 /\ 0 <= snd (fst (rand2 g)) <= 1) ->
    (0 <= w)%Z -> (0 <= h)%Z -> Z.of_nat (length shifts) = (w * h)%Z -> in_image w h p -> sample_pos aa shifts w h p 0 = Val (q0, (x, y)) ->
    renderings rand2 fuel (newScene 2 nil [l] [sphere (Some (MMatte tex)) diam center]) cam aa shifts w h m ->
    (forall (c : ctx R G) r, pool_ok c -> shoots rand2 cam x y c r -> r = Ray S D) -> norm2 D = 1 ->
    (diam / 2)² < norm2 (minus3 S center) -> 0 < t <= ninf -> along S D t = plus3 center (scal3 (diam / 2) n) -> norm2 n = 1 ->
    (forall t', 0 < t' < t -> norm2 (minus3 (along S D t') center) <> (diam / 2)²) -> (forall t', 0 < t' <= t -> ~ on_disk ld c (along S D t')) ->
    tex (scal3 (diam / 2) n) = Val refl ->
    tends_to (fun k => imagef (m k) p)
      (mul_color (scaled (over_disk ld c (sent (plus3 (plus3 center (scal3 (diam / 2) n)) (scal3 tinyR n)) n)) b) refl).
Proof. exact @disk_ball_limit. Qed.
Print Assumptions C128_balls_under_a_disk_light.

(** right below the middle of a disk: the squared radius over the squared distance to the rim *)
Theorem C128_light_below_the_middle_of_a_disk :
  forall diam c x, 0 < diam -> vx x = vx c -> vz x = vz c -> vy x < vy c + tinyR ->
  over_disk diam c (sent x (Vec 0 1 0)) = (diam / 2)² / ((diam / 2)² + (vy c + tinyR - vy x)²).
Proof. exact over_disk_axis. Qed.
Print Assumptions C128_light_below_the_middle_of_a_disk.

(** a ball under any continuous sky and a point light *)
Theorem C128_balls_under_the_sky_and_a_point_light :
  forall (G : Type) (NI : NumInf R) (rand2 : G -> (R * R) * G), 10 ^ 99 <= ninf ->
  forall (tex sky : texture R) (diam : R) (center : pt) (power : color R) (pos : pt) (L : pt -> color R), 0 < diam -> (forall p, exists c, tex p = Val c) -> (forall w, sky w = Val (L w)) ->
  forall fuel cam aa shifts w h (m : nat -> mem R) p q0 x y S D t n refl ex ey (g : G),
    (2 < fuel)%nat -> unit_camera rand2 cam -> lensless cam -> (forall g, 0 <= fst (fst (rand2 g)) <= 1 /\ 0 <= snd (fst (rand2 g)) <= 1) ->
    (0 <= w)%Z -> (0 <= h)%Z -> Z.of_nat (length shifts) = (w * h)%Z -> in_image w h p -> sample_pos aa shifts w h p 0 = Val (q0, (x, y)) ->
    renderings rand2 fuel (newScene 2 nil [pointLight power pos] [sphere (Some (MMatte tex)) diam center; backdrop (Some (MFlat sky))]) cam aa shifts w h m ->
    (forall (c : ctx R G) r, pool_ok c -> shoots rand2 cam x y c r -> r = Ray S D) -> norm2 D = 1 ->
    (diam / 2)² < norm2 (minus3 S center) -> 0 < t < 10 ^ 99 -> along S D t = plus3 center (scal3 (diam / 2) n) -> norm2 n = 1 ->
    (forall t', 0 < t' < t -> norm2 (minus3 (along S D t') center) <> (diam / 2)²) ->
    tex (scal3 (diam / 2) n) = Val refl -> orthonormal ex ey n ->
    continuous_light (fun w => cR (L w)) -> continuous_light (fun w => cG (L w)) -> continuous_light (fun w => cB (L w)) ->
    let X := plus3 (plus3 center (scal3 (diam / 2) n)) (scal3 tinyR n) in X <> pos -> dist pos X <= 10 ^ 99 ->
    tends_to (fun k => imagef (m k) p)
      (mul_color (add_color (scaled (Rmax 0 (dot3 (unit_of (minus3 pos X)) n) / (4 * PI * (dist X pos * dist X pos))) power)
        (Color (cosine_average ex ey n (fun w => cR (L w))) (cosine_average ex ey n (fun w => cG (L w))) (cosine_average ex ey n (fun w => cB (L w))))) refl).
Proof. exact @point_ball_limit. Qed.
Print Assumptions C128_balls_under_the_sky_and_a_point_light.

(** seen from above under a round lamp of radius 4 at height 8: one fifth of its brightness arrives *)
Example C128_example : forall (NI : NumInf R) (rand2 : unit -> (R * R) * unit) (to32 : R -> R) ss fov cam su sv l m,
  8 <= ninf <= 9 * 10 ^ 99 ->
  (forall g, 0 <= fst (fst (rand2 g)) <= 1 /\ 0 <= snd (fst (rand2 g)) <= 1) -> 0 < fov < PI -> projective fov = Val cam ->
  diskLight to32 ss (Color 10 10 5) 8 (Vec 0 8 0) = Val l ->
  renderings rand2 3 (newScene 2 nil [l] [sphere (Some (MMatte (fun _ => Val (Color 1 (/ 2) 0)))) 2 (Vec 0 (-1) 0)])
    (fold_left call [Turn 0 (- (PI / 2)) 0; Shift (Vec 0 3 0)] cam) false [(su, sv)] 1 1 m ->
  tends_to (fun k => imagef (m k) (0, 0)%Z) (Color 2 1 0).
Proof. exact lamp_example. Qed.
(** such lamps exist *)
Example C128_lamp_exists : forall (NI : NumInf R) (to32 : R -> R) ss, exists l, diskLight to32 ss (Color 10 10 5) 8 (Vec 0 8 0) = Val l.
Proof. intros NI to32 ss. destruct (LampProofs.disk_light_total NI to32 ss (Color 10 10 5) 8 (Vec 0 8 0)) as (l & E & _). exact (ex_intro _ l E). Qed.
