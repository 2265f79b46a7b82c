(** * Properties of bloom *)
From Coq Require Import ZArith Reals List.
From Verif Require Import Num Outcome ColorModel ImageModel ImageSpec ObjModel TreeModel GlowSpec GlowProofs PropsImage.
Import ListNotations.
Local Open Scope R_scope.

(** ** C116: bloom is light spread over distances in the picture, whatever its resolution *)
Theorem C116_gaussian_bloom_is_a_bell_curve_of_the_distance :
  forall (H : heap (color R)) img (w h : Z) f, (0 < w)%Z -> (0 < h)%Z -> shows H img w h f ->
  forall px radius amplitude threshold, 0 < px -> 0 < radius -> 5 * (radius / px) < IZR (2 ^ 60) ->
    exists n out H' g, applyGaussianBloom img px (Bloom radius amplitude threshold) H = Val (out, H') /\ shows H' out w h g /\ keeps H H' /\ shows H' img w h f /\
      IZR (n - 1) <= 5 * (radius / px) < IZR n /\
      glows w h n f g threshold amplitude (fun dy dx => gray3 (bell (gap px dy dx / radius))).
Proof. exact gaussian_glows. Qed.
Print Assumptions C116_gaussian_bloom_is_a_bell_curve_of_the_distance.

(** [J1] stands for math.J1; red light has wavelength 700, green 500, blue 450 *)
Theorem C116_airy_bloom_is_made_of_rings_of_each_wavelength :
  forall (H : heap (color R)) img (w h : Z) f, (0 < w)%Z -> (0 < h)%Z -> shows H img w h f ->
  forall px radius amplitude threshold, 0 < px -> 0 < radius -> forall J1 : R -> R, 8 * (radius / px) < IZR (2 ^ 60) ->
    exists n out H' g, applyAiryBloom J1 img px (Bloom radius amplitude threshold) H = Val (out, H') /\ shows H' out w h g /\ keeps H H' /\ shows H' img w h f /\
      IZR (n - 1) <= 8 * (radius / px) < IZR n /\
      glows w h n f g threshold amplitude (fun dy dx =>
        Color (rings J1 (5 / 7 * (gap px dy dx / radius))) (rings J1 (gap px dy dx / radius)) (rings J1 (10 / 9 * (gap px dy dx / radius)))).
Proof. exact airy_glows. Qed.
Print Assumptions C116_airy_bloom_is_made_of_rings_of_each_wavelength.

(** stars of fewer than 4 pixels: see C64_small_stars_give_NaN_refuted *)
Theorem C116_star_bloom_has_eight_rays_of_the_radius :
  forall (H : heap (color R)) img (w h : Z) f, (0 < w)%Z -> (0 < h)%Z -> shows H img w h f ->
  forall px radius amplitude threshold, 0 < px -> 0 < radius -> 4 <= radius / px < IZR (2 ^ 60) ->
    exists n out H' g, applyStarBloom img px (Bloom radius amplitude threshold) H = Val (out, H') /\ shows H' out w h g /\ keeps H H' /\ shows H' img w h f /\
      IZR n <= radius / px < IZR (n + 1) /\
      glows w h n f g threshold amplitude (fun dy dx => gray3 (star n dy dx)).
Proof. exact star_glows. Qed.
Print Assumptions C116_star_bloom_has_eight_rays_of_the_radius.

(** double precision: a white pixel at the left of three, pixels of size 1/2, star of radius 2; the
    third pixel gets 1/4 of a total of 1 + sqrt (1/2) *)
Definition whiteRow : heap (color b64) := [[grayb 1 1; grayb 0 1; grayb 0 1]].
Example C116_example : shown 3 1 (applyStarBloom [Slice 0 0 3] (nQ 1 2) (Bloom (nofZ 2) (nofZ 1) (nofZ 0)) whiteRow) = [100; 0; 14]%Z.
Proof. vm_compute. reflexivity. Qed.
Example C116_example_star : star 4 0 2 = 1 / 4 /\ star 4 2 1 = 0 /\ star 4 (-2) 2 = sqrt (1 / 2) * (1 / 4).
Proof. unfold star. cbn. repeat split; try field. Qed.
