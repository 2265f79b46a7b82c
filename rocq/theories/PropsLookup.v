(** * C146, C147: texture lookups and pixel positions in double precision *)
From Coq Require Import ZArith Reals Bool List.
From Flocq Require Import Core.
From Flocq Require IEEE754.BinarySingleNaN.
Import IEEE754.BinarySingleNaN.
From Verif Require Import Num Outcome B64 GeomModel ColorModel SceneModel ImageModel PpmSpec TextureModel SamplerModel SamplerSpec MeanSpec LookupSpec LookupFloat PixelFloat.
Import ListNotations.
Local Open Scope R_scope.

(** ** C146 *)
Theorem C146_lookups_interpolate_up_to_rounding :
  forall (w : nat) (img : list (list (color b64))) (x y z : b64) (k : Z), rectangular w img -> (0 < w)%nat ->
    (Z.of_nat w <= 2 ^ 53)%Z -> (Z.of_nat (length img) <= 2 ^ 53)%Z -> is_finite x = true -> is_finite y = true -> (-900 <= k <= 900)%Z -> picture_at_most k img ->
    exists i j s t c, bilinear img (Vec x y z) = Val c /\
      (0 <= i < Z.of_nat w)%Z /\ (0 <= j < Z.of_nat (length img))%Z /\ 0 <= s < 1 /\ 0 <= t < 1 /\
      near_position x (IZR (Z.of_nat w - 1)) (3 * roundoff * IZR (Z.of_nat w - 1)) (IZR i + s) /\
      near_position y (IZR (Z.of_nat (length img) - 1)) (3 * roundoff * IZR (Z.of_nat (length img) - 1)) (IZR j + t) /\
      nearly_interpolates (Z.of_nat w) (Z.of_nat (length img)) img i j s t (24 * roundoff * bpow radix2 k) c.
Proof. exact bilinear_near. Qed.
Print Assumptions C146_lookups_interpolate_up_to_rounding.

(** a white picture is not exactly white everywhere, so a bound of 0 would be false *)
Definition snow : list (list (color b64)) := [[white; white]; [white; white]].
Example C146_example :
  match bilinear snow (Vec (nQ 1 11) (nQ 1 11) (nofZ 0)), bilinear snow (Vec (nQ 3 4) (nQ 1 2) (nofZ 0)) with
  | Val c, Val d => nltb (cR c) (nofZ 1) && neqb (cR d) (nofZ 1) | _, _ => false end = true.
Proof. vm_compute. reflexivity. Qed.

(** ** C147 *)
Theorem C147_pixel_positions_are_accurate :
  forall (w h : Z) (p : pixel), (1 <= w <= 2 ^ 51)%Z -> (1 <= h <= 2 ^ 51)%Z -> in_image w h p ->
    exists x y : b64, indexToCam w h (nofZ (fst p)) (nofZ (snd p)) = Val (x, y) /\ is_finite x = true /\ is_finite y = true /\
      Rabs (B2R x - centre_u w (fst p)) <= roundoff /\ Rabs (B2R y - centre_v w h (snd p)) <= 20 * roundoff * (1 + IZR h / IZR w).
Proof. exact pixel_position. Qed.
Print Assumptions C147_pixel_positions_are_accurate.

Theorem C147_pixels_stay_in_order :
  forall (w h : Z) (p p' : pixel) (x y x' y' : b64), (1 <= w)%Z -> (1 <= h)%Z -> (w + h <= 2 ^ 47)%Z -> in_image w h p -> in_image w h p' ->
    indexToCam w h (nofZ (fst p)) (nofZ (snd p)) = Val (x, y) -> indexToCam w h (nofZ (fst p')) (nofZ (snd p')) = Val (x', y') ->
    ((fst p < fst p')%Z -> nltb x x' = true) /\ ((snd p < snd p')%Z -> nltb y' y = true).
Proof. exact pixels_in_order. Qed.
Print Assumptions C147_pixels_stay_in_order.

Theorem C147_pixels_stay_in_the_window :
  forall (w h : Z) (p : pixel) (x y : b64), (1 <= w)%Z -> (1 <= h)%Z -> (w + h <= 2 ^ 47)%Z -> in_image w h p ->
    indexToCam w h (nofZ (fst p)) (nofZ (snd p)) = Val (x, y) ->
    (nltb (nofZ 0) x = true /\ nltb x (nofZ 1) = true) /\ ((h <= w)%Z -> nltb (nofZ 0) y = true /\ nltb y (nofZ 1) = true).
Proof. exact pixels_in_window. Qed.
Print Assumptions C147_pixels_stay_in_the_window.

(** upper left and lower right pixel of a picture of 1920 x 1080, and a pixel of an 8 x 4 picture, where nothing is rounded *)
Example C147_example :
  match indexToCam 1920 1080 (nofZ 0 : b64) (nofZ 0), indexToCam 1920 1080 (nofZ 1919 : b64) (nofZ 1079), indexToCam 8 4 (nofZ 5 : b64) (nofZ 1) with
  | Val (x, y), Val (x', y'), Val (a, b) => nltb x (nQ 1 3000) && nltb (nQ 7 9) y && nltb (nQ 1919 1920) x' && nltb y' (nQ 2 9) && neqb a (nQ 11 16) && neqb b (nQ 9 16)
  | _, _, _ => false end = true.
Proof. vm_compute. reflexivity. Qed.
