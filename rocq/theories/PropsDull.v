(** * Property theorems: colours in double precision (C139) *)
From Coq Require Import ZArith Reals List.
From Flocq Require Import Core.
From Flocq Require IEEE754.BinarySingleNaN.
Import IEEE754.BinarySingleNaN.
From Verif Require Import Num Outcome B64 GeomModel ColorModel ObjModel SamplerModel SamplerSpec SceneModel SceneSpec RenderModel RenderSpec DullSpec DullProofs.
Import ListNotations.
Local Open Scope R_scope.

(** ** C139: no NaN, no infinity and nothing brighter than the brightest surface *)
Theorem C139_glowing_scenes_have_no_bad_colours :
  forall {G} {NI : NumInf b64} {TF : Trig b64} (rand2 : G -> (b64 * b64) * G) (k : Z) (s : scene b64), (0 <= k <= 900)%Z -> glowing k s -> damping TF ->
  forall fuel w r (c c' : ctx b64 G) col, lightField rand2 fuel s w r c = Val (col, c') -> lit k col.
Proof. exact @glow. Qed.
Print Assumptions C139_glowing_scenes_have_no_bad_colours.

(** the pixels of a rendering: in range, and no sample was dropped *)
Theorem C139_pixels_stay_in_range :
  forall {G} {NI : NumInf b64} {TF : Trig b64} (rand2 : G -> (b64 * b64) * G) (k : Z) (s : scene b64) fuel cam aa shifts w h ns m, (0 <= k <= 900)%Z -> glowing k s -> damping TF ->
  (0 <= w <= 2 ^ 53)%Z -> (0 <= h <= 2 ^ 53)%Z -> Z.of_nat (length shifts) = (w * h)%Z ->
  Forall (fun n => 0 <= n)%Z ns -> (0 < total ns < 2 ^ 53)%Z -> renderCalls rand2 fuel s cam aa shifts w h ns newMem m ->
  forall p, in_image w h p -> lit k (imagef m p) /\ mN m p = total ns.
Proof. exact @glowing_images. Qed.
Print Assumptions C139_pixels_stay_in_range.

(** a ball, half mirror and half matte, under a white sky in a mist: no channel of any ray exceeds 1, not even by a rounding *)
Example C139_example : forall {G} {NI : NumInf b64} {TF : Trig b64} (rand2 : G -> (b64 * b64) * G) fuel w r (c c' : ctx b64 G) col, damping TF ->
  lightField rand2 fuel mistyRoom w r c = Val (col, c') -> is_finite (cR col) = true /\ 0 <= B2R (cR col) <= 1.
Proof. exact @mistyRoom_range. Qed.
