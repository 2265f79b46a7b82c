(** * Cameras and rotations in double precision: what is assumed and how it is observed *)
From Coq Require Import ZArith Reals List.
From Flocq Require Import Core.
From Flocq Require IEEE754.BinarySingleNaN.
Import IEEE754.BinarySingleNaN.
From Verif Require Import Num Outcome B64 GeomModel ObjModel TreeModel SceneModel FloatSpec.
Import ListNotations.
Local Open Scope R_scope.

(** Sine and cosine of a finite number are at most 1 and their squares add up to 1 with an error of at most 2^-50,
    which is what errors of two units in the last place make. At a half turn the sine is small, at a quarter turn the
    cosine is. *)
Definition accurate_trig (T : Trig b64) : Prop :=
  between 3 4 npi /\
  (forall x : b64, is_finite x = true -> is_finite (nsin x) = true /\ is_finite (ncos x) = true /\
    Rabs (B2R (nsin x)) <= 1 /\ Rabs (B2R (ncos x)) <= 1 /\
    Rabs (B2R (nsin x) * B2R (nsin x) + B2R (ncos x) * B2R (ncos x) - 1) <= bpow radix2 (-50)) /\
  at_most (-40) (nsin npi) /\ at_most (-40) (nsin (nopp npi)) /\
  at_most (-40) (ncos (ndiv npi (nofZ 2))) /\ at_most (-40) (ncos (ndiv (nopp npi) (nofZ 2))).

(** [q] is the ray that camera [cam] makes for image position (u, v) *)
Definition fires {F G : Type} {NF : Num F} {NI : NumInf F} {T : Trig F} (rand2 : G -> (F * F) * G) (cam : camera F) (u v : F) (c : ctx F G) (q : ray F) : Prop :=
  exists r c', rayFrom rand2 cam u v c = Val (r, c') /\ nth_error (cHeap c') r = Some q.

(** calls on a camera, and how many of them turn it *)
Inductive handling : Type := Carry (delta : vec b64) | Rotate (yaw pitch roll : b64).
Definition handle {T : Trig b64} (cam : camera b64) (m : handling) : camera b64 :=
  match m with Carry delta => camTranslate cam delta | Rotate y p r => camYawPitchRoll cam y p r end.
Definition rotations (ms : list handling) : nat := length (filter (fun m => match m with Rotate _ _ _ => true | Carry _ => false end) ms).
Definition finite_angles (m : handling) : Prop :=
  match m with Carry _ => True | Rotate y p r => is_finite y = true /\ is_finite p = true /\ is_finite r = true end.

(** the three ways of making a camera, with parameters that are neither huge nor tiny *)
Inductive made {T : Trig b64} : camera b64 -> Prop :=
| made_projective fov aperture focusDist cam :
    projectiveAperture fov aperture focusDist = Val cam ->
    at_most 100 (ntan (ndiv fov (nofZ 2))) -> at_least (-100) (ntan (ndiv fov (nofZ 2))) ->
    at_most 100 aperture -> at_most 100 focusDist -> at_least (-100) focusDist \/ B2R focusDist = 0 -> made cam
| made_environment : made environmentMap
| made_isometric dir size cam : isometric dir size = Val cam -> made cam.

(** Angles at which util.Sin and util.Cos, given a good math.Sin and math.Cos, are exact: their cosine and sine *)
Definition corner {T : Trig b64} (a : b64) (c s : Z) : Prop :=
  (a = nofZ 0 /\ c = 1 /\ s = 0)%Z \/ (a = ndiv npi (nofZ 2) /\ c = 0 /\ s = 1)%Z \/ (a = ndiv (nopp npi) (nofZ 2) /\ c = 0 /\ s = -1)%Z \/
  ((a = npi \/ a = nopp npi) /\ c = -1 /\ s = 0)%Z.
Definition exact_corners (T : Trig b64) : Prop :=
  B2R (ncos (nofZ 0)) = 1 /\ B2R (nsin (nofZ 0)) = 0 /\ B2R (nsin (ndiv npi (nofZ 2))) = 1 /\ B2R (nsin (ndiv (nopp npi) (nofZ 2))) = -1 /\
  B2R (ncos npi) = -1 /\ B2R (ncos (nopp npi)) = -1.
(** the components of a vector are finite and have these values *)
Definition exactly (v : vec b64) (x y z : R) : Prop :=
  all3 (fun a => is_finite a = true) v /\ B2R (vx v) = x /\ B2R (vy v) = y /\ B2R (vz v) = z.
