(** * Scenes whose colours cannot leave the range of double precision *)
From Coq Require Import ZArith Reals List.
From Flocq Require Import Core.
From Flocq Require IEEE754.BinarySingleNaN.
Import IEEE754.BinarySingleNaN.
From Verif Require Import Num Outcome B64 GeomModel ColorModel ObjModel SceneModel.
Import ListNotations.
Local Open Scope R_scope.

(** a number from 0 to 2^k, in particular neither infinite nor NaN *)
Definition from0 (k : Z) (x : b64) : Prop := is_finite x = true /\ 0 <= B2R x <= bpow radix2 k.
Definition lit (k : Z) (c : color b64) : Prop := from0 k (cR c) /\ from0 k (cG c) /\ from0 k (cB c).
(** textures whose colours are *)
Definition lit_texture (k : Z) (t : texture b64) : Prop := forall p c, t p = Val c -> lit k c.

(** Materials that emit at most 2^k and reflect at most what they receive. Any nesting of black, flat,
    matte, mirror, transparent, two-sided and blended materials; not glass. *)
Fixpoint dull (k : Z) (m : material b64) : Prop :=
  match m with
  | MBlack => True
  | MFlat t => lit_texture k t
  | MMatte t => lit_texture 0 t
  | MReflective c => lit 0 c
  | MTransparent t => lit_texture 0 t
  | MTwoSided a b => dull k a /\ dull k b
  | MBlend x a y b => from0 0 x /\ from0 0 y /\ B2R x + B2R y <= 1 /\ dull k a /\ dull k b
  | MBlendMap t a b => lit_texture 0 t /\ dull k a /\ dull k b
  | MFresnel _ _ | MRefractive _ _ => False
  end.
(** objects may report anything, in any place, made of these *)
Definition dull_object (k : Z) (o : object b64 (material b64)) : Prop :=
  forall r h r' m, oIntersect o r = Val (h, r') -> hMat h = Some m -> dull k m.

(** fog that only dims and glows; the thick kind that scatters light of lamps is left out *)
Definition dull_fog (k : Z) (m : medium b64) : Prop :=
  match m with
  | MedExpFog density ambient _ => is_finite density = true /\ 0 < B2R density /\ lit k ambient
  | MedFog _ _ _ => False
  end.
(** all that is asked of math.Exp *)
Definition damping (TF : Trig b64) : Prop := forall x : b64, nleb x (nofZ 0) = true -> from0 0 (nexp x).

(** a scene lit by its surfaces *)
Definition glowing (k : Z) (s : scene b64) : Prop :=
  sLights s = [] /\ Forall (dull_object k) (sObjectsAndLights s) /\ Forall (dull_object k) (sObjectsMinusLights s) /\ Forall (dull_fog k) (sMedia s).
