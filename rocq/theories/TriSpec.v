(** * Vocabulary: points with double precision coordinates as exact points *)
From Coq Require Import ZArith Reals.
From Flocq Require Import Core.
From Flocq Require IEEE754.BinarySingleNaN.
Import IEEE754.BinarySingleNaN.
From Verif Require Import Num GeomModel GeomSpec.
Local Open Scope R_scope.

Definition real (v : vec b64) : pt := Vec (B2R (vx v)) (B2R (vy v)) (B2R (vz v)).
(** the point with the given weights with respect to three corners *)
Definition weighted (w1 w2 w3 : R) (a b c : pt) : pt := plus3 (plus3 (scal3 w1 a) (scal3 w2 b)) (scal3 w3 c).
(** finite, and within [e] of [r] *)
Definition within (e r : R) (x : b64) : Prop := is_finite x = true /\ Rabs (B2R x - r) <= e.
