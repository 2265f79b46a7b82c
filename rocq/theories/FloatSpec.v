(** * Vocabulary: magnitudes of double precision numbers *)
From Coq Require Import ZArith Reals.
From Flocq Require Import Core.
From Flocq Require IEEE754.BinarySingleNaN.
Import IEEE754.BinarySingleNaN.
From Verif Require Import Num GeomModel.
Local Open Scope R_scope.

(** a number, not NaN or infinite, of magnitude at most 2^k *)
Definition at_most (k : Z) (x : b64) : Prop := is_finite x = true /\ Rabs (B2R x) <= bpow radix2 k.
Definition all3 (P : b64 -> Prop) (v : vec b64) : Prop := P (vx v) /\ P (vy v) /\ P (vz v).
Definition some3 (P : b64 -> Prop) (v : vec b64) : Prop := P (vx v) \/ P (vy v) \/ P (vz v).
(** not denormal, nor close to it *)
Definition at_least (k : Z) (x : b64) : Prop := bpow radix2 k <= Rabs (B2R x).

(** the exact scalar product of two vectors of double precision numbers *)
Definition rdot (a b : vec b64) : R := B2R (vx a) * B2R (vx b) + B2R (vy a) * B2R (vy b) + B2R (vz a) * B2R (vz b).
(** finite, and of length one up to 1/2000 *)
Definition near_unit (d : vec b64) : Prop := all3 (fun x => is_finite x = true) d /\ Rabs (rdot d d - 1) <= / 1000.
(** finite, and between two bounds *)
Definition between (lo hi : R) (x : b64) : Prop := is_finite x = true /\ lo <= B2R x <= hi.
