(** * What is assumed of math.Sin and math.Cos in double precision *)
From Coq Require Import ZArith Reals.
From Flocq Require Import Core.
From Flocq Require IEEE754.BinarySingleNaN.
Import IEEE754.BinarySingleNaN.
From Verif Require Import Num B64 FloatSpec.
Local Open Scope R_scope.

(** Pi is between -4 and 4; sine and cosine of a finite number are at most 1 and their squares add up to
    1 with an error below 2^-40. The angle itself may be wrong. *)
Definition fair_trig (T : Trig b64) : Prop :=
  at_most 2 npi /\
  forall x : b64, is_finite x = true -> is_finite (nsin x) = true /\ is_finite (ncos x) = true /\
    Rabs (B2R (nsin x)) <= 1 /\ Rabs (B2R (ncos x)) <= 1 /\
    Rabs (B2R (nsin x) * B2R (nsin x) + B2R (ncos x) * B2R (ncos x) - 1) <= bpow radix2 (-40).

(** Correctly rounded results of an angle have an error of at most one part in 2^53, so the sum of their squares is
    at most (1 + 2^-53)^2. *)
Definition sharp_trig (T : Trig b64) : Prop :=
  fair_trig T /\
  forall x : b64, is_finite x = true ->
    B2R (nsin x) * B2R (nsin x) + B2R (ncos x) * B2R (ncos x) <= (1 + bpow radix2 (-53)) * (1 + bpow radix2 (-53)).
