(** * What exposure values are *)
From Coq Require Import ZArith Reals.
From Flocq Require Import Core.
From Flocq Require IEEE754.BinarySingleNaN.
Import IEEE754.BinarySingleNaN.
From Verif Require Import Num B64 ColorModel.
Local Open Scope R_scope.

(** all that is asked of math.Pow: powers of two with whole exponents are exact *)
Definition exact_powers (TF : Trig b64) : Prop :=
  forall n : Z, (Z.abs n <= 1000)%Z -> is_finite (npow (nofZ 2) (nofZ n) : b64) = true /\ B2R (npow (nofZ 2) (nofZ n) : b64) = bpow radix2 n.

(** channels that leave the range of double precision neither at the top nor at the bottom when multiplied by 2^n *)
Definition roomy (n : Z) (x : b64) : Prop :=
  is_finite x = true /\ (B2R x = 0 \/ bpow radix2 (-1000) <= Rabs (B2R x) * bpow radix2 n <= bpow radix2 1000).
Definition each (P : b64 -> Prop) (c : color b64) : Prop := P (cR c) /\ P (cG c) /\ P (cB c).
Definition each2 (P : b64 -> b64 -> Prop) (c d : color b64) : Prop := P (cR c) (cR d) /\ P (cG c) (cG d) /\ P (cB c) (cB d).
(** [y] is 2^n times [x] *)
Definition times2 (n : Z) (x y : b64) : Prop := is_finite y = true /\ B2R y = B2R x * bpow radix2 n.

(** a channel of a colour: present or absent *)
Definition has (r g b : bool) (c : color b64) : Prop :=
  (cR c = if r then nofZ 1 else nofZ 0) /\ (cG c = if g then nofZ 1 else nofZ 0) /\ (cB c = if b then nofZ 1 else nofZ 0).
(** a channel in the middle of the range *)
Definition plain (x : b64) : Prop := is_finite x = true /\ (B2R x = 0 \/ bpow radix2 (-900) <= Rabs (B2R x) <= bpow radix2 900).
