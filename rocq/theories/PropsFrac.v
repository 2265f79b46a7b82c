(** * Fractional parts *)
From Coq Require Import ZArith Reals.
From Flocq Require Import Core.
From Flocq Require IEEE754.BinarySingleNaN.
Import IEEE754.BinarySingleNaN.
From Verif Require Import Num B64 SeqModel FracProofs.
Local Open Scope R_scope.

(** ** C154: Frac can return 1, for example for -2^-60 *)
Theorem C154_frac_is_below_one_refuted :
  ~ (forall x : b64, is_finite x = true -> 0 <= B2R (frac x) < 1).
Proof. exact frac_reaches_one. Qed.
Print Assumptions C154_frac_is_below_one_refuted.

(** True part: it is never outside [0, 1], and within 2^-53 of the exact fractional part. C08 excludes 1 for
    arguments that are not negative. *)
Theorem C154_frac_is_close_to_the_fractional_part :
  forall x : b64, is_finite x = true ->
    is_finite (frac x) = true /\ 0 <= B2R (frac x) <= 1 /\
    Rabs (B2R (frac x) - (B2R x - IZR (Zfloor (B2R x)))) <= bpow radix2 (-53).
Proof. exact frac_total. Qed.
Print Assumptions C154_frac_is_close_to_the_fractional_part.

(** the witness; and Frac(-2.25) = 0.75 *)
Example C154_example :
  andb (nleb (nofZ 1) (frac (nQ (-1) (2 ^ 60) : b64))) (neqb (frac (nQ (-9) 4 : b64)) (nQ 3 4)) = true.
Proof. vm_compute. reflexivity. Qed.
