(** * Property theorems: slope of the sRGB curve, brightness (C142-C143) *)
From Coq Require Import ZArith Reals.
From Flocq Require Import Core.
From Flocq Require IEEE754.BinarySingleNaN.
Import IEEE754.BinarySingleNaN.
From Verif Require Import Num Outcome B64 ColorModel DullSpec ToneSpec SlopeProofs.
Local Open Scope R_scope.

(** ** C142: SRGBSlope is the slope of the curve of LinearToSRGB *)
(** not at the joint of its two parts: the curve has a step there, from 0.0404 to 0.0454, and so no slope *)
Theorem C142_curve_has_a_step_refuted :
  (forall h : R, 0 < h -> linearToSRGB (31308 / 10000000) + 4 / 1000 <= linearToSRGB (31308 / 10000000 + h)) /\
  ~ exists l, derivable_pt_lim linearToSRGB (31308 / 10000000) l.
Proof. exact (conj jump no_slope). Qed.
Print Assumptions C142_curve_has_a_step_refuted.

(** it is elsewhere, up to where the curve is cut off; (210/211)^(12/5) is 0.9887 *)
Theorem C142_slope_partial :
  forall c : R, 0 < c < Rpower (210 / 211) (12 / 5) -> c <> 31308 / 10000000 -> derivable_pt_lim linearToSRGB c (srgbSlope c).
Proof. exact slope_both. Qed.
Print Assumptions C142_slope_partial.

(** at the joint it is the slope towards darker colours *)
Theorem C142_slope_at_the_joint :
  forall h : R, - (31308 / 10000000) <= h < 0 -> (linearToSRGB (31308 / 10000000 + h) - linearToSRGB (31308 / 10000000)) / h = srgbSlope (31308 / 10000000).
Proof. exact slope_left. Qed.
Print Assumptions C142_slope_at_the_joint.

Example C142_example : derivable_pt_lim linearToSRGB (1 / 1000) (1292 / 100) /\ exists l, derivable_pt_lim linearToSRGB (1 / 2) l /\ 0 < l < 1.
Proof. exact slope_example. Qed.

(** ** C143: Gray and Max *)
(** the gray value of a gray colour is not that value, by one bit *)
Theorem C143_gray_of_gray_refuted : exists v : b64, is_finite v = true /\ neqb (clgray (gray v)) v = false.
Proof. exact gray_not_exact'. Qed.
Print Assumptions C143_gray_of_gray_refuted.

(** it is nearly: within 2^-50 of the next power of two *)
Theorem C143_gray_of_gray_is_near :
  forall k (v : b64), (-800 <= k <= 900)%Z -> is_finite v = true -> Rabs (B2R v) <= bpow radix2 k ->
  is_finite (clgray (gray v)) = true /\ Rabs (B2R (clgray (gray v)) - B2R v) <= bpow radix2 (k - 50).
Proof. exact gray_near. Qed.
Print Assumptions C143_gray_of_gray_is_near.

(** no rounding takes it out of the range of the channels *)
Theorem C143_gray_stays_in_range : forall k (c : color b64), (0 <= k <= 900)%Z -> lit k c -> from0 k (clgray c).
Proof. exact gray_range. Qed.
Print Assumptions C143_gray_stays_in_range.

(** in exact arithmetic it is the mean, which lies between the channels *)
Theorem C143_gray_is_the_mean :
  forall c : color R, clgray c = (cR c + cG c + cB c) / 3 /\ (forall v : R, clgray (gray v) = v) /\
    Rmin (cR c) (Rmin (cG c) (cB c)) <= clgray c <= Rmax (cR c) (Rmax (cG c) (cB c)).
Proof. exact gray_mean. Qed.
Print Assumptions C143_gray_is_the_mean.

(** Max is the brightest channel, also among infinite ones *)
Theorem C143_max_is_the_brightest_channel :
  forall c : color b64, each (fun x => nisnan x = false) c ->
    (clmax c = cR c \/ clmax c = cG c \/ clmax c = cB c) /\ each (fun x => nleb x (clmax c) = true) c.
Proof. exact max_largest. Qed.
Print Assumptions C143_max_is_the_brightest_channel.

Example C143_example : clgray (Color 1 2 6) = 3 /\ neqb (clmax (Color (nofZ 1) (nofZ 7) (nofZ 3) : color b64)) (nofZ 7) = true.
Proof. exact gray_example. Qed.
