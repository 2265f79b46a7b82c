(** * C144, C145: accuracy of images and of their standard deviations in double precision *)
From Coq Require Import ZArith Reals Bool List.
From Flocq Require Import Core.
From Flocq Require IEEE754.BinarySingleNaN.
Import IEEE754.BinarySingleNaN.
From Verif Require Import Num B64 ColorModel SeqModel SamplerModel SamplerSpec MeanSpec MeanProofs.
Import ListNotations.
Local Open Scope R_scope.

(** ** C144 *)
Theorem C144_image_is_the_mean_up_to_rounding :
  forall (G : Type) (f : imageFunc b64 G) (aa : bool) (shifts : list (b64 * b64)) (w h : Z) (g0 : G) (ns : list Z) (m : mem b64) (p : pixel),
    deterministic f -> (0 <= w <= 2 ^ 53)%Z -> (0 <= h <= 2 ^ 53)%Z -> Z.of_nat (length shifts) = (w * h)%Z ->
    Forall (fun n => 0 <= n)%Z ns -> sampleCalls f aa shifts w h ns newMem m -> in_image w h p ->
    let l := pixel_samples f aa shifts g0 w h p (total ns) in
    forall ch, (1 <= total ns <= 2 ^ 26)%Z -> (forall c, In c l -> sane 900 c) -> channel ch ->
    is_finite (ch (imagef m p)) = true /\
    Rabs (B2R (ch (imagef m p)) - mean (reals ch l)) <= (IZR (total ns) + 3) * roundoff * mean (map Rabs (reals ch l)) + bpow radix2 (-1075).
Proof. exact @image_near. Qed.
Print Assumptions C144_image_is_the_mean_up_to_rounding.

Example C144_example : exists m, sampleCalls uniform7 false [(nofZ 0, nofZ 0)] 1 1 [2; 3]%Z newMem m /\
  Rabs (B2R (cG (imagef m (0, 0)%Z)) - B2R (nQ 7 10 : b64)) <= 9 * bpow radix2 (-53).
Proof. exact uniform_image. Qed.

(** ** C145: false; a picture that is the same in every pass can get NaN, and after one pass every pixel is NaN *)
Theorem C145_uniform_picture_refuted :
  deterministic uniform7 /\ (exists m, sampleCall uniform7 false [(nofZ 0, nofZ 0)] 1 1 5 newMem m) /\
  forall m, sampleCall uniform7 false [(nofZ 0, nofZ 0)] 1 1 5 newMem m -> nisnan (cR (stddevf m (0, 0)%Z)) = true.
Proof. exact uniform7_nan. Qed.
Print Assumptions C145_uniform_picture_refuted.

Theorem C145_after_one_pass_refuted :
  forall (G : Type) (f : imageFunc b64 G) (aa : bool) (shifts : list (b64 * b64)) (w h : Z) (g0 : G) (ns : list Z) (m : mem b64) (p : pixel),
    deterministic f -> (0 <= w <= 2 ^ 53)%Z -> (0 <= h <= 2 ^ 53)%Z -> Z.of_nat (length shifts) = (w * h)%Z ->
    Forall (fun n => 0 <= n)%Z ns -> sampleCalls f aa shifts w h ns newMem m -> in_image w h p ->
    let l := pixel_samples f aa shifts g0 w h p (total ns) in
    forall ch, total ns = 1%Z -> (forall c, In c l -> sane 400 c) -> channel ch -> is_nan (ch (stddevf m p)) = true.
Proof. exact @one_pass_nan. Qed.
Print Assumptions C145_after_one_pass_refuted.

Theorem C145_variance_up_to_rounding_partial :
  forall (G : Type) (f : imageFunc b64 G) (aa : bool) (shifts : list (b64 * b64)) (w h : Z) (g0 : G) (ns : list Z) (m : mem b64) (p : pixel),
    deterministic f -> (0 <= w <= 2 ^ 53)%Z -> (0 <= h <= 2 ^ 53)%Z -> Z.of_nat (length shifts) = (w * h)%Z ->
    Forall (fun n => 0 <= n)%Z ns -> sampleCalls f aa shifts w h ns newMem m -> in_image w h p ->
    let l := pixel_samples f aa shifts g0 w h p (total ns) in
    forall ch, (2 <= total ns <= 2 ^ 26)%Z -> (forall c, In c l -> sane 400 c) -> channel ch ->
    is_finite (ch (variancef m p)) = true /\ Rabs (B2R (ch (variancef m p)) - variance (reals ch l)) <= variance_error (reals ch l).
Proof. exact @var_near. Qed.
Print Assumptions C145_variance_up_to_rounding_partial.

Theorem C145_noisy_pixels_partial :
  forall (G : Type) (f : imageFunc b64 G) (aa : bool) (shifts : list (b64 * b64)) (w h : Z) (g0 : G) (ns : list Z) (m : mem b64) (p : pixel),
    deterministic f -> (0 <= w <= 2 ^ 53)%Z -> (0 <= h <= 2 ^ 53)%Z -> Z.of_nat (length shifts) = (w * h)%Z ->
    Forall (fun n => 0 <= n)%Z ns -> sampleCalls f aa shifts w h ns newMem m -> in_image w h p ->
    let l := pixel_samples f aa shifts g0 w h p (total ns) in
    forall ch, (2 <= total ns <= 2 ^ 26)%Z -> (forall c, In c l -> sane 400 c) -> channel ch ->
    let V := variance (reals ch l) in let e := variance_error (reals ch l) in e < V ->
    let d := B2R (ch (stddevf m p)) in
    is_finite (ch (stddevf m p)) = true /\ 0 < d /\ Rabs (d * d - V) <= e + 3 * roundoff * (V + e).
Proof. exact @stddev_ok. Qed.
Print Assumptions C145_noisy_pixels_partial.

Example C145_example : exists m, sampleCalls blink false [(nofZ 0, nofZ 0)] 1 1 [1; 1]%Z newMem m /\
  is_finite (cB (stddevf m (0, 0)%Z)) = true /\ Rabs (B2R (cB (stddevf m (0, 0)%Z)) * B2R (cB (stddevf m (0, 0)%Z)) - 1 / 2) <= / 10 ^ 14.
Proof. exact blink_deviation. Qed.
