(** * Properties of the helpers of tracer/util.go *)
From Coq Require Import ZArith Reals Bool.
From Flocq Require Import Core.
From Flocq Require IEEE754.BinarySingleNaN.
Import IEEE754.BinarySingleNaN.
From Verif Require Import Num Outcome GeomModel ObjModel CheckModel CheckSpec FloatSpec CheckProofs.
Local Open Scope R_scope.

(** ** C117: Frontmost and FrontT pick the nearest positive distance, NaN and infinities included *)
Theorem C117_FrontT_is_the_nearest_ahead :
  forall s t : b64,
  (ahead s \/ ahead t -> (frontT s t = s /\ nearest s t) \/ (frontT s t = t /\ nearest t s)) /\
  (~ ahead s -> ~ ahead t -> frontT s t = nofZ 0).
Proof. exact frontT_nearest. Qed.
Print Assumptions C117_FrontT_is_the_nearest_ahead.

Theorem C117_Frontmost_is_the_nearest_ahead :
  forall (M : Type) (a b : hit b64 M),
  (ahead (hT a) \/ ahead (hT b) -> (frontmost a b = a /\ nearest (hT a) (hT b)) \/ (frontmost a b = b /\ nearest (hT b) (hT a))) /\
  (~ ahead (hT a) -> ~ ahead (hT b) -> frontmost a b = noHit).
Proof. exact frontmost_nearest. Qed.
Print Assumptions C117_Frontmost_is_the_nearest_ahead.

(** of NaN and 3, 3; of -1 and 2, 2; of 5 and 2, 2; of -1 and NaN, 0 *)
Example C117_example :
  map4 (fun p => ntrunc (frontT (fst p) (snd p) : b64)) ((B754_nan : b64), nofZ 3) (nofZ (-1), nofZ 2) (nofZ 5, nofZ 2) (nofZ (-1), B754_nan) = (3, 2, 2, 0)%Z.
Proof. vm_compute. reflexivity. Qed.

(** ** C118: CheckRay and CheckHit *)
Theorem C118_normalised_rays_are_accepted :
  forall p w : vec b64, all3 (at_most 400) w -> some3 (at_least (-400)) w -> checkRay (Ray p (vnormalized w)) = Val tt.
Proof. exact checkRay_normalised. Qed.
Print Assumptions C118_normalised_rays_are_accepted.

(** the squared length is compared with 1; the tolerance is 1e-9, give or take a tenth *)
Theorem C118_rays_of_length_one_are_accepted :
  forall r : ray b64, all3 (fun x => is_finite x = true) (rDir r) -> Rabs (rdot (rDir r) (rDir r) - 1) <= 9 / 10000000000 -> checkRay r = Val tt.
Proof. exact checkRay_accepts. Qed.
Print Assumptions C118_rays_of_length_one_are_accepted.

Theorem C118_rays_of_other_lengths_are_rejected :
  forall r : ray b64, all3 (at_most 400) (rDir r) -> 11 / 10000000000 <= Rabs (rdot (rDir r) (rDir r) - 1) -> checkRay r = Panic.
Proof. exact checkRay_rejects. Qed.
Print Assumptions C118_rays_of_other_lengths_are_rejected.

(** a direction of NaNs is accepted *)
Theorem C118_accepted_rays_have_length_one_refuted :
  ~ (forall r : ray b64, checkRay r = Val tt -> near_unit (rDir r)).
Proof. exact checkRay_refuted. Qed.
Print Assumptions C118_accepted_rays_have_length_one_refuted.

Theorem C118_hits_with_NaN_are_rejected :
  forall (M : Type) (h : hit b64 M), neqb (hT h) (nofZ 0) = false ->
  is_nan (hT h) || anyNaN (hNormal h) || anyNaN (hLocal h) = true -> checkHit h = Panic.
Proof. exact checkHit_nan. Qed.
Print Assumptions C118_hits_with_NaN_are_rejected.

Theorem C118_hits_with_numbers_are_accepted :
  forall (M : Type) (h : hit b64 M), at_most 990 (hT h) -> all3 (at_most 990) (hNormal h) -> all3 (at_most 990) (hLocal h) -> checkHit h = Val tt.
Proof. exact checkHit_ok. Qed.
Print Assumptions C118_hits_with_numbers_are_accepted.

(** infinities of opposite signs are taken for NaN *)
Theorem C118_rejected_hits_contain_NaN_refuted :
  forall M : Type, exists h : hit b64 M, checkHit h = Panic /\ is_nan (hT h) || anyNaN (hNormal h) || anyNaN (hLocal h) = false.
Proof. exact checkHit_refuted. Qed.
Print Assumptions C118_rejected_hits_contain_NaN_refuted.

Example C118_example :
  checkRay (Ray vO (Vec (nofZ 0 : b64) (nQ 3 5) (nQ 4 5))) = Val tt /\ checkRay (Ray vO (Vec (nofZ 0 : b64) (nQ 3 5) (nQ 9 10))) = Panic.
Proof. vm_compute. split; reflexivity. Qed.
