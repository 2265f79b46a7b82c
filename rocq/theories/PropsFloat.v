(** * Properties of the double precision program at moderate magnitudes *)
From Coq Require Import ZArith Reals.
From Flocq Require Import Core.
From Flocq Require IEEE754.BinarySingleNaN.
Import IEEE754.BinarySingleNaN.
From Verif Require Import Num Outcome GeomModel ObjModel FloatSpec BoxFloat SphereFloat NormFloat.
Local Open Scope R_scope.

(** ** C36: boxes of moderate size, seen from a moderate distance, do not stop the program.
    Left out: coordinates beyond 2^20, where C36_rendering_a_box_crashes_refuted applies *)
Theorem C36_moderate_boxes_do_not_crash :
  forall (M : Type) (m : option M) (lo hi s d : vec b64),
    all3 (at_most 20) lo -> all3 (at_most 20) hi -> all3 (at_most 20) s -> all3 (at_most 1) d -> some3 (at_least (-900)) d ->
    exists h, oIntersect (boxWithBounds m lo hi : object b64 M) (Ray s d) = Val h.
Proof. exact box_object_no_panic. Qed.
Print Assumptions C36_moderate_boxes_do_not_crash.

(** a block of houses in millimetres, looked at from a kilometre away *)
Example C36_example :
  forall (M : Type) (m : option M) (z : Z), (Z.abs z <= 1000000)%Z ->
    exists h, oIntersect (boxWithBounds m (Vec (nofZ (-50000)) (nofZ 0) (nofZ (-40000))) (Vec (nofZ 50000) (nofZ 30000) (nofZ 40000)) : object b64 M)
      (Ray (Vec (nofZ 1000000) (nofZ 1500) (nofZ z)) (Vec (nofZ (-1)) (nofZ 0) (nofZ 0))) = Val h.
Proof. exact @block_example. Qed.

(** ** C114: a sphere does not shadow itself. Every hit is lifted off the surface along the normal,
    once for shadow rays and twice for scattered rays; neither ray finds the sphere again *)
Theorem C114_spheres_do_not_meet_their_own_rays :
  forall (M : Type) (m : option M) (diam : b64) (c s d : vec b64) (h : hit b64 M) (r' : ray b64),
    between 1 512 diam -> all3 (at_most 8) c -> all3 (at_most 8) s -> near_unit d ->
    oIntersect (sphere m diam c) (Ray s d) = Val (h, r') -> nltb (nofZ 0) (hT h) = true ->
    let n := vnormalized (hNormal h) in
    let p := vmadd (rayAt (Ray s d) (hT h)) tiny n in
    forall d', near_unit d' -> - bpow radix2 (-20) <= rdot d' n ->
      oIntersect (sphere m diam c) (Ray p d') = Val (noHit, Ray p d') /\
      oIntersect (sphere m diam c) (Ray (vmadd p tiny n) d') = Val (noHit, Ray (vmadd p tiny n) d').
Proof. exact @no_acne. Qed.
Print Assumptions C114_spheres_do_not_meet_their_own_rays.

(** towards any light on the outer side of the surface, as computed *)
Theorem C114_spheres_do_not_shadow_themselves :
  forall (M : Type) (m : option M) (diam : b64) (c s d : vec b64) (h : hit b64 M) (r' : ray b64),
    between 1 512 diam -> all3 (at_most 8) c -> all3 (at_most 8) s -> near_unit d ->
    oIntersect (sphere m diam c) (Ray s d) = Val (h, r') -> nltb (nofZ 0) (hT h) = true ->
    let n := vnormalized (hNormal h) in
    let p := vmadd (rayAt (Ray s d) (hT h)) tiny n in
    forall lp, all3 (at_most 300) lp -> some3 (at_least (-300)) (vsub lp p) ->
    let l := vnormalized (vsub lp p) in
      nltb (nofZ 0) (vdot l n) = true -> oIntersect (sphere m diam c) (Ray p l) = Val (noHit, Ray p l).
Proof. exact @no_acne_light. Qed.
Print Assumptions C114_spheres_do_not_shadow_themselves.

(** without the bound on the distance it does: a unit ball seen from 264 km *)
Theorem C114_distant_spheres_do_not_shadow_themselves_refuted :
  ~ (forall (M : Type) (m : option M) (diam : b64) (c s d : vec b64) h r',
    all3 (fun x => is_finite x = true) c -> all3 (fun x => is_finite x = true) s -> near_unit d -> between 1 512 diam ->
    oIntersect (sphere m diam c) (Ray s d) = Val (h, r') -> nltb (nofZ 0) (hT h) = true ->
    let n := vnormalized (hNormal h) in
    let p := vmadd (rayAt (Ray s d) (hT h)) tiny n in
    forall lp, all3 (at_most 300) lp ->
    let l := vnormalized (vsub lp p) in
      nltb (nofZ 0) (vdot l n) = true -> oIntersect (sphere m diam c) (Ray p l) = Val (noHit, Ray p l)).
Proof. exact self_shadow_far. Qed.
Print Assumptions C114_distant_spheres_do_not_shadow_themselves_refuted.

(** a ball of diameter 2 five metres away, seen straight on, from any direction of the half space *)
Example C114_example :
  forall d', near_unit d' -> 0 <= B2R (vz d') ->
  let r := Ray vO (Vec (nofZ 0) (nofZ 0) (nofZ (-1))) in
  let n := vnormalized (hNormal ballHit) in
  let p := vmadd (rayAt r (hT ballHit)) tiny n in
  oIntersect (sphere None (nofZ 2) (Vec (nofZ 0) (nofZ 0) (nofZ (-5)))) r = Val (ballHit, r) /\ nltb (nofZ 0) (hT ballHit) = true /\
  oIntersect (sphere None (nofZ 2) (Vec (nofZ 0) (nofZ 0) (nofZ (-5)))) (Ray p d') = Val (noHit (M := unit), Ray p d').
Proof. exact (fun d' A B => conj ball_val (conj (proj1 ball_hit) (ball_example d' A B))). Qed.

(** ** C115: Normalized in double precision *)
Theorem C115_normalised_vectors_have_length_one :
  forall w : vec b64, all3 (at_most 400) w -> some3 (at_least (-400)) w ->
  let n := vnormalized w in
  all3 (fun x => is_finite x = true) n /\ Rabs (rdot n n - 1) <= 100 * bpow radix2 (-53) /\
  Rabs (B2R (vx n) - B2R (vx w) / sqrt (rdot w w)) <= 8 * bpow radix2 (-53) /\
  Rabs (B2R (vy n) - B2R (vy w) / sqrt (rdot w w)) <= 8 * bpow radix2 (-53) /\
  Rabs (B2R (vz n) - B2R (vz w) / sqrt (rdot w w)) <= 8 * bpow radix2 (-53).
Proof. exact normalized_float. Qed.
Print Assumptions C115_normalised_vectors_have_length_one.

(** of very short vectors the result is infinite, of very long ones it is zero *)
Theorem C115_all_vectors_can_be_normalised_refuted :
  ~ (forall v : vec b64, all3 (fun x => is_finite x = true) v -> some3 (fun x => nltb (nofZ 0) x = true) v -> all3 (fun x => is_finite x = true) (vnormalized v)) /\
  ~ (forall v : vec b64, all3 (fun x => is_finite x = true) v -> some3 (fun x => nltb (nofZ 0) x = true) v -> rdot (vnormalized v) (vnormalized v) <> 0).
Proof. exact normalized_refuted. Qed.
Print Assumptions C115_all_vectors_can_be_normalised_refuted.

Example C115_example :
  forall x y z : Z, (1 <= x <= 1000)%Z -> (Z.abs y <= x)%Z -> (Z.abs z <= x)%Z ->
  near_unit (vnormalized (Vec (nofZ x) (nofZ y) (nofZ z))).
Proof. exact normalized_example. Qed.
