(** * Boxes do not shadow themselves in double precision *)
From Coq Require Import ZArith Reals.
From Flocq Require Import Core.
From Flocq Require IEEE754.BinarySingleNaN.
Import IEEE754.BinarySingleNaN.
From Verif Require Import Num Outcome GeomModel ObjModel FloatSpec BoxSelf.
Local Open Scope R_scope.

(** ** C148: every hit is lifted off the face along the normal, once for shadow rays and twice for
    scattered rays; neither ray finds the box again, whichever way it came and however flat it leaves *)
Theorem C148_boxes_do_not_meet_their_own_rays :
  forall (M : Type) (m : option M) (lo hi s d : vec b64) (h : hit b64 M) (r' : ray b64),
    all3 (at_most 20) lo -> all3 (at_most 20) hi -> below lo hi ->
    oIntersect (boxWithBounds m lo hi) (Ray s d) = Val (h, r') -> nltb (nofZ 0) (hT h) = true ->
    let n := vnormalized (hNormal h) in
    let p := vmadd (rayAt (Ray s d) (hT h)) tiny n in
    forall d', all3 (fun x => is_finite x = true) d' -> 0 < rdot d' n ->
      oIntersect (boxWithBounds m lo hi) (Ray p d') = Val (noHit, Ray p d') /\
      oIntersect (boxWithBounds m lo hi) (Ray (vmadd p tiny n) d') = Val (noHit, Ray (vmadd p tiny n) d').
Proof. exact @box_no_acne. Qed.
Print Assumptions C148_boxes_do_not_meet_their_own_rays.

(** towards any light on the outer side of the face, as computed *)
Theorem C148_boxes_do_not_shadow_themselves :
  forall (M : Type) (m : option M) (lo hi s d : vec b64) (h : hit b64 M) (r' : ray b64),
    all3 (at_most 20) lo -> all3 (at_most 20) hi -> below lo hi ->
    oIntersect (boxWithBounds m lo hi) (Ray s d) = Val (h, r') -> nltb (nofZ 0) (hT h) = true ->
    let n := vnormalized (hNormal h) in
    let p := vmadd (rayAt (Ray s d) (hT h)) tiny n in
    forall l, all3 (at_most 900) l -> nltb (nofZ 0) (vdot l n) = true ->
      oIntersect (boxWithBounds m lo hi) (Ray p l) = Val (noHit, Ray p l) /\
      oIntersect (boxWithBounds m lo hi) (Ray (vmadd p tiny n) l) = Val (noHit, Ray (vmadd p tiny n) l).
Proof. exact @box_no_self_shadow. Qed.
Print Assumptions C148_boxes_do_not_shadow_themselves.

(** a die on a table, seen from above, under a lamp anywhere above the table *)
Example C148_example :
  forall l, all3 (at_most 900) l -> 0 < B2R (vy l) ->
  let p := vmadd (rayAt dieRay (hT dieHit)) tiny (vnormalized (hNormal dieHit)) in
  oIntersect (die None) dieRay = Val (dieHit, dieRay) /\ nltb (nofZ 0) (hT dieHit) = true /\
  oIntersect (die None) (Ray p l) = Val (noHit (M := unit), Ray p l).
Proof. exact die_example. Qed.
(** the lift matters: from as far below the face, the die is in its own light *)
Example C148_sunk_example :
  match oIntersect (die (M := unit) None) (Ray (vmadd (rayAt dieRay (hT dieHit)) (nopp tiny) (vnormalized (hNormal dieHit))) (Vec (nofZ 0) (nofZ 1) (nofZ 0))) with
  | Val (h, _) => nltb (nofZ 0) (hT h) | _ => false end = true.
Proof. exact die_inside. Qed.
