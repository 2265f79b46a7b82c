(** * Single triangles, cylinders with caps, rays handed back by CSG, vectors that are not numbers *)
From Coq Require Import ZArith Reals Bool List.
From Verif Require Import Num Outcome GeomModel GeomSpec ObjModel TreeModel ObjSpec PrimProofs MeshSpec B64 SolidProofs NanProofs.
Import ListNotations.
Local Open Scope R_scope.

(** ** C95, one triangle: the texture has its origin in the first corner and its axes along the two edges from there *)
Theorem C95_triangle_hits :
  forall (M : Type) (sortSlice : (object xr M -> object xr M -> bool) -> list (object xr M) -> list (object xr M)),
    reorders sortSlice ->
    forall (m : option M) (a b c s d : pt),
      let n := cross3 (minus3 b a) (minus3 c a) in
      n <> zero3 -> dot3 n d <> 0 -> start_off [a; b; c] s ->
      (forall t u v, 0 < t -> 0 <= u -> 0 <= v -> u + v <= 1 -> along s d t = para a b c u v -> t < horizon) ->
      exists ob h, triangle (fun x => x) sortSlice m (xv a) (xv b) (xv c) = Val ob /\
        oIntersect ob (xray s d) = Val (h, xray s d) /\
        ((exists t u v, 0 < t /\ 0 <= u /\ 0 <= v /\ u + v <= 1 /\ along s d t = para a b c u v /\
            h = Hit (XF t) (xv (unit_of n)) (xv (Vec u v 0)) m) \/
         ((forall t u v, 0 < t -> 0 <= u -> 0 <= v -> u + v <= 1 -> along s d t <> para a b c u v) /\
          (hT h = XF 0 \/ hT h = XF horizon))).
Proof. exact @tri_exact. Qed.
Print Assumptions C95_triangle_hits.

(** ** C24, for members of any kind: even if they move the ray, CSG puts it back *)
Theorem C24_csg_puts_the_ray_back :
  forall (F : Type) (NF : Num F) (NI : NumInf F) (M : Type) (a b : object F M) (r : ray F) (h : hit F M) (r' : ray F),
    oIntersect (cAnd a b) r = Val (h, r') \/ oIntersect (cOr a b) r = Val (h, r') \/
    oIntersect (cDifference a b) r = Val (h, r') \/ oIntersect (cRestrict a b) r = Val (h, r') ->
    rStart r' = rStart r.
Proof. exact @csg_back. Qed.
Print Assumptions C24_csg_puts_the_ray_back.

(** ** C149: a cylinder with caps is the solid between them *)
Theorem C149_capped_cylinders_are_solid :
  forall (M : Type) (NI : NumInf R) (m : option M) (diam height : R) (c p : pt), 0 <= diam ->
    oInside (cylinderWithCaps m diam height c) p = Val true <->
    (vx p - vx c)² + (vz p - vz c)² < (diam / 2)² /\ Rabs (vy p - vy c) < height / 2.
Proof. exact @capped_inside. Qed.
Print Assumptions C149_capped_cylinders_are_solid.

(** every hit is on its mantle, where the normal points away from the axis, or on a cap, where it is
    vertical unless the point is within 1e-7 of the rim *)
Theorem C149_capped_cylinder_hits :
  forall (M : Type) (NI : NumInf R) (m : option M) (diam height : R) (c s d : pt) (h : hit R M) (r' : ray R),
    0 <= diam -> 0 <= height -> slanted d ->
    oIntersect (cylinderWithCaps m diam height c) (Ray s d) = Val (h, r') -> 0 < hT h ->
    let p := along s d (hT h) in
    let radial2 := (vx p - vx c)² + (vz p - vz c)² in
    hMat h = m /\
    ((radial2 = (diam / 2)² /\ Rabs (vy p - vy c) < height / 2 /\ hNormal h = Vec (vx p - vx c) 0 (vz p - vz c)) \/
     (radial2 < (diam / 2)² /\ Rabs (vy p - vy c) = height / 2 /\
      (radial2 < (diam / 2 - / 10000000)² -> / 10000000 <= diam / 2 -> / 10000000 < height ->
       (vy p - vy c) * 2 / height = vy (hNormal h) /\ vx (hNormal h) = 0 /\ vz (hNormal h) = 0))).
Proof. exact @capped_hits. Qed.
Print Assumptions C149_capped_cylinder_hits.

(** in double precision: a tin 2 wide and 6 high contains (0, 2.5, 0) and not (0, 0, 2.5); its lid is seen
    from above at distance 7, its side at x = 0.8 *)
Definition tin : object b64 unit := cylinderWithCaps None (nofZ 2) (nofZ 6) vO.
Definition tinSeen (r : ray b64) : b64 := match oIntersect tin r with Val (h, _) => hT h | _ => nofZ (-1) end.
Example C149_example :
  match oInside tin (Vec (nofZ 0) (nQ 5 2) (nofZ 0)), oInside tin (Vec (nofZ 0) (nofZ 0) (nQ 5 2)) with
  | Val x, Val y => x && negb y | _, _ => false end &&
  neqb (tinSeen (Ray (Vec (nQ 1 4) (nofZ 10) (nQ 1 2)) (Vec (nofZ 0) (nofZ (-1)) (nofZ 0)))) (nofZ 7) &&
  (let t := tinSeen (Ray (Vec (nofZ 5) (nQ 5 2) (nQ 3 5)) (Vec (nofZ (-1)) (nofZ 0) (nofZ 0))) in nltb (nQ 4199 1000) t && nltb t (nQ 4201 1000)) &&
  neqb (tinSeen (Ray (Vec (nofZ 5) (nQ 7 2) (nQ 3 5)) (Vec (nofZ (-1)) (nofZ 0) (nofZ 0)))) (nofZ 0) = true.
Proof. vm_compute. reflexivity. Qed.

(** ** C150: IsNaN tells exactly the vectors that have no length *)
Theorem C150_isnan_is_having_no_length :
  forall v : vec b64, visnan v = nisnan (vlen2 v) /\ visnan v = nisnan (vlen v) /\ visnan v = nisnan (vdot v v).
Proof. exact isnan_length. Qed.
Print Assumptions C150_isnan_is_having_no_length.

(** infinite vectors have an infinite length; a difference of infinities has none *)
Example C150_example :
  let i := ndiv (nofZ 1) (nofZ 0) : b64 in
  visnan (Vec i (nopp i) (nofZ 3)) = false /\ neqb (vlen (Vec i (nopp i) (nofZ 3))) i = true /\
  visnan (Vec (nofZ 1) (nofZ 2) (nsub i i)) = true.
Proof. split; [|split]; vm_compute; reflexivity. Qed.
