(** * Rays through a cylinder with caps *)
From Coq Require Import ZArith Reals Bool.
From Verif Require Import Num Outcome GeomModel GeomSpec ObjModel ObjSpec B64 SolidProofs CappedProofs.
Local Open Scope R_scope.

(** ** C151: a ray that passes through a cylinder with caps need not hit it: the mantle is transparent
    along the four lines where it touches the box it is cut with *)
Theorem C151_rays_through_a_capped_cylinder_hit_it_refuted :
  ~ (forall (m : option unit) (diam height : b64) (c : vec b64) (r : ray b64) (t : b64),
      nltb (nofZ 0) t = true ->
      bbInside (BBox (vadd c (Vec (nopp diam) (nopp height) (nopp diam))) (vadd c (Vec diam height diam))) (rStart r) = false ->
      oInside (cylinderWithCaps m diam height c) (rayAt r t) = Val true ->
      exists h r', oIntersect (cylinderWithCaps m diam height c) r = Val (h, r') /\ nltb (nofZ 0) (hT h) = true).
Proof. exact lidded_holes. Qed.
Print Assumptions C151_rays_through_a_capped_cylinder_hit_it_refuted.

(** away from these lines and from the rims it does, and not later than any point of the solid *)
Theorem C151_rays_through_a_capped_cylinder_hit_it :
  forall (M : Type) (NI : NumInf R) (m : option M) (diam height : R) (c s d : pt),
    0 < diam -> 0 < height -> slanted d ->
    let solid p := (vx p - vx c)² + (vz p - vz c)² < (diam / 2)² /\ Rabs (vy p - vy c) < height / 2 in
    ~ in_closed_box (Vec (vx c - diam / 2) (vy c - height / 2) (vz c - diam / 2)) (Vec (vx c + diam / 2) (vy c + height / 2) (vz c + diam / 2)) s ->
    (forall t, 0 < t -> let p := along s d t in (vx p - vx c)² + (vz p - vz c)² = (diam / 2)² ->
       vx p <> vx c /\ vz p <> vz c /\ Rabs (vy p - vy c) <> height / 2) ->
    (exists t, 0 < t < ninf /\ solid (along s d t)) ->
    exists h, oIntersect (cylinderWithCaps m diam height c) (Ray s d) = Val (h, Ray s d) /\ 0 < hT h /\
      forall t, 0 < t < ninf -> solid (along s d t) -> hT h <= t.
Proof. exact @capped_seen. Qed.
Print Assumptions C151_rays_through_a_capped_cylinder_hit_it.

(** a tin 2 wide and 6 high: looked at along the x axis it is not there, a little aside it is *)
Example C151_example :
  let sees z := match oIntersect lidded (Ray (Vec (nofZ 5) (nofZ 0) z) (Vec (nofZ (-1)) (nofZ 0) (nofZ 0))) with Val (h, _) => nltb (nofZ 0) (hT h) | _ => false end in
  sees (nofZ 0) = false /\ sees (nQ 1 1000) = true /\ oInside lidded vO = Val true.
Proof. split; [|split]; vm_compute; reflexivity. Qed.
