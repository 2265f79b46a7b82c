(** * Property theorems: height fields (C136) and boxes of a given size (part of C35) *)
From Coq Require Import ZArith Reals.
From Verif Require Import Num NumLaws Outcome GeomModel ObjModel GeomSpec ObjSpec IsoSpec IsoProofs.
Local Open Scope R_scope.

(** ** C136: rays that enter the bounding box above the surface and leave it below *)
Theorem C136_descending_rays_hit_the_surface :
  forall (M : Type) (m : option M) (dx dy dz : R) (f : R -> R -> R) (g : xr -> xr -> xr), 0 < dx -> 0 < dy -> 0 < dz -> lifts f g -> unit_heights f ->
  forall (s d : pt) (t1 t2 : R), d <> zero3 -> off_planes zero3 (Vec dx dy dz) s -> crosses dx dy dz s d t1 t2 -> tiny < t1 ->
  let elev t := elevation dx dy dz f (along s d t) in
  (forall t, continuity_pt elev t) -> 0 < elev (t1 - tiny) -> elev (t2 + tiny) <= 0 ->
  forall fuel, t2 - t1 + 2 * tiny <= 1 / 1048576 * 2 ^ fuel ->
  exists t h, oIntersect (isoSurface m (XF dx) (XF dy) (XF dz) g (S fuel)) (xray s d) = Val (h, xray s d) /\ hT h = XF t /\ hMat h = m /\
    t1 - tiny <= t <= t2 + tiny /\
    (exists t0, t - 1 / 1048576 <= t0 <= t /\ elev t0 = 0 /\
       ((forall a b, t1 - tiny <= a <= b -> elev b <= elev a) -> forall a, t1 - tiny <= a -> elev a < 0 -> t0 <= a)) /\
    let u := vx (along s d t) / dx in let v := vz (along s d t) / dz in
    hLocal h = xv (Vec u v 0) /\ hNormal h = xv (Vec (- slope dy (fun u => f u v) u) 1 (- slope dy (fun v => f u v) v)).
Proof. exact iso_hit_ok. Qed.
Print Assumptions C136_descending_rays_hit_the_surface.

(** rays that do not meet the bounding box ahead of them miss *)
Theorem C136_rays_outside_the_box_miss :
  forall (M : Type) (m : option M) (dx dy dz : R) (g : xr -> xr -> xr), 0 < dx -> 0 < dy -> 0 < dz ->
  forall (fuel : nat) (s d : pt), d <> zero3 -> off_planes zero3 (Vec dx dy dz) s ->
    (forall t, 0 < t -> ~ in_closed_box zero3 (Vec dx dy dz) (along s d t)) ->
    oIntersect (isoSurface m (XF dx) (XF dy) (XF dz) g fuel) (xray s d) = Val (noHit, xray s d).
Proof. exact @iso_outside. Qed.
Print Assumptions C136_rays_outside_the_box_miss.

(** rays that leave the surface upwards do not hit it again: the hit is behind the start *)
Theorem C136_ascending_rays_start_at_the_box :
  forall (M : Type) (m : option M) (dx dy dz : R) (f : R -> R -> R) (g : xr -> xr -> xr), 0 < dx -> 0 < dy -> 0 < dz -> lifts f g ->
  forall (s d : pt) (t1 t2 : R), d <> zero3 -> off_planes zero3 (Vec dx dy dz) s -> crosses dx dy dz s d t1 t2 -> forall fuel, unit_heights f -> 0 < t2 -> t1 <> tiny ->
  elevation dx dy dz f (along s d (t1 - tiny)) <= 0 -> 0 <= elevation dx dy dz f (along s d (t2 + tiny)) ->
  exists h, oIntersect (isoSurface m (XF dx) (XF dy) (XF dz) g (S fuel)) (xray s d) = Val (h, xray s d) /\ hT h = XF (t1 - tiny) /\ hMat h = m.
Proof. exact @iso_from_below. Qed.
Print Assumptions C136_ascending_rays_start_at_the_box.

Theorem C136_inside_is_below_the_surface :
  forall (M : Type) (m : option M) (dx dy dz : R) (f : R -> R -> R) (g : xr -> xr -> xr), 0 < dx -> 0 < dz -> lifts f g ->
  forall (fuel : nat) (p : pt), unit_heights f ->
    oInside (isoSurface m (XF dx) (XF dy) (XF dz) g fuel) (xv p) = Val true <-> in_open_box zero3 (Vec dx dy dz) p /\ elevation dx dy dz f p < 0.
Proof. exact @iso_inside. Qed.
Print Assumptions C136_inside_is_below_the_surface.

(** heights outside 0..1, by more than 1/1024, stop the program *)
Theorem C136_bad_heights_are_reported :
  forall (M : Type) (m : option M) (dx dy dz : R) (f : R -> R -> R) (g : xr -> xr -> xr), 0 < dx -> 0 < dy -> 0 < dz -> lifts f g ->
  forall (s d : pt) (t1 t2 : R), d <> zero3 -> off_planes zero3 (Vec dx dy dz) s -> crosses dx dy dz s d t1 t2 -> forall fuel, 0 < t2 ->
  (let p := along s d (t1 - tiny) in let h := f (vx p / dx) (vz p / dz) in h < -1 / 1024 \/ 1025 / 1024 < h) ->
  oIntersect (isoSurface m (XF dx) (XF dy) (XF dz) g fuel) (xray s d) = Panic.
Proof. exact @iso_bad_height. Qed.
Print Assumptions C136_bad_heights_are_reported.

(** a horizontal ray that comes in above a ridge, goes through it and leaves above it is not stopped *)
Theorem C136_rays_through_the_surface_hit_it_refuted :
  forall (M : Type) (m : option M) (fuel : nat),
  let s := Vec (-1) (1 / 2) (1 / 2) in let d := Vec 1 0 0 in
  lifts ridge ridgeX /\ unit_heights ridge /\ crosses 1 1 1 s d 1 2 /\
  (forall t, 1 <= t <= 5 / 4 -> 0 < elevation 1 1 1 ridge (along s d t)) /\ elevation 1 1 1 ridge (along s d (3 / 2)) < 0 /\
  oIntersect (isoSurface m (XF 1) (XF 1) (XF 1) ridgeX fuel) (xray s d) = Val (noHit, xray s d).
Proof. exact @ridge_missed. Qed.
Print Assumptions C136_rays_through_the_surface_hit_it_refuted.

(** looking down on a plateau at half the height *)
Example C136_example : exists (h : hit xr unit) (t : R),
  oIntersect (isoSurface None (XF 1) (XF 1) (XF 1) (fun _ _ => XF (1 / 2)) 41) (xray (Vec (1 / 2) 2 (1 / 2)) (Vec 0 (-1) 0)) = Val (h, xray (Vec (1 / 2) 2 (1 / 2)) (Vec 0 (-1) 0)) /\
  hT h = XF t /\ 3 / 2 <= t <= 3 / 2 + 1 / 1048576 /\ hNormal h = xv (Vec 0 1 0).
Proof. exact (ridge_hit None). Qed.

(** ** C35: a box of a given size about a centre is the box with those corners *)
Theorem C35_box_of_a_given_size :
  forall (M : Type) (m : option M) (w h d : R) (c : pt),
  box m (XF w) (XF h) (XF d) (xv c) =
  boxWithBounds m (xv (Vec (vx c - w / 2) (vy c - h / 2) (vz c - d / 2))) (xv (Vec (vx c + w / 2) (vy c + h / 2) (vz c + d / 2))).
Proof. exact @sized_box. Qed.
Print Assumptions C35_box_of_a_given_size.
