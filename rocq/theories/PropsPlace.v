(** * Properties C101-C103: placing objects *)
From Coq Require Import ZArith Reals Bool List Lra.
From Verif Require Import Num NumLaws Outcome B64 GeomModel GeomSpec ObjModel ObjSpec PlaceModel PlaceSpec PlaceProofs PlaceFacts CentreProofs.
Import ListNotations.
Local Open Scope R_scope.

(** ** C28, C101: the box of a transformed box *)
Theorem C28_transformed_bounds_are_tight :
  forall (lo hi : pt) (t : affine R), ordered lo hi ->
    exists lo' hi', transformBounds (xbox lo hi) (xaff t) = Val (xbox lo' hi') /\
      (forall p, in_closed_box lo hi p -> in_closed_box lo' hi' (transformPoint t p)) /\
      (forall i, (exists p, in_closed_box lo hi p /\ vget (transformPoint t p) i = vget lo' i) /\
                 (exists p, in_closed_box lo hi p /\ vget (transformPoint t p) i = vget hi' i)) /\
      mid lo' hi' = transformPoint t (mid lo hi).
Proof. exact transformed_box_tight. Qed.
Print Assumptions C28_transformed_bounds_are_tight.

(** ** C101 *)
Theorem C101_centers :
  forall (M : Type) (o : object xr M) (lo hi : pt), oBounds o = Val (xbox lo hi) ->
    let c := mid lo hi in
    objCenter o = Val (xv c) /\
    objCenterBottom o = Val (xv (Vec (vx c) (vy lo) (vz c))) /\
    objCenterTop o = Val (xv (Vec (vx c) (vy hi) (vz c))) /\
    objCenterBack o = Val (xv (Vec (vx c) (vy c) (vz lo))) /\
    objCenterFront o = Val (xv (Vec (vx c) (vy c) (vz hi))).
Proof. exact @centers. Qed.
Print Assumptions C101_centers.

(** also if the box reaches to infinity: the centre of an interval without ends is 0 *)
Theorem C101_centers_of_unbounded_boxes :
  forall (M : Type) (o : object xr M) (lo hi : vec xr), oBounds o = Val (BBox lo hi) ->
    lower_end (vx lo) -> lower_end (vy lo) -> lower_end (vz lo) -> upper_end (vx hi) -> upper_end (vy hi) -> upper_end (vz hi) ->
    exists c, objCenter o = Val c /\ halfway (vx lo) (vx hi) (vx c) /\ halfway (vy lo) (vy hi) (vy c) /\ halfway (vz lo) (vz hi) (vz c) /\
      objCenterBottom o = Val (Vec (vx c) (vy lo) (vz c)) /\ objCenterTop o = Val (Vec (vx c) (vy hi) (vz c)) /\
      objCenterBack o = Val (Vec (vx c) (vy c) (vz lo)) /\ objCenterFront o = Val (Vec (vx c) (vy c) (vz hi)).
Proof. exact @centre_halfway. Qed.
Print Assumptions C101_centers_of_unbounded_boxes.

Theorem C101_with_center :
  forall (M : Type) (o : object xr M) (lo hi p : pt), placeable o -> oBounds o = Val (xbox lo hi) ->
    let d := minus3 p (mid lo hi) in
    exists o', withCenter o (xv p) = Val o' /\ placeable o' /\ oBounds o' = Val (xbox (plus3 lo d) (plus3 hi d)) /\
      objCenter o' = Val (xv p) /\ forall q, oInside o' (xv (plus3 q d)) = oInside o (xv q).
Proof. exact @with_center. Qed.
Print Assumptions C101_with_center.

Theorem C101_with_center_bottom :
  forall (M : Type) (o : object xr M) (lo hi p : pt), placeable o -> oBounds o = Val (xbox lo hi) ->
    let d := minus3 p (Vec (vx (mid lo hi)) (vy lo) (vz (mid lo hi))) in
    exists o', withCenterBottom o (xv p) = Val o' /\ placeable o' /\ oBounds o' = Val (xbox (plus3 lo d) (plus3 hi d)) /\
      objCenterBottom o' = Val (xv p) /\ forall q, oInside o' (xv (plus3 q d)) = oInside o (xv q).
Proof. exact @with_center_bottom. Qed.
Print Assumptions C101_with_center_bottom.

Theorem C101_scale_about_the_center :
  forall (M : Type) (o : object xr M) (lo hi : pt) (s : R), placeable o -> oBounds o = Val (xbox lo hi) -> s <> 0 ->
    let c := mid lo hi in
    exists o', scaleObj o (XF s) = Val o' /\ placeable o' /\ oBounds o' = Val (around c (scal3 (Rabs s / 2) (minus3 hi lo))) /\
      objCenter o' = objCenter o /\
      forall q, oInside o' (xv (plus3 c (scal3 s (minus3 q c)))) = oInside o (xv q).
Proof. exact @scale_about_center. Qed.
Print Assumptions C101_scale_about_the_center.

Theorem C101_rotate_about_the_center :
  forall (M : Type) (o : object xr M) (lo hi a : pt) (th : R), placeable o -> oBounds o = Val (xbox lo hi) -> a <> zero3 ->
    let c := mid lo hi in
    exists o', rotateObj (TF := TrigX) o (xv a) (XF th) = Val o' /\ placeable o' /\ objCenter o' = objCenter o /\
      forall q, oInside o' (xv (transformPoint (rotate c a th) q)) = oInside o (xv q).
Proof. exact @rotate_about_center. Qed.
Print Assumptions C101_rotate_about_the_center.

Theorem C101_and_not_and_remove :
  forall (F : Type) (NF : Num F) (NI : NumInf F) (M : Type) (o b : object F M) (p : vec F) (x y : bool),
    oInside o p = Val x -> oInside b p = Val y ->
    oInside (andNot o b) p = Val (x && negb y)%bool /\ oInside (remove o b) p = Val (x && negb y)%bool.
Proof. exact @and_not_remove_inside. Qed.
Print Assumptions C101_and_not_and_remove.

(** a ball that has been moved can be put somewhere else; in double precision *)
Example C101_example :
  match obind (translated (boxWithBounds None (Vec (nofZ 1) (nofZ 2) (nofZ 3)) (Vec (nofZ 3) (nofZ 6) (nofZ 9)) : object b64 unit) (Vec (nofZ 7) (nofZ 0) (nofZ 0)))
              (fun o => withCenterBottom o (Vec (nofZ 10) (nofZ 20) (nofZ 30))) with
  | Val o => match oBounds o with
             | Val b => veqb_vec (bMin b) (Vec (nofZ 9) (nofZ 20) (nofZ 27)) && veqb_vec (bMax b) (Vec (nofZ 11) (nofZ 24) (nofZ 33)) = true
             | _ => False
             end
  | _ => False
  end.
Proof. vm_compute. reflexivity. Qed.
Example C101_placeable : placeable (boxWithBounds None (xv (Vec 0 0 0)) (xv (Vec 1 2 3)) : object xr unit).
Proof. exact box_placeable. Qed.

(** ** C102 *)
Theorem C102_scale_to_size_exceeds_the_size_refuted :
  (exists o o' : object b64 unit, o = box None (nofZ 1) (nofZ 2) (nofZ 1) vO /\
     scaleToSize o (nofZ 1) = Val o' /\
     match oBounds o' with Val b => neqb (vy (bbSize b)) (nofZ 2) = true | _ => False end) /\
  scaleToSize (box None (nofZ 0) (nofZ 2) (nofZ 1) vO : object b64 unit) (nofZ 1) = Panic.
Proof. exact scale_to_size_wrong. Qed.
Print Assumptions C102_scale_to_size_exceeds_the_size_refuted.

Theorem C102_scale_to_size_sets_the_width :
  forall (M : Type) (o : object xr M) (lo hi : pt) (m : R), placeable o -> oBounds o = Val (xbox lo hi) -> vx lo < vx hi -> 0 < m ->
    exists o' lo' hi', scaleToSize o (XF m) = Val o' /\ placeable o' /\ oBounds o' = Val (xbox lo' hi') /\
      objCenter o' = objCenter o /\ vx hi' - vx lo' = m /\
      minus3 hi' lo' = scal3 (m / (vx hi - vx lo)) (minus3 hi lo).
Proof. exact @scale_to_size. Qed.
Print Assumptions C102_scale_to_size_sets_the_width.

(** ** C103 *)
Theorem C103_rigid_motions_do_not_inflate_boxes :
  forall (M : Type) (base o : object xr M) (lo hi : pt),
    oTransf base = None -> oBounds base = Val (xbox lo hi) -> ordered lo hi -> displaced base o ->
    exists t lo' hi', rigid t /\ (forall q, oInside o (xv (transformPoint t q)) = oInside base (xv q)) /\
      oBounds o = Val (xbox lo' hi') /\ mid lo' hi' = transformPoint t (mid lo hi) /\
      vx hi' - vx lo' <= dist hi lo /\ vy hi' - vy lo' <= dist hi lo /\ vz hi' - vz lo' <= dist hi lo.
Proof. exact @displaced_box. Qed.
Print Assumptions C103_rigid_motions_do_not_inflate_boxes.

(** two turns about different axes and points *)
Example C103_example :
  exists o1 o2 : object xr unit,
    let base := boxWithBounds None (xv (Vec 0 0 0)) (xv (Vec 1 2 3)) in
    rotateObj (TF := TrigX) base (xv (Vec 0 0 1)) (XF 1) = Val o1 /\
    rotateObj (TF := TrigX) o1 (xv (Vec 1 1 0)) (XF 2) = Val o2 /\ displaced base o2.
Proof. exact two_turns. Qed.
