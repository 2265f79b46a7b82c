(** * Solids cut out of balls and boxes, and images of balls and boxes *)
From Coq Require Import ZArith Reals List.
From Verif Require Import Num Outcome GeomModel GeomSpec ObjModel ObjSpec SolidProofs CsgSpec CsgTrees B64.
Local Open Scope R_scope.

(** ** C152: [build a] makes the solid [a] of [CsgSpec.v] from Sphere, BoxWithBounds, Transformed, And, Or and Difference.
    Inside tells its points. *)
Theorem C152_inside_is_membership :
  forall (M : Type) (NI : NumInf R) (a : solid M) (p : pt), proper a ->
    exists i, oInside (build a) p = Val i /\ (i = true <-> within a p).
Proof. exact @build_inside. Qed.
Print Assumptions C152_inside_is_membership.

(** A ray sees the first point of the surface of the solid, in the material of the part it belongs to. *)
Theorem C152_rays_see_the_surface :
  forall (M : Type) (NI : NumInf R) (a : solid M) (s d : pt),
    proper a -> fair a d -> ~ skin a s -> (parts a <= 50)%nat ->
    (forall t t', skin a (along s d t) -> skin a (along s d t') -> t < t' -> t + tiny < t') ->
    (forall t, skin a (along s d t) -> t < ninf) ->
    exists h, oIntersect (build a) (Ray s d) = Val (h, Ray s d) /\
      ((0 < hT h /\ face a (along s d (hT h)) (hMat h) /\ forall t m, 0 < t -> face a (along s d t) m -> hT h <= t) \/
       (hT h <= 0 /\ forall t m, 0 < t -> ~ face a (along s d t) m)).
Proof. exact @solid_seen. Qed.
Print Assumptions C152_rays_see_the_surface.

(** It cannot get into or out of the solid unseen, if no two parts have a point of their surfaces on it in common. *)
Theorem C152_nothing_is_passed_unseen :
  forall (M : Type) (NI : NumInf R) (a : solid M) (s d : pt),
    proper a -> fair a d -> ~ skin a s -> (parts a <= 50)%nat ->
    (forall t t', skin a (along s d t) -> skin a (along s d t') -> t < t' -> t + tiny < t') ->
    (forall t, skin a (along s d t) -> t < ninf) ->
    apart a s d ->
    exists h, oIntersect (build a) (Ray s d) = Val (h, Ray s d) /\
      forall t, 0 < t -> ~ (within a (along s d t) <-> within a s) ->
        0 < hT h <= t /\ face a (along s d (hT h)) (hMat h).
Proof. exact @solid_not_missed. Qed.
Print Assumptions C152_nothing_is_passed_unseen.

(** a ball of diameter 6 (material 1) cut with a cube of size 3 (material 2), with a hollow of diameter 3
    (material 3): the ray from (-5, -10, -10) towards the centre hits the cube's face at t = 17/4 *)
Example C152_example :
  forall NI : NumInf R, 6 < ninf -> exists h,
    oIntersect (build shell) (Ray (Vec (-5) (-10) (-10)) (Vec 1 2 2)) = Val (h, Ray (Vec (-5) (-10) (-10)) (Vec 1 2 2)) /\
    hT h = 17/4 /\ hMat h = Some 2%nat.
Proof. exact @shell_example. Qed.

(** a ball of diameter 6 (material 1) stretched into an egg, with its end cut off by a block (material 2):
    the same ray hits the cut at t = 9/2 *)
Example C152_egg_example :
  forall NI : NumInf R, 7 < ninf -> exists h,
    oIntersect (build egg) (Ray (Vec (-5) (-10) (-10)) (Vec 1 2 2)) = Val (h, Ray (Vec (-5) (-10) (-10)) (Vec 1 2 2)) /\
    hT h = 9/2 /\ hMat h = Some 2%nat.
Proof. exact @egg_example. Qed.

(** The last condition is needed: a ball cut with itself cannot be seen at all, from anywhere. *)
Theorem C152_coinciding_surfaces_are_not_seen :
  forall (M : Type) (NI : NumInf R) (m m' : option M) (diam : R) (c s d : pt),
    0 <= diam -> slanted d -> PrimProofs.dist2 s c <> (diam / 2)² ->
    (forall t t', PrimProofs.dist2 (along s d t) c = (diam / 2)² -> PrimProofs.dist2 (along s d t') c = (diam / 2)² -> t < t' -> t + tiny < t') ->
    (forall t, PrimProofs.dist2 (along s d t) c = (diam / 2)² -> t < ninf) ->
    exists h, oIntersect (build (Meet (Ball m diam c) (Ball m' diam c))) (Ray s d) = Val (h, Ray s d) /\ hT h <= 0.
Proof. exact @twin_unseen. Qed.
Print Assumptions C152_coinciding_surfaces_are_not_seen.

(** in double precision: a beam whose near end is hollowed out by a ball shows the wall of the hollow *)
Definition beam : object b64 nat :=
  cDifference (cOr (boxWithBounds (Some 1%nat) (Vec (nofZ (-4)) (nofZ (-1)) (nofZ (-1))) (Vec (nofZ 4) (nofZ 1) (nofZ 1)))
                   (sphere (Some 2%nat) (nofZ 2) (Vec (nofZ 9) (nofZ 0) (nofZ 0))))
              (sphere (Some 3%nat) (nofZ 6) (Vec (nofZ (-4)) (nofZ 0) (nofZ 0))).
Example C152_beam :
  match oIntersect beam (Ray (Vec (nofZ (-9)) (nQ 1 4) (nQ 1 4)) (Vec (nofZ 1) (nofZ 0) (nofZ 0))) with
  | Val (h, _) => andb (nltb (nQ 79 10) (hT h)) (andb (nltb (hT h) (nofZ 8)) (match hMat h with Some 3%nat => true | _ => false end))
  | _ => false end = true.
Proof. vm_compute. reflexivity. Qed.
