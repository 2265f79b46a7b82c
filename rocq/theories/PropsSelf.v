(** * Property C132: floors in double precision are not hit by their own rays *)
From Coq Require Import ZArith Reals Bool List.
From Flocq Require Import Core.
From Flocq Require IEEE754.BinarySingleNaN.
Import IEEE754.BinarySingleNaN.
From Verif Require Import Num Outcome B64 GeomModel ObjModel TreeModel SceneModel FloatSpec RectFloat.
Local Open Scope R_scope.

(** a floor at height 70.3: a ray that starts above it and goes up is reported to hit it, at 9e99 *)
Theorem C132_high_floors_catch_their_own_rays_refuted :
  forall (M : Type) (sortSlice : (object b64 M -> object b64 M -> bool) -> list (object b64 M) -> list (object b64 M)) (m : option M),
  exists (w dp : b64) (c s d d' : vec b64) (o : object b64 M) (h h' : hit b64 M) (r r' : ray b64),
    rectangle to32b sortSlice m w dp c = Val o /\ oIntersect o (Ray s d) = Val (h, r) /\ nltb (nofZ 0) (hT h) = true /\ nltb (hT h) (nofZ 10) = true /\
    let n := flipTowards (vnormalized (hNormal h)) d in let p := vmadd (vmadd (rayAt (Ray s d) (hT h)) tiny n) tiny n in
    nltb (vy c) (vy p) = true /\ nltb (nofZ 0) (vy d') = true /\
    oIntersect o (Ray p d') = Val (h', r') /\ nltb (nofZ (10 ^ 98)) (hT h') = true /\ hMat h' = m.
Proof. exact @high_floor. Qed.
Print Assumptions C132_high_floors_catch_their_own_rays_refuted.

(** the points shadow rays (lifted once) and scattered rays (lifted twice) start from lie off the floor, on
    the side they leave to *)
Theorem C132_points_are_lifted_off_the_floor :
  forall (M : Type) (sortSlice : (object b64 M -> object b64 M -> bool) -> list (object b64 M) -> list (object b64 M)) (m : option M)
         (w dp : b64) (c : vec b64) (o : object b64 M),
    at_most 8 w -> bpow radix2 (-20) <= B2R w -> at_most 8 dp -> bpow radix2 (-20) <= B2R dp -> all3 (at_most 7) c ->
    rectangle to32b sortSlice m w dp c = Val o ->
    forall (s d : vec b64) (h : hit b64 M) (r : ray b64) (d' : vec b64),
    all3 (at_most 10) s -> near_unit d -> at_least (-100) (vy d) ->
    oIntersect o (Ray s d) = Val (h, r) -> nltb (nofZ 0) (hT h) = true -> nltb (hT h) (nofZ (10 ^ 98)) = true ->
    near_unit d' ->
    let n := flipTowards (vnormalized (hNormal h)) d in let q := vmadd (rayAt (Ray s d) (hT h)) tiny n in let q2 := vmadd q tiny n in
    0 < rdot d' n ->
    79 / 100000000 <= Rabs (B2R (vy q) - B2R (vy c)) <= 166 / 100000000 /\ 0 < B2R (vy d') * (B2R (vy q) - B2R (vy c)) /\
    158 / 100000000 <= Rabs (B2R (vy q2) - B2R (vy c)) <= 166 / 100000000 /\ 0 < B2R (vy d') * (B2R (vy q2) - B2R (vy c)).
Proof. exact @floor_lift. Qed.
Print Assumptions C132_points_are_lifted_off_the_floor.

(** rays leaving a floor from a point where it was hit meet nothing of it at any distance that matters *)
Theorem C132_floors_do_not_shade_themselves :
  forall (M : Type) (sortSlice : (object b64 M -> object b64 M -> bool) -> list (object b64 M) -> list (object b64 M)) (m : option M)
         (w dp : b64) (c : vec b64) (o : object b64 M),
    at_most 8 w -> bpow radix2 (-20) <= B2R w -> at_most 8 dp -> bpow radix2 (-20) <= B2R dp -> all3 (at_most 7) c ->
    rectangle to32b sortSlice m w dp c = Val o ->
    forall (s d : vec b64) (h : hit b64 M) (r : ray b64) (d' : vec b64),
    all3 (at_most 10) s -> near_unit d -> at_least (-100) (vy d) ->
    oIntersect o (Ray s d) = Val (h, r) -> nltb (nofZ 0) (hT h) = true -> nltb (hT h) (nofZ (10 ^ 98)) = true ->
    near_unit d' ->
    let n := flipTowards (vnormalized (hNormal h)) d in let q := vmadd (rayAt (Ray s d) (hT h)) tiny n in let q2 := vmadd q tiny n in
    0 < rdot d' n -> at_least (-500) (vy d') ->
    forall p, p = q \/ p = q2 -> exists h', oIntersect o (Ray p d') = Val (h', Ray p d') /\ (hT h' = nofZ 0 \/ hT h' = nofZ (9 * 10 ^ 99)).
Proof. exact @floor_rays. Qed.
Print Assumptions C132_floors_do_not_shade_themselves.

(** and low floors report that they are missed: up to 16 from the origin for shadow rays, 32 for scattered rays *)
Theorem C132_low_floors_let_their_rays_go :
  forall (M : Type) (sortSlice : (object b64 M -> object b64 M -> bool) -> list (object b64 M) -> list (object b64 M)) (m : option M)
         (w dp : b64) (c : vec b64) (o : object b64 M),
    at_most 8 w -> bpow radix2 (-20) <= B2R w -> at_most 8 dp -> bpow radix2 (-20) <= B2R dp -> all3 (at_most 7) c ->
    rectangle to32b sortSlice m w dp c = Val o ->
    forall (s d : vec b64) (h : hit b64 M) (r : ray b64) (d' : vec b64),
    all3 (at_most 10) s -> near_unit d -> at_least (-100) (vy d) ->
    oIntersect o (Ray s d) = Val (h, r) -> nltb (nofZ 0) (hT h) = true -> nltb (hT h) (nofZ (10 ^ 98)) = true ->
    near_unit d' ->
    let n := flipTowards (vnormalized (hNormal h)) d in let q := vmadd (rayAt (Ray s d) (hT h)) tiny n in let q2 := vmadd q tiny n in
    0 < rdot d' n -> all3 (at_least (-500)) d' ->
    (Rabs (B2R (vy c)) <= 16 -> oIntersect o (Ray q d') = Val (Hit (nofZ 0) vO vO m, Ray q d')) /\
    (Rabs (B2R (vy c)) <= 32 -> oIntersect o (Ray q2 d') = Val (Hit (nofZ 0) vO vO m, Ray q2 d')).
Proof. exact @low_floor_rays. Qed.
Print Assumptions C132_low_floors_let_their_rays_go.

(** a floor at height 0.7, hit from above and left in direction (2/3, 2/3, 1/3) *)
Example C132_example :
  forall (M : Type) (sortSlice : (object b64 M -> object b64 M -> bool) -> list (object b64 M) -> list (object b64 M)) (m : option M),
  exists (o : object b64 M) (h h' : hit b64 M) (r r' : ray b64),
    let s := Vec (nofZ 1) (nofZ 5) (nofZ 2) in let d := Vec (nofZ 0) (nofZ (-1)) (nofZ 0) in
    rectangle to32b sortSlice m (nofZ 10) (nofZ 10) (Vec (nofZ 0) (nQ 7 10) (nofZ 0)) = Val o /\ oIntersect o (Ray s d) = Val (h, r) /\ nltb (nofZ 0) (hT h) = true /\
    oIntersect o (Ray (vmadd (vmadd (rayAt (Ray s d) (hT h)) tiny (flipTowards (vnormalized (hNormal h)) d)) tiny (flipTowards (vnormalized (hNormal h)) d)) (Vec (nQ 2 3) (nQ 2 3) (nQ 1 3))) = Val (h', r') /\ neqb (hT h') (nofZ 0) = true.
Proof. exact @low_floor. Qed.
