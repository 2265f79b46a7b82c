(** * Property C133: scattered directions in double precision *)
From Coq Require Import ZArith Reals Bool List.
From Flocq Require Import Core.
From Flocq Require IEEE754.BinarySingleNaN.
Import IEEE754.BinarySingleNaN.
From Verif Require Import Num Outcome B64 GeomModel SeqModel ObjModel TreeModel SceneModel FloatSpec RectFloat ScatterSpec CosFloat CosSharp.
Local Open Scope R_scope.

(** about any normal of length one, the direction has length one and its cosine with the normal is the square root
    of 1 - v, whatever the angle *)
Theorem C133_scattered_directions :
  forall (T : Trig b64) (a v : b64) (n : vec b64), fair_trig T -> between 0 1 a -> between 0 (1 - bpow radix2 (-30)) v ->
    all3 (fun x => is_finite x = true) n -> Rabs (rdot n n - 1) <= bpow radix2 (-40) ->
    let d := cosineSphere a v n in
    all3 (fun x => is_finite x = true) d /\ Rabs (rdot d d - 1) <= bpow radix2 (-34) /\
    Rabs (rdot d n - sqrt (1 - B2R v)) <= bpow radix2 (-22) /\ bpow radix2 (-16) <= rdot d n.
Proof. exact @cosine_u. Qed.
Print Assumptions C133_scattered_directions.

(** with correctly rounded sines and cosines this holds for every v below 1, and no direction is ever NaN *)
Theorem C133_grazing_directions :
  forall (T : Trig b64) (a v : b64) (n : vec b64), sharp_trig T -> between 0 1 a -> is_finite v = true -> 0 <= B2R v < 1 ->
    all3 (fun x => is_finite x = true) n -> Rabs (rdot n n - 1) <= bpow radix2 (-40) ->
    let d := cosineSphere a v n in
    all3 (fun x => is_finite x = true) d /\ Rabs (rdot d d - 1) <= bpow radix2 (-34) /\
    Rabs (rdot d n - sqrt (1 - B2R v)) <= bpow radix2 (-19) /\ - bpow radix2 (-37) <= rdot d n.
Proof. exact @cosine_sharp. Qed.
Print Assumptions C133_grazing_directions.

(** without: a sine and cosine whose squares add up to 1 + 2^-50 can make the direction NaN *)
Theorem C133_inexact_sines_make_nan :
  exists (T : Trig b64) (v : b64), fair_trig T /\
    (forall x, B2R (nsin x) * B2R (nsin x) + B2R (ncos x) * B2R (ncos x) <= 1 + bpow radix2 (-50)) /\
    is_finite v = true /\ 0 <= B2R v < 1 /\
    let d := cosineSphere (nofZ 0) v (Vec (nofZ 0) (nofZ 1) (nofZ 0)) in is_nan (vx d) = true /\ is_nan (vy d) = true /\ is_nan (vz d) = true.
Proof. exact nan_near_one. Qed.
Print Assumptions C133_inexact_sines_make_nan.

(** the scattered ray of a ball never meets the ball again *)
Theorem C133_balls_let_scattered_rays_go :
  forall (T : Trig b64) (M : Type) (m : option M) (diam : b64) (c s d : vec b64) (h : hit b64 M) (r' : ray b64), sharp_trig T ->
    between 1 512 diam -> all3 (at_most 8) c -> all3 (at_most 8) s -> near_unit d ->
    oIntersect (sphere m diam c) (Ray s d) = Val (h, r') -> nltb (nofZ 0) (hT h) = true -> nltb (nofZ 0) (vdot (vnormalized (hNormal h)) d) = false ->
    let n := flipTowards (vnormalized (hNormal h)) d in let p := vmadd (vmadd (rayAt (Ray s d) (hT h)) tiny n) tiny n in
    forall a v, between 0 1 a -> is_finite v = true -> 0 <= B2R v < 1 ->
    oIntersect (sphere m diam c) (Ray p (cosineSphere a v n)) = Val (noHit, Ray p (cosineSphere a v n)).
Proof. exact @scatter_ball_sharp. Qed.
Print Assumptions C133_balls_let_scattered_rays_go.

(** nor that of a floor, at any distance that matters *)
Theorem C133_floors_let_scattered_rays_go :
  forall (T : Trig b64) (M : Type), fair_trig T ->
  forall (sortSlice : (object b64 M -> object b64 M -> bool) -> list (object b64 M) -> list (object b64 M)) (m : option M)
         (w dp : b64) (c : vec b64) (o : object b64 M),
    at_most 8 w -> bpow radix2 (-20) <= B2R w -> at_most 8 dp -> bpow radix2 (-20) <= B2R dp -> all3 (at_most 7) c ->
    rectangle to32b sortSlice m w dp c = Val o ->
    forall (s d : vec b64) (h : hit b64 M) (r : ray b64),
    all3 (at_most 10) s -> near_unit d -> at_least (-100) (vy d) ->
    oIntersect o (Ray s d) = Val (h, r) -> nltb (nofZ 0) (hT h) = true -> nltb (hT h) (nofZ (10 ^ 98)) = true ->
    let n := flipTowards (vnormalized (hNormal h)) d in let p := vmadd (vmadd (rayAt (Ray s d) (hT h)) tiny n) tiny n in
    forall a v, between 0 1 a -> between 0 (1 - bpow radix2 (-30)) v ->
    exists h', oIntersect o (Ray p (cosineSphere a v n)) = Val (h', Ray p (cosineSphere a v n)) /\ (hT h' = nofZ 0 \/ hT h' = nofZ (9 * 10 ^ 99)).
Proof. exact @scatter_floor. Qed.
Print Assumptions C133_floors_let_scattered_rays_go.

(** about the vertical, v = 0.36, at the angle with sine 3/5: (-0.36, 0.8, 0.48) *)
Example C133_example :
  sharp_trig (fixedTrig (nQ 3 5) (nQ 4 5)) /\
  let d := cosineSphere (TF := fixedTrig (nQ 3 5) (nQ 4 5)) (nofZ 0) (nQ 36 100) (Vec (nofZ 0) (nofZ 1) (nofZ 0)) in
  nltb (nabs (nsub (vx d) (nQ (-36) 100))) (nQ 1 1000000000000) = true /\ nltb (nabs (nsub (vy d) (nQ 8 10))) (nQ 1 1000000000000) = true /\
  nltb (nabs (nsub (vz d) (nQ 48 100))) (nQ 1 1000000000000) = true.
Proof. exact (conj sharp_345 scatter_345). Qed.
