(** * Property C129: triangles in double precision *)
From Coq Require Import ZArith Reals Bool List.
From Flocq Require Import Core.
From Flocq Require IEEE754.BinarySingleNaN.
Import IEEE754.BinarySingleNaN.
From Verif Require Import Num Outcome B64 GeomModel GeomSpec ObjModel TreeModel ObjSpec FloatSpec TriSpec TriProofs.
Local Open Scope R_scope.

(** a vertical ray through the middle half of a rectangle that misses both of its triangles *)
Theorem C129_rectangles_have_pinholes_refuted :
  forall (M : Type) (sortSlice : (object b64 M -> object b64 M -> bool) -> list (object b64 M) -> list (object b64 M)) (m : option M),
  exists (w dp : b64) (c s : vec b64) (o : object b64 M) (h : hit b64 M) (r : ray b64),
    Rabs (B2R (vx s) - B2R (vx c)) <= B2R w / 4 /\ Rabs (B2R (vz s) - B2R (vz c)) <= B2R dp / 4 /\ 1 / 2 <= B2R (vy s) - B2R (vy c) <= 1 /\
    rectangle to32b sortSlice m w dp c = Val o /\ oIntersect o (Ray s (Vec (nofZ 0) (nofZ (-1)) (nofZ 0))) = Val (h, r) /\
    hMat h = m /\ nltb (nofZ (10 ^ 98)) (hT h) = true.
Proof. exact (fun M ss m => pinhole_in_rectangle ss m). Qed.
Print Assumptions C129_rectangles_have_pinholes_refuted.

(** points inside the triangle, by a margin *)
Theorem C129_triangles_are_closed_off_their_edges :
  forall (M : Type) (k i : Z) (a b c : vertex b64) (s d : vec b64) (t w1 w2 w3 : R),
    (-100 <= k <= 100)%Z -> (0 <= i <= 8)%Z ->
    all3 (at_most k) (vtPos a) -> all3 (at_most k) (vtPos b) -> all3 (at_most k) (vtPos c) -> all3 (at_most k) s -> near_unit d ->
    let A := real (vtPos a) in let B := real (vtPos b) in let C := real (vtPos c) in
    bpow radix2 (2 * k - i) <= Rabs (dot3 (cross3 (minus3 B A) (minus3 C A)) (real d)) ->
    Rabs t <= bpow radix2 (k + 2) -> w1 + w2 + w3 = 1 -> along (real s) (real d) t = weighted w1 w2 w3 A B C ->
    let h := faceIntersect (M := M) a b c (Ray s d) in let e := bpow radix2 (3 * i - 31) in let et := bpow radix2 (k + i - 42) in
    e <= w1 -> e <= w2 -> e <= w3 -> et < t ->
    within et t (hT h) /\ nltb (nofZ 0) (hT h) = true /\
    (at_most 0 (vtU a) -> at_most 0 (vtU b) -> at_most 0 (vtU c) ->
       within (4 * e) (w1 * B2R (vtU a) + w2 * B2R (vtU b) + w3 * B2R (vtU c)) (vx (hLocal h))) /\
    (at_most 0 (vtV a) -> at_most 0 (vtV b) -> at_most 0 (vtV c) ->
       within (4 * e) (w1 * B2R (vtV a) + w2 * B2R (vtV b) + w3 * B2R (vtV c)) (vy (hLocal h))).
Proof. exact @face_hits. Qed.
Print Assumptions C129_triangles_are_closed_off_their_edges.

(** points outside the triangle, by a margin, and points behind the ray *)
Theorem C129_triangles_end_at_their_edges :
  forall (M : Type) (k i : Z) (a b c : vertex b64) (s d : vec b64) (t w1 w2 w3 : R),
    (-100 <= k <= 100)%Z -> (0 <= i <= 8)%Z ->
    all3 (at_most k) (vtPos a) -> all3 (at_most k) (vtPos b) -> all3 (at_most k) (vtPos c) -> all3 (at_most k) s -> near_unit d ->
    let A := real (vtPos a) in let B := real (vtPos b) in let C := real (vtPos c) in
    bpow radix2 (2 * k - i) <= Rabs (dot3 (cross3 (minus3 B A) (minus3 C A)) (real d)) ->
    Rabs t <= bpow radix2 (k + 2) -> w1 + w2 + w3 = 1 -> along (real s) (real d) t = weighted w1 w2 w3 A B C ->
    let h := faceIntersect (M := M) a b c (Ray s d) in let e := bpow radix2 (3 * i - 31) in let et := bpow radix2 (k + i - 42) in
    w1 < - e \/ w2 < - e \/ w3 < - e \/ t < - et -> h = noHit.
Proof. exact @face_misses. Qed.
Print Assumptions C129_triangles_end_at_their_edges.

(** a triangle with two sides of length 8, hit from five units above, at (2, 0, 2) *)
Example C129_example :
  let corner x y z := Vertex (Vec (nofZ x) (nofZ y) (nofZ z)) vO (nofZ 0) (nofZ 0) : vertex b64 in
  let h := faceIntersect (M := unit) (corner 0 0 0)%Z (corner 0 0 8)%Z (corner 8 0 0)%Z (Ray (Vec (nofZ 2) (nofZ 5) (nofZ 2)) (Vec (nofZ 0) (nofZ (-1)) (nofZ 0))) in
  within (bpow radix2 (-39)) 5 (hT h) /\ nltb (nofZ 0) (hT h) = true.
Proof. exact face_example. Qed.
