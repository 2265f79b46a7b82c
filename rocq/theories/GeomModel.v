(** * Model of package geom (and the parts of package util it uses)

    Vectors, 3x3 matrices and affine transforms, function by function. *)
From Coq Require Import ZArith Reals Bool List.
From Verif Require Import Num.
Import ListNotations.
Local Open Scope num_scope.

(** geom/vec.go:9 [type Vec [3]float64] *)
Record vec (F : Type) : Type := Vec { vx : F; vy : F; vz : F }.
Arguments Vec {F} _ _ _.
Arguments vx {F} _.
Arguments vy {F} _.
Arguments vz {F} _.

(** Component access v[i] (geom/util.go:16-20: X=0, Y=1, Z=2).
    The code only indexes with 0, 1, 2. *)
Inductive axis := AX | AY | AZ.
Definition vget {F} (v : vec F) (i : axis) : F :=
  match i with AX => vx v | AY => vy v | AZ => vz v end.
Definition vset {F} (v : vec F) (i : axis) (x : F) : vec F :=
  match i with
  | AX => Vec x (vy v) (vz v)
  | AY => Vec (vx v) x (vz v)
  | AZ => Vec (vx v) (vy v) x
  end.

(** geom/matrix.go:4 [type Matrix [3]Vec]; m[0], m[1], m[2] (these are columns, see MulVec) *)
Record matrix (F : Type) : Type := Matrix { m0 : vec F; m1 : vec F; m2 : vec F }.
Arguments Matrix {F} _ _ _.
Arguments m0 {F} _.
Arguments m1 {F} _.
Arguments m2 {F} _.

(** geom/affinetransform.go:20-23 *)
Record affine (F : Type) : Type := Affine { afA : matrix F; afB : vec F }.
Arguments Affine {F} _ _.
Arguments afA {F} _.
Arguments afB {F} _.

Section Geom.
  Context {F : Type} `{NF : Num F}.

  (** geom/util.go:23-32: O, Ex, Ey, Ez *)
  Definition vO : vec F := Vec #0 #0 #0.
  Definition vEx : vec F := Vec #1 #0 #0.
  Definition vEy : vec F := Vec #0 #1 #0.
  Definition vEz : vec F := Vec #0 #0 #1.

  (** geom/vec.go:12-18 *)
  Definition vadd (a b : vec F) : vec F := Vec (vx a + vx b) (vy a + vy b) (vz a + vz b).
  (** geom/vec.go:21-27 *)
  Definition vmadd (a : vec F) (s : F) (b : vec F) : vec F :=
    Vec (vx a + s * vx b) (vy a + s * vy b) (vz a + s * vz b).
  (** geom/vec.go:30-36 *)
  Definition vsub (a b : vec F) : vec F := Vec (vx a - vx b) (vy a - vy b) (vz a - vz b).
  (** geom/vec.go:39-41 *)
  Definition vdot (a b : vec F) : F := vx a * vx b + vy a * vy b + vz a * vz b.
  (** geom/vec.go:44-50: s * a *)
  Definition vmul (a : vec F) (s : F) : vec F := Vec (s * vx a) (s * vy a) (s * vz a).
  (** geom/vec.go:53-55 *)
  Definition vlen (a : vec F) : F := nsqrt (vx a * vx a + vy a * vy a + vz a * vz a).
  (** geom/vec.go:58-60 *)
  Definition vlen2 (a : vec F) : F := vx a * vx a + vy a * vy a + vz a * vz a.
  (** geom/vec.go:63-71; also Normalize (74-80), which overwrites its receiver with the same value *)
  Definition vnormalized (a : vec F) : vec F :=
    let s := #1 / nsqrt (vx a * vx a + vy a * vy a + vz a * vz a) in
    Vec (vx a * s) (vy a * s) (vz a * s).
  (** geom/vec.go:84-89 *)
  Definition vcross (a b : vec F) : vec F :=
    Vec (vy a * vz b - vz a * vy b) (vz a * vx b - vx a * vz b) (vx a * vy b - vy a * vx b).
  (** geom/vec.go:117-119 *)
  Definition visnan (a : vec F) : bool := nisnan (vx a) || nisnan (vy a) || nisnan (vz a).
  (** geom/util.go:38-40 *)
  Definition triangleNormal (a b c : vec F) : vec F :=
    vnormalized (vcross (vsub b a) (vsub c a)).

  (** geom/matrix.go:7-17: c[i][j] = ((0 + b[i][0]*m[0][j]) + b[i][1]*m[1][j]) + b[i][2]*m[2][j] *)
  Definition mmul_elem (m : matrix F) (bi : vec F) (j : axis) : F :=
    ((#0 + vx bi * vget (m0 m) j) + vy bi * vget (m1 m) j) + vz bi * vget (m2 m) j.
  Definition mmul_col (m : matrix F) (bi : vec F) : vec F :=
    Vec (mmul_elem m bi AX) (mmul_elem m bi AY) (mmul_elem m bi AZ).
  Definition mmul (m b : matrix F) : matrix F :=
    Matrix (mmul_col m (m0 b)) (mmul_col m (m1 b)) (mmul_col m (m2 b)).

  (** geom/matrix.go:21-27 *)
  Definition mmulvec (m : matrix F) (v : vec F) : vec F :=
    Vec (vx (m0 m) * vx v + vx (m1 m) * vy v + vx (m2 m) * vz v)
        (vy (m0 m) * vx v + vy (m1 m) * vy v + vy (m2 m) * vz v)
        (vz (m0 m) * vx v + vz (m1 m) * vy v + vz (m2 m) * vz v).

  (** geom/matrix.go:30-32 *)
  Definition mmulf (m : matrix F) (f : F) : matrix F :=
    Matrix (vmul (m0 m) f) (vmul (m1 m) f) (vmul (m2 m) f).

  (** geom/matrix.go:35-56 *)
  Definition minverse (m : matrix F) : matrix F :=
    let a := vx (m0 m) in let b := vx (m1 m) in let c := vx (m2 m) in
    let d := vy (m0 m) in let e := vy (m1 m) in let f := vy (m2 m) in
    let g := vz (m0 m) in let h := vz (m1 m) in let i := vz (m2 m) in
    let A := e * i - f * h in
    let B := f * g - d * i in
    let C := d * h - e * g in
    let inv := Matrix
      (Vec (e * i - f * h) (f * g - d * i) (d * h - e * g))
      (Vec (c * h - b * i) (a * i - c * g) (b * g - a * h))
      (Vec (b * f - c * e) (c * d - a * f) (a * e - b * d)) in
    let det := a * A + b * B + c * C in
    mmulf inv (#1 / det).

  (** geom/affinetransform.go:42-44 *)
  Definition unitMatrix : matrix F := Matrix vEx vEy vEz.
  (** geom/affinetransform.go:35-40 *)
  Definition unitTransform : affine F := Affine unitMatrix vO.

  (** geom/affinetransform.go:136-138 *)
  Definition transformPoint (t : affine F) (x : vec F) : vec F := vadd (mmulvec (afA t) x) (afB t).
  (** geom/affinetransform.go:144-146 *)
  Definition transformDir (t : affine F) (d : vec F) : vec F := mmulvec (afA t) d.

  (** geom/affinetransform.go:149-160; Mul(-1) multiplies by the constant -1 *)
  Definition ainverse (t : affine F) : affine F :=
    let Ainv := minverse (afA t) in
    Affine Ainv (vmul (mmulvec Ainv (afB t)) #(-1)).

  (** geom/affinetransform.go:168-177 *)
  Definition before (t s : affine F) : affine F :=
    Affine (mmul (afA s) (afA t)) (vadd (mmulvec (afA s) (afB t)) (afB s)).
  (** geom/affinetransform.go:163-165 *)
  Definition after (t s : affine F) : affine F := before s t.

  (** geom/affinetransform.go:27-33 *)
  Definition composeLR (ts : list (affine F)) : affine F :=
    fold_left (fun comp t => before comp t) ts unitTransform.

  (** geom/affinetransform.go:56-61 *)
  Definition translate (delta : vec F) : affine F :=
    Affine (Matrix (Vec #1 #0 #0) (Vec #0 #1 #0) (Vec #0 #0 #1)) delta.

  (** geom/affinetransform.go:183-185 *)
  Definition withOrigin (t : affine F) (o : vec F) : affine F :=
    composeLR [translate (vmul o #(-1)); t; translate o].

  (** geom/affinetransform.go:48-52 *)
  Definition scale (origin : vec F) (s : F) : affine F :=
    withOrigin (Affine (Matrix (Vec s #0 #0) (Vec #0 s #0) (Vec #0 #0 s)) vO) origin.

  (** geom/affinetransform.go:122-131 *)
  Definition mapBaseTo (o x y z : vec F) : affine F :=
    Affine (Matrix (vsub x o) (vsub y o) (vsub z o)) o.

  Context `{TF : Trig F}.

  (** util/util.go:90-97: exactly 0 at +-Pi *)
  Definition uSin (x : F) : F := if (x =? npi) || (x =? - npi) then #0 else nsin x.
  (** util/util.go:101-108: exactly 0 at +-Pi/2 *)
  Definition uCos (x : F) : F := if (x =? npi / #2) || (x =? - npi / #2) then #0 else ncos x.

  (** geom/affinetransform.go:109-120 *)
  Definition rotationMatrix (ax : vec F) (angle : F) : matrix F :=
    let a := vnormalized ax in
    let ux := vx a in let uy := vy a in let uz := vz a in
    let c := uCos angle in
    let s := uSin angle in
    let c1 := #1 - c in
    Matrix
      (Vec (c + ux * ux * c1) (uy * ux * c1 + uz * s) (uz * ux * c1 - uy * s))
      (Vec (ux * uy * c1 - uz * s) (c + uy * uy * c1) (uz * uy * c1 + ux * s))
      (Vec (ux * uz * c1 + uy * s) (uy * uz * c1 - ux * s) (c + uz * uz * c1)).

  (** geom/affinetransform.go:66-68 *)
  Definition rotate (origin ax : vec F) (angle : F) : affine F :=
    withOrigin (Affine (rotationMatrix ax angle) vO) origin.

  (** geom/affinetransform.go:79-81, 90-92, 100-102, 104-106 *)
  Definition yaw (angle : F) : affine F := rotate vO vEy angle.
  Definition pitch (angle : F) : affine F := rotate vO vEx angle.
  Definition roll (angle : F) : affine F := rotate vO vEz angle.
  Definition yawPitchRoll (y p r : F) : affine F := after (after (yaw y) (pitch p)) (roll r).
End Geom.

(** Unfold the geometry down to number operations. *)
Ltac geom_unfold :=
  unfold yawPitchRoll, yaw, pitch, roll, rotate, scale, withOrigin, composeLR, translate, mapBaseTo,
    after, before, ainverse, transformPoint, transformDir, unitTransform, unitMatrix in *;
  cbn [fold_left] in *;
  unfold rotationMatrix, minverse, mmulf, mmulvec, mmul, mmul_col, mmul_elem, triangleNormal,
    vadd, vmadd, vsub, vdot, vmul, vlen, vlen2, vnormalized, vcross, vO, vEx, vEy, vEz in *;
  cbn [vx vy vz m0 m1 m2 afA afB vget] in *; rnum.
