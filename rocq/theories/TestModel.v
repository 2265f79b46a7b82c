(** * Package test: comparing pictures, and minimal shapes and materials *)
From Coq Require Import ZArith Bool List.
From Verif Require Import Num Outcome GeomModel ColorModel ObjModel.
Import ListNotations.
Local Open Scope num_scope.

(** the bounds of an image.Image, and the first three results of At(x, y).RGBA() *)
Record shot : Type := Shot { shMinX : Z; shMinY : Z; shMaxX : Z; shMaxY : Z; shAt : Z -> Z -> Z * Z * Z }.

(** 0, 1, ..., n - 1 *)
Definition upto (n : Z) : list Z := map Z.of_nat (seq 0 (Z.to_nat n)).
(** tracer/test/test.go:159-165 *)
Definition diffChan (a b : Z) : Z := let d := (a - b)%Z in if (d <? 0)%Z then (- d)%Z else d.
Definition diffPixel (p q : Z * Z * Z) : Z :=
  let '(r1, g1, b1) := p in let '(r2, g2, b2) := q in (diffChan r1 r2 + diffChan g1 g2 + diffChan b1 b2)%Z.
(** tracer/test/test.go:144-152; the sum does not overflow for fewer than 2^45 pixels *)
Definition diffSum (A B : shot) : Z :=
  fold_left (fun acc y => fold_left (fun acc x => acc + diffPixel (shAt A x y) (shAt B x y))%Z (upto (shMaxX A)) acc) (upto (shMaxY A)) 0%Z.

Section Test.
  Context {F : Type} `{NF : Num F} {M : Type}.

  (** tracer/test/test.go:143-157 *)
  Definition diffShots (A B : shot) : F :=
    let dx := (shMaxX A - shMinX A)%Z in
    let nPix := ((dx + 1) * (dx + 1))%Z in
    #(diffSum A B) / (#(3 * 255) * #nPix).
  (** tracer/test/test.go:38-47: is the test passed? *)
  Definition passes (tolerance : F) (got want : shot) : bool := negb (diffShots got want >? tolerance).

  (** tracer/test/convergence.go:71-76 *)
  Definition clampColor (c : color F) : color F := Color (umin #1 (cR c)) (umin #1 (cG c)) (umin #1 (cB c)).
  (** tracer/test/convergence.go:56-69; c.Golden[iy][ix] may be out of range *)
  Definition errSqRow (row : list (color F)) (gold : list (list (color F))) (iy : nat) : outcome F :=
    fold_left (fun acc '(ix, c) => obind acc (fun e =>
      match nth_error gold iy with
      | None => Panic
      | Some g => match nth_error g ix with
        | None => Panic
        | Some k => let a := clampColor c in let b := clampColor k in
          Val (e + vlen2 (vsub (Vec (cR a) (cG a) (cB a)) (Vec (cR b) (cG b) (cB b))))
        end
      end)) (combine (seq 0 (length row)) row) (Val #0).
  Definition errSq (img gold : list (list (color F))) : outcome F :=
    fold_left (fun acc '(iy, row) => obind acc (fun e => omap (fun ex => e + ex) (errSqRow row gold iy)))
      (combine (seq 0 (length img)) img) (Val #0).
  (** imagef/image.go:28-38 *)
  Definition numPixels (img : list (list (color F))) : Z :=
    match img with nil => 0%Z | row :: _ => (Z.of_nat (length row) * Z.of_nat (length img))%Z end.
  Definition rmsError (img gold : list (list (color F))) : outcome F :=
    omap (fun e => nsqrt e / #(numPixels gold)) (errSq img gold).

  (** tracer/test/test.go:243-248 *)
  Definition testCheckRay (r : ray F) : outcome unit :=
    if nabs (#1 - vlen (rDir r)) >? nQ 1 1024 then Panic else Val tt.

  (** tracer/test/objects.go:47-69 *)
  Definition testSphere (m : option M) (diam : F) (c : vec F) (r : ray F) : outcome (hit F M) :=
    let radius := diam / #2 in
    obind (testCheckRay r) (fun _ =>
    let v := vsub (rStart r) c in
    let vd := vdot v (rDir r) in
    let D := vd * vd - (vlen2 v - radius * radius) in
    if D <? #0 then Val noHit else
    let sqrtD := nsqrt D in
    let t1 := - vd - sqrtD in
    let t2 := - vd + sqrtD in
    let t := if t1 <? #0 then t2 else t1 in
    if t >? #0 then Val (Hit t (vsub (rayAt r t) c) (vsub (rayAt r t) c) m) else Val noHit).

  (** tracer/test/objects.go:19-29; [isinf]: math.IsInf(t, 1) *)
  Definition testSheet (isinf : F -> bool) (m : option M) (height : F) (r : ray F) : hit F M :=
    let rs := vy (vsub (rStart r) (Vec #0 height #0)) in
    let t := - rs / vy (rDir r) in
    if ((t <? #0) || isinf t)%bool then noHit else
    let p := rayAt r t in Hit t (Vec #0 #1 #0) (Vec (vx p) (vz p) #0) m.

  (** tracer/test/objects.go:91-93; the constant -0.101 *)
  Definition testLightPos (pos dst : vec F) : vec F := vmadd pos (- nQ 101 1000) (vnormalized (vsub pos dst)).

  (** tracer/test/materials.go:145-151: which of the two materials *)
  Definition testCheckers (u v : F) : bool :=
    (Z.rem (ntrunc (u * #2 + #10000)%num + ntrunc (v * #2 + #10000)%num) 2 =? 0)%Z.

  (** tracer/test/materials.go:43-51 *)
  Definition testNormal (c : color F) (r : ray F) (normal : vec F) : outcome (color F) :=
    obind (testCheckRay r) (fun _ =>
    let v := vdot normal (rDir r) in
    Val (if v <? #0 then clmul c (- v) else clmul (Color #1 #0 #0) v)).
End Test.
