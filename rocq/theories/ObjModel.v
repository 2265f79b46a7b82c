(** * Model of packages tracer (rays, hits) and tracer/objects

    Go interface values become records of functions. Intersect receives the caller's
    mutable ray and returns it together with the hit, so that code that overwrites the
    ray and restores it is visible. Materials are an arbitrary type [M]; a nil material
    is [None]. *)
From Coq Require Import ZArith Reals Bool List.
From Verif Require Import Num Outcome GeomModel.
Import ListNotations.

(** tracer/ray.go:9-12 *)
Record ray (F : Type) : Type := Ray { rStart : vec F; rDir : vec F }.
Arguments Ray {F} _ _.
Arguments rStart {F} _.
Arguments rDir {F} _.

(** tracer/interfaces.go:50-55 *)
Record hit (F M : Type) : Type := Hit { hT : F; hNormal : vec F; hLocal : vec F; hMat : option M }.
Arguments Hit {F M} _ _ _ _.
Arguments hT {F M} _.
Arguments hNormal {F M} _.
Arguments hLocal {F M} _.
Arguments hMat {F M} _.

(** tracer/objects/boundingbox.go:12-14 *)
Record bbox (F : Type) : Type := BBox { bMin : vec F; bMax : vec F }.
Arguments BBox {F} _ _.
Arguments bMin {F} _.
Arguments bMax {F} _.

(** tracer/objects/interface.go:19-32. [oTransf] is what the type test
    [object.( *transformed )] in Transformed reveals: the forward transform and the original. *)
Inductive object (F M : Type) : Type := Obj {
  oIntersect : ray F -> outcome (hit F M * ray F);
  oInside : vec F -> outcome bool;
  oBounds : outcome (bbox F);
  oTransf : option (affine F * object F M) }.
Arguments Obj {F M} _ _ _ _.
Arguments oIntersect {F M} _ _.
Arguments oInside {F M} _ _.
Arguments oBounds {F M} _.
Arguments oTransf {F M} _.

(** ** Rays, hits, util *)
Section Basic.
  Context {F : Type} `{NF : Num F} {M : Type}.
  Local Open Scope num_scope.

  (** tracer/ray.go:16-22 *)
  Definition rayAt (r : ray F) (t : F) : vec F :=
    Vec (vx (rStart r) + t * vx (rDir r)) (vy (rStart r) + t * vy (rDir r)) (vz (rStart r) + t * vz (rDir r)).

  (** tracer/ray.go:24 *)
  Definition tiny : F := nQ 1 (1204 * 1024).

  (** util/util.go:10-18, 31-39 *)
  Definition umax (x y : F) : F := if x >? y then x else y.
  Definition umin (x y : F) : F := if x <? y then x else y.

  (** HitRecord{} *)
  Definition noHit : hit F M := Hit #0 vO vO None.

  (** tracer/util.go:14-25 *)
  Definition frontmost (a b : hit F M) : hit F M :=
    let '(a, b) := if hT b <? hT a then (b, a) else (a, b) in
    if hT a >? #0 then a else if hT b >? #0 then b else noHit.

  (** tracer/util.go:27-38 *)
  Definition frontT (t1 t2 : F) : F :=
    let '(t1, t2) := if t2 <? t1 then (t2, t1) else (t1, t2) in
    if t1 >? #0 then t1 else if t2 >? #0 then t2 else #0.
End Basic.

(** ** Bounding boxes *)
Section Boxes.
  Context {F : Type} `{NF : Num F}.
  Local Open Scope num_scope.

  (** util/util.go:82-86 *)
  Definition checkNaNVec (v : vec F) : outcome unit :=
    if (nisnan (vx v) || nisnan (vy v) || nisnan (vz v))%bool then Panic else Val tt.

  (** one coordinate of the loop body of boundingBoxFromHull *)
  Definition minStep (v m : F) : F := if v <? m then v else m.
  Definition maxStep (v m : F) : F := if v >? m then v else m.
  Definition vmap2 (f : F -> F -> F) (a b : vec F) : vec F :=
    Vec (f (vx a) (vx b)) (f (vy a) (vy b)) (f (vz a) (vz b)).

  Fixpoint hullLoop (hull : list (vec F)) (mn mx : vec F) : outcome (vec F * vec F) :=
    match hull with
    | nil => Val (mn, mx)
    | v :: rest =>
      obind (checkNaNVec v) (fun _ => hullLoop rest (vmap2 minStep v mn) (vmap2 maxStep v mx))
    end.

  (** tracer/objects/boundingbox.go:17-34; hull[0] panics for an empty hull *)
  Definition boundingBoxFromHull (hull : list (vec F)) : outcome (bbox F) :=
    match hull with
    | nil => Panic
    | h0 :: _ =>
      obind (hullLoop hull h0 h0) (fun '(mn, mx) =>
      obind (checkNaNVec mn) (fun _ =>
      obind (checkNaNVec mx) (fun _ => Val (BBox mn mx))))
    end.

  (** tracer/objects/boundingbox.go:37-51 *)
  Definition bbTranslated (b : bbox F) (d : vec F) : bbox F := BBox (vadd (bMin b) d) (vadd (bMax b) d).
  Definition bbWithMargin (b : bbox F) (d : F) : bbox F :=
    BBox (vadd (bMin b) (Vec (- d) (- d) (- d))) (vadd (bMax b) (Vec d d d)).

  (** tracer/objects/boundingbox.go:59-63 *)
  Definition bbInside (b : bbox F) (p : vec F) : bool :=
    (vx p >? vx (bMin b)) && (vx p <? vx (bMax b)) &&
    ((vy p >? vy (bMin b)) && (vy p <? vy (bMax b))) &&
    ((vz p >? vz (bMin b)) && (vz p <? vz (bMax b))).

  (** tracer/objects/boundingbox.go:144-164 *)
  Definition max3 (x y z : F) : F :=
    let m := x in
    let m := if y >? m then y else m in
    if z >? m then z else m.
  Definition min3 (x y z : F) : F :=
    let m := x in
    let m := if y <? m then y else m in
    if z <? m then z else m.

  (** tracer/objects/boundingbox.go:105-129: parameters of entry and exit *)
  Definition bbEnterExit (s : bbox F) (r : ray F) : F * F :=
    let idirx := #1 / vx (rDir r) in
    let idiry := #1 / vy (rDir r) in
    let idirz := #1 / vz (rDir r) in
    let tminx := (vx (bMin s) - vx (rStart r)) * idirx in
    let tmaxx := (vx (bMax s) - vx (rStart r)) * idirx in
    let tminy := (vy (bMin s) - vy (rStart r)) * idiry in
    let tmaxy := (vy (bMax s) - vy (rStart r)) * idiry in
    let tminz := (vz (bMin s) - vz (rStart r)) * idirz in
    let tmaxz := (vz (bMax s) - vz (rStart r)) * idirz in
    let txen := umin tminx tmaxx in
    let txex := umax tminx tmaxx in
    let tyen := umin tminy tmaxy in
    let tyex := umax tminy tmaxy in
    let tzen := umin tminz tmaxz in
    let tzex := umax tminz tmaxz in
    (max3 txen tyen tzen, min3 txex tyex tzex).

  (** tracer/objects/boundingbox.go:104-138; the same code is intersectAABB (tree.go:128-162) and,
      after converting the bounds from float32, intersectAABBf (tree.go:214-253) *)
  Definition bbIntersect (s : bbox F) (r : ray F) : F :=
    let '(ten, tex) := bbEnterExit s r in
    if ten >? tex then #0 else if ten <? #0 then tex else ten.

  (** tracer/objects/boundingbox.go:140-142 *)
  Definition bbIntersects (s : bbox F) (r : ray F) : bool := bbIntersect s r >? #0.

  (** tracer/objects/tree.go:256-286 *)
  Definition intersectAABB2 (s : bbox F) (r : ray F) : F * F :=
    let '(ten, tex) := bbEnterExit s r in
    if ten >? tex then (#0, #0) else (ten, tex).

  (** tracer/objects/csg.go:64-77 *)
  Definition intersectBounds (a b : bbox F) : bbox F :=
    BBox (vmap2 umax (bMin a) (bMin b)) (vmap2 umin (bMax a) (bMax b)).
  (** tracer/objects/csg.go:105-120 *)
  Definition unionBounds (a b : bbox F) : bbox F :=
    BBox (vmap2 umin (bMin a) (bMin b)) (vmap2 umax (bMax a) (bMax b)).

  (** tracer/objects/transformed.go:73-86 *)
  Definition bbHull (B : bbox F) : list (vec F) :=
    let a := bMin B in let b := bMax B in
    [Vec (vx a) (vy a) (vz a); Vec (vx a) (vy a) (vz b); Vec (vx a) (vy b) (vz a); Vec (vx a) (vy b) (vz b);
     Vec (vx b) (vy a) (vz a); Vec (vx b) (vy a) (vz b); Vec (vx b) (vy b) (vz a); Vec (vx b) (vy b) (vz b)].

  (** tracer/objects/transformed.go:65-71 *)
  Definition transformBounds (orig : bbox F) (t : affine F) : outcome (bbox F) :=
    boundingBoxFromHull (map (transformPoint t) (bbHull orig)).

  (** tracer/objects/boundingbox.go:166-169 *)
  Context `{NI : NumInf F}.
  Definition infBox : bbox F := BBox (Vec (- ninf) (- ninf) (- ninf)) (Vec ninf ninf ninf).
End Boxes.

(** ** Objects *)
Section Objects.
  Context {F : Type} `{NF : Num F} `{NI : NumInf F} {M : Type}.
  Local Open Scope num_scope.
  Notation object := (object F M).
  Notation hit := (hit F M).

  (** an object whose methods only read the ray, and which is not a *transformed *)
  Definition simpleObj (isect : ray F -> outcome hit) (ins : vec F -> outcome bool) (bounds : outcome (bbox F)) : object :=
    Obj (fun r => omap (fun h => (h, r)) (isect r)) ins bounds None.

  (** tracer/objects/backdrop.go:16-33 *)
  Definition backdrop (m : option M) : object :=
    simpleObj (fun r => Val (Hit #(10 ^ 99) (rDir r) (rDir r) m)) (fun _ => Val false) (Val infBox).

  (** *** Quadrics *)
  (** tracer/objects/quadric.go:140-146 *)
  Definition mul3 (a b : vec F) : vec F := Vec (vx a * vx b) (vy a * vy b) (vz a * vz b).

  Record quadricData : Type := Quadric { qOrigin : vec F; qa : vec F; qb : F; qBounds : bbox F; qMat : option M }.

  (** tracer/objects/quadric.go:135-138 *)
  Definition quadricNormal (s : quadricData) (x : vec F) : vec F := mul3 (qa s) (vsub x (qOrigin s)).

  (** tracer/objects/quadric.go:91-95 *)
  Definition quadricABC (s : quadricData) (r : ray F) : F * F * F :=
    let s0 := vx (rStart r) - vx (qOrigin s) in
    let s1 := vy (rStart r) - vy (qOrigin s) in
    let s2 := vz (rStart r) - vz (qOrigin s) in
    let d0 := vx (rDir r) in let d1 := vy (rDir r) in let d2 := vz (rDir r) in
    let a0 := vx (qa s) in let a1 := vy (qa s) in let a2 := vz (qa s) in
    (a0 * d0 * d0 + a1 * d1 * d1 + a2 * d2 * d2,
     #2 * (a0 * d0 * s0 + a1 * d1 * s1 + a2 * d2 * s2),
     a0 * s0 * s0 + a1 * s1 * s1 + a2 * s2 * s2 - qb s).

  Definition quadricHit (s : quadricData) (r : ray F) (t : F) : hit :=
    let p := rayAt r t in Hit t (quadricNormal s p) (vsub p (qOrigin s)) (qMat s).

  (** tracer/objects/quadric.go:78-125 *)
  Definition quadricIntersect (s : quadricData) (r : ray F) : hit :=
    let '(A, B, C) := quadricABC s r in
    let D := B * B - #4 * A * C in
    if D <? #0 then noHit else
    let V := nsqrt D in
    let t1 := (- B - V) / (#2 * A) in
    let t2 := (- B + V) / (#2 * A) in
    let '(t1, t2) := if t2 <? t1 then (t2, t1) else (t1, t2) in
    let second := if ((t2 >? #0) && bbInside (qBounds s) (rayAt r t2))%bool then quadricHit s r t2 else noHit in
    if ((t1 >? #0) && bbInside (qBounds s) (rayAt r t1))%bool then quadricHit s r t1 else second.

  (** tracer/objects/quadric.go:127-133 *)
  Definition quadricInside (s : quadricData) (p : vec F) : bool :=
    if bbInside (qBounds s) p then
      let p_o := vsub p (qOrigin s) in vdot (mul3 (qa s) p_o) p_o <? qb s
    else false.

  Definition quadric (s : quadricData) : object :=
    simpleObj (fun r => Val (quadricIntersect s r)) (fun p => Val (quadricInside s p)) (Val (qBounds s)).

  (** tracer/objects/quadric.go:9-25 *)
  Definition sphereData (m : option M) (diam : F) (center : vec F) : quadricData :=
    let r := diam / #2 in
    Quadric center (Vec #1 #1 #1) (r * r)
      (bbWithMargin (bbTranslated (BBox (Vec (- r) (- r) (- r)) (Vec r r r)) center) tiny) m.
  Definition sphere m diam center : object := quadric (sphereData m diam center).
  (** tracer/objects/quadric.go:27-39 *)
  Definition cylinderData (m : option M) (diam height : F) (center : vec F) : quadricData :=
    let r := diam / #2 in
    Quadric center (Vec #1 #0 #1) (r * r)
      (bbWithMargin (bbTranslated (BBox (Vec (- r) (- height / #2) (- r)) (Vec r (height / #2) r)) center) tiny) m.
  Definition cylinder m diam height center : object := quadric (cylinderData m diam height center).
  (** tracer/objects/quadric.go:41-57 *)
  Definition cylinderDirData (m : option M) (dir : axis) (diam height : F) (center : vec F) : quadricData :=
    let r := diam / #2 in
    let bmin := vset (Vec (- r) (- r) (- r)) dir (- height / #2) in
    Quadric center (vset (Vec #1 #1 #1) dir #0) (r * r)
      (bbWithMargin (bbTranslated (BBox bmin (vmul bmin #(-1))) center) tiny) m.
  Definition cylinderDir m dir diam height center : object := quadric (cylinderDirData m dir diam height center).

  (** *** Boxes *)
  (** tracer/objects/box.go:68-70 *)
  Definition approx (a b : F) : bool := nabs (a - b) <? nQ 1 (10 ^ 8).

  (** tracer/objects/box.go:55-66 *)
  Definition boxNormal (s : bbox F) (p : vec F) : outcome (vec F) :=
    if approx (vx p) (vx (bMin s)) then Val (vmul vEx #(-1)) else
    if approx (vx p) (vx (bMax s)) then Val vEx else
    if approx (vy p) (vy (bMin s)) then Val (vmul vEy #(-1)) else
    if approx (vy p) (vy (bMax s)) then Val vEy else
    if approx (vz p) (vz (bMin s)) then Val (vmul vEz #(-1)) else
    if approx (vz p) (vz (bMax s)) then Val vEz else Panic.

  (** tracer/objects/box.go:46-53 *)
  Definition boxIntersect (s : bbox F) (m : option M) (r : ray F) : outcome hit :=
    let t := bbIntersect s r in
    if negb (t >? #0) then Val noHit else
    let p := rayAt r t in
    omap (fun n => Hit t n (vsub p (bMin s)) m) (boxNormal s p).

  (** tracer/objects/box.go:22-30 *)
  Definition boxWithBounds (m : option M) (mn mx : vec F) : object :=
    let s := BBox mn mx in
    simpleObj (boxIntersect s m) (fun p => Val (bbInside s p)) (Val s).
  (** tracer/objects/box.go:11-20 *)
  Definition box (m : option M) (width height depth : F) (center : vec F) : object :=
    let b := bbTranslated (BBox (Vec (- width / #2) (- height / #2) (- depth / #2)) (Vec (width / #2) (height / #2) (depth / #2))) center in
    boxWithBounds m (bMin b) (bMax b).

  (** *** CSG *)
  (** tracer/objects/csg.go:38-54 and 129-145: the loop of andMarch ([keep] is the identity)
      and orMarch ([keep] is negation). Returns the hit, or noHit, and the ray with whatever
      start it has then. *)
  Fixpoint marchLoop (keep : bool -> bool) (a b : object) (ttl : nat) (maxT tOff : F) (h : hit) (r : ray F) : outcome (hit * ray F) :=
    match ttl with
    | O => Val (noHit, r)
    | S ttl =>
      if ((hT h >? #0) && (hT h <? maxT))%bool then
        obind (oInside b (rayAt r (hT h))) (fun ins =>
        if keep ins then Val (Hit (hT h + tOff) (hNormal h) (hLocal h) (hMat h), r)
        else
          let deltaT := hT h + tiny in
          obind (oIntersect a (Ray (rayAt r deltaT) (rDir r))) (fun '(h', r') =>
          marchLoop keep a b ttl maxT (tOff + deltaT) h' r'))
      else Val (noHit, r)
    end.

  (** tracer/objects/csg.go:34-54, 125-145; setStart restores the start on every path *)
  Definition march (keep : bool -> bool) (a b : object) (r : ray F) (maxT : F) : outcome (hit * ray F) :=
    let backup := rStart r in
    obind (oIntersect a r) (fun '(h, r1) =>
    omap (fun '(h', r2) => (h', Ray backup (rDir r2)))
      (marchLoop keep a b 100 maxT #0 h r1)).
  Definition andMarch := march (fun b => b).
  Definition orMarch := march negb.

  (** tracer/objects/csg.go:21-29 and 91-99 *)
  Definition marchBoth (keep : bool -> bool) (a b : object) (r : ray F) : outcome (hit * ray F) :=
    obind (march keep a b r ninf) (fun '(ha, r1) =>
    let mx := if hT ha >? #0 then hT ha else ninf in
    omap (fun '(hb, r2) => (frontmost ha hb, r2)) (march keep b a r1 mx)).

  (** Go's && and || evaluate the right operand only if needed *)
  Definition oand (x : outcome bool) (y : outcome bool) : outcome bool := obind x (fun b => if b then y else Val false).
  Definition oor (x : outcome bool) (y : outcome bool) : outcome bool := obind x (fun b => if b then Val true else y).
  Definition bounds2 (f : bbox F -> bbox F -> bbox F) (a b : object) : outcome (bbox F) :=
    obind (oBounds a) (fun ba => omap (f ba) (oBounds b)).

  (** tracer/objects/csg.go:13-29, 60-81 *)
  Definition cAnd (a b : object) : object :=
    Obj (marchBoth (fun b => b) a b) (fun p => oand (oInside a p) (oInside b p)) (bounds2 intersectBounds a b) None.
  (** tracer/objects/csg.go:83-120 *)
  Definition cOr (a b : object) : object :=
    Obj (marchBoth negb a b) (fun p => oor (oInside a p) (oInside b p)) (bounds2 unionBounds a b) None.
  (** tracer/objects/csg.go:147-166 *)
  Definition cRestrict (a b : object) : object :=
    Obj (fun r => andMarch a b r ninf) (fun p => oand (oInside a p) (oInside b p)) (bounds2 intersectBounds a b) None.
  (** tracer/objects/csg.go:168-194 *)
  Definition cNot (a : object) : object :=
    Obj (fun r => omap (fun '(h, r') => (Hit (hT h) (vmul (hNormal h) #(-1)) (hLocal h) (hMat h), r')) (oIntersect a r))
        (fun p => omap negb (oInside a p)) (Val infBox) None.
  (** tracer/objects/csg.go:196-198 *)
  Definition cDifference (a b : object) : object := cAnd a (cNot b).
  (** tracer/objects/csg.go:205-220, interface.go:36-41 *)
  Definition cHollow (a : object) : object := Obj (oIntersect a) (fun _ => Val false) (oBounds a) None.

  (** tracer/objects/quadric.go:59-61 *)
  Definition cylinderWithCaps (m : option M) (diam height : F) (center : vec F) : object :=
    cAnd (cylinder m diam height center) (box m diam height diam center).

  (** *** Wrappers *)
  (** tracer/objects/bounded.go:11-36; Bounds is called when constructing *)
  Definition bounded (o : object) : outcome object :=
    omap (fun b =>
      Obj (fun r => if bbIntersects b r then oIntersect o r else Val (noHit, r))
          (fun p => if bbInside b p then oInside o p else Val false) (Val b) None) (oBounds o).

  (** tracer/objects/remap.go *)
  Definition remap (o : object) (f : vec F -> vec F) : object :=
    Obj (fun r => omap (fun '(h, r') => (Hit (hT h) (hNormal h) (f (rayAt r' (hT h))) (hMat h), r')) (oIntersect o r))
        (oInside o) (oBounds o) None.

  (** tracer/objects/mesh.go:230-254 *)
  Definition withMaterial (m : option M) (o : object) : object :=
    Obj (fun r => omap (fun '(h, r') => (Hit (hT h) (hNormal h) (hLocal h) m, r')) (oIntersect o r))
        (oInside o) (oBounds o) None.

  (** tracer/objects/transformed.go:24-63; *r = prev overwrites the whole ray *)
  Definition transformedWith (o : object) (t : affine F) (bounds : bbox F) : object :=
    let inv := ainverse t in
    Obj (fun r =>
           if bbIntersects bounds r then
             let prev := r in
             omap (fun '(h, _) => (Hit (hT h) (transformDir t (hNormal h)) (hLocal h) (hMat h), prev))
                  (oIntersect o (Ray (transformPoint inv (rStart prev)) (transformDir inv (rDir prev))))
           else Val (noHit, r))
        (fun p => oInside o (transformPoint inv p)) (Val bounds) (Some (t, o)).

  (** tracer/objects/transformed.go:20-30. By construction the original of a transformed
      object is not itself transformed; the recursion follows the structure anyway. *)
  Fixpoint transformed (o : object) (t : affine F) : outcome object :=
    match oTransf o with
    | Some (fwd, orig) => transformed orig (before fwd t)
    | None => obind (oBounds o) (fun b => omap (transformedWith o t) (transformBounds b t))
    end.
  (** tracer/objects/transformed.go:88-90 *)
  Definition translated (o : object) (d : vec F) : outcome object := transformed o (translate d).

  (** *** Height fields *)
  Section Iso.
    Variables (mat : option M) (dx dy dz : F) (hmap : F -> F -> F).
    Definition isoBounds : bbox F := BBox vO (Vec dx dy dz).
    Definition isoTol : F := nQ 1 (1024 * 1024).

    (** tracer/objects/isosurface.go:109-111 *)
    Definition isoUV (p : vec F) : F * F := (vx p / dx, vz p / dz).
    (** tracer/objects/isosurface.go:77-89; the constants -tol and 1+tol are exact *)
    Definition isoHeightUV (u v : F) : outcome F :=
      let f := hmap u v in
      if ((f <? nQ (-1) 1024) || (f >? nQ 1025 1024))%bool then Panic else Val (dy * f).
    (** tracer/objects/isosurface.go:73-75 *)
    Definition isoHeightAt (p : vec F) : outcome F := let '(u, v) := isoUV p in isoHeightUV u v.
    (** tracer/objects/isosurface.go:67-71 *)
    Definition isoValueAt (p : vec F) : outcome F := omap (fun h => vy p - h) (isoHeightAt p).

    (** tracer/objects/isosurface.go:95-107; 1/delta = 4096 and delta/2 = 1/8192 are exact constants *)
    Definition isoNormalUV (u v : F) : outcome (vec F) :=
      obind (isoHeightUV (u + nQ 1 8192) v) (fun h1 =>
      obind (isoHeightUV (u - nQ 1 8192) v) (fun h2 =>
      obind (isoHeightUV u (v + nQ 1 8192)) (fun h3 =>
      obind (isoHeightUV u (v - nQ 1 8192)) (fun h4 =>
      Val (Vec (- (#4096 * (h1 - h2))) #1 (- (#4096 * (h3 - h4)))))))).

    (** tracer/objects/isosurface.go:128-136 *)
    Fixpoint bisectLoop (fuel : nat) (g : F -> outcome F) (tin tout : F) : outcome F :=
      match fuel with
      | O => NoFuel
      | S n =>
        if (tout - tin) >? isoTol then
          let mid := (tin + tout) / #2 in
          obind (g mid) (fun v => if v >? #0 then bisectLoop n g mid tout else bisectLoop n g tin mid)
        else Val tout
      end.
    (** tracer/objects/isosurface.go:113-138 *)
    Definition bisect (fuel : nat) (g : F -> outcome F) (tmin tmax : F) : outcome F :=
      obind (g tmin) (fun f1 =>
      obind (g tmax) (fun f2 =>
      if (f1 * f2) >? #0 then Val #0 else
      let '(tin, tout) := (tmax, tmin) in
      obind (g tout) (fun fo =>
      let '(tin, tout) := if fo >? #0 then (tout, tin) else (tin, tout) in
      bisectLoop fuel g tin tout))).

    (** tracer/objects/isosurface.go:48-65 *)
    Definition isoIntersect (fuel : nat) (r : ray F) : outcome hit :=
      let '(t1, t2) := intersectAABB2 isoBounds r in
      if negb (t2 >? #0) then Val noHit else
      obind (bisect fuel (fun t => isoValueAt (rayAt r t)) (t1 - tiny) (t2 + tiny)) (fun t =>
      if t =? #0 then Val noHit else
      let p := rayAt r t in
      let '(u, v) := isoUV p in
      omap (fun n => Hit t n (Vec u v #0) mat) (isoNormalUV u v)).

    (** tracer/objects/isosurface.go:44-46 *)
    Definition isoInside (p : vec F) : outcome bool :=
      if bbInside isoBounds p then omap (fun h => vy p <? h) (isoHeightAt p) else Val false.

    Definition isoSurface (fuel : nat) : object := simpleObj (isoIntersect fuel) isoInside (Val isoBounds).
  End Iso.
End Objects.
Arguments quadricData F M : clear implicits.
