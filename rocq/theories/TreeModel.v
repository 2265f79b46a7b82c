(** * Model of tracer/objects/tree.go (bounding volume hierarchy) and mesh.go *)
From Coq Require Import ZArith Reals Bool List.
From Flocq Require IEEE754.BinarySingleNaN.
From Verif Require Import Num Outcome GeomModel ObjModel.
Import ListNotations.

(** tracer/objects/tree.go:25-29. A node has either children or leafs. The box is kept in
    float32 by the code; here it is stored after converting it back (exactly) to float64. *)
Inductive node (F M : Type) : Type :=
| Leaf (bb : bbox F) (leafs : list (object F M))
| Inner (bb : bbox F) (ch0 ch1 : node F M).
Arguments Leaf {F M} _ _.
Arguments Inner {F M} _ _ _.

Section Tree.
  Context {F : Type} `{NF : Num F} {M : Type}.
  Local Open Scope num_scope.
  Notation object := (object F M).
  Notation hit := (hit F M).
  Notation node := (node F M).

  (** float64(float32(x)) *)
  Variable to32 : F -> F.
  (** sort.Slice(ch, less): some reordering of the slice *)
  Variable sortSlice : (object -> object -> bool) -> list object -> list object.

  (** tracer/objects/tree.go:11 *)
  Definition maxFacePerLeaf : nat := 7.

  Definition nodeBox (n : node) : bbox F := match n with Leaf b _ => b | Inner b _ _ => b end.

  (** tracer/objects/tree.go:184-212 *)
  Definition boxTo32 (b : bbox F) : bbox F :=
    BBox (Vec (to32 (vx (bMin b))) (to32 (vy (bMin b))) (to32 (vz (bMin b))))
         (Vec (to32 (vx (bMax b))) (to32 (vy (bMax b))) (to32 (vz (bMax b)))).

  (** the hull collected by makeBoundingBox *)
  Fixpoint hullOf (ch : list object) : outcome (list (vec F)) :=
    match ch with
    | nil => Val nil
    | c :: rest => obind (oBounds c) (fun b => omap (fun h => bMin b :: bMax b :: h) (hullOf rest))
    end.
  (** tracer/objects/tree.go:167-174 *)
  Definition makeBoundingBox (ch : list object) : outcome (bbox F) := obind (hullOf ch) boundingBoxFromHull.

  (** tracer/objects/tree.go:288-298 *)
  Definition argMax (v : vec F) : axis :=
    let step '(best, mx) (i : axis) := if vget v i >? mx then (i, vget v i) else (best, mx) in
    fst (fold_left step [AX; AY; AZ] (AX, vx v)).

  (** tracer/objects/tree.go:45-49. Bounds has already succeeded for every element. *)
  Definition lessAlong (d : axis) (a b : object) : bool :=
    match oBounds a, oBounds b with
    | Val bi, Val bj => (vget (bMin bi) d + vget (bMax bi) d) <? (vget (bMin bj) d + vget (bMax bj) d)
    | _, _ => false
    end.

  (** tracer/objects/tree.go:34-57 *)
  Fixpoint buildTree (fuel : nat) (ch : list object) : outcome node :=
    match fuel with
    | O => NoFuel
    | S n =>
      if (length ch <=? maxFacePerLeaf)%nat then
        omap (fun bb => Leaf (boxTo32 bb) ch) (makeBoundingBox ch)
      else
        obind (makeBoundingBox ch) (fun bb =>
        let splitDir := argMax (vsub (bMax bb) (bMin bb)) in
        let ch := sortSlice (lessAlong splitDir) ch in
        let N := length ch in
        let left := firstn (N / 2) ch in
        let right := skipn (N / 2) ch in
        obind (buildTree n left) (fun l =>
        omap (fun r => Inner (boxTo32 bb) l r) (buildTree n right)))
    end.

  (** HitRecord{T: 9e99} *)
  Definition farHit : hit := Hit #(9 * 10 ^ 99) vO vO None.

  (** tracer/objects/tree.go:91-96 *)
  Fixpoint leafLoop (leafs : list object) (front : hit) (r : ray F) : outcome (hit * ray F) :=
    match leafs with
    | nil => Val (front, r)
    | o :: rest =>
      obind (oIntersect o r) (fun '(frag, r') =>
      leafLoop rest (if ((hT frag >? #0) && (hT frag <? hT front))%bool then frag else front) r')
    end.

  (** tracer/objects/tree.go:87-126 *)
  Fixpoint nodeIntersect (n : node) (r : ray F) : outcome (hit * ray F) :=
    match n with
    | Leaf _ leafs => leafLoop leafs farHit r
    | Inner _ ch0 ch1 =>
      let t0 := bbIntersect (nodeBox ch0) r in
      let t1 := bbIntersect (nodeBox ch1) r in
      obind (if t0 >? #0 then
               omap (fun '(frag, r') => (if hT frag >? #0 then frag else farHit, r')) (nodeIntersect ch0 r)
             else Val (farHit, r)) (fun '(front, r) =>
      obind (if t1 >? #0 then
               omap (fun '(frag, r') =>
                       (if ((hT frag >? #0) && (hT frag <? hT front))%bool then frag else front, r')) (nodeIntersect ch1 r)
             else Val (front, r)) (fun '(front, r) =>
      Val (if hT front =? #(9 * 10 ^ 99) then Hit #0 (hNormal front) (hLocal front) (hMat front) else front, r)))
    end.

  Fixpoint leafInside (leafs : list object) (p : vec F) : outcome bool :=
    match leafs with
    | nil => Val false
    | l :: rest => oor (oInside l p) (leafInside rest p)
    end.
  (** tracer/objects/tree.go:70-85 *)
  Fixpoint nodeInside (n : node) (p : vec F) : outcome bool :=
    match n with
    | Leaf _ leafs => leafInside leafs p
    | Inner _ ch0 ch1 => oor (nodeInside ch0 p) (nodeInside ch1 p)
    end.

  (** tracer/objects/tree.go:59-64 *)
  Definition treeIntersect (root : node) (r : ray F) : outcome (hit * ray F) :=
    if bbIntersect (nodeBox root) r <=? #0 then Val (noHit, r) else nodeIntersect root r.

  (** tracer/objects/tree.go:59-68, 176-178 *)
  Definition treeOf (root : node) : object :=
    Obj (treeIntersect root) (nodeInside root) (Val (nodeBox root)) None.
  (** tracer/objects/tree.go:15-19; the fuel exceeds the depth of the recursion *)
  Definition tree (objects : list object) : outcome object :=
    omap treeOf (buildTree (S (length objects)) objects).

  (** ** Meshes *)

  (** tracer/objects/mesh.go:259-263 *)
  Record vertex : Type := Vertex { vtPos : vec F; vtNormal : vec F; vtU : F; vtV : F }.

  (** tracer/objects/mesh.go:267-362; plane and ray parameter *)
  Record faceGeom : Type := FaceGeom { fgT : F; fg1 : F; fg2 : F; fg3 : F }.
  Definition faceCoords (v0 v1 v2 : vec F) (r : ray F) : faceGeom :=
    let ox := vx v0 in let oy := vy v0 in let oz := vz v0 in
    let ax := vx v1 - ox in let ay := vy v1 - oy in let az := vz v1 - oz in
    let bx := vx v2 - ox in let by_ := vy v2 - oy in let bz := vz v2 - oz in
    let nx := ay * bz - az * by_ in
    let ny := az * bx - ax * bz in
    let nz := ax * by_ - ay * bx in
    let dx := vx (rDir r) in let dy := vy (rDir r) in let dz := vz (rDir r) in
    let sx := vx (rStart r) - ox in let sy := vy (rStart r) - oy in let sz := vz (rStart r) - oz in
    let nDotD := nx * dx + ny * dy + nz * dz in
    let nDotS := nx * sx + ny * sy + nz * sz in
    let t := - nDotS / nDotD in
    let px := sx + t * dx in let py := sy + t * dy in let pz := sz + t * dz in
    let ncx := ay * pz - az * py in
    let ncy := az * px - ax * pz in
    let ncz := ax * py - ay * px in
    let p_ax := px - ax in let p_ay := py - ay in let p_az := pz - az in
    let b_ax := bx - ax in let b_ay := by_ - ay in let b_az := bz - az in
    let nax := b_ay * p_az - b_az * p_ay in
    let nay := b_az * p_ax - b_ax * p_az in
    let naz := b_ax * p_ay - b_ay * p_ax in
    let n2 := nx * nx + ny * ny + nz * nz in
    let l1 := (nx * nax + ny * nay + nz * naz) / n2 in
    let l3 := (nx * ncx + ny * ncy + nz * ncz) / n2 in
    let l2 := #1 - l1 - l3 in
    FaceGeom t l1 l2 l3.

  (** tracer/objects/mesh.go:267-362 *)
  Definition faceIntersect (v1 v2 v3 : vertex) (r : ray F) : hit :=
    let g := faceCoords (vtPos v1) (vtPos v2) (vtPos v3) r in
    if negb (fgT g >? #0) then noHit else
    let l1 := fg1 g in let l2 := fg2 g in let l3 := fg3 g in
    if ((l1 <? #0) || (l2 <? #0) || (l3 <? #0))%bool then noHit else
    let n := vadd (vadd (vmul (vtNormal v1) l1) (vmul (vtNormal v2) l2)) (vmul (vtNormal v3) l3) in
    let u := vtU v1 * l1 + vtU v2 * l2 + vtU v3 * l3 in
    let v := vtV v1 * l1 + vtV v2 * l2 + vtV v3 * l3 in
    Hit (fgT g) n (Vec u v #0) None.

  (** tracer/objects/mesh.go:265, 267, 364-366 *)
  Definition face (v1 v2 v3 : vertex) : object :=
    simpleObj (fun r => Val (faceIntersect v1 v2 v3 r)) (fun _ => Val false)
      (boundingBoxFromHull [vtPos v1; vtPos v2; vtPos v3]).

  (** slices with run-time bounds checks *)
  Definition getZ {A} (l : list A) (i : Z) : outcome A :=
    if (i <? 0)%Z then Panic else match nth_error l (Z.to_nat i) with Some a => Val a | None => Panic end.
  Fixpoint setNth {A} (l : list A) (i : nat) (a : A) : list A :=
    match l, i with
    | nil, _ => nil
    | _ :: t, O => a :: t
    | x :: t, S i => x :: setNth t i a
    end.
  Definition setZ {A} (l : list A) (i : Z) (a : A) : outcome (list A) :=
    if ((i <? 0) || (Z.of_nat (length l) <=? i))%Z%bool then Panic else Val (setNth l (Z.to_nat i) a).

  Context `{NI : NumInf F}.

  (** util/util.go:68-74 *)
  Definition isBad (x : F) : bool := nisnan x || (x =? ninf) || (x =? - ninf).
  Definition isBadVec (v : vec F) : bool := (isBad (vx v) || isBad (vy v) || isBad (vz v))%bool.

  (** A face holds three pointers to vertices: here indices into the vertex array. *)
  Definition tri : Type := (Z * Z * Z)%type.

  Definition addNormal (vs : list vertex) (i : Z) (n : vec F) : outcome (list vertex) :=
    obind (getZ vs i) (fun v => setZ vs i (Vertex (vtPos v) (vadd (vtNormal v) n) (vtU v) (vtV v))).
  Definition normalizeAt (vs : list vertex) (i : Z) : outcome (list vertex) :=
    obind (getZ vs i) (fun v => setZ vs i (Vertex (vtPos v) (vnormalized (vtNormal v)) (vtU v) (vtV v))).
  Definition faceNormal (vs : list vertex) (f : tri) : outcome (vec F) :=
    let '(i, j, k) := f in
    obind (getZ vs i) (fun a => obind (getZ vs j) (fun b => omap (fun c =>
      triangleNormal (vtPos a) (vtPos b) (vtPos c)) (getZ vs k))).

  (** tracer/objects/mesh.go:384-393 *)
  Fixpoint sumNormals (fs : list tri) (vs : list vertex) : outcome (list vertex) :=
    match fs with
    | nil => Val vs
    | f :: rest =>
      obind (faceNormal vs f) (fun n =>
      if isBadVec n then sumNormals rest vs else
      let '(i, j, k) := f in
      obind (addNormal vs i n) (fun vs => obind (addNormal vs j n) (fun vs => obind (addNormal vs k n) (fun vs =>
      sumNormals rest vs))))
    end.
  (** tracer/objects/mesh.go:395-400 *)
  Fixpoint normalizeAll (fs : list tri) (vs : list vertex) : outcome (list vertex) :=
    match fs with
    | nil => Val vs
    | (i, j, k) :: rest =>
      obind (normalizeAt vs i) (fun vs => obind (normalizeAt vs j) (fun vs => obind (normalizeAt vs k) (fun vs =>
      normalizeAll rest vs)))
    end.
  (** tracer/objects/mesh.go:377-401 *)
  Definition calcNormals (fs : list tri) (vs : list vertex) : outcome (list vertex) :=
    obind (sumNormals fs vs) (normalizeAll fs).

  Fixpoint facesOf (fs : list tri) (vs : list vertex) : outcome (list object) :=
    match fs with
    | nil => Val nil
    | (i, j, k) :: rest =>
      obind (getZ vs i) (fun a => obind (getZ vs j) (fun b => obind (getZ vs k) (fun c =>
      omap (fun os => face a b c :: os) (facesOf rest vs))))
    end.

  (** tracer/objects/mesh.go:54-69 *)
  Definition mesh (m : option M) (fs : list tri) (vs : list vertex) : outcome object :=
    obind (calcNormals fs vs) (fun vs =>
    obind (facesOf fs vs) (fun os =>
    omap (withMaterial m) (tree os))).

  (** tracer/objects/mesh.go:33-41; [None] is a nil UV slice *)
  Fixpoint meshVertices (ps : list (vec F)) (uv : option (list (F * F))) : outcome (list vertex) :=
    match ps with
    | nil => Val nil
    | p :: rest =>
      match uv with
      | None => omap (fun vs => Vertex p vO #0 #0 :: vs) (meshVertices rest None)
      | Some nil => Panic
      | Some ((u, v) :: uv) => omap (fun vs => Vertex p vO u v :: vs) (meshVertices rest (Some uv))
      end
    end.
  (** tracer/objects/mesh.go:30-51; taking the address of Vertices[idx] checks the index *)
  Definition meshWithUV (m : option M) (ps : list (vec F)) (fs : list tri) (uv : option (list (F * F))) : outcome object :=
    obind (meshVertices ps uv) (fun vs =>
    obind (facesOf fs vs) (fun _ => mesh m fs vs)).
  (** tracer/objects/mesh.go:22-24, 75-81, 96-109, 124-134 *)
  Definition meshNoUV m ps fs := meshWithUV m ps fs None.
  Definition triangle (m : option M) (a b c : vec F) : outcome object :=
    meshWithUV m [a; b; c] [(0, 1, 2)%Z] (Some [(#0, #0); (#1, #0); (#0, #1)]).
  Definition quadrilateral (m : option M) (a b c d : vec F) : outcome object :=
    meshWithUV m [a; b; c; d] [(0, 1, 3)%Z; (2, 3, 1)%Z] (Some [(#0, #0); (#1, #0); (#1, #1); (#0, #1)]).
  Definition rectangleWithVertices (m : option M) (o a b : vec F) : outcome object :=
    quadrilateral m o a (vadd a (vsub b o)) b.
  Definition rectangle (m : option M) (width depth : F) (center : vec F) : outcome object :=
    rectangleWithVertices m
      (vadd (Vec (- width / #2) #0 (- depth / #2)) center)
      (vadd (Vec (- width / #2) #0 (depth / #2)) center)
      (vadd (Vec (width / #2) #0 (- depth / #2)) center).
  Definition disk (m : option M) (diam : F) (center : vec F) : outcome object :=
    omap (fun o => cRestrict o (cylinder None diam (#8 * tiny) center)) (rectangle m diam diam center).

  (** ** Parametric surfaces *)
  Section Parametric.
    Variables (numU numV : Z) (f : F -> F -> vec F).
    Definition pmVertexIndex (iu iv : Z) : Z := (iu * numV + iv)%Z.
    Definition pmState : Type := (list vertex * list (option tri))%type.

    (** taking the address of vertices[I(iu,iv)] *)
    Definition pmPtr (vs : list vertex) (iu iv : Z) : outcome Z :=
      omap (fun _ => pmVertexIndex iu iv) (getZ vs (pmVertexIndex iu iv)).

    (** tracer/objects/mesh.go:162-168 *)
    Definition pmBody (u : F) (iu iv : Z) (st : pmState) : outcome pmState :=
      let '(vs, fs) := st in
      let v := #iv / #(numV - 1) in
      let p := f u v in
      obind (setZ vs (pmVertexIndex iu iv) (Vertex p vO u v)) (fun vs =>
      if ((iu <? numU - 1) && (iv <? numV - 1))%Z%bool then
        obind (pmPtr vs iu iv) (fun p00 =>
        obind (pmPtr vs (iu + 1) iv) (fun p10 =>
        obind (pmPtr vs (iu + 1) (iv + 1)) (fun p11 =>
        obind (pmPtr vs iu (iv + 1)) (fun p01 =>
        obind (setZ fs (2 * (iu * (numV - 1) + iv) + 0)%Z (Some (p00, p10, p11))) (fun fs =>
        omap (fun fs => (vs, fs)) (setZ fs (2 * (iu * (numV - 1) + iv) + 1)%Z (Some (p00, p11, p01))))))))
      else Val (vs, fs)).

    (** for i := 0; i < n; i++ { st = body(i, st) } *)
    Fixpoint forLoop (n : nat) (i : Z) (body : Z -> pmState -> outcome pmState) (st : pmState) : outcome pmState :=
      match n with
      | O => Val st
      | S n => obind (body i st) (forLoop n (i + 1) body)
      end.

    (** tracer/objects/mesh.go:149-170; make with a negative length panics *)
    Definition pmBuild : outcome pmState :=
      if ((numU * numV <? 0) || (2 * (numU - 1) * (numV - 1) <? 0))%Z%bool then Panic else
      forLoop (Z.to_nat numU) 0 (fun iu st =>
          let u := #iu / #(numU - 1) in
          forLoop (Z.to_nat numV) 0 (fun iv st => pmBody u iu iv st) st)
        (repeat (Vertex vO vO #0 #0) (Z.to_nat (numU * numV)),
         repeat None (Z.to_nat (2 * (numU - 1) * (numV - 1)))).

    (** an unfilled face has nil vertex pointers *)
    Fixpoint allFilled (fs : list (option tri)) : outcome (list tri) :=
      match fs with
      | nil => Val nil
      | Some t :: rest => omap (cons t) (allFilled rest)
      | None :: _ => Panic
      end.
    (** tracer/objects/mesh.go:141-172 *)
    Definition parametric (m : option M) : outcome object :=
      obind pmBuild (fun '(vs, fs) => obind (allFilled fs) (fun fs => mesh m fs vs)).
  End Parametric.
End Tree.
Arguments vertex F : clear implicits.
Arguments faceGeom F : clear implicits.
Arguments pmState F : clear implicits.

(** Go's float64(float32(x)): round to nearest even in binary32, then back (exactly). *)
Definition to32b (x : b64) : b64 :=
  match x with
  | BinarySingleNaN.B754_finite s m e _ =>
    match BinarySingleNaN.binary_normalize 24 128 eq_refl eq_refl BinarySingleNaN.mode_NE (SpecFloat.cond_Zopp s (Zpos m)) e s with
    | BinarySingleNaN.B754_finite s' m' e' _ =>
        BinarySingleNaN.binary_normalize 53 1024 Hprec64 Hmax64 BinarySingleNaN.mode_NE (SpecFloat.cond_Zopp s' (Zpos m')) e' s'
    | BinarySingleNaN.B754_zero s' => BinarySingleNaN.B754_zero s'
    | BinarySingleNaN.B754_infinity s' => BinarySingleNaN.B754_infinity s'
    | BinarySingleNaN.B754_nan => BinarySingleNaN.B754_nan
    end
  | _ => x
  end.
