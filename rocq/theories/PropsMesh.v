(** * Properties C95, C98-C100 and part of C34: meshes, rectangles, disks, bounds and wrappers *)
From Coq Require Import ZArith Reals Bool List Permutation Lra Lia.
From Verif Require Import Num NumLaws Outcome B64 GeomModel GeomSpec ObjModel TreeModel ObjSpec MeshSpec BoundsSpec
  ObjFacts MeshProofs ShapeProofs RectProofs DiskProofs BoundsProofs MeshFacts FloatSpec MeshFloat.
Import ListNotations.
Local Open Scope R_scope.

(** ** C34, cylinders along any axis *)
Theorem C34_cylinder_along_any_axis :
  forall (M : Type) (m : option M) (dir : axis) (diam height : R) (c s d : pt),
    0 <= diam -> norm2 d <> (vget d dir)² ->
    let h := quadricIntersect (cylinderDirData m dir diam height c) (Ray s d) in
    let on p := norm2 (minus3 p c) - (vget p dir - vget c dir)² = (diam / 2)² /\
                Rabs (vget p dir - vget c dir) < height / 2 + tiny in
    (0 < hT h /\ on (along s d (hT h)) /\ hMat h = m /\ hNormal h = vset (minus3 (along s d (hT h)) c) dir 0 /\
       forall t, 0 < t < hT h -> ~ on (along s d t)) \/
    (h = noHit /\ forall t, 0 < t -> ~ on (along s d t)).
Proof. exact @cylinderDir_exact. Qed.
Print Assumptions C34_cylinder_along_any_axis.

(** a pipe of diameter 2 along x, seen from above at x = 5 and missed at x = 7 *)
Example C34_pipe :
  let pipe := cylinderDirData (None : option unit) AX (nofZ 2) (nofZ 12) vO : quadricData b64 unit in
  neqb (hT (quadricIntersect pipe (Ray (Vec (nofZ 5) (nofZ 3) (nofZ 0)) (Vec (nofZ 0) (nofZ (-1)) (nofZ 0))))) (nofZ 2) = true /\
  neqb (hT (quadricIntersect pipe (Ray (Vec (nofZ 7) (nofZ 3) (nofZ 0)) (Vec (nofZ 0) (nofZ (-1)) (nofZ 0))))) (nofZ 0) = true.
Proof. split; vm_compute; reflexivity. Qed.

(** ** C95 *)
Theorem C95_mesh_hits :
  forall (M : Type) (sortSlice : (object xr M -> object xr M -> bool) -> list (object xr M) -> list (object xr M)),
    reorders sortSlice ->
    forall (m : option M) (ps : list pt) (uv : list (R * R)) (fs : list face3) (s d : pt),
      length uv = length ps -> fs <> nil -> (forall f, In f fs -> face_in_range ps f) ->
      general_position ps fs d -> start_off ps s -> (forall t, 0 < t -> on_mesh ps fs (along s d t) -> t < horizon) ->
      exists o h, meshWithUV (fun x => x) sortSlice m (map xv ps) fs (Some (map xuv uv)) = Val o /\
        oIntersect o (xray s d) = Val (h, xray s d) /\
        ((exists f t w0 w1 w2, In f fs /\ 0 < t /\ in_face ps f w0 w1 w2 (along s d t) /\
            (forall t', 0 < t' -> on_mesh ps fs (along s d t') -> t <= t') /\
            hT h = XF t /\ hMat h = m /\
            hLocal h = xv (Vec (blend f w0 w1 w2 (fun i => fst (nth (Z.to_nat i) uv (0, 0))))
                               (blend f w0 w1 w2 (fun i => snd (nth (Z.to_nat i) uv (0, 0)))) 0) /\
            ((forall i, (0 < corner_count f i)%nat -> normal_sum ps fs i <> zero3) ->
               hNormal h = xv (blend3 f w0 w1 w2 (fun i => unit_of (normal_sum ps fs i))))) \/
         ((forall t, 0 < t -> ~ on_mesh ps fs (along s d t)) /\
          (hT h = XF 0 \/ (hT h = XF horizon /\ (length fs <= 7)%nat)))).
Proof. exact @mesh_exact. Qed.
Print Assumptions C95_mesh_hits.

Theorem C95_parallelogram_hits :
  forall (M : Type) (sortSlice : (object xr M -> object xr M -> bool) -> list (object xr M) -> list (object xr M)),
    reorders sortSlice ->
    forall (m : option M) (o a b s d : pt),
      let n := cross3 (minus3 a o) (minus3 b o) in
      n <> zero3 -> dot3 n d <> 0 -> start_off [o; a; plus3 a (minus3 b o); b] s ->
      (forall t u v, 0 < t -> 0 <= u <= 1 -> 0 <= v <= 1 -> along s d t = para o a b u v -> t < horizon) ->
      exists ob h, rectangleWithVertices (fun x => x) sortSlice m (xv o) (xv a) (xv b) = Val ob /\
        oIntersect ob (xray s d) = Val (h, xray s d) /\
        ((exists t u v, 0 < t /\ 0 <= u <= 1 /\ 0 <= v <= 1 /\ along s d t = para o a b u v /\
            h = Hit (XF t) (xv (unit_of n)) (xv (Vec u v 0)) m) \/
         ((forall t u v, 0 < t -> 0 <= u <= 1 -> 0 <= v <= 1 -> along s d t <> para o a b u v) /\
          (hT h = XF 0 \/ hT h = XF horizon))).
Proof. exact @para_exact. Qed.
Print Assumptions C95_parallelogram_hits.

(** a ray that runs inside a border plane of the rectangle is excluded *)
Theorem C95_rectangle_hits :
  forall (M : Type) (sortSlice : (object xr M -> object xr M -> bool) -> list (object xr M) -> list (object xr M))
    (m : option M) (w dp : R) (c s d : pt),
    0 < w -> 0 < dp -> vy d <> 0 ->
    vx d <> 0 \/ (vx s <> vx c - w / 2 /\ vx s <> vx c + w / 2) ->
    vz d <> 0 \/ (vz s <> vz c - dp / 2 /\ vz s <> vz c + dp / 2) ->
    let t0 := (vy c - vy s) / vy d in
    let p0 := along s d t0 in
    let on p := vy p = vy c /\ Rabs (vx p - vx c) <= w / 2 /\ Rabs (vz p - vz c) <= dp / 2 in
    t0 < horizon ->
    exists ob, rectangle (fun x => x) sortSlice m (XF w) (XF dp) (xv c) = Val ob /\
      ((0 < t0 /\ on p0 /\ oIntersect ob (xray s d) =
          Val (Hit (XF t0) (xv (Vec 0 1 0)) (xv (Vec ((vz p0 - vz c) / dp + 1 / 2) ((vx p0 - vx c) / w + 1 / 2) 0)) m, xray s d)) \/
       ((forall t, 0 < t -> ~ on (along s d t)) /\
        oIntersect ob (xray s d) = Val (Hit (XF 0) (xv zero3) (xv zero3) m, xray s d))).
Proof. exact @rect_exact. Qed.
Print Assumptions C95_rectangle_hits.

Theorem C95_disk_hits :
  forall (M : Type) (sortSlice : (object xr M -> object xr M -> bool) -> list (object xr M) -> list (object xr M))
    (m : option M) (diam : R) (c s d : pt),
    0 < diam -> vy d <> 0 ->
    vx d <> 0 \/ (vx s <> vx c - diam / 2 /\ vx s <> vx c + diam / 2) ->
    vz d <> 0 \/ (vz s <> vz c - diam / 2 /\ vz s <> vz c + diam / 2) ->
    let t0 := (vy c - vy s) / vy d in
    let p0 := along s d t0 in
    let on p := vy p = vy c /\ (vx p - vx c)² + (vz p - vz c)² < (diam / 2)² in
    t0 < horizon ->
    exists ob, disk (fun x => x) sortSlice m (XF diam) (xv c) = Val ob /\
      ((0 < t0 /\ on p0 /\ oIntersect ob (xray s d) =
          Val (Hit (XF t0) (xv (Vec 0 1 0)) (xv (Vec ((vz p0 - vz c) / diam + 1 / 2) ((vx p0 - vx c) / diam + 1 / 2) 0)) m, xray s d)) \/
       ((forall t, 0 < t -> ~ on (along s d t)) /\ oIntersect ob (xray s d) = Val (noHit, xray s d))).
Proof. exact @disk_exact. Qed.
Print Assumptions C95_disk_hits.

(** in double precision: a rectangle 4 wide (x) and 2 deep (z) is hit at x = 1.5, z = 0.5 and missed at x = 0.5, z = 1.5;
    the disk of diameter 4 is missed in the corner of its square *)
Definition lookDown (x z : b64) : ray b64 := Ray (Vec x (nofZ 3) z) (Vec (nofZ 0) (nofZ (-1)) (nofZ 0)).
Definition seenAt (o : outcome (object b64 unit)) (r : ray b64) : b64 :=
  match obind o (fun o => oIntersect o r) with Val (h, _) => hT h | _ => nofZ (-1) end.
Example C95_example :
  let rect := rectangle to32b (fun _ l => l) (Some tt) (nofZ 4) (nofZ 2) vO in
  let dsk := disk to32b (fun _ l => l) (Some tt) (nofZ 4) vO in
  (neqb (seenAt rect (lookDown (nQ 3 2) (nQ 1 2))) (nofZ 3) && neqb (seenAt rect (lookDown (nQ 1 2) (nQ 3 2))) (nofZ 0) &&
   neqb (seenAt dsk (lookDown (nQ 3 2) (nQ 1 2))) (nofZ 3) && neqb (seenAt dsk (lookDown (nQ 19 10) (nQ 19 10))) (nofZ 0))%bool = true.
Proof. vm_compute. reflexivity. Qed.

(** ** C98 *)
Theorem C98_bounds_contain_the_solid :
  forall (M : Type) (s : solid b64 M),
    (forall o, In o (prims s) -> boxes_inside o) ->
    exists b, oBounds (objectOf s) = Val b /\ number_box b /\
      forall p, vnan p = false -> oInside (objectOf s) p = Val true -> box_has b p.
Proof. exact @b64_boxes_inside. Qed.
Print Assumptions C98_bounds_contain_the_solid.

(** quadrics and boxes meet the condition *)
Theorem C98_primitives_contain_their_points :
  forall (M : Type) (q : quadricData b64 M) (m : option M) (lo hi : vec b64),
    number_box (qBounds q) -> number_box (BBox lo hi) -> boxes_inside (quadric q) /\ boxes_inside (boxWithBounds m lo hi).
Proof. exact (fun M q m lo hi H1 H2 => conj (quadric_boxes_inside q H1) (box_boxes_inside m lo hi H2)). Qed.
Print Assumptions C98_primitives_contain_their_points.

Theorem C98_hits_lie_in_the_bounds :
  forall (M : Type) (o : object xr M), assembled o ->
    exists b, oBounds o = Val b /\
      forall s d h r', oIntersect o (xray s d) = Val (h, r') -> nltb (nofZ 0) (hT h) = true ->
        exists t, hT h = XF t /\ box_has b (xv (along s d t)).
Proof. exact (fun M o H => proj2 (proj2 (assembled_well_bounded o H))). Qed.
Print Assumptions C98_hits_lie_in_the_bounds.

(** two balls side by side: the box reaches from the left end of one to the right end of the other *)
Example C98_example :
  match oBounds (cOr (sphere None (nofZ 2) vO) (sphere None (nofZ 2) (Vec (nofZ 3) (nofZ 0) (nofZ 0))) : object b64 unit) with
  | Val b => (nltb (vx (bMin b)) (nofZ (-1)) && nltb (nofZ (-2)) (vx (bMin b)) && nltb (nofZ 4) (vx (bMax b)) && nltb (vx (bMax b)) (nofZ 5))%bool
  | _ => false end = true.
Proof. vm_compute. reflexivity. Qed.

(** ** C99 *)
Theorem C99_wrappers_change_only_the_looks :
  forall (F : Type) (NF : Num F) (M : Type) (ws : list (wrap F M)) (o : object F M),
    keeps_rays o ->
    (forall p, oInside (wrapped ws o) p = oInside o p) /\ oBounds (wrapped ws o) = oBounds o /\
    forall r,
      (forall h r', oIntersect o r = Val (h, r') ->
         oIntersect (wrapped ws o) r =
         Val (Hit (hT h) (hNormal h)
                (match outer_map ws with Some f => f (rayAt r (hT h)) | None => hLocal h end)
                (match outer_material ws with Some m => m | None => hMat h end), r)) /\
      (oIntersect o r = Panic -> oIntersect (wrapped ws o) r = Panic).
Proof. exact @wrapped_spec. Qed.
Print Assumptions C99_wrappers_change_only_the_looks.

(** material 2 over a remap over material 1 on a ball: the local coordinates are those of the hit point, swapped *)
Example C99_example :
  match oIntersect (wrapped [WMaterial (Some 2%Z); WRemap (fun p => Vec (vz p) (vy p) (vx p)); WMaterial (Some 1%Z)]
                      (sphere None (nofZ 2) (Vec (nofZ 5) (nofZ 0) (nofZ 0)) : object b64 Z))
          (Ray (Vec (nofZ 0) (nofZ 0) (nofZ 0)) (Vec (nofZ 1) (nofZ 0) (nofZ 0))) with
  | Val (h, _) => neqb (hT h) (nofZ 4) && neqb (vz (hLocal h)) (nofZ 4) && neqb (vx (hLocal h)) (nofZ 0) &&
                  match hMat h with Some 2%Z => true | _ => false end
  | _ => false end%bool = true.
Proof. vm_compute. reflexivity. Qed.

(** ** C100: a triangle present with both orientations is seen with a normal that is not a number *)
Theorem C100_two_sided_triangle_has_nan_normals_refuted :
  exists (o : object b64 unit) (r : ray b64) (h : hit b64 unit) (r' : ray b64),
    meshNoUV to32b (fun _ l => l) (Some tt)
      [Vec (nofZ 0) (nofZ 0) (nofZ 0); Vec (nofZ 4) (nofZ 0) (nofZ 0); Vec (nofZ 0) (nofZ 4) (nofZ 0)] [(0, 1, 2); (0, 2, 1)]%Z = Val o /\
    oIntersect o r = Val (h, r') /\ neqb (hT h) (nofZ 3) = true /\ vnan (hNormal h) = true.
Proof. exact two_sided_refutes. Qed.
Print Assumptions C100_two_sided_triangle_has_nan_normals_refuted.

Theorem C100_cancelling_normals_are_nan_refuted :
  forall (ps : list pt) (fs : list face3), (forall f, In f fs -> face_in_range ps f) ->
    exists vs, obind (meshVertices (map xv ps) None) (calcNormals fs) = Val vs /\
      forall i v, in_range ps i -> nth_error vs (Z.to_nat i) = Some v -> touched fs i -> normal_sum ps fs i = zero3 ->
        vtNormal v = Vec XNaN XNaN XNaN.
Proof. exact cancelling_normals. Qed.
Print Assumptions C100_cancelling_normals_are_nan_refuted.

Theorem C100_shading_normals :
  forall (ps : list pt) (fs : list face3), (forall f, In f fs -> face_in_range ps f) ->
    exists vs, obind (meshVertices (map xv ps) None) (calcNormals fs) = Val vs /\ length vs = length ps /\
      forall i, in_range ps i -> exists v, nth_error vs (Z.to_nat i) = Some v /\ vtPos v = xv (corner ps i) /\
        (touched fs i -> normal_sum ps fs i <> zero3 -> vtNormal v = xv (unit_of (normal_sum ps fs i))).
Proof. exact shading_normals. Qed.
Print Assumptions C100_shading_normals.

Theorem C100_faces_on_one_side_have_unit_normals_on_that_side :
  forall (ps : list pt) (fs : list face3) (e : pt) (i : Z) (v : vertex xr) (vs : list (vertex xr)),
    (forall f, In f fs -> face_in_range ps f) ->
    touched fs i -> (forall f, In f fs -> (0 < corner_count f i)%nat -> 0 < dot3 e (area_normal ps f)) ->
    in_range ps i -> obind (meshVertices (map xv ps) None) (calcNormals fs) = Val vs -> nth_error vs (Z.to_nat i) = Some v ->
    exists n, vtNormal v = xv n /\ norm2 n = 1 /\ 0 < dot3 e n.
Proof. exact shading_side. Qed.
Print Assumptions C100_faces_on_one_side_have_unit_normals_on_that_side.

(** double precision, any points at all: a triangle so large, thin or ill-defined that its normal overflows or is not
    a number is left out of the sums, which remain finite *)
Theorem C100_bad_triangles_do_not_spoil_their_neighbours :
  forall (ps : list (vec b64)) (uv : option (list (b64 * b64))) (fs : list tri) (vs : list (vertex b64)), (Z.of_nat (length fs) <= 2 ^ 40)%Z ->
    obind (meshVertices ps uv) (sumNormals fs) = Val vs -> forall v, In v vs -> all3 (fun x => BinarySingleNaN.is_finite x = true) (vtNormal v).
Proof. exact mesh_sums_finite. Qed.
Print Assumptions C100_bad_triangles_do_not_spoil_their_neighbours.

(** a triangle of sides 2^600 next to one of sides 1 *)
Example C100_huge_neighbour :
  match obind (meshVertices [Vec (nofZ 0) (nofZ 0) (nofZ 0); Vec (nofZ 1) (nofZ 0) (nofZ 0); Vec (nofZ 0) (nofZ 0) (nofZ (-1)); Vec (nofZ (2 ^ 600)) (nofZ 0) (nofZ 0); Vec (nofZ 0) (nofZ (2 ^ 600)) (nofZ 0)] None)
          (calcNormals [(0, 1, 2); (0, 3, 4)]%Z) : outcome (list (vertex b64)) with
  | Val (v :: _) => neqb (vx (vtNormal v)) (nofZ 0) && neqb (vy (vtNormal v)) (nofZ 1) && neqb (vz (vtNormal v)) (nofZ 0)
  | _ => false end%bool = true.
Proof. vm_compute. reflexivity. Qed.

(** a roof of two faces meeting in an edge, and a degenerate face that changes nothing *)
Example C100_example :
  match obind (meshVertices [Vec (nofZ 0) (nofZ 0) (nofZ 0); Vec (nofZ 1) (nofZ 0) (nofZ 0); Vec (nofZ 0) (nofZ 1) (nofZ 0); Vec (nofZ 0) (nofZ 0) (nofZ 1)] None)
          (calcNormals [(0, 1, 2); (0, 3, 1); (0, 0, 1)]%Z) : outcome (list (vertex b64)) with
  | Val (v :: _) => nltb (nQ 70 100) (vz (vtNormal v)) && nltb (vz (vtNormal v)) (nQ 71 100) && nltb (nQ 70 100) (vy (vtNormal v)) && neqb (vx (vtNormal v)) (nofZ 0)
  | _ => false end%bool = true.
Proof. vm_compute. reflexivity. Qed.
