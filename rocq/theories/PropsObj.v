(** * Properties C24-C43: objects, constructive solid geometry, trees and meshes *)
From Coq Require Import ZArith Reals Bool List Permutation Lra Lia.
From Flocq Require Core.
From Flocq Require IEEE754.BinarySingleNaN.
From Verif Require Import Num NumLaws Outcome B64 GeomModel GeomSpec ObjModel TreeModel ObjSpec ObjProofs BoxProofs TransfProofs CsgProofs PrimProofs TreeProofs ParamProofs ObjFacts.
Import ListNotations.
Local Open Scope R_scope.

(** ** C24 *)
Theorem C24_intersecting_restores_the_ray :
  forall (F : Type) (NF : Num F) (NI : NumInf F) (M : Type) (to32 : F -> F)
    (sortSlice : (object F M -> object F M -> bool) -> list (object F M) -> list (object F M)),
    reorders sortSlice ->
    forall o, built to32 sortSlice o -> forall r h r', oIntersect o r = Val (h, r') -> r' = r.
Proof. exact (fun F NF NI M to32 ss Hs o Ho => built_preserves to32 ss Hs o Ho). Qed.
Print Assumptions C24_intersecting_restores_the_ray.

(** a transformed intersection of two balls, in a tree, hit by a ray in double precision *)
Definition lens : outcome (object b64 unit) :=
  obind (transformed (cAnd (sphere None (nofZ 2) vO) (sphere None (nofZ 2) (Vec (nofZ 1) (nofZ 0) (nofZ 0)))) (translate (Vec (nofZ 0) (nofZ 3) (nofZ 0))))
    (fun o => tree to32b (fun _ l => l) [o]).
Example C24_example : match lens with
  | Val o => match oIntersect o (Ray (Vec (nofZ (-5)) (nofZ 3) (nofZ 0)) (Vec (nofZ 1) (nofZ 0) (nofZ 0))) with
             | Val (h, _) => neqb (hT h) (nofZ 5)
             | _ => false end
  | _ => false end = true.
Proof. vm_compute. reflexivity. Qed.

(** ** C25 *)
Theorem C25_box_test_is_exact :
  forall lo hi s d : pt, ordered lo hi -> off_planes lo hi s -> d <> zero3 ->
    (bbIntersects (xbox lo hi) (xray s d) = true <-> exists t, 0 < t /\ in_closed_box lo hi (along s d t)) /\
    (bbIntersects (xbox lo hi) (xray s d) = true ->
       exists t, bbIntersect (xbox lo hi) (xray s d) = XF t /\ first_crossing lo hi s d t).
Proof. exact (fun lo hi s d Ho Hp Hd => conj (bbIntersects_exact lo hi s d Ho Hp Hd) (bbIntersect_first lo hi s d Ho Hp Hd)). Qed.
Print Assumptions C25_box_test_is_exact.

(** axis-parallel rays through and past the unit cube *)
Example C25_example :
  bbIntersects (BBox (Vec (nofZ 0) (nofZ 0) (nofZ 0)) (Vec (nofZ 1) (nofZ 1) (nofZ 1)))
    (Ray (Vec (nQ 1 2) (nQ 1 2) (nofZ (-3))) (Vec (nofZ 0) (nofZ 0) (nofZ 1)) : ray b64) = true /\
  bbIntersects (BBox (Vec (nofZ 0) (nofZ 0) (nofZ 0)) (Vec (nofZ 1) (nofZ 1) (nofZ 1)))
    (Ray (Vec (nQ 3 2) (nQ 1 2) (nofZ (-3))) (Vec (nofZ 0) (nofZ 0) (nofZ 1)) : ray b64) = false.
Proof. split; vm_compute; reflexivity. Qed.

(** ** C26: a ray that starts on a face is pruned; one that starts in the interior is not *)
Theorem C26_surface_start_is_pruned_refuted :
  forall lo hi s d : pt, ordered lo hi -> on_box_surface lo hi s -> enters lo hi s d ->
    vx d <> 0 -> vy d <> 0 -> vz d <> 0 ->
    bbIntersect (xbox lo hi) (xray s d) = XF 0 /\ bbIntersects (xbox lo hi) (xray s d) = false.
Proof. exact surface_start_pruned. Qed.
Print Assumptions C26_surface_start_is_pruned_refuted.

Theorem C26_interior_start_is_never_pruned :
  forall lo hi s d : pt, d <> zero3 -> in_open_box lo hi s -> bbIntersects (xbox lo hi) (xray s d) = true.
Proof. exact inside_never_pruned. Qed.
Print Assumptions C26_interior_start_is_never_pruned.

(** the same in double precision: starting in the middle of the face x = 0 of the unit cube *)
Example C26_example : bbIntersects (BBox (Vec (nofZ 0) (nofZ 0) (nofZ 0)) (Vec (nofZ 1) (nofZ 1) (nofZ 1)))
    (Ray (Vec (nofZ 0) (nQ 1 2) (nQ 1 2)) (Vec (nQ 98 100) (nQ 1 10) (nQ 1 10)) : ray b64) = false.
Proof. vm_compute. reflexivity. Qed.

(** ** C27 *)
Theorem C27_hull_box_is_tight_and_rejects_nan :
  forall hull : list (vec b64), hull <> nil ->
    (existsb vnan hull = true /\ boundingBoxFromHull hull = Panic) \/
    (existsb vnan hull = false /\ exists b, boundingBoxFromHull hull = Val b /\ hull_box_ok hull b).
Proof. exact boundingBoxFromHull_spec. Qed.
Print Assumptions C27_hull_box_is_tight_and_rejects_nan.

Example C27_example :
  match boundingBoxFromHull [Vec (nofZ 1) (nofZ 5) (nofZ 2); Vec (nofZ 3) (nofZ (-1)) (nofZ 2)] : outcome (bbox b64) with
  | Val b => (neqb (vx (bMin b)) (nofZ 1) && neqb (vy (bMin b)) (nofZ (-1)) && neqb (vy (bMax b)) (nofZ 5))%bool
  | _ => false end = true /\
  boundingBoxFromHull [Vec (nofZ 1) (nofZ 5) (ndiv (nofZ 0) (nofZ 0)) : vec b64] = Panic.
Proof. split; vm_compute; reflexivity. Qed.

(** ** C28 *)
Theorem C28_transformed_bounds_enclose :
  forall (lo hi : pt) (t : affine R),
    exists lo' hi', transformBounds (xbox lo hi) (xaff t) = Val (xbox lo' hi') /\
      forall p, in_closed_box lo hi p -> in_closed_box lo' hi' (transformPoint t p).
Proof. exact transformBounds_encloses. Qed.
Print Assumptions C28_transformed_bounds_enclose.

(** a quarter turn about z of the box [0,1] x [0,2] x [0,3] *)
Example C28_example :
  match transformBounds (BBox (Vec (nofZ 0) (nofZ 0) (nofZ 0)) (Vec (nofZ 1) (nofZ 2) (nofZ 3)))
     (Affine (Matrix (Vec (nofZ 0) (nofZ 1) (nofZ 0)) (Vec (nofZ (-1)) (nofZ 0) (nofZ 0)) (Vec (nofZ 0) (nofZ 0) (nofZ 1))) vO) : outcome (bbox b64) with
  | Val b => (neqb (vx (bMin b)) (nofZ (-2)) && neqb (vx (bMax b)) (nofZ 0) && neqb (vy (bMax b)) (nofZ 1) && neqb (vz (bMax b)) (nofZ 3))%bool
  | _ => false end = true.
Proof. vm_compute. reflexivity. Qed.

(** ** C29: no object of unbounded extent can be transformed; bounded ones can *)
Theorem C29_unbounded_objects_cannot_be_transformed_refuted :
  forall (M : Type) (o : object b64 M) (t : affine b64),
    oTransf o = None -> oBounds o = Val infBox -> transformed o t = Panic.
Proof. exact @unbounded_never_transform. Qed.
Print Assumptions C29_unbounded_objects_cannot_be_transformed_refuted.

Theorem C29_bounded_objects_can_be_transformed :
  forall (M : Type) (o : object xr M) (lo hi : pt) (t : affine R),
    oTransf o = None -> oBounds o = Val (xbox lo hi) -> exists o', transformed o (xaff t) = Val o'.
Proof. exact @bounded_objects_transform. Qed.
Print Assumptions C29_bounded_objects_can_be_transformed.

(** shifting the complement of a ball *)
Example C29_example : transformed (cNot (sphere None (nofZ 2) vO) : object b64 unit) (translate (Vec (nofZ 1) (nofZ 0) (nofZ 0))) = Panic.
Proof. apply unbounded_never_transform; reflexivity. Qed.

(** ** C30 *)
Theorem C30_inside_of_transformed :
  forall (M : Type) (o o' : object xr M) (t : affine R), det3 (afA t) <> 0 -> oTransf o = None ->
    transformed o (xaff t) = Val o' ->
    forall q, oInside o' (xv (transformPoint t q)) = oInside o (xv q).
Proof. exact @transformed_inside. Qed.
Print Assumptions C30_inside_of_transformed.

Theorem C30_transformed_is_seen_where_the_transform_puts_it :
  forall (M : Type) (o o' : object xr M) (t : affine R) (lo hi : pt),
    det3 (afA t) <> 0 -> oTransf o = None -> oBounds o = Val (xbox lo hi) -> ordered lo hi -> respects_bounds o lo hi ->
    transformed o (xaff t) = Val o' ->
    exists lo' hi', oBounds o' = Val (xbox lo' hi') /\ ordered lo' hi' /\
      (forall p, in_closed_box lo hi p -> in_closed_box lo' hi' (transformPoint t p)) /\
      forall s d h r', d <> zero3 -> off_planes lo' hi' (transformPoint t s) ->
        oIntersect o (xray s d) = Val (h, r') ->
        exists h', oIntersect o' (xray (transformPoint t s) (transformDir t d)) =
                     Val (h', xray (transformPoint t s) (transformDir t d)) /\
          (xltb (XF 0) (hT h) = true ->
             hT h' = hT h /\ hLocal h' = hLocal h /\ hMat h' = hMat h /\ hNormal h' = transformDir (xaff t) (hNormal h)) /\
          (xltb (XF 0) (hT h) = false -> xltb (XF 0) (hT h') = false).
Proof. exact @transformed_intersect. Qed.
Print Assumptions C30_transformed_is_seen_where_the_transform_puts_it.

Theorem C30_transforming_twice_is_transforming_by_the_composition :
  forall (F : Type) (NF : Num F) (M : Type) (o o1 : object F M) (t s : affine F),
    oTransf o = None -> transformed o t = Val o1 -> transformed o1 s = transformed o (before t s).
Proof. exact @transformed_twice. Qed.
Print Assumptions C30_transforming_twice_is_transforming_by_the_composition.

(** a unit ball shifted by 3 in x: its centre is inside, the old centre is not, and the ray from 10 in x sees it at distance 6 *)
Example C30_example : match transformed (sphere None (nofZ 2) vO : object b64 unit) (translate (Vec (nofZ 3) (nofZ 0) (nofZ 0))) with
  | Val o => (match oInside o (Vec (nofZ 3) (nofZ 0) (nofZ 0)) with Val true => true | _ => false end &&
              match oInside o vO with Val false => true | _ => false end &&
              match oIntersect o (Ray (Vec (nofZ 10) (nofZ 0) (nofZ 0)) (Vec (nofZ (-1)) (nofZ 0) (nofZ 0))) with
              | Val (h, _) => neqb (hT h) (nofZ 6) | _ => false end)%bool
  | _ => false end = true.
Proof. vm_compute. reflexivity. Qed.

(** ** C31 *)
Theorem C31_solids_are_point_sets :
  forall (F : Type) (NF : Num F) (NI : NumInf F) (M : Type) (s : solid F M) (p : vec F), answers s p ->
    exists b, oInside (objectOf s) p = Val b /\ (b = true <-> pointset s p).
Proof. exact @solid_inside. Qed.
Print Assumptions C31_solids_are_point_sets.

Theorem C31_boolean_laws :
  forall (F : Type) (NF : Num F) (NI : NumInf F) (M : Type) (s s' : solid F M) (p : vec F), answers s p -> answers s' p ->
    (pointset s p <-> pointset s' p) -> oInside (objectOf s) p = oInside (objectOf s') p.
Proof. exact @solid_same_inside. Qed.
Print Assumptions C31_boolean_laws.

Theorem C31_a_tree_is_the_union_of_its_members :
  forall (F : Type) (NF : Num F) (M : Type) (to32 : F -> F)
    (sortSlice : (object F M -> object F M -> bool) -> list (object F M) -> list (object F M))
    (os : list (object F M)) (o : object F M) (p : vec F) (b : object F M -> bool),
    reorders sortSlice -> tree to32 sortSlice os = Val o ->
    (forall a, In a os -> oInside a p = Val (b a)) -> oInside o p = Val (existsb b os).
Proof. exact @tree_inside. Qed.
Print Assumptions C31_a_tree_is_the_union_of_its_members.

(** De Morgan, for any two solids that answer *)
Example C31_example : forall (a b : object R unit) (NI : NumInf R) p x y, oInside a p = Val x -> oInside b p = Val y ->
  oInside (cNot (cAnd a b)) p = oInside (cOr (cNot a) (cNot b)) p.
Proof.
  intros a b NI p x y Ha Hb.
  apply (C31_boolean_laws R _ NI unit (SNot (SAnd (SPrim a) (SPrim b))) (SOr (SNot (SPrim a)) (SNot (SPrim b))));
    cbn; [split; eauto|split; eauto|].
  rewrite Ha, Hb. destruct x, y; intuition congruence.
Qed.

(** ** C32 *)
Theorem C32_intersection_hits :
  forall (M : Type) (NI : NumInf R) (a b : object R M) (s d : pt) h r',
    (forall r k r1, oIntersect a r = Val (k, r1) -> r1 = r) -> (forall r k r1, oIntersect b r = Val (k, r1) -> r1 = r) ->
    oIntersect (cAnd a b) (Ray s d) = Val (h, r') -> 0 < hT h ->
    (surface_hit a s d h /\ oInside b (along s d (hT h)) = Val true) \/
    (surface_hit b s d h /\ oInside a (along s d (hT h)) = Val true).
Proof. exact (fun M NI => and_sound). Qed.
Print Assumptions C32_intersection_hits.

Theorem C32_union_hits :
  forall (M : Type) (NI : NumInf R) (a b : object R M) (s d : pt) h r',
    (forall r k r1, oIntersect a r = Val (k, r1) -> r1 = r) -> (forall r k r1, oIntersect b r = Val (k, r1) -> r1 = r) ->
    oIntersect (cOr a b) (Ray s d) = Val (h, r') -> 0 < hT h ->
    (surface_hit a s d h /\ oInside b (along s d (hT h)) = Val false) \/
    (surface_hit b s d h /\ oInside a (along s d (hT h)) = Val false).
Proof. exact (fun M NI => or_sound). Qed.
Print Assumptions C32_union_hits.

Theorem C32_restriction_hits :
  forall (M : Type) (NI : NumInf R) (a b : object R M) (s d : pt) h r',
    (forall r k r1, oIntersect a r = Val (k, r1) -> r1 = r) ->
    oIntersect (cRestrict a b) (Ray s d) = Val (h, r') -> 0 < hT h ->
    surface_hit a s d h /\ oInside b (along s d (hT h)) = Val true.
Proof. exact (fun M NI => restrict_sound). Qed.
Print Assumptions C32_restriction_hits.

Theorem C32_difference_hits :
  forall (M : Type) (NI : NumInf R) (a b : object R M) (s d : pt) h r',
    (forall r k r1, oIntersect a r = Val (k, r1) -> r1 = r) -> (forall r k r1, oIntersect b r = Val (k, r1) -> r1 = r) ->
    oIntersect (cDifference a b) (Ray s d) = Val (h, r') -> 0 < hT h ->
    (surface_hit a s d h /\ oInside b (along s d (hT h)) = Val false) \/
    (surface_hit b s d (Hit (hT h) (scal3 (-1) (hNormal h)) (hLocal h) (hMat h)) /\ oInside a (along s d (hT h)) = Val true).
Proof. exact (fun M NI => difference_sound). Qed.
Print Assumptions C32_difference_hits.

(** a bitten ball, seen from the bitten side: the hit is on the inner surface of the bite, at x = 1/2 *)
Example C32_example :
  match oIntersect (cDifference (sphere None (nofZ 2) vO) (sphere None (nofZ 1) (Vec (nofZ 1) (nofZ 0) (nofZ 0))) : object b64 unit)
    (Ray (Vec (nofZ 5) (nofZ 0) (nofZ 0)) (Vec (nofZ (-1)) (nofZ 0) (nofZ 0))) with
  | Val (h, _) => (nltb (nQ 449 100) (hT h) && nltb (hT h) (nQ 451 100))%bool
  | _ => false end = true.
Proof. vm_compute. reflexivity. Qed.

(** ** C33 *)
Theorem C33_intersection_finds_the_first_valid_crossing :
  forall (M : Type) (NI : NumInf R) (a b : object R M) (s d : pt) (csa csb : list R) (insA insB : R -> bool),
    crossings a s d csa -> crossings b s d csb -> separated csa -> separated csb ->
    (forall c, In c csa -> 0 < c -> oInside b (along s d c) = Val (insB c)) ->
    (forall c, In c csb -> 0 < c -> oInside a (along s d c) = Val (insA c)) ->
    (length csa <= 100)%nat -> (length csb <= 100)%nat -> (forall c, In c csa \/ In c csb -> c < ninf) ->
    let valid c := 0 < c /\ ((In c csa /\ insB c = true) \/ (In c csb /\ insA c = true)) in
    exists h, oIntersect (cAnd a b) (Ray s d) = Val (h, Ray s d) /\
      ((valid (hT h) /\ forall c, valid c -> hT h <= c) \/ (hT h = 0 /\ forall c, ~ valid c)).
Proof. exact (fun M NI => marchBoth_complete (fun inside => inside)). Qed.
Print Assumptions C33_intersection_finds_the_first_valid_crossing.

Theorem C33_union_finds_the_first_valid_crossing :
  forall (M : Type) (NI : NumInf R) (a b : object R M) (s d : pt) (csa csb : list R) (insA insB : R -> bool),
    crossings a s d csa -> crossings b s d csb -> separated csa -> separated csb ->
    (forall c, In c csa -> 0 < c -> oInside b (along s d c) = Val (insB c)) ->
    (forall c, In c csb -> 0 < c -> oInside a (along s d c) = Val (insA c)) ->
    (length csa <= 100)%nat -> (length csb <= 100)%nat -> (forall c, In c csa \/ In c csb -> c < ninf) ->
    let valid c := 0 < c /\ ((In c csa /\ negb (insB c) = true) \/ (In c csb /\ negb (insA c) = true)) in
    exists h, oIntersect (cOr a b) (Ray s d) = Val (h, Ray s d) /\
      ((valid (hT h) /\ forall c, valid c -> hT h <= c) \/ (hT h = 0 /\ forall c, ~ valid c)).
Proof. exact (fun M NI => marchBoth_complete negb). Qed.
Print Assumptions C33_union_finds_the_first_valid_crossing.

(** from inside two overlapping balls, the union is left at x = 2 and the intersection at x = 1 *)
Definition twoBalls (f : object b64 unit -> object b64 unit -> object b64 unit) : outcome (hit b64 unit * ray b64) :=
  oIntersect (f (sphere None (nofZ 2) vO) (sphere None (nofZ 2) (Vec (nofZ 1) (nofZ 0) (nofZ 0))))
    (Ray (Vec (nQ 1 2) (nofZ 0) (nofZ 0)) (Vec (nofZ 1) (nofZ 0) (nofZ 0))).
Example C33_example :
  match twoBalls cOr, twoBalls cAnd with
  | Val (h, _), Val (h', _) => (nltb (nQ 149 100) (hT h) && nltb (hT h) (nQ 151 100) && nltb (nQ 49 100) (hT h') && nltb (hT h') (nQ 51 100))%bool
  | _, _ => false end = true.
Proof. vm_compute. reflexivity. Qed.

(** ** C34 *)
Theorem C34_quadric_hits :
  forall (M : Type) (o a : pt) (b : R) (lo hi : pt) (m : option M) (s d : pt),
    vx a * (vx d)² + vy a * (vy d)² + vz a * (vz d)² <> 0 ->
    let h := quadricIntersect (Quadric o a b (BBox lo hi) m) (Ray s d) in
    let p := along s d (hT h) in
    ((0 < hT h /\ quadratic a o p = b /\ in_open_box lo hi p /\
      hNormal h = Vec (vx a * (vx p - vx o)) (vy a * (vy p - vy o)) (vz a * (vz p - vz o)) /\
      hLocal h = minus3 p o /\ hMat h = m) /\
     forall t, 0 < t < hT h -> ~ (quadratic a o (along s d t) = b /\ in_open_box lo hi (along s d t))) \/
    (h = noHit /\ forall t, 0 < t -> ~ (quadratic a o (along s d t) = b /\ in_open_box lo hi (along s d t))).
Proof. exact @quadric_exact. Qed.
Print Assumptions C34_quadric_hits.

(** twice the reported normal is the gradient of the quadratic form *)
Theorem C34_normal_is_the_gradient :
  forall o a p u : pt,
    derivable_pt_lim (fun k => quadratic a o (along p u k)) 0
      (2 * dot3 (Vec (vx a * (vx p - vx o)) (vy a * (vy p - vy o)) (vz a * (vz p - vz o))) u).
Proof. exact quadratic_gradient. Qed.
Print Assumptions C34_normal_is_the_gradient.

Theorem C34_quadric_inside :
  forall (M : Type) (o a : pt) (b : R) (lo hi : pt) (m : option M) (p : pt),
    quadricInside (Quadric o a b (BBox lo hi) m) p = true <-> in_open_box lo hi p /\ quadratic a o p < b.
Proof. exact @quadricInside_exact. Qed.
Print Assumptions C34_quadric_inside.

Theorem C34_sphere_hits :
  forall (M : Type) (m : option M) (diam : R) (c s d : pt), 0 <= diam -> d <> zero3 ->
    let h := quadricIntersect (sphereData m diam c) (Ray s d) in
    let on p := norm2 (minus3 p c) = (diam / 2)² in
    (0 < hT h /\ on (along s d (hT h)) /\ hNormal h = minus3 (along s d (hT h)) c /\
       hLocal h = minus3 (along s d (hT h)) c /\ hMat h = m /\ forall t, 0 < t < hT h -> ~ on (along s d t)) \/
    (h = noHit /\ forall t, 0 < t -> ~ on (along s d t)).
Proof. exact @sphere_exact. Qed.
Print Assumptions C34_sphere_hits.

Theorem C34_sphere_inside :
  forall (M : Type) (m : option M) (diam : R) (c p : pt), 0 <= diam ->
    oInside (sphere m diam c) p = Val true <-> norm2 (minus3 p c) < (diam / 2)².
Proof. exact @sphere_inside. Qed.
Print Assumptions C34_sphere_inside.

Theorem C34_cylinder_hits :
  forall (M : Type) (m : option M) (diam height : R) (c s d : pt), 0 <= diam -> vx d <> 0 \/ vz d <> 0 ->
    let h := quadricIntersect (cylinderData m diam height c) (Ray s d) in
    let on p := (vx p - vx c)² + (vz p - vz c)² = (diam / 2)² /\ Rabs (vy p - vy c) < height / 2 + tiny in
    (0 < hT h /\ on (along s d (hT h)) /\ hMat h = m /\
       hNormal h = Vec (vx (along s d (hT h)) - vx c) 0 (vz (along s d (hT h)) - vz c) /\
       forall t, 0 < t < hT h -> ~ on (along s d t)) \/
    (h = noHit /\ forall t, 0 < t -> ~ on (along s d t)).
Proof. exact @cylinder_exact. Qed.
Print Assumptions C34_cylinder_hits.

(** rays along which the quadratic term vanishes miss, whatever the surface *)
Theorem C34_degenerate_rays_miss :
  forall (M : Type) (o a : pt) (b : R) (lo hi : pt) (m : option M) (s d : pt),
    vx a * (vx d)² + vy a * (vy d)² + vz a * (vz d)² = 0 ->
    quadricIntersect (Quadric (xv o) (xv a) (XF b) (xbox lo hi) m) (xray s d) = noHit.
Proof. exact @quadric_degenerate. Qed.
Print Assumptions C34_degenerate_rays_miss.

(** starting inside a ball of diameter 2, the far side is hit *)
Example C34_example :
  neqb (hT (quadricIntersect (sphereData (None : option unit) (nofZ 2) vO) (Ray vO (Vec (nofZ 0) (nofZ 0) (nofZ 2))) : hit b64 unit)) (nQ 1 2) = true.
Proof. vm_compute. reflexivity. Qed.

(** ** C35 *)
Theorem C35_box_hits :
  forall (M : Type) (m : option M) (lo hi s d : pt), ordered lo hi -> off_planes lo hi s -> d <> zero3 ->
    ((exists t, 0 < t /\ in_closed_box lo hi (along s d t)) ->
      exists t n, boxIntersect (xbox lo hi) m (xray s d) = Val (Hit (XF t) (xv n) (xv (minus3 (along s d t) lo)) m) /\
        first_crossing lo hi s d t /\ face_normal lo hi (along s d t) n (1 / 100000000)) /\
    ((forall t, 0 < t -> ~ in_closed_box lo hi (along s d t)) -> boxIntersect (xbox lo hi) m (xray s d) = Val noHit).
Proof. exact (fun M m lo hi s d Ho Hp Hd => boxIntersect_exact lo hi s d Ho Hp Hd m). Qed.
Print Assumptions C35_box_hits.

Example C35_example :
  match boxIntersect (BBox vO (Vec (nofZ 1) (nofZ 1) (nofZ 1))) (None : option unit) (Ray (Vec (nofZ 3) (nQ 1 2) (nQ 1 2)) (Vec (nofZ (-1)) (nofZ 0) (nofZ 0)) : ray b64) with
  | Val h => (neqb (hT h) (nofZ 2) && neqb (vx (hNormal h)) (nofZ 1) && neqb (vy (hNormal h)) (nofZ 0))%bool
  | _ => false end = true.
Proof. vm_compute. reflexivity. Qed.

(** ** C36: a box of 2e8 units seen from a distance of 1e8 units stops the program *)
Theorem C36_rendering_a_box_crashes_refuted :
  forall (M : Type) (m : option M), oIntersect (boxWithBounds m farBoxMin farBoxMax) farBoxRay = Panic.
Proof. exact @far_box_panics. Qed.
Print Assumptions C36_rendering_a_box_crashes_refuted.

(** without rounding it never does *)
Theorem C36_exact_arithmetic_does_not_crash :
  forall (M : Type) (m : option M) (lo hi s d : pt), ordered lo hi -> off_planes lo hi s -> d <> zero3 ->
    exists h, oIntersect (boxWithBounds m (xv lo) (xv hi)) (xray s d) = Val (h, xray s d).
Proof. exact @box_never_panics. Qed.
Print Assumptions C36_exact_arithmetic_does_not_crash.

(** ** C37 *)
Theorem C37_triangle_hits :
  forall (M : Type) (v0 v1 v2 s d : pt),
    cross3 (minus3 v1 v0) (minus3 v2 v0) <> zero3 -> dot3 (cross3 (minus3 v1 v0) (minus3 v2 v0)) d <> 0 ->
    forall (n0 n1 n2 : pt) (a0 b0 a1 b1 a2 b2 : R),
      let h : hit R M := faceIntersect (Vertex v0 n0 a0 b0) (Vertex v1 n1 a1 b1) (Vertex v2 n2 a2 b2) (Ray s d) in
      (exists w0 w1 w2, 0 < hT h /\ 0 <= w0 /\ 0 <= w1 /\ 0 <= w2 /\ w0 + w1 + w2 = 1 /\
         along s d (hT h) = weighted w0 w1 w2 v0 v1 v2 /\
         hNormal h = weighted w0 w1 w2 n0 n1 n2 /\
         hLocal h = Vec (w0 * a0 + w1 * a1 + w2 * a2) (w0 * b0 + w1 * b1 + w2 * b2) 0 /\
         forall t, 0 < t -> in_triangle v0 v1 v2 (along s d t) -> t = hT h) \/
      (h = noHit /\ forall t, 0 < t -> ~ in_triangle v0 v1 v2 (along s d t)).
Proof. exact @face_exact. Qed.
Print Assumptions C37_triangle_hits.

Theorem C37_weights_are_unique :
  forall v0 v1 v2 s d : pt,
    cross3 (minus3 v1 v0) (minus3 v2 v0) <> zero3 -> dot3 (cross3 (minus3 v1 v0) (minus3 v2 v0)) d <> 0 ->
    let g := faceCoords v0 v1 v2 (Ray s d) in
    fg1 g + fg2 g + fg3 g = 1 /\ along s d (fgT g) = weighted (fg1 g) (fg2 g) (fg3 g) v0 v1 v2 /\
    forall t w0 w1 w2, w0 + w1 + w2 = 1 -> along s d t = weighted w0 w1 w2 v0 v1 v2 ->
      t = fgT g /\ w0 = fg1 g /\ w1 = fg2 g /\ w2 = fg3 g.
Proof. exact faceCoords_exact. Qed.
Print Assumptions C37_weights_are_unique.

(** straight down on the triangle (0,0) (4,0) (0,4) at (1,2): UV (1/4, 1/2) *)
Example C37_example :
  let h : hit b64 unit := faceIntersect (Vertex vO vO (nofZ 0) (nofZ 0)) (Vertex (Vec (nofZ 4) (nofZ 0) (nofZ 0)) vO (nofZ 1) (nofZ 0))
     (Vertex (Vec (nofZ 0) (nofZ 4) (nofZ 0)) vO (nofZ 0) (nofZ 1)) (Ray (Vec (nofZ 1) (nofZ 2) (nofZ 5)) (Vec (nofZ 0) (nofZ 0) (nofZ (-1)))) in
  (neqb (hT h) (nofZ 5) && neqb (vx (hLocal h)) (nQ 1 4) && neqb (vy (hLocal h)) (nQ 1 2))%bool = true.
Proof. vm_compute. reflexivity. Qed.

(** ** C38 *)
Theorem C38_tree_keeps_every_object :
  forall (M : Type) (to32 : b64 -> b64) (sortSlice : (object b64 M -> object b64 M -> bool) -> list (object b64 M) -> list (object b64 M)),
    reorders sortSlice ->
    forall os : list (object b64 M), os <> nil ->
      (forall o, In o os -> exists b, oBounds o = Val b /\ vnan (bMin b) = false /\ vnan (bMax b) = false) ->
      exists n, tree to32 sortSlice os = Val (treeOf n) /\ Permutation (members n) os /\
        (forall bb l, In (Leaf bb l) (nodes n) -> l <> nil /\ (length l <= 7)%nat) /\
        (depth n = 0 \/ 7 * 2 ^ (depth n - 1) < length os)%nat.
Proof. exact (fun M to32 ss => tree_builds to32 ss). Qed.
Print Assumptions C38_tree_keeps_every_object.

Theorem C38_the_empty_tree_panics :
  forall (F : Type) (NF : Num F) (M : Type) (to32 : F -> F)
    (sortSlice : (object F M -> object F M -> bool) -> list (object F M) -> list (object F M)),
    tree to32 sortSlice nil = Panic.
Proof. exact @tree_empty. Qed.
Print Assumptions C38_the_empty_tree_panics.

(** eight balls make two leaves of four *)
Example C38_example :
  match buildTree to32b (fun _ l => l) 9 (map (fun i => sphere None (nofZ 1) (Vec (nofZ i) (nofZ 0) (nofZ 0)) : object b64 unit) [0;1;2;3;4;5;6;7]%Z) with
  | Val n => depth n = 1%nat /\ length (members n) = 8%nat
  | _ => False end.
Proof. vm_compute. auto. Qed.

(** ** C39 *)
Theorem C39_tree_is_brute_force :
  forall (M : Type) (n : node b64 M) (r : ray b64) (hits : list (hit b64 M)),
    hits_of (members n) r hits ->
    (forall h, In h hits -> positive h -> nltb (hT h) (nofZ (9 * 10 ^ 99)) = true) ->
    boxes_ok n r ->
    exists h, oIntersect (treeOf n) r = Val (h, r) /\
      (nearest_hit hits h \/
       (no_hit hits /\ (h = noHit \/ (h = farHit /\ nleb (bbIntersect (nodeBox n) r) (nofZ 0) = false /\ exists bb l, n = Leaf bb l)))).
Proof. exact (fun M n => treeIntersect_spec far_pos_b n). Qed.
Print Assumptions C39_tree_is_brute_force.

(** from the list of objects, in exact arithmetic: members whose hits lie in their boxes *)
Theorem C39_tree_is_exact :
  forall (M : Type) (sortSlice : (object xr M -> object xr M -> bool) -> list (object xr M) -> list (object xr M)),
    reorders sortSlice ->
    forall (s d : pt) (os : list (object xr M)) (o' : object xr M) (hits : list (hit xr M)),
      os <> nil -> d <> zero3 ->
      (forall o, In o os -> well_boxed s d o) ->
      tree (fun x => x) sortSlice os = Val o' -> hits_of os (xray s d) hits ->
      (forall h, In h hits -> positive h -> nltb (hT h) (XF (IZR (9 * 10 ^ 99))) = true) ->
      exists h, oIntersect o' (xray s d) = Val (h, xray s d) /\
        ((In h hits /\ positive h /\ forall h', In h' hits -> positive h' -> nleb (hT h) (hT h') = true) \/
         (no_hit hits /\ (h = noHit \/ (h = farHit /\ (length os <= 7)%nat)))).
Proof. exact @tree_exact. Qed.
Print Assumptions C39_tree_is_exact.

(** eight balls on a line, seen from the side of the last one *)
Example C39_example :
  match tree to32b (fun _ l => l) (map (fun i => sphere None (nofZ 1) (Vec (nofZ i) (nofZ 0) (nofZ 0)) : object b64 unit) [0;1;2;3;4;5;6;7]%Z) with
  | Val o => match oIntersect o (Ray (Vec (nofZ 20) (nofZ 0) (nofZ 0)) (Vec (nofZ (-1)) (nofZ 0) (nofZ 0))) with
             | Val (h, _) => neqb (hT h) (nQ 25 2) | _ => false end
  | _ => false end = true.
Proof. vm_compute. reflexivity. Qed.

(** ** C40: a missed tree with a single leaf reports a surface at distance 9e99 *)
Theorem C40_missed_leaf_reports_a_hit_refuted :
  forall (M : Type) (bb : bbox b64) (l : list (object b64 M)) (r : ray b64) (hits : list (hit b64 M)),
    hits_of l r hits -> no_hit hits -> nleb (bbIntersect bb r) (nofZ 0) = false ->
    exists h, oIntersect (treeOf (Leaf bb l)) r = Val (h, r) /\ positive h.
Proof. exact (fun M => leaf_phantom_hit far_pos_b). Qed.
Print Assumptions C40_missed_leaf_reports_a_hit_refuted.

Theorem C40_ball_witness_refuted :
  forall (M : Type) (m : option M) (sortSlice : (object b64 M -> object b64 M -> bool) -> list (object b64 M) -> list (object b64 M)),
    oIntersect (ball m) cornerRay = Val (noHit, cornerRay) /\
    exists o, tree to32b sortSlice [ball m] = Val o /\ oIntersect o cornerRay = Val (farHit, cornerRay).
Proof. exact (fun M m ss => conj (ball_missed m) (ball_tree_phantom m ss)). Qed.
Print Assumptions C40_ball_witness_refuted.

(** with more than one leaf a miss is a miss *)
Theorem C40_missed_inner_tree_reports_a_miss :
  forall (M : Type) (bb : bbox b64) (n0 n1 : node b64 M) (r : ray b64) (hits : list (hit b64 M)),
    hits_of (members (Inner bb n0 n1)) r hits -> no_hit hits ->
    oIntersect (treeOf (Inner bb n0 n1)) r = Val (noHit, r).
Proof. exact (fun M => inner_miss far_pos_b). Qed.
Print Assumptions C40_missed_inner_tree_reports_a_miss.

(** ** C41: the tree around [0.1,1] x [0,1] x [0,1] misses a ray that hits the box *)
Theorem C41_tree_bounds_do_not_enclose_refuted :
  forall (M : Type) (m : option M) (sortSlice : (object b64 M -> object b64 M -> bool) -> list (object b64 M) -> list (object b64 M)),
    (exists h, oIntersect (thinBox m) thinRay = Val (h, thinRay) /\ nltb (nofZ 0) (hT h) = true) /\
    exists o bb, tree to32b sortSlice [thinBox m] = Val o /\ oBounds o = Val bb /\
      ~ box_within (BBox thinMin thinMax) bb /\ oIntersect o thinRay = Val (noHit, thinRay).
Proof. exact (fun M m ss => conj (thin_hit m) (thin_tree m ss)). Qed.
Print Assumptions C41_tree_bounds_do_not_enclose_refuted.

(** bounds that are exact in single precision are enclosed *)
Theorem C41_bounds_enclose_when_exact_in_single_precision :
  forall (M : Type) (to32 : b64 -> b64) (sortSlice : (object b64 M -> object b64 M -> bool) -> list (object b64 M) -> list (object b64 M)),
    reorders sortSlice ->
    forall (os : list (object b64 M)) (n : node b64 M), os <> nil ->
      buildTree to32 sortSlice (S (length os)) os = Val n ->
      (forall o b, In o os -> oBounds o = Val b ->
         to32 (vx (bMin b)) = vx (bMin b) /\ to32 (vy (bMin b)) = vy (bMin b) /\ to32 (vz (bMin b)) = vz (bMin b) /\
         to32 (vx (bMax b)) = vx (bMax b) /\ to32 (vy (bMax b)) = vy (bMax b) /\ to32 (vz (bMax b)) = vz (bMax b)) ->
      forall m, In m (nodes n) -> forall o b, In o (members m) -> oBounds o = Val b -> box_within b (nodeBox m).
Proof. exact (fun M to32 ss => tree_boxes to32 ss). Qed.
Print Assumptions C41_bounds_enclose_when_exact_in_single_precision.

(** ** C42 *)
Theorem C42_parametric_surfaces_have_no_gaps :
  forall (F : Type) (NF : Num F) (nu nv : Z) (f : F -> F -> vec F), (2 <= nu)%Z -> (2 <= nv)%Z ->
    let at_ i j := (i * nv + j)%Z in
    let nthZ := fun {A} (l : list A) i => nth_error l (Z.to_nat i) in
    exists vs fs,
      pmBuild nu nv f = Val (vs, map Some fs) /\
      Z.of_nat (length vs) = (nu * nv)%Z /\ Z.of_nat (length fs) = (2 * (nu - 1) * (nv - 1))%Z /\
      (forall i j, (0 <= i < nu)%Z -> (0 <= j < nv)%Z ->
         let u := ndiv (nofZ i) (nofZ (nu - 1)) in let v := ndiv (nofZ j) (nofZ (nv - 1)) in
         nthZ vs (at_ i j) = Some (Vertex (f u v) vO u v)) /\
      (forall i j, (0 <= i < nu - 1)%Z -> (0 <= j < nv - 1)%Z ->
         nthZ fs (2 * (i * (nv - 1) + j))%Z = Some (at_ i j, at_ (i + 1)%Z j, at_ (i + 1)%Z (j + 1)%Z) /\
         nthZ fs (2 * (i * (nv - 1) + j) + 1)%Z = Some (at_ i j, at_ (i + 1)%Z (j + 1)%Z, at_ i (j + 1)%Z)).
Proof. exact @pmBuild_ok. Qed.
Print Assumptions C42_parametric_surfaces_have_no_gaps.

Theorem C42_parametric_is_that_mesh :
  forall (F : Type) (NF : Num F) (nu nv : Z) (f : F -> F -> vec F), (2 <= nu)%Z -> (2 <= nv)%Z ->
    forall (M : Type) (NI : NumInf F) (to32 : F -> F) (sortSlice : (object F M -> object F M -> bool) -> list (object F M) -> list (object F M)) (m : option M),
    exists vs fs, parametric to32 sortSlice nu nv f m = mesh to32 sortSlice m fs vs /\ pmBuild nu nv f = Val (vs, map Some fs).
Proof. exact @parametric_mesh. Qed.
Print Assumptions C42_parametric_is_that_mesh.

(** 3 x 2 grid: four triangles *)
Example C42_example : match pmBuild 3 2 (fun u v : R => Vec u v 0) with
  | Val (_, fs) => fs = [Some (0, 2, 3); Some (0, 3, 1); Some (2, 4, 5); Some (2, 5, 3)]%Z
  | _ => False end.
Proof. reflexivity. Qed.

(** ** C43 *)
Theorem C43_bisection_brackets_the_surface :
  forall (g : R -> outcome R) (v : R -> R), (forall t, g t = Val (v t)) ->
    forall (fuel : nat) (a b : R), a <= b -> 0 < v a -> v b <= 0 -> b - a <= 1 / 1048576 * 2 ^ fuel ->
      exists t t', bisect (S fuel) g a b = Val t /\ a <= t' <= t /\ t <= b /\ t - t' <= 1 / 1048576 /\ 0 < v t' /\ v t <= 0.
Proof. exact bisect_R. Qed.
Print Assumptions C43_bisection_brackets_the_surface.

Theorem C43_same_sign_is_a_miss :
  forall (g : R -> outcome R) (v : R -> R), (forall t, g t = Val (v t)) ->
    forall (fuel : nat) (a b : R), 0 < v a * v b -> bisect fuel g a b = Val 0.
Proof. exact bisect_same_sign. Qed.
Print Assumptions C43_same_sign_is_a_miss.

(** coming from below, the near end itself is returned, not a point of the surface *)
Theorem C43_from_below_the_near_end_is_returned :
  forall (g : R -> outcome R) (v : R -> R), (forall t, g t = Val (v t)) ->
    forall (fuel : nat) (a b : R), a <= b -> v a <= 0 -> 0 <= v b -> bisect (S fuel) g a b = Val a.
Proof. exact bisect_below. Qed.
Print Assumptions C43_from_below_the_near_end_is_returned.

(** double precision: ends within 2^30 of the origin *)
Theorem C43_bisection_in_double_precision :
  forall (g : b64 -> outcome b64) (v : b64 -> b64),
    (forall t : b64, BinarySingleNaN.is_finite t = true -> g t = Val (v t)) ->
    forall a b : b64, BinarySingleNaN.is_finite a = true -> BinarySingleNaN.is_finite b = true ->
      Rabs (BinarySingleNaN.B2R a) <= 1073741824 -> Rabs (BinarySingleNaN.B2R b) <= 1073741824 ->
      BinarySingleNaN.B2R a <= BinarySingleNaN.B2R b ->
      BinarySingleNaN.is_finite (v a) = true -> BinarySingleNaN.is_finite (v b) = true ->
      nltb (nofZ 0) (v a) = true -> nltb (nofZ 0) (v b) <> true ->
      exists t t' : b64, bisect 131 g a b = Val t /\ BinarySingleNaN.is_finite t = true /\ BinarySingleNaN.is_finite t' = true /\
        BinarySingleNaN.B2R a <= BinarySingleNaN.B2R t' <= BinarySingleNaN.B2R t /\ BinarySingleNaN.B2R t <= BinarySingleNaN.B2R b /\
        BinarySingleNaN.B2R t - BinarySingleNaN.B2R t' <= 1 / 1048576 + Core.Raux.bpow Core.Zaux.radix2 (-72) /\
        nltb (nofZ 0) (v t') = true /\ nltb (nofZ 0) (v t) <> true.
Proof. exact bisect_in_double_precision. Qed.
Print Assumptions C43_bisection_in_double_precision.

(** a ray from 2^40 above a flat unit height field never returns, whatever the number of steps *)
Theorem C43_far_rays_never_end_refuted :
  forall (M : Type) (m : option M) (fuel : nat),
    oIntersect (isoSurface m (nofZ 1) (nofZ 1) (nofZ 1) flat fuel) highRay = NoFuel.
Proof. exact @iso_never_ends. Qed.
Print Assumptions C43_far_rays_never_end_refuted.

(** from 5 above the same height field the surface at height 1/2 is found *)
Example C43_example :
  match oIntersect (isoSurface (None : option unit) (nofZ 1) (nofZ 1) (nofZ 1) flat 131) (Ray (Vec (nQ 1 2) (nofZ 5) (nQ 1 2)) (Vec (nofZ 0) (nofZ (-1)) (nofZ 0))) with
  | Val (h, _) => (nltb (nQ 449999 100000) (hT h) && nltb (hT h) (nQ 450001 100000))%bool
  | _ => false end = true.
Proof. vm_compute. reflexivity. Qed.
