(** * Vocabulary for the properties of objects *)
From Coq Require Import ZArith Reals Bool List Permutation.
From Verif Require Import Num Outcome GeomModel GeomSpec ObjModel TreeModel.
Import ListNotations.

(** ** Object expressions of any nesting *)
Section Built.
  Context {F : Type} `{NF : Num F} `{NI : NumInf F} {M : Type}.
  Variable to32 : F -> F.
  Variable sortSlice : (object F M -> object F M -> bool) -> list (object F M) -> list (object F M).

  (** everything the constructors of package objects can produce *)
  Inductive built : object F M -> Prop :=
  | B_backdrop m : built (backdrop m)
  | B_quadric q : built (quadric q)
  | B_box m mn mx : built (boxWithBounds m mn mx)
  | B_face a b c : built (face a b c)
  | B_iso m dx dy dz f fuel : built (isoSurface m dx dy dz f fuel)
  | B_and a b : built a -> built b -> built (cAnd a b)
  | B_or a b : built a -> built b -> built (cOr a b)
  | B_restrict a b : built a -> built b -> built (cRestrict a b)
  | B_not a : built a -> built (cNot a)
  | B_hollow a : built a -> built (cHollow a)
  | B_bounded a o : built a -> bounded a = Val o -> built o
  | B_remap a f : built a -> built (remap a f)
  | B_material m a : built a -> built (withMaterial m a)
  | B_transformed a t o : built a -> transformed a t = Val o -> built o
  | B_tree os o : (forall a, In a os -> built a) -> tree to32 sortSlice os = Val o -> built o
  | B_mesh m fs vs o : mesh to32 sortSlice m fs vs = Val o -> built o
  | B_parametric m nu nv f o : parametric to32 sortSlice nu nv f m = Val o -> built o.

  Definition reorders : Prop := forall less l, Permutation (sortSlice less l) l.
End Built.

(** ** Solids as point sets *)
Section Solids.
  Context {F : Type} `{NF : Num F} `{NI : NumInf F} {M : Type}.

  (** Boolean expressions over solids and their meaning as a set of points *)
  Inductive solid : Type :=
  | SPrim (o : object F M)
  | SAnd (a b : solid) | SOr (a b : solid) | SNot (a : solid)
  | SMinus (a b : solid) | SRestrict (a b : solid) | SHollow (a : solid).

  Fixpoint objectOf (s : solid) : object F M :=
    match s with
    | SPrim o => o
    | SAnd a b => cAnd (objectOf a) (objectOf b)
    | SOr a b => cOr (objectOf a) (objectOf b)
    | SNot a => cNot (objectOf a)
    | SMinus a b => cDifference (objectOf a) (objectOf b)
    | SRestrict a b => cRestrict (objectOf a) (objectOf b)
    | SHollow a => cHollow (objectOf a)
    end.

  Fixpoint pointset (s : solid) (p : vec F) : Prop :=
    match s with
    | SPrim o => oInside o p = Val true
    | SAnd a b => pointset a p /\ pointset b p
    | SOr a b => pointset a p \/ pointset b p
    | SNot a => ~ pointset a p
    | SMinus a b => pointset a p /\ ~ pointset b p
    | SRestrict a b => pointset a p /\ pointset b p
    | SHollow a => False
    end.

  (** every primitive answers the question for this point *)
  Fixpoint answers (s : solid) (p : vec F) : Prop :=
    match s with
    | SPrim o => exists b, oInside o p = Val b
    | SAnd a b | SOr a b | SMinus a b | SRestrict a b => answers a p /\ answers b p
    | SNot a | SHollow a => answers a p
    end.
End Solids.
Arguments solid F M : clear implicits.

(** ** Trees and hulls *)
Section TreeSpec.
  Context {F : Type} `{NF : Num F} {M : Type}.

  (** the objects stored in a tree *)
  Fixpoint members (n : node F M) : list (object F M) :=
    match n with Leaf _ l => l | Inner _ a b => members a ++ members b end.

  (** some coordinate is NaN *)
  Definition vnan (v : vec F) : bool := (nisnan (vx v) || nisnan (vy v) || nisnan (vz v))%bool.

  (** the box contains every point, and every face of it is touched by a point *)
  Definition hull_box_ok (hull : list (vec F)) (b : bbox F) : Prop :=
    (forall p, In p hull ->
       nleb (vx (bMin b)) (vx p) = true /\ nleb (vx p) (vx (bMax b)) = true /\
       nleb (vy (bMin b)) (vy p) = true /\ nleb (vy p) (vy (bMax b)) = true /\
       nleb (vz (bMin b)) (vz p) = true /\ nleb (vz p) (vz (bMax b)) = true) /\
    (exists p, In p hull /\ vx p = vx (bMin b)) /\ (exists p, In p hull /\ vx p = vx (bMax b)) /\
    (exists p, In p hull /\ vy p = vy (bMin b)) /\ (exists p, In p hull /\ vy p = vy (bMax b)) /\
    (exists p, In p hull /\ vz p = vz (bMin b)) /\ (exists p, In p hull /\ vz p = vz (bMax b)).

  (** a node and everything below it *)
  Fixpoint nodes (n : node F M) : list (node F M) :=
    n :: match n with Leaf _ _ => nil | Inner _ a b => nodes a ++ nodes b end.
  (** number of levels below the root *)
  Fixpoint depth (n : node F M) : nat :=
    match n with Leaf _ _ => 0 | Inner _ a b => S (Nat.max (depth a) (depth b)) end.

  (** [b] lies within [c] *)
  Definition box_within (b c : bbox F) : Prop :=
    nleb (vx (bMin c)) (vx (bMin b)) = true /\ nleb (vy (bMin c)) (vy (bMin b)) = true /\ nleb (vz (bMin c)) (vz (bMin b)) = true /\
    nleb (vx (bMax b)) (vx (bMax c)) = true /\ nleb (vy (bMax b)) (vy (bMax c)) = true /\ nleb (vz (bMax b)) (vz (bMax c)) = true.

  Definition positive (h : hit F M) : Prop := nltb (nofZ 0) (hT h) = true.
  (** [h] is the frontmost of the hits at positive distance, the first one among equals *)
  Definition nearest_hit (hits : list (hit F M)) (h : hit F M) : Prop :=
    exists before after, hits = before ++ h :: after /\ positive h /\
      (forall h', In h' before -> positive h' -> nltb (hT h) (hT h') = true) /\
      (forall h', In h' after -> positive h' -> nleb (hT h) (hT h') = true).
  Definition no_hit (hits : list (hit F M)) : Prop := forall h, In h hits -> ~ positive h.

  (** asking the objects one by one gives [hits] *)
  Definition hits_of (os : list (object F M)) (r : ray F) (hits : list (hit F M)) : Prop :=
    Forall2 (fun o h => oIntersect o r = Val (h, r)) os hits.
  (** no node of the tree is pruned although one of its members is hit *)
  Definition boxes_ok (n : node F M) (r : ray F) : Prop :=
    forall m, In m (nodes n) -> forall o h r', In o (members m) -> oIntersect o r = Val (h, r') -> positive h ->
      nltb (nofZ 0) (bbIntersect (nodeBox m) r) = true.
End TreeSpec.


(** ** Exact geometry *)
Local Open Scope R_scope.

(** point of a half line *)
Definition along (s d : pt) (t : R) : pt := plus3 s (scal3 t d).

Definition in_closed_box (lo hi p : pt) : Prop :=
  (vx lo <= vx p <= vx hi) /\ (vy lo <= vy p <= vy hi) /\ (vz lo <= vz p <= vz hi).
Definition in_open_box (lo hi p : pt) : Prop :=
  (vx lo < vx p < vx hi) /\ (vy lo < vy p < vy hi) /\ (vz lo < vz p < vz hi).
(** on the surface of the box *)
Definition on_box_surface (lo hi p : pt) : Prop := in_closed_box lo hi p /\ ~ in_open_box lo hi p.
Definition ordered (lo hi : pt) : Prop := vx lo <= vx hi /\ vy lo <= vy hi /\ vz lo <= vz hi.
(** on none of the six planes that carry the faces *)
Definition off_planes (lo hi p : pt) : Prop :=
  vx p <> vx lo /\ vx p <> vx hi /\ vy p <> vy lo /\ vy p <> vy hi /\ vz p <> vz lo /\ vz p <> vz hi.

(** finite numbers inside the extended reals *)
Definition xv (p : pt) : vec xr := Vec (XF (vx p)) (XF (vy p)) (XF (vz p)).
Definition xbox (lo hi : pt) : bbox xr := BBox (xv lo) (xv hi).
Definition xray (s d : pt) : ray xr := Ray (xv s) (xv d).
Definition xmat (m : matrix R) : matrix xr := Matrix (xv (m0 m)) (xv (m1 m)) (xv (m2 m)).
Definition xaff (t : affine R) : affine xr := Affine (xmat (afA t)) (xv (afB t)).

(** a hit at a positive distance is a finite point of the object's box *)
Definition respects_along {M} (s d : pt) (o : object xr M) (lo hi : pt) : Prop :=
  forall h r', oIntersect o (xray s d) = Val (h, r') ->
    xltb (XF 0) (hT h) = true -> exists t, hT h = XF t /\ in_closed_box lo hi (along s d t).
Definition respects_bounds {M} (o : object xr M) (lo hi : pt) : Prop :=
  forall s d, respects_along s d o lo hi.
(** finite box, this ray hits only inside it and does not start on a plane of one of its faces *)
Definition well_boxed {M} (s d : pt) (o : object xr M) : Prop :=
  exists lo hi, oBounds o = Val (xbox lo hi) /\ ordered lo hi /\ respects_along s d o lo hi /\ off_planes lo hi s.

(** the half line immediately enters the interior *)
Definition enters (lo hi s d : pt) : Prop :=
  exists t1, 0 < t1 /\ forall t, 0 < t < t1 -> in_open_box lo hi (along s d t).
(** [t] is the first crossing of the surface: from outside the entry, from inside the exit *)
Definition first_crossing (lo hi s d : pt) (t : R) : Prop :=
  0 < t /\ on_box_surface lo hi (along s d t) /\
  ((in_closed_box lo hi s /\ (forall t', 0 <= t' <= t -> in_closed_box lo hi (along s d t')) /\
      forall t', t < t' -> ~ in_closed_box lo hi (along s d t')) \/
   (~ in_closed_box lo hi s /\ forall t', 0 <= t' < t -> ~ in_closed_box lo hi (along s d t'))).
(** [n] is the outward unit normal of a face whose plane is within [eps] of [p] *)
Definition face_normal (lo hi p n : pt) (eps : R) : Prop :=
  (n = Vec (-1) 0 0 /\ Rabs (vx p - vx lo) < eps) \/ (n = Vec 1 0 0 /\ Rabs (vx p - vx hi) < eps) \/
  (n = Vec 0 (-1) 0 /\ Rabs (vy p - vy lo) < eps) \/ (n = Vec 0 1 0 /\ Rabs (vy p - vy hi) < eps) \/
  (n = Vec 0 0 (-1) /\ Rabs (vz p - vz lo) < eps) \/ (n = Vec 0 0 1 /\ Rabs (vz p - vz hi) < eps).

(** ** Constructive solid geometry along a line *)
Section Csg.
  Context {M : Type}.

  (** looking along the line from some point at or after the start, [a] reports the surface
      point at parameter [hT h] with the normal, local coordinates and material of [h] *)
  Definition surface_hit (a : object R M) (s d : pt) (h : hit R M) : Prop :=
    exists t0 h0, 0 <= t0 /\
      oIntersect a (Ray (along s d t0) d) = Val (h0, Ray (along s d t0) d) /\
      0 < hT h0 /\ hT h = t0 + hT h0 /\
      hNormal h = hNormal h0 /\ hLocal h = hLocal h0 /\ hMat h = hMat h0.

  (** [a]'s surface crosses the half line exactly at the parameters in [cs]: from its start and from any
      point of it off the surface, the next crossing ahead is reported *)
  Definition crossings (a : object R M) (s d : pt) (cs : list R) : Prop :=
    forall t0, 0 <= t0 -> t0 = 0 \/ ~ In t0 cs -> exists h,
      oIntersect a (Ray (along s d t0) d) = Val (h, Ray (along s d t0) d) /\
      ((exists c, In c cs /\ t0 < c /\ (forall c', In c' cs -> t0 < c' -> c <= c') /\ hT h = c - t0) \/
       ((forall c, In c cs -> c <= t0) /\ hT h <= 0)).
  Definition separated (cs : list R) : Prop :=
    forall c c', In c cs -> In c' cs -> c < c' -> c + tiny < c'.
End Csg.

(** ** Quadrics and triangles *)
(** the quadratic form of a quadric at a point; the surface is where it equals [b] *)
Definition quadratic (a o p : pt) : R :=
  vx a * (vx p - vx o)² + vy a * (vy p - vy o)² + vz a * (vz p - vz o)².
(** [p] is the point of the triangle with the given (barycentric) weights *)
Definition weighted (w0 w1 w2 : R) (v0 v1 v2 : pt) : pt :=
  plus3 (plus3 (scal3 w0 v0) (scal3 w1 v1)) (scal3 w2 v2).
Definition in_triangle (v0 v1 v2 p : pt) : Prop :=
  exists w0 w1 w2, 0 <= w0 /\ 0 <= w1 /\ 0 <= w2 /\ w0 + w1 + w2 = 1 /\ p = weighted w0 w1 w2 v0 v1 v2.
