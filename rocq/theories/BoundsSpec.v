(** * Vocabulary for bounding boxes of solids *)
From Coq Require Import ZArith Reals Bool List.
From Verif Require Import Num Outcome GeomModel GeomSpec ObjModel TreeModel ObjSpec.
Import ListNotations.

Section Spec.
  Context {F : Type} `{NF : Num F} {M : Type}.

  (** the point lies in the box, borders included *)
  Definition box_has (b : bbox F) (p : vec F) : Prop :=
    nleb (vx (bMin b)) (vx p) = true /\ nleb (vx p) (vx (bMax b)) = true /\
    nleb (vy (bMin b)) (vy p) = true /\ nleb (vy p) (vy (bMax b)) = true /\
    nleb (vz (bMin b)) (vz p) = true /\ nleb (vz p) (vz (bMax b)) = true.
  Definition number_box (b : bbox F) : Prop := vnan (bMin b) = false /\ vnan (bMax b) = false.

  (** the primitives of an expression *)
  Fixpoint prims (s : solid F M) : list (object F M) :=
    match s with
    | SPrim o => [o]
    | SAnd a b | SOr a b | SMinus a b | SRestrict a b => prims a ++ prims b
    | SNot a | SHollow a => prims a
    end.

  (** the object's box contains every point it calls inside *)
  Definition boxes_inside (o : object F M) : Prop :=
    exists b, oBounds o = Val b /\ number_box b /\
      forall p, vnan p = false -> oInside o p = Val true -> box_has b p.
  Definition keeps_rays (o : object F M) : Prop := forall r h r', oIntersect o r = Val (h, r') -> r' = r.
End Spec.

(** the object's box contains every point where it is hit *)
Definition boxes_hits {M} (o : object xr M) : Prop :=
  exists b, oBounds o = Val b /\
    forall s d h r', oIntersect o (xray s d) = Val (h, r') -> positive h ->
      exists t, hT h = XF t /\ box_has b (xv (along s d t)).
Definition well_bounded {M} (o : object xr M) : Prop := keeps_rays o /\ boxes_inside o /\ boxes_hits o.

(** everything built from quadrics with finite data and boxes by constructive solid geometry and
    the wrappers that keep the shape *)
Inductive assembled {M} : object xr M -> Prop :=
| A_quadric o q c lo hi m : assembled (quadric (Quadric (xv o) (xv q) (XF c) (xbox lo hi) m))
| A_box m lo hi : ordered lo hi -> assembled (boxWithBounds m (xv lo) (xv hi))
| A_and a b : assembled a -> assembled b -> assembled (cAnd a b)
| A_or a b : assembled a -> assembled b -> assembled (cOr a b)
| A_not a : assembled a -> assembled (cNot a)
| A_restrict a b : assembled a -> assembled b -> assembled (cRestrict a b)
| A_hollow a : assembled a -> assembled (cHollow a)
| A_remap a f : assembled a -> assembled (remap a f)
| A_material a m : assembled a -> assembled (withMaterial m a)
| A_bounded a o : assembled a -> bounded a = Val o -> assembled o.

(** ** Wrappers that change how a surface looks *)
Section Wrap.
  Context {F : Type} `{NF : Num F} `{NI : NumInf F} {M : Type}.
  Inductive wrap : Type := WRemap (f : vec F -> vec F) | WMaterial (m : option M).
  (** the first wrapper of the list is the outermost *)
  Fixpoint wrapped (ws : list wrap) (o : object F M) : object F M :=
    match ws with
    | nil => o
    | WRemap f :: ws => remap (wrapped ws o) f
    | WMaterial m :: ws => withMaterial m (wrapped ws o)
    end.
  (** what the outermost wrapper of each kind says *)
  Fixpoint outer_map (ws : list wrap) : option (vec F -> vec F) :=
    match ws with nil => None | WRemap f :: _ => Some f | _ :: ws => outer_map ws end.
  Fixpoint outer_material (ws : list wrap) : option (option M) :=
    match ws with nil => None | WMaterial m :: _ => Some m | _ :: ws => outer_material ws end.
End Wrap.
Arguments wrap F M : clear implicits.
