(** * Solids cut out of balls and blocks, as sets of points *)
From Coq Require Import Reals List.
From Verif Require Import Num GeomModel GeomSpec ObjModel ObjSpec PrimProofs SolidProofs PlaceSpec PlaceProofs.
Local Open Scope R_scope.

(** balls and blocks of some material, possibly transformed, intersected, united and subtracted in any way *)
Inductive solid (M : Type) : Type :=
| Ball (m : option M) (diam : R) (c : pt)
| Block (m : option M) (lo hi : pt)
| Moved (t : affine R) (a : solid M)
| Meet (a b : solid M)
| Join (a b : solid M)
| Minus (a b : solid M).
Arguments Ball {M}. Arguments Block {M}. Arguments Moved {M}. Arguments Meet {M}. Arguments Join {M}. Arguments Minus {M}.

Section Solids.
  Context {M : Type}.

  Definition simple (a : solid M) : Prop := match a with Ball _ _ _ | Block _ _ _ => True | _ => False end.
  (** only balls and blocks are transformed, by invertible maps *)
  Fixpoint proper (a : solid M) : Prop :=
    match a with
    | Ball _ diam _ => 0 <= diam
    | Block _ lo hi => ordered lo hi
    | Moved t a => det3 (afA t) <> 0 /\ simple a /\ proper a
    | Meet a b | Join a b | Minus a b => proper a /\ proper b
    end.
  (** a transformed part counts twice, for its box *)
  Fixpoint parts (a : solid M) : nat :=
    match a with Ball _ _ _ | Block _ _ _ => 1 | Moved _ _ => 2 | Meet a b | Join a b | Minus a b => parts a + parts b end.

  (** the points of the solid *)
  Fixpoint within (a : solid M) (p : pt) : Prop :=
    match a with
    | Ball _ diam c => dist2 p c < (diam / 2)²
    | Block _ lo hi => in_open_box lo hi p
    | Moved t a => exists q, p = transformPoint t q /\ within a q
    | Meet a b => within a p /\ within b p
    | Join a b => within a p \/ within b p
    | Minus a b => within a p /\ ~ within b p
    end.
  (** the box of a ball or block, and the box of its image *)
  Definition extent (a : solid M) : pt * pt :=
    match a with
    | Ball _ diam c => let e := diam / 2 + tiny in (minus3 c (Vec e e e), plus3 c (Vec e e e))
    | Block _ lo hi => (lo, hi)
    | _ => (zero3, zero3)
    end.
  Definition hullLo (t : affine R) (a : solid M) : pt :=
    let (lo, hi) := extent a in minus3 (transformPoint t (mid lo hi)) (spread (afA t) (half lo hi)).
  Definition hullHi (t : affine R) (a : solid M) : pt :=
    let (lo, hi) := extent a in plus3 (transformPoint t (mid lo hi)) (spread (afA t) (half lo hi)).
  (** the points of the surfaces of its parts, and of the boxes of transformed parts *)
  Fixpoint skin (a : solid M) (p : pt) : Prop :=
    match a with
    | Ball _ diam c => dist2 p c = (diam / 2)²
    | Block _ lo hi => on_box_surface lo hi p
    | Moved t a => (exists q, p = transformPoint t q /\ skin a q) \/ on_box_surface (hullLo t a) (hullHi t a) p
    | Meet a b | Join a b | Minus a b => skin a p \/ skin b p
    end.
  (** the points of its own surface, and what they are made of *)
  Fixpoint face (a : solid M) (p : pt) (m : option M) : Prop :=
    match a with
    | Ball m' diam c => dist2 p c = (diam / 2)² /\ m = m'
    | Block m' lo hi => on_box_surface lo hi p /\ m = m'
    | Moved t a => exists q, p = transformPoint t q /\ face a q m
    | Meet a b => face a p m /\ within b p \/ face b p m /\ within a p
    | Join a b => face a p m /\ ~ within b p \/ face b p m /\ ~ within a p
    | Minus a b => face a p m /\ ~ within b p \/ face b p m /\ within a p
    end.
  (** nowhere on the half line do the surfaces of two parts meet *)
  Fixpoint apart (a : solid M) (s d : pt) : Prop :=
    match a with
    | Ball _ _ _ | Block _ _ _ | Moved _ _ => True
    | Meet a b | Join a b | Minus a b =>
      apart a s d /\ apart b s d /\ forall t, 0 <= t -> ~ (skin a (along s d t) /\ skin b (along s d t))
    end.
  (** directions with no zero component, in the coordinates of every part *)
  Fixpoint fair (a : solid M) (d : pt) : Prop :=
    match a with
    | Ball _ _ _ | Block _ _ _ => slanted d
    | Moved t a => slanted d /\ forall d', d = transformDir t d' -> slanted d'
    | Meet a b | Join a b | Minus a b => fair a d /\ fair b d
    end.
End Solids.
