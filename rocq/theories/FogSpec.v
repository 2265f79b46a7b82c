(** * What fog does to the light along a ray, in exact real arithmetic (C120, C121) *)
From Coq Require Import ZArith Reals List.
From Coquelicot Require Import Coquelicot.
From Verif Require Import Num Outcome GeomModel GeomSpec ColorModel SeqModel ObjModel TreeModel ObjSpec SceneModel SceneSpec LookSpec.
Import ListNotations.
Local Open Scope R_scope.

(** between [a] and [b] the ray is below the ceiling, and nowhere else before [tMax]. Horizontal rays see no
    fog (C55) *)
Definition below (height : R) (q : ray R) (tMax a b : R) : Prop :=
  0 <= a <= b /\ b <= tMax /\
  (vy (rDir q) = 0 -> a = b) /\
  (vy (rDir q) <> 0 -> forall t, a < t < b <-> 0 < t < tMax /\ vy (along (rStart q) (rDir q) t) < height).

(** the fraction of light that gets through a length [len] *)
Definition clear (density len : R) : R := exp (- (density * len)).

(** the first [n] lights; all of them for negative [n] *)
Definition some_lights (n : Z) (ls : list (light R)) : list (light R) := if (n <? 0)%Z then ls else firstn (Z.to_nat n) ls.

Section Fog.
  Context {G : Type} {NI : NumInf R}.
  Variable rand2 : G -> (R * R) * G.
  Variable here : ctx R G -> Prop.
  Variable s : scene R.

  (** light of one light source that arrives at a point [p] in the air *)
  Inductive lit (p : pt) (l : light R) : color R -> Prop :=
  | T_dark (c c' : ctx R G) lpos : here c -> lightSample rand2 l p c = Val ((lpos, no_light), c') -> lit p l no_light
  | T_shadow (c c' : ctx R G) lpos intens hits : here c -> lightSample rand2 l p c = Val ((lpos, intens), c') ->
      hits_of (sObjects s) (Ray p (unit_of (minus3 lpos p))) hits ->
      (exists h, In h hits /\ between (dist lpos p) h /\ ~ is_transparent h) ->
      lit p l no_light
  | T_lit (c c' : ctx R G) lpos intens hits fs : here c -> lightSample rand2 l p c = Val ((lpos, intens), c') ->
      hits_of (sObjects s) (Ray p (unit_of (minus3 lpos p))) hits -> filtering (dist lpos p) hits fs ->
      lit p l (product3 intens fs).
  Inductive lits (p : pt) : list (light R) -> color R -> Prop :=
  | T_nil : lits p nil no_light
  | T_cons l ls a b : lit p l a -> lits p ls b -> lits p (l :: ls) (add_color a b).

  (** light [orig] from a surface at distance [tMax] becomes [col] *)
  Inductive veil (q : ray R) (tMax : R) (orig : color R) : medium R -> color R -> Prop :=
  | V_exp density ambient height a b : below height q tMax a b ->
      veil q tMax orig (MedExpFog density ambient height)
        (add_color (scaled (clear density (b - a)) orig) (scaled (1 - clear density (b - a)) ambient))
  (** lit at one point, a fraction [u] of the way through the fog: [u] of the fog's light comes from before it *)
  | V_fog density height n a b (c c' : ctx R G) u v t total : below height q tMax a b ->
      here c -> generate2 rand2 c = Val ((u, v), c') -> 0 <= u <= 1 -> a <= t <= b ->
      1 - clear density (t - a) = u * (1 - clear density (b - a)) ->
      lits (along (rStart q) (rDir q) (t - tinyR)) (some_lights n (sLights s)) total ->
      veil q tMax orig (MedFog density height n)
        (add_color (scaled (clear density (b - a)) orig) (scaled (1 - clear density (b - a)) total)).
  Inductive veils (q : ray R) (tMax : R) : list (medium R) -> color R -> color R -> Prop :=
  | V_none c : veils q tMax nil c c
  | V_some m ms a b c : veil q tMax a m b -> veils q tMax ms b c -> veils q tMax (m :: ms) a c.
End Fog.

Definition real_medium (m : medium R) : Prop := match m with MedExpFog _ _ _ => True | MedFog density _ _ => 0 < density end.
(** transformed lights carry the inverse of their transformation *)
Fixpoint honest_light (l : light R) : Prop :=
  match l with
  | LTransformed fw iv o _ => (forall x, transformPoint iv (transformPoint fw x) = x) /\ honest_light o
  | _ => True
  end.

(** light scattered towards the viewer between [a] and [b]: [density] of the light [f t] at [t] is scattered, what gets
    through the fog before [t] arrives *)
Definition scattered (density a b : R) (f : R -> R) : R := RInt (fun t => density * clear density (t - a) * f t) a b.
