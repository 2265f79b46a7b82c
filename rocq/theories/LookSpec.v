(** * What a surface looks like: light leaving a surface, in exact real arithmetic (C82, C83) *)
From Coq Require Import ZArith Reals List.
From Verif Require Import Num Outcome GeomModel GeomSpec ColorModel SeqModel ObjModel TreeModel ObjSpec SceneModel SceneSpec.
Import ListNotations.
Local Open Scope R_scope.

Definition mirrored (v n : pt) : pt := minus3 v (scal3 (2 * dot3 v n) n).
Definition mul_color (a b : color R) : color R := Color (cR a * cR b) (cG a * cG b) (cB a * cB b).
Definition add_color (a b : color R) : color R := Color (cR a + cR b) (cG a + cG b) (cB a + cB b).
Definition no_light : color R := Color 0 0 0.
(** fraction of unpolarised light reflected, for cosines of incidence and transmission *)
Definition reflectance (n1 n2 ci ct : R) : R :=
  (((n1 * ci - n2 * ct) / (n1 * ci + n2 * ct)) ^ 2 + ((n1 * ct - n2 * ci) / (n1 * ct + n2 * ci)) ^ 2) / 2.
(** the side of the surface the ray [d] comes from: [m] is [n] or its opposite *)
Definition facing (d n m : pt) : Prop :=
  (dot3 n d <= 0 /\ m = n) \/ (0 < dot3 n d /\ m = scal3 (-1) n).

Section Look.
  Context {G : Type} {NI : NumInf R}.
  Variable rand2 : G -> (R * R) * G.
  (** the states of the random number generators in which the surface may be shaded *)
  Variable here : ctx R G -> Prop.
  (** the objects that cast shadows, and the lights *)
  Variable objs : list (object R (material R)).
  Variable lights : list (light R).
  (** light that can arrive along a ray (random numbers are left open); [MinusLights]: without what light sources send there directly *)
  Variable L : who -> ray R -> color R -> Prop.

  (** light that one light source sends to a point [p] of a surface with normal [n] *)
  Inductive contribution (p n : pt) (l : light R) : color R -> Prop :=
  | C_dark (c c' : ctx R G) lpos : here c -> lightSample rand2 l p c = Val ((lpos, no_light), c') -> contribution p n l no_light
  | C_behind (c c' : ctx R G) lpos intens : here c -> lightSample rand2 l p c = Val ((lpos, intens), c') ->
      dot3 (unit_of (minus3 lpos p)) n <= 0 -> contribution p n l no_light
  | C_shadow (c c' : ctx R G) lpos intens hits : here c -> lightSample rand2 l p c = Val ((lpos, intens), c') ->
      0 < dot3 (unit_of (minus3 lpos p)) n ->
      hits_of objs (Ray p (unit_of (minus3 lpos p))) hits ->
      (exists h, In h hits /\ between (dist lpos p) h /\ ~ is_transparent h) ->
      contribution p n l no_light
  | C_lit (c c' : ctx R G) lpos intens hits fs : here c -> lightSample rand2 l p c = Val ((lpos, intens), c') ->
      0 < dot3 (unit_of (minus3 lpos p)) n ->
      hits_of objs (Ray p (unit_of (minus3 lpos p))) hits -> filtering (dist lpos p) hits fs ->
      contribution p n l (scaled (dot3 (unit_of (minus3 lpos p)) n) (product3 intens fs)).

  Inductive direct (p n : pt) : list (light R) -> color R -> Prop :=
  | D_nil : direct p n nil no_light
  | D_cons l ls a b : contribution p n l a -> direct p n ls b -> direct p n (l :: ls) (add_color a b).

  (** colour of a surface at distance [t] along a ray from [s] with direction [d], with normal [n] *)
  Inductive looks (s d n : pt) (t : R) (local : pt) : material R -> color R -> Prop :=
  | L_black : looks s d n t local MBlack no_light
  | L_flat tex c : tex local = Val c -> looks s d n t local (MFlat tex) c
  (** the light sources, and the light from one direction drawn by [cosineSphere] (see C09 and C109) *)
  | L_matte tex refl m total (c c' : ctx R G) x y w b : tex local = Val refl -> facing d n m ->
      direct (plus3 (along s d t) (scal3 tinyR m)) m lights total ->
      here c -> generate2 rand2 c = Val ((x, y), c') -> w = cosineSphere x y m ->
      norm2 w = 1 -> 0 <= dot3 w m ->
      L MinusLights (Ray (plus3 (along s d t) (scal3 (2 * tinyR) m)) w) b ->
      looks s d n t local (MMatte tex) (mul_color (add_color total b) refl)
  | L_mirror c b : L All (Ray (along s d (t - tinyR)) (mirrored d n)) b ->
      looks s d n t local (MReflective c) (mul_color b c)
  | L_fresnel k m a b ct : looks s d n t local m a -> snell 1 k (Rabs (dot3 n d)) ct ->
      L All (Ray (along s d (t - tinyR)) (mirrored d n)) b ->
      looks s d n t local (MFresnel k m)
        (add_color (scaled (reflectance 1 k (Rabs (dot3 n d)) ct) b) (scaled (1 - reflectance 1 k (Rabs (dot3 n d)) ct) a))
  (** entering or leaving *)
  | L_refract n1 n2 k1 k2 m w a b :
      (dot3 n d <= 0 /\ m = n /\ k1 = n1 /\ k2 = n2) \/ (0 < dot3 n d /\ m = scal3 (-1) n /\ k1 = n2 /\ k2 = n1) ->
      norm2 w = 1 -> dot3 w m <= 0 -> snell_vec k1 k2 d m w ->
      L All (Ray (along s d (t - tinyR)) (mirrored d n)) a -> L All (Ray (along s d (t + tinyR)) w) b ->
      looks s d n t local (MRefractive n1 n2)
        (add_color (scaled (reflectance k1 k2 (- dot3 d m) (- dot3 w m)) a) (scaled (1 - reflectance k1 k2 (- dot3 d m) (- dot3 w m)) b))
  | L_total n1 n2 k1 k2 m a :
      (dot3 n d <= 0 /\ m = n /\ k1 = n1 /\ k2 = n2) \/ (0 < dot3 n d /\ m = scal3 (-1) n /\ k1 = n2 /\ k2 = n1) ->
      (~ exists w, norm2 w = 1 /\ snell_vec k1 k2 d m w) ->
      L All (Ray (along s d (t - tinyR)) (mirrored d n)) a ->
      looks s d n t local (MRefractive n1 n2) a
  | L_transparent tex f b : tex local = Val f -> L MinusLights (Ray (along s d (t + tinyR)) d) b ->
      looks s d n t local (MTransparent tex) (mul_color b f)
  | L_front m1 m2 a : 0 < dot3 d n -> looks s d n t local m1 a -> looks s d n t local (MTwoSided m1 m2) a
  | L_back m1 m2 a : dot3 d n <= 0 -> looks s d n t local m2 a -> looks s d n t local (MTwoSided m1 m2) a
  | L_blend x y m1 m2 a b : looks s d n t local m1 a -> looks s d n t local m2 b ->
      looks s d n t local (MBlend x m1 y m2) (add_color (scaled x a) (scaled y b))
  | L_blendMap tex k m1 m2 a b : tex local = Val k ->
      (0 < cR k -> looks s d n t local m1 a) -> (cR k <= 0 -> a = no_light) ->
      (cR k < 1 -> looks s d n t local m2 b) -> (1 <= cR k -> b = no_light) ->
      looks s d n t local (MBlendMap tex m1 m2) (add_color (scaled (cR k) a) (scaled (1 - cR k) b)).
End Look.

(** shading with the numbers of [sq] at recursion depth [d] *)
Definition drawing {G} (sq : ctxseq R) (d : Z) (c : ctx R G) : Prop := cSeq c = sq /\ cDepth c = d.

(** light arriving along [q] after at most [k] surfaces, drawing numbers from [sq] (and from the pseudo-random
    generator beyond the second surface). [ninf] is as far as one can see: +Inf in the code, any
    positive number here, as there are no infinite real numbers *)
Fixpoint light_at {G} {NI : NumInf R} (rand2 : G -> (R * R) * G) (s : scene R) (sq : ctxseq R) (k : nat) (w : who) (q : ray R) (col : color R) : Prop :=
  match k with
  | O => col = no_light
  | S k =>
    exists hits, hits_of (whoObjects s w) q hits /\
      (((forall h, In h hits -> 0 < hT h -> ninf < hT h) /\ col = no_light) \/
       exists h m, last_nearest hits h /\ hT h <= ninf /\ hMat h = Some m /\
         looks rand2 (drawing sq (sRecursionDepth s - Z.of_nat k)) (sObjects s) (sLights s) (light_at rand2 s sq k) (rStart q) (rDir q) (unit_of (hNormal h)) (hT h) (hLocal h) m col)
  end.

(** the same with the distance [t] of the first surface *)
Definition surface_light {G} {NI : NumInf R} (rand2 : G -> (R * R) * G) (s : scene R) (sq : ctxseq R) (k : nat) (w : who) (q : ray R) (t : R) (col : color R) : Prop :=
  exists hits, hits_of (whoObjects s w) q hits /\
    (((forall h, In h hits -> 0 < hT h -> ninf < hT h) /\ t = ninf /\ col = no_light) \/
     exists h m, last_nearest hits h /\ hT h <= ninf /\ t = hT h /\ hMat h = Some m /\
       looks rand2 (drawing sq (sRecursionDepth s - Z.of_nat k)) (sObjects s) (sLights s) (light_at rand2 s sq k) (rStart q) (rDir q) (unit_of (hNormal h)) (hT h) (hLocal h) m col).

(** textures have values at [local], optical indices make sense *)
Fixpoint definite (local : pt) (m : material R) : Prop :=
  match m with
  | MBlack | MReflective _ => True
  | MFlat t | MMatte t | MTransparent t => exists c, t local = Val c
  | MFresnel n a => 1 <= n /\ definite local a
  | MRefractive n1 n2 => 0 < n1 /\ 0 < n2
  | MTwoSided a b | MBlend _ a _ b => definite local a /\ definite local b
  | MBlendMap t a b => (exists c, t local = Val c) /\ definite local a /\ definite local b
  end.
(** hits of the objects have a material and, as far as one can see, a normal *)
Definition sound_object {NI : NumInf R} (o : object R (material R)) : Prop :=
  forall q, norm2 (rDir q) = 1 -> exists h, oIntersect o q = Val (h, q) /\
    (0 < hT h -> (hT h <= ninf -> hNormal h <> zero3) /\ exists m, hMat h = Some m /\ definite (hLocal h) m).
(** random numbers are in [0,1] *)
Definition random_ok {G} (rand2 : G -> (R * R) * G) (q : ctxseq R) : Prop :=
  (forall g, 0 <= fst (fst (rand2 g)) <= 1 /\ 0 <= snd (fst (rand2 g)) <= 1) /\
  (exists u v, hseq_generate2 (cs_1 q) = Val (u, v) /\ 0 <= u <= 1 /\ 0 <= v <= 1) /\
  (exists u v, hseq_generate2 (cs_2 q) = Val (u, v) /\ 0 <= u <= 1 /\ 0 <= v <= 1).
