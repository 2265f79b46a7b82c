(** * Vocabulary for the properties of scenes, materials, media, lights and cameras *)
From Coq Require Import ZArith Reals Bool List Permutation.
From Verif Require Import Num Outcome GeomModel GeomSpec ColorModel SeqModel ObjModel TreeModel ObjSpec SceneModel.
Import ListNotations.

(** ** Frontmost hits *)
Section Front.
  Context {F : Type} `{NF : Num F} {M : Type}.
  (** [h] is the frontmost of the hits at positive distance, the last one among equals *)
  Definition last_nearest (hits : list (hit F M)) (h : hit F M) : Prop :=
    exists before after, hits = before ++ h :: after /\ positive h /\
      (forall h', In h' before -> positive h' -> nleb (hT h) (hT h') = true) /\
      (forall h', In h' after -> positive h' -> nltb (hT h) (hT h') = true).

  (** the hit lies strictly between the start of the ray and [len] *)
  Definition between (len : F) (h : hit F M) : Prop := nltb (nofZ 0) (hT h) = true /\ nltb (hT h) len = true.
End Front.

(** [f] is the filter colour of a transparent hit *)
Definition filters_by {F} (h : hit F (material F)) (f : color F) : Prop :=
  exists t, hMat h = Some (MTransparent t) /\ t (hLocal h) = Val f.
Definition is_transparent {F} (h : hit F (material F)) : Prop := exists t, hMat h = Some (MTransparent t).

(** product of colours, channel by channel *)
Definition product3 (c : color R) (fs : list (color R)) : color R :=
  fold_right (fun f c => Color (cR f * cR c) (cG f * cG c) (cB f * cB c))%R c fs.

(** ** Rays in use *)
Section Rays.
  Context {F G : Type}.
  Definition in_use (c : ctx F G) (i : nat) : Prop := (i < length (cHeap c))%nat /\ ~ In i (cPool c).
  (** no ray is in the pool twice, and only rays that exist *)
  Definition pool_ok (c : ctx F G) : Prop :=
    NoDup (cPool c) /\ forall i, In i (cPool c) -> (i < length (cHeap c))%nat.
  (** the same rays are in use in [c'] as in [c], with the same contents *)
  Definition same_rays (c c' : ctx F G) : Prop :=
    pool_ok c' /\ (forall i, in_use c' i <-> in_use c i) /\
    (forall i, in_use c i -> nth_error (cHeap c') i = nth_error (cHeap c) i).
End Rays.

(** ** An evaluator that checks every (nested) evaluation when it starts *)
Section Watched.
  Context {F G : Type} `{NF : Num F} `{NI : NumInf F} `{TF : Trig F}.
  Variable rand2 : G -> (F * F) * G.

  Definition memb (i : nat) (l : list nat) : bool := existsb (Nat.eqb i) l.
  (** the depth is within the limit, and the rays of all active evaluations are different,
      exist and are not in the pool *)
  Definition entry_ok (s : scene F) (active : list nat) (r : nat) (c : ctx F G) : bool :=
    (cDepth c <=? sRecursionDepth s)%Z && negb (memb r active) &&
    forallb (fun i => (i <? length (cHeap c))%nat && negb (memb i (cPool c))) (r :: active).

  Fixpoint watched (fuel : nat) (s : scene F) (active : list nat) (w : who) (r : nat) : act F G (color F) :=
    match fuel with
    | O => mlift NoFuel
    | S n => fun c =>
      if entry_ok s active r c then
        (d <- getDepth ;;
         if (sRecursionDepth s =? d)%Z then mret black else
         countRay ;;;
         setDepth (d + 1)%Z ;;;
         front <- intersectFrontmost (whoObjects s w) r ;;
         b <- shadeHit rand2 s (watched n s (r :: active)) (hMat front) r
                (HitCoords (hT front) (vnormalized (hNormal front)) (hLocal front)) ;;
         b <- mediaLoop rand2 s (sMedia s) r (hT front) b ;;
         d' <- getDepth ;;
         setDepth (d' - 1)%Z ;;;
         mret b) c
      else NoFuel
    end.
End Watched.

(** ** Hypotheses about scenes *)
Section SceneHyps.
  Context {F : Type} `{NF : Num F} `{NI : NumInf F}.
  Definition all_objects (s : scene F) : list (object F (material F)) :=
    sObjects s ++ sObjectsAndLights s ++ sObjectsMinusLights s.
  (** intersecting leaves the ray as it was (C24) *)
  Definition restoring (s : scene F) : Prop :=
    forall o, In o (all_objects s) -> forall q h q', oIntersect o q = Val (h, q') -> q' = q.
  (** materials that can show up *)
  Definition shown (s : scene F) (m : material F) : Prop :=
    exists o q h q', In o (all_objects s) /\ oIntersect o q = Val (h, q') /\ hMat h = Some m.

  (** all textures of a material have property [P] *)
  Fixpoint textures (P : texture F -> Prop) (m : material F) : Prop :=
    match m with
    | MBlack | MReflective _ | MRefractive _ _ => True
    | MFlat t | MMatte t | MTransparent t => P t
    | MFresnel _ a => textures P a
    | MTwoSided a b | MBlend _ a _ b => textures P a /\ textures P b
    | MBlendMap t a b => P t /\ textures P a /\ textures P b
    end.
  (** no object and no texture runs forever *)
  Definition finishing (s : scene F) : Prop :=
    (forall o, In o (all_objects s) -> forall q, oIntersect o q <> NoFuel) /\
    (forall m, shown s m -> textures (fun t => forall p, t p <> NoFuel) m).
  Definition seq_finishing (q : ctxseq F) : Prop :=
    hseq_generate2 (cs_1 q) <> NoFuel /\ hseq_generate2 (cs_2 q) <> NoFuel.
End SceneHyps.

(** ** Energy *)
Definition within (M : R) (c : color R) : Prop :=
  (0 <= cR c <= M /\ 0 <= cG c <= M /\ 0 <= cB c <= M)%R.
Definition texture_within (M : R) (t : texture R) : Prop := forall p c, t p = Val c -> within M c.
(** emission at most [M], reflectivities and weights proper fractions *)
Fixpoint passive (M : R) (m : material R) : Prop :=
  match m with
  | MBlack => True
  | MFlat t => texture_within M t
  | MMatte t | MTransparent t => texture_within 1 t
  | MReflective c => within 1 c
  | MFresnel n a => (1 <= n)%R /\ passive M a
  | MRefractive n1 n2 => (0 < n1 /\ 0 < n2)%R
  | MTwoSided a b => passive M a /\ passive M b
  | MBlend wa a wb b => (0 <= wa /\ 0 <= wb /\ wa + wb <= 1)%R /\ passive M a /\ passive M b
  | MBlendMap t a b => (forall p c, t p = Val c -> (0 <= cR c <= 1)%R) /\ passive M a /\ passive M b
  end.
Definition passive_medium (M : R) (m : medium R) : Prop :=
  match m with
  | MedExpFog density ambient _ => (0 <= density)%R /\ within M ambient
  | MedFog density _ _ => (0 <= density)%R
  end.

(** ** Cameras *)
(** [q] is a ray camera [cam] sends through image position (u, v) *)
Definition shoots {G} {NI : NumInf R} (rand2 : G -> (R * R) * G) (cam : camera R) (u v : R) (c : ctx R G) (q : ray R) : Prop :=
  exists r c', rayFrom rand2 cam u v c = Val (r, c') /\ nth_error (cHeap c') r = Some q.
(** calls on a camera *)
Inductive move : Type := Shift (delta : pt) | Turn (yaw pitch roll : R).
Definition call (cam : camera R) (m : move) : camera R :=
  match m with Shift delta => camTranslate cam delta | Turn y p r => camYawPitchRoll cam y p r end.
(** turn about Z, then about X, then about Y *)
Definition turn (y p r : R) (a : pt) : pt :=
  let x1 := (vx a * cos r - vy a * sin r)%R in
  let y1 := (vy a * cos r + vx a * sin r)%R in
  let y2 := (y1 * cos p - vz a * sin p)%R in
  let z2 := (vz a * cos p + y1 * sin p)%R in
  Vec (x1 * cos y + z2 * sin y)%R y2 (z2 * cos y - x1 * sin y)%R.
Definition turned (ms : list move) (a : pt) : pt :=
  fold_left (fun a m => match m with Turn y p r => turn y p r a | Shift _ => a end) ms a.
Definition shifted (ms : list move) (a : pt) : pt :=
  fold_left (fun a m => match m with Shift d => plus3 a d | Turn _ _ _ => a end) ms a.

(** ** Optics, exact real arithmetic *)
Section Optics.
Local Open Scope R_scope.
(** the part of [v] along the surface with unit normal [n] *)
Definition tangential (v n : pt) : pt := minus3 v (scal3 (dot3 v n) n).
(** cosines of incidence and transmission related by Snell's law *)
Definition snell (n1 n2 ci ct : R) : Prop := 0 <= ct /\ n1 * n1 * (1 - ci * ci) = n2 * n2 * (1 - ct * ct).
(** Snell's law for directions: n1 sin i = n2 sin t, with both in the plane of incidence *)
Definition snell_vec (n1 n2 : R) (i n t : pt) : Prop := scal3 n1 (cross3 i n) = scal3 n2 (cross3 t n).
(** [c] scaled by [k] *)
Definition scaled (k : R) (c : color R) : color R := Color (k * cR c) (k * cG c) (k * cB c).
(** the emitting surface is parallel to the XZ plane and Tiny above the given centre *)
Definition tinyR : R := / (1204 * 1024).
(** direction of the sun: turned by [yaw] from -Z, [pitch] above the horizon *)
Definition sun_dir (yaw pitch : R) : pt := Vec (- (cos pitch * sin yaw)) (sin pitch) (- (cos pitch * cos yaw)).
(** right, up and towards the viewer for a view axis *)
Definition iso_frame (dir : Z) : pt * pt * pt :=
  if (dir =? 0)%Z then (Vec 0 0 (-1), Vec 0 1 0, Vec 1 0 0)
  else if (dir =? 1)%Z then (Vec 1 0 0, Vec 0 0 (-1), Vec 0 1 0)
  else (Vec 1 0 0, Vec 0 1 0, Vec 0 0 1).
End Optics.

(** ** Filters met by a shadow ray *)
Section Filtering.
  Context {F : Type} `{NF : Num F}.
  Notation hit := (hit F (material F)).
  Inductive filtering (len : F) : list hit -> list (color F) -> Prop :=
  | Fnil : filtering len nil nil
  | Fskip h hits fs : ~ between len h -> filtering len hits fs -> filtering len (h :: hits) fs
  | Fhit h f hits fs : between len h -> filters_by h f -> filtering len hits fs -> filtering len (h :: hits) (f :: fs).
End Filtering.

(** ** Lights the constructors of package lights can produce *)
Section BuiltLights.
  Context {F : Type} `{NF : Num F} `{NI : NumInf F} `{TF : Trig F}.
  Notation object := (object F (material F)).
  Variable to32 : F -> F.
  Variable sortSlice : (object -> object -> bool) -> list object -> list object.
  Inductive built_light : light F -> Prop :=
  | BL_point power pos : built_light (pointLight power pos)
  | BL_rect b w h c l : rectangleLight to32 sortSlice b w h c = Val l -> built_light l
  | BL_disk b d c l : diskLight to32 sortSlice b d c = Val l -> built_light l
  | BL_sun b a y p l : sunLight to32 sortSlice b a y p = Val l -> built_light l
  | BL_transformed l t l' : built_light l -> transformedLight l t = Val l' -> built_light l'.
End BuiltLights.

(** ** Objects without height fields (whose root search need not end, see C42) *)
Section IsoFree.
  Context {F : Type} `{NF : Num F} `{NI : NumInf F} {M : Type}.
  Variable to32 : F -> F.
  Variable sortSlice : (object F M -> object F M -> bool) -> list (object F M) -> list (object F M).
  Inductive iso_free : object F M -> Prop :=
  | I_backdrop m : iso_free (backdrop m)
  | I_quadric q : iso_free (quadric q)
  | I_box m mn mx : iso_free (boxWithBounds m mn mx)
  | I_face a b c : iso_free (face a b c)
  | I_and a b : iso_free a -> iso_free b -> iso_free (cAnd a b)
  | I_or a b : iso_free a -> iso_free b -> iso_free (cOr a b)
  | I_restrict a b : iso_free a -> iso_free b -> iso_free (cRestrict a b)
  | I_not a : iso_free a -> iso_free (cNot a)
  | I_hollow a : iso_free a -> iso_free (cHollow a)
  | I_bounded a o : iso_free a -> bounded a = Val o -> iso_free o
  | I_remap a f : iso_free a -> iso_free (remap a f)
  | I_material m a : iso_free a -> iso_free (withMaterial m a)
  | I_transformed a t o : iso_free a -> transformed a t = Val o -> iso_free o
  | I_tree os o : (forall a, In a os -> iso_free a) -> tree to32 sortSlice os = Val o -> iso_free o
  | I_mesh m fs vs o : mesh to32 sortSlice m fs vs = Val o -> iso_free o
  | I_parametric m nu nv f o : parametric to32 sortSlice nu nv f m = Val o -> iso_free o.
End IsoFree.
