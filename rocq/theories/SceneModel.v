(** * Model of tracer/scene.go, tracer/ctx.go and packages materials, media and lights

    A *Ray is an index into a heap of rays; the recycling pool is a list of indices. All code
    that can read or write the context runs in a state-and-panic monad over [ctx]. *)
From Coq Require Import ZArith Reals Bool List.
From Verif Require Import Num Outcome GeomModel ColorModel SeqModel ObjModel TreeModel.
Import ListNotations.
Local Open Scope num_scope.

(** ** Pure parts of package materials *)
Section Optics.
  Context {F : Type} `{NF : Num F}.

  (** util/util.go:59-61 *)
  Definition sqr (x : F) : F := x * x.

  (** tracer/materials/matte.go:101-106 *)
  Definition flipTowards (n d : vec F) : vec F := if vdot n d >? #0 then vmul n #(-1) else n.

  (** tracer/materials/reflective.go:81-83; the constant -2 *)
  Definition reflect (v n : vec F) : vec F := vmadd v (#(-2) * vdot v n) n.

  (** tracer/materials/reflective.go:67-69 and refractive.go:57-59 *)
  Definition fresnelR (n1 n2 cosi cost : F) : F :=
    let Rp := sqr ((n1 * cosi - n2 * cost) / (n1 * cosi + n2 * cost)) in
    let Rs := sqr ((n1 * cost - n2 * cosi) / (n1 * cost + n2 * cosi)) in
    nQ 1 2 * (Rp + Rs).

  (** tracer/materials/reflective.go:63-70 *)
  Definition fresnelReflection (n1 n2 cosi : F) : F :=
    let n12 := n1 / n2 in
    let sin2t := n12 * n12 * (#1 - cosi * cosi) in
    let cost := nsqrt (#1 - sin2t) in
    fresnelR n1 n2 cosi cost.

  (** tracer/materials/refractive.go:30-43: incident direction, normal on its side, indices in the
      order of travel, their ratio, cosine of incidence and squared sine of transmission *)
  Record refraction : Type := Refraction {
    rfI : vec F; rfN : vec F; rfN1 : F; rfN2 : F; rfN12 : F; rfCosI : F; rfSin2T : F }.
  Definition refract (n1 n2 : F) (dir normal : vec F) : refraction :=
    let n := vnormalized normal in
    let i := vnormalized dir in
    let '(n, n1, n2) := if vdot i n >? #0 then (vmul n #(-1), n2, n1) else (n, n1, n2) in
    let n12 := n1 / n2 in
    let cosi := - vdot i n in
    Refraction i n n1 n2 n12 cosi (n12 * n12 * (#1 - cosi * cosi)).
  (** tracer/materials/refractive.go:46 *)
  Definition totalReflection (f : refraction) : bool := rfSin2T f >? #1.
  (** tracer/materials/refractive.go:54-59 *)
  Definition refractR (f : refraction) : F :=
    fresnelR (rfN1 f) (rfN2 f) (rfCosI f) (nsqrt (#1 - rfSin2T f)).
  (** tracer/materials/refractive.go:64 *)
  Definition transmitted (f : refraction) : vec F :=
    vmadd (vmul (rfI f) (rfN12 f)) (rfN12 f * rfCosI f - nsqrt (#1 - rfSin2T f)) (rfN f).

  (** Color == Color{} *)
  Definition isBlack (c : color F) : bool := (cR c =? #0) && (cG c =? #0) && (cB c =? #0).
End Optics.
Arguments refraction F : clear implicits.

(** texture.Texture: evaluating a texture may panic (e.g. an image index out of range) *)
Definition texture (F : Type) : Type := vec F -> outcome (color F).

(** ** Package materials *)
(** Materials inside materials are not nil. [MBlack] is the flat black of tracer/scene.go:134, 156-168. *)
Inductive material (F : Type) : Type :=
| MBlack
| MFlat (t : texture F)
| MMatte (t : texture F)
| MReflective (c : color F)
| MFresnel (n : F) (trans : material F)
| MRefractive (n1 n2 : F)
| MTransparent (t : texture F)
| MTwoSided (front back : material F)
| MBlend (a : F) (matA : material F) (b : F) (matB : material F)
| MBlendMap (t : texture F) (a b : material F).
Arguments MBlack {F}.
Arguments MFlat {F} _.
Arguments MMatte {F} _.
Arguments MReflective {F} _.
Arguments MFresnel {F} _ _.
Arguments MRefractive {F} _ _.
Arguments MTransparent {F} _.
Arguments MTwoSided {F} _ _.
Arguments MBlend {F} _ _ _ _.
Arguments MBlendMap {F} _ _ _.

(** ** Package lights *)
Inductive planarKind : Type := KRect | KDisk.
Inductive light (F : Type) : Type :=
| LPoint (pos : vec F) (power : color F)
| LPlanar (w h : F) (center : vec F) (totalPower : color F) (kind : planarKind) (obj : object F (material F))
| LTransformed (forward inverse : affine F) (orig : light F) (obj : object F (material F)).
Arguments LPoint {F} _ _.
Arguments LPlanar {F} _ _ _ _ _ _.
Arguments LTransformed {F} _ _ _ _.

(** ** Package media *)
Inductive medium (F : Type) : Type :=
| MedExpFog (density : F) (ambient : color F) (height : F)
| MedFog (density height : F) (numLight : Z).
Arguments MedExpFog {F} _ _ _.
Arguments MedFog {F} _ _ _.

(** tracer/scene.go:13-20 *)
Record scene (F : Type) : Type := Scene {
  sLights : list (light F);
  sObjects : list (object F (material F));
  sObjectsAndLights : list (object F (material F));
  sObjectsMinusLights : list (object F (material F));
  sMedia : list (medium F);
  sRecursionDepth : Z }.
Arguments Scene {F} _ _ _ _ _ _.
Arguments sLights {F} _.
Arguments sObjects {F} _.
Arguments sObjectsAndLights {F} _.
Arguments sObjectsMinusLights {F} _.
Arguments sMedia {F} _.
Arguments sRecursionDepth {F} _.

(** tracer/interfaces.go:82-86 *)
Record hitCoords (F : Type) : Type := HitCoords { hcT : F; hcNormal : vec F; hcLocal : vec F }.
Arguments HitCoords {F} _ _ _.
Arguments hcT {F} _.
Arguments hcNormal {F} _.
Arguments hcLocal {F} _.

(** tracer/ctx.go:28-41. [cRng] is the state of sequence3 (math/rand). [cPool] holds the recycled
    rays, last one first. *)
Record ctx (F G : Type) : Type := Ctx {
  cDepth : Z; cSeq : ctxseq F; cRng : G; cPool : list nat; cHeap : list (ray F); cNumRays : Z }.
Arguments Ctx {F G} _ _ _ _ _ _.
Arguments cDepth {F G} _.
Arguments cSeq {F G} _.
Arguments cRng {F G} _.
Arguments cPool {F G} _.
Arguments cHeap {F G} _.
Arguments cNumRays {F G} _.

(** code that uses a context *)
Definition act (F G A : Type) : Type := ctx F G -> outcome (A * ctx F G).
Definition mret {F G A} (a : A) : act F G A := fun c => Val (a, c).
Definition mbind {F G A B} (x : act F G A) (f : A -> act F G B) : act F G B :=
  fun c => obind (x c) (fun '(a, c') => f a c').
Definition mlift {F G A} (o : outcome A) : act F G A := fun c => omap (fun a => (a, c)) o.
Notation "x <- a ;; b" := (mbind a (fun x => b)) (at level 100, a at level 99, right associativity, only parsing).
Notation "' p <- a ;; b" := (mbind a (fun p => b)) (at level 100, p pattern, a at level 99, right associativity, only parsing).
Notation "a ;;; b" := (mbind a (fun _ => b)) (at level 100, right associativity, only parsing).

Section Ctx.
  Context {F G : Type} `{NF : Num F}.
  Notation act := (act F G).
  Variable rand2 : G -> (F * F) * G.    (** two calls of rng.Float64 *)

  Definition withDepth (c : ctx F G) (d : Z) : ctx F G := Ctx d (cSeq c) (cRng c) (cPool c) (cHeap c) (cNumRays c).
  Definition withRng (c : ctx F G) (g : G) : ctx F G := Ctx (cDepth c) (cSeq c) g (cPool c) (cHeap c) (cNumRays c).
  Definition withPool (c : ctx F G) (p : list nat) (h : list (ray F)) : ctx F G := Ctx (cDepth c) (cSeq c) (cRng c) p h (cNumRays c).
  Definition withNumRays (c : ctx F G) (n : Z) : ctx F G := Ctx (cDepth c) (cSeq c) (cRng c) (cPool c) (cHeap c) n.

  Definition getDepth : act Z := fun c => Val (cDepth c, c).
  Definition setDepth (d : Z) : act unit := fun c => Val (tt, withDepth c d).
  Definition countRay : act unit := fun c => Val (tt, withNumRays c (cNumRays c + 1)%Z).

  (** reading and writing *r *)
  Definition readRay (i : nat) : act (ray F) :=
    fun c => match nth_error (cHeap c) i with Some r => Val (r, c) | None => Panic end.
  Definition writeRay (i : nat) (r : ray F) : act unit :=
    fun c => match nth_error (cHeap c) i with
             | Some _ => Val (tt, withPool c (cPool c) (setNth (cHeap c) i r))
             | None => Panic end.
  Definition setStart (i : nat) (p : vec F) : act unit := r <- readRay i ;; writeRay i (Ray p (rDir r)).
  Definition setDir (i : nat) (d : vec F) : act unit := r <- readRay i ;; writeRay i (Ray (rStart r) d).

  (** Ray{} *)
  Definition zeroRay : ray F := Ray vO vO.
  (** tracer/ctx.go:104-108, 120-127 *)
  Definition newRay : act nat :=
    i <- (fun c => match cPool c with
                   | nil => Val (length (cHeap c), withPool c nil (cHeap c ++ [zeroRay]))
                   | i :: rest => Val (i, withPool c rest (cHeap c))
                   end) ;;
    writeRay i zeroRay ;;; mret i.
  (** tracer/ctx.go:111-113, 129-131 *)
  Definition putRay (i : nat) : act unit := fun c => Val (tt, withPool c (i :: cPool c) (cHeap c)).

  (** sequence3.Generate2 *)
  Definition pseudo2 : act (F * F) := fun c => let '(uv, g) := rand2 (cRng c) in Val (uv, withRng c g).
  (** tracer/ctx.go:74-86 *)
  Definition generate2 : act (F * F) :=
    fun c =>
      if (cDepth c =? 0)%Z then Panic
      else if (cDepth c =? 1)%Z then omap (fun uv => (uv, c)) (hseq_generate2 (cs_1 (cSeq c)))
      else if (cDepth c =? 2)%Z then omap (fun uv => (uv, c)) (hseq_generate2 (cs_2 (cSeq c)))
      else pseudo2 c.
  (** tracer/ctx.go:88-90 *)
  Definition generateLens : act (F * F) := pseudo2.
  (** tracer/ctx.go:96-99 *)
  Definition isInitial : act bool :=
    fun c => if (cDepth c =? 0)%Z then Panic else Val ((cDepth c =? 1)%Z, c).
End Ctx.

Section Scene.
  Context {F G : Type} `{NF : Num F} `{NI : NumInf F} `{TF : Trig F}.
  Variable rand2 : G -> (F * F) * G.
  Notation act := (act F G).
  Notation material := (material F).
  Notation object := (object F material).
  Notation hit := (hit F material).
  Notation generate2 := (generate2 rand2).

  (** o.Intersect(r) *)
  Definition intersectRay (o : object) (r : nat) : act hit :=
    q <- readRay r ;;
    '(h, q') <- mlift (oIntersect o q) ;;
    writeRay r q' ;;; mret h.

  (** ** Lights *)
  (** methods a tracer.Object does not have *)
  Definition plainObject (isect : ray F -> outcome (hit * ray F)) : object := Obj isect (fun _ => Panic) Panic None.

  (** tracer/lights/pointlight.go:20-26, planar.go:120-122, transformed.go:40-42 *)
  Definition lightObject (l : light F) : object :=
    match l with
    | LPoint _ _ => plainObject (fun r => Val (noHit, r))
    | LPlanar _ _ _ _ _ o => o
    | LTransformed _ _ _ o => o
    end.

  (** tracer/lights/planar.go:136-138 *)
  Definition transfRect (u v : F) : F * F := (#2 * u - #1, #2 * v - #1).
  Definition transfSample (k : planarKind) (u v : F) : F * F :=
    match k with KRect => transfRect u v | KDisk => uniformDisk u v end.
  (** tracer/lights/planar.go:97-99 *)
  Definition planarPos (w h : F) (center : vec F) (k : planarKind) (uv : F * F) : vec F :=
    let '(x, y) := transfSample k (fst uv) (snd uv) in
    vadd (Vec ((nQ 1 2 * x) * w) tiny ((nQ 1 2 * y) * h)) center.
  (** tracer/lights/planar.go:84-95 *)
  Definition planarIntensity (p target : vec F) : F :=
    let n := Vec #0 #(-1) #0 in
    let delta := vsub target p in
    let cosTheta := vdot n (vnormalized delta) in
    let I := (#1 / npi) / vlen2 delta * cosTheta in
    if I <? #0 then #0 else I.
  (** tracer/lights/pointlight.go:16-18 *)
  Definition pointIntensity (pos target : vec F) : F := (#1 / (#4 * npi)) / vlen2 (vsub target pos).

  Fixpoint lightSample (l : light F) (target : vec F) : act (vec F * color F) :=
    match l with
    | LPoint pos power => mret (pos, clmul power (pointIntensity pos target))
    | LPlanar w h center totalPower k _ =>
      uv <- generate2 ;;
      let p := planarPos w h center k uv in
      mret (p, clmul totalPower (planarIntensity p target))
    | LTransformed forward inverse orig _ =>
      (* tracer/lights/transformed.go:44-49 *)
      '(tpos, bright) <- lightSample orig (transformPoint inverse target) ;;
      mret (transformPoint forward tpos, bright)
    end.

  Variable to32 : F -> F.
  Variable sortSlice : (object -> object -> bool) -> list object -> list object.

  (** tracer/lights/planar.go:124-134 *)
  Definition allSpace : object := Obj (fun _ => Panic) (fun _ => Val true) (Val infBox) None.
  (** tracer/lights/planar.go:65-82 *)
  Definition planarLight (brightness : color F) (w h : F) (center : vec F) (relSurf : F) (restrict : object) (k : planarKind) : outcome (light F) :=
    let mat := MTwoSided (MFlat (fun _ => Val brightness)) (MFlat (fun _ => Val black)) in
    omap (fun rect => LPlanar w h center (clmul brightness (w * h * relSurf)) k (cRestrict rect restrict))
      (rectangle to32 sortSlice (Some mat) w h center).
  (** tracer/lights/planar.go:11-18 *)
  Definition rectangleLight (brightness : color F) (w h : F) (center : vec F) : outcome (light F) :=
    planarLight brightness w h center #1 allSpace KRect.
  Definition diskLight (brightness : color F) (diam : F) (center : vec F) : outcome (light F) :=
    planarLight brightness diam diam center (npi / #4) (cylinder None diam ninf center) KDisk.
  (** tracer/lights/pointlight.go:7-9 *)
  Definition pointLight (power : color F) (pos : vec F) : light F := LPoint pos power.
  (** tracer/lights/transformed.go:23-31; the type assertion fails for a point light *)
  Definition transformedLight (l : light F) (t : affine F) : outcome (light F) :=
    match l with
    | LPoint _ _ => Panic
    | _ => omap (LTransformed t (ainverse t) l) (transformed (lightObject l) t)
    end.
  (** tracer/lights/planar.go:36-53 *)
  Definition sunLight (brightnessAtEarth : color F) (angularDiam yaw pitch : F) : outcome (light F) :=
    let r := #(10 ^ 6) in
    let bright2 := clmul brightnessAtEarth (#4 / (angularDiam * angularDiam)) in
    obind (diskLight bright2 (angularDiam * r) vO) (fun disk =>
    transformedLight disk (composeLR [
      rotate vO vEx (#(-90) * (npi / #180));
      translate (Vec #0 #0 (- r));
      rotate vO vEx pitch;
      rotate vO vEy yaw])).

  (** ** Scenes *)
  (** tracer/scene.go:156-168 *)
  Definition blackened (o : object) : object :=
    plainObject (fun r => omap (fun '(h, r') => (Hit (hT h) (hNormal h) (hLocal h) (Some MBlack), r')) (oIntersect o r)).

  (** tracer/scene.go:24-48 *)
  Definition newScene (recursionDepth : Z) (media : list (medium F)) (lights : list (light F)) (objs : list object) : scene F :=
    Scene lights objs (objs ++ map lightObject lights) (objs ++ map (fun l => blackened (lightObject l)) lights) media recursionDepth.

  (** tracer/scene.go:137-152 *)
  Definition front0 (dir : vec F) : hit := Hit ninf dir vO (Some MBlack).
  Fixpoint frontLoop (objs : list object) (r : nat) (front : hit) : act hit :=
    match objs with
    | nil => mret front
    | o :: rest =>
      h <- intersectRay o r ;;
      frontLoop rest r (if ((hT h >? #0) && (hT h <=? hT front))%bool then h else front)
    end.
  Definition intersectFrontmost (objs : list object) (r : nat) : act hit :=
    q <- readRay r ;; frontLoop objs r (front0 (rDir q)).

  (** tracer/materials/transparent.go:32-34; [None]: not a TransparentMaterial (or nil) *)
  Definition matFilter (m : option material) (h : hit) (background : color F) : option (outcome (color F)) :=
    match m with
    | Some (MTransparent t) => Some (omap (clmul3 background) (t (hLocal h)))
    | _ => None
    end.

  (** tracer/scene.go:120-132 *)
  Fixpoint occludeLoop (objs : list object) (r : nat) (len : F) (orig : color F) : act (color F) :=
    match objs with
    | nil => mret orig
    | o :: rest =>
      f <- intersectRay o r ;;
      if ((hT f >? #0) && (hT f <? len))%bool then
        match matFilter (hMat f) f orig with
        | Some c => orig <- mlift c ;; occludeLoop rest r len orig
        | None => mret black
        end
      else occludeLoop rest r len orig
    end.
  Definition occlude (s : scene F) : nat -> F -> color F -> act (color F) := occludeLoop (sObjects s).

  (** ** Shading *)
  (** which list of objects: LightField or LightFieldIndirect *)
  Inductive who : Type := All | MinusLights.
  Definition whoObjects (s : scene F) (w : who) : list object :=
    match w with All => sObjectsAndLights s | MinusLights => sObjectsMinusLights s end.

  Section Shade.
    Variable s : scene F.
    Variable lightField : who -> nat -> act (color F).   (* recursive evaluation *)

    (** tracer/materials/matte.go:62-86 *)
    Fixpoint matteLights (ls : list (light F)) (p normal : vec F) (sec : nat) (acc : color F) : act (color F) :=
      match ls with
      | nil => mret acc
      | l :: rest =>
        '(lpos, intens) <- lightSample l p ;;
        if isBlack intens then matteLights rest p normal sec acc else
        let lDelta := vsub lpos p in
        let lDir := vnormalized lDelta in
        let cosTheta := vdot lDir normal in
        if cosTheta <=? #0 then matteLights rest p normal sec acc else
        let lDist := vlen lDelta in
        setDir sec lDir ;;;
        intens <- occlude s sec lDist intens ;;
        matteLights rest p normal sec (cladd acc (clmul intens cosTheta))
      end.
    (** tracer/materials/matte.go:54-97 *)
    Definition matteShade (t : texture F) (r : nat) (h : hitCoords F) : act (color F) :=
      q <- readRay r ;;
      let normal := flipTowards (hcNormal h) (rDir q) in
      sec <- newRay ;;
      q <- readRay r ;;
      let p := vmadd (rayAt q (hcT h)) tiny normal in
      setStart sec p ;;;
      acc <- matteLights (sLights s) p normal sec black ;;
      setStart sec (vmadd p tiny normal) ;;;
      '(u, v) <- generate2 ;;
      setDir sec (cosineSphere u v normal) ;;;
      ind <- lightField MinusLights sec ;;
      putRay sec ;;;
      refl <- mlift (t (hcLocal h)) ;;
      mret (clmul3 (cladd acc ind) refl).

    (** a secondary ray whose colour is looked up; the ray is recycled by a deferred PutRay *)
    Definition reflectiveShade (c : color F) (r : nat) (h : hitCoords F) : act (color F) :=
      (* tracer/materials/reflective.go:24-31 *)
      q <- readRay r ;;
      let pos := rayAt q (hcT h - tiny) in
      r2 <- newRay ;;
      setStart r2 pos ;;;
      q <- readRay r ;;
      setDir r2 (reflect (rDir q) (hcNormal h)) ;;;
      b <- lightField All r2 ;;
      putRay r2 ;;;
      mret (clmul3 b c).

    (** tracer/materials/refractive.go:28-79 *)
    Definition refractiveShade (n1 n2 : F) (r : nat) (h : hitCoords F) : act (color F) :=
      q <- readRay r ;;
      let f := refract n1 n2 (rDir q) (hcNormal h) in
      if totalReflection f then
        r2 <- newRay ;;
        q <- readRay r ;;
        setStart r2 (rayAt q (hcT h - tiny)) ;;;
        q <- readRay r ;;
        setDir r2 (reflect (rDir q) (hcNormal h)) ;;;
        b <- lightField All r2 ;;
        putRay r2 ;;;
        mret b
      else
        let R := refractR f in
        let T := #1 - R in
        r2 <- newRay ;;
        q <- readRay r ;;
        setStart r2 (rayAt q (hcT h + tiny)) ;;;
        setDir r2 (transmitted f) ;;;
        cT <- lightField All r2 ;;
        r3 <- newRay ;;
        q <- readRay r ;;
        setStart r3 (rayAt q (hcT h - tiny)) ;;;
        setDir r3 (reflect (rfI f) (rfN f)) ;;;
        cR <- lightField All r3 ;;
        putRay r3 ;;;
        putRay r2 ;;;
        mret (cladd (clmul cR R) (clmul cT T)).

    (** tracer/materials/transparent.go:21-30 *)
    Definition transparentShade (t : texture F) (r : nat) (h : hitCoords F) : act (color F) :=
      q <- readRay r ;;
      let pos := rayAt q (hcT h + tiny) in
      r2 <- newRay ;;
      setStart r2 pos ;;;
      q <- readRay r ;;
      setDir r2 (rDir q) ;;;
      b <- lightField MinusLights r2 ;;
      f <- mlift (t (hcLocal h)) ;;
      putRay r2 ;;;
      mret (clmul3 b f).

    Fixpoint shade (m : material) (r : nat) (h : hitCoords F) : act (color F) :=
      match m with
      | MBlack => mret black                                   (* tracer/scene.go:166-168 *)
      | MFlat t => mlift (t (hcLocal h))                       (* tracer/materials/flat.go:18-20 *)
      | MMatte t => matteShade t r h
      | MReflective c => reflectiveShade c r h
      | MFresnel n trans =>                                    (* tracer/materials/reflective.go:50-61 *)
        q <- readRay r ;;
        let pos := rayAt q (hcT h - tiny) in
        r2 <- newRay ;;
        setStart r2 pos ;;;
        q <- readRay r ;;
        setDir r2 (reflect (rDir q) (hcNormal h)) ;;;
        let R := fresnelReflection #1 n (nabs (vdot (hcNormal h) (rDir q))) in
        let T := #1 - R in
        tr <- shade trans r h ;;
        refl <- lightField All r2 ;;
        putRay r2 ;;;
        mret (clmadd (clmul refl R) T tr)
      | MRefractive n1 n2 => refractiveShade n1 n2 r h
      | MTransparent t => transparentShade t r h
      | MTwoSided front back =>                                (* tracer/materials/twosided.go:17-23 *)
        q <- readRay r ;;
        if vdot (rDir q) (hcNormal h) >? #0 then shade front r h else shade back r h
      | MBlend a matA b matB =>                                (* tracer/materials/blend.go:49-53 *)
        ca <- shade matA r h ;;
        cb <- shade matB r h ;;
        mret (clmadd (clmul ca a) b cb)
      | MBlendMap t a b =>                                     (* tracer/materials/blend.go:9-22 *)
        k <- mlift (t (hcLocal h)) ;;
        let key1 := cR k in
        let key2 := #1 - key1 in
        ca <- (if key1 >? #0 then shade a r h else mret black) ;;
        cb <- (if key2 >? #0 then shade b r h else mret black) ;;
        mret (clmadd (clmul ca key1) key2 cb)
      end.

    (** a nil material panics *)
    Definition shadeHit (m : option material) (r : nat) (h : hitCoords F) : act (color F) :=
      match m with Some m => shade m r h | None => mlift Panic end.
  End Shade.

  (** ** Media *)
  (** tracer/media/expfog.go:40-47 *)
  Definition intersectIntervals (start1 end1 start2 end2 : F) : F * F :=
    let start := umax start1 start2 in
    let end_ := umin end1 end2 in
    if negb (end_ >? start) then (#0, #0) else (start, end_).
  (** x / 0: infinite with the sign of x, NaN for zero and NaN. Written with [ninf] for the sake of the
      real numbers; in double precision it is the quotient (C54_division_by_zero). *)
  Definition over0 (x : F) : F := if x >? #0 then ninf else if x <? #0 then - ninf else x / #0.
  (** tracer/media/expfog.go:49-58 *)
  Definition intersectHalfSpace (height : F) (r : ray F) : F * F :=
    let rs := vy (rStart r) - height in
    let rd := vy (rDir r) in
    let ten := - rs / rd in
    let tex := over0 (- vy (rDir r)) in
    if ten >? tex then (tex, ten) else (ten, tex).
  (** the first lines of both Filter methods *)
  Definition fogInterval (height tMax : F) (r : ray F) : F * F :=
    let '(ten, tex) := intersectHalfSpace height r in
    intersectIntervals #0 tMax ten tex.
  (** tracer/media/expfog.go:34-37 *)
  Definition expFogBlend (density : F) (ambient : color F) (len : F) (orig : color F) : outcome (color F) :=
    if negb (len >=? #0) then Panic else
    let trans := nexp (- len * density) in
    Val (clmadd (clmul orig trans) (#1 - trans) ambient).
  (** tracer/media/fog.go:70-75 *)
  Definition randExpInterval (rand density mx : F) : F * F :=
    let N := #1 / (#1 - nexp (- density * mx)) in
    let t := #(-1) / density * nlog (#1 - rand / N) in
    (t, #1 / N).

  Section Media.
    Variable s : scene F.
    (** tracer/media/fog.go:40-57 *)
    Fixpoint fogLights (i : Z) (ls : list (light F)) (numLight : Z) (p : vec F) (weight : F) (sec : nat) (acc : color F) : act (color F) :=
      match ls with
      | nil => mret acc
      | l :: rest =>
        if (i =? numLight)%Z then mret acc else
        '(lpos, intens) <- lightSample l p ;;
        if isBlack intens then fogLights (i + 1) rest numLight p weight sec acc else
        let lDelta := vsub lpos p in
        let lDir := vnormalized lDelta in
        let lDist := vlen lDelta in
        setStart sec p ;;;
        setDir sec lDir ;;;
        intens <- occlude s sec lDist intens ;;
        fogLights (i + 1) rest numLight p weight sec (clmadd acc weight intens)
      end.

    Definition mediumFilter (m : medium F) (r : nat) (tMax : F) (orig : color F) : act (color F) :=
      match m with
      | MedExpFog density ambient height =>               (* tracer/media/expfog.go:25-38 *)
        ini <- isInitial ;;
        if negb ini then mret orig else
        q <- readRay r ;;
        let '(start, end_) := fogInterval height tMax q in
        mlift (expFogBlend density ambient (end_ - start) orig)
      | MedFog density height numLight =>                 (* tracer/media/fog.go:24-62 *)
        ini <- isInitial ;;
        if negb ini then mret orig else
        q <- readRay r ;;
        let '(start, end_) := fogInterval height tMax q in
        let len := end_ - start in
        '(u, _) <- generate2 ;;
        let '(tSampl, weight) := randExpInterval u density len in
        let t := start + tSampl in
        q <- readRay r ;;
        let p := rayAt q (t - tiny) in
        sec <- newRay ;;
        acc <- fogLights 0 (sLights s) numLight p weight sec black ;;
        let trans := nexp (- len * density) in
        putRay sec ;;;
        mret (cladd (clmul orig trans) acc)
      end.
    Fixpoint mediaLoop (ms : list (medium F)) (r : nat) (tMax : F) (b : color F) : act (color F) :=
      match ms with
      | nil => mret b
      | m :: rest => b <- mediumFilter m r tMax b ;; mediaLoop rest r tMax b
      end.
  End Media.

  (** tracer/scene.go:86-110. The fuel bounds the nesting of evaluations. *)
  Fixpoint lightField (fuel : nat) (s : scene F) (w : who) (r : nat) : act (color F) :=
    match fuel with
    | O => mlift NoFuel
    | S n =>
      d <- getDepth ;;
      if (sRecursionDepth s =? d)%Z then mret black else
      countRay ;;;
      setDepth (d + 1)%Z ;;;
      front <- intersectFrontmost (whoObjects s w) r ;;
      b <- shadeHit s (lightField n s) (hMat front) r (HitCoords (hT front) (vnormalized (hNormal front)) (hLocal front)) ;;
      b <- mediaLoop s (sMedia s) r (hT front) b ;;
      d' <- getDepth ;;
      setDepth (d' - 1)%Z ;;;
      mret b
    end.
End Scene.

(** ** Cameras *)
Section Cameras.
  Context {F G : Type} `{NF : Num F} `{NI : NumInf F} `{TF : Trig F}.
  Variable rand2 : G -> (F * F) * G.
  Notation act := (act F G).

  (** cameras without a WithTransform around them *)
  Inductive camera0 : Type :=
  | CProjective (focalLen focusDist aperture : F)
  | CEnvMap
  | CIsometric (size : F).
  (** tracer/cameras/withtransform.go:11-15; the wrapped camera is never a WithTransform *)
  Record camera : Type := WithTransform { camOrig : camera0; camPos : vec F; camMatrix : matrix F }.

  (** tracer/cameras/withtransform.go:26-39 *)
  Definition transform0 (c : camera0) (rot : matrix F) (tr : vec F) : camera := WithTransform c tr rot.
  Definition transformCam (c : camera) (rot : matrix F) (tr : vec F) : camera :=
    WithTransform (camOrig c) (vadd tr (camPos c)) (mmul rot (camMatrix c)).
  (** tracer/cameras/withtransform.go:52-61, 75-83 *)
  Definition camTranslate (c : camera) (delta : vec F) : camera := transformCam c unitMatrix delta.
  Definition camYawPitchRoll (c : camera) (y p r : F) : camera := transformCam c (afA (yawPitchRoll y p r)) vO.

  Definition deg (x : F) : F := x * (npi / #180).
  (** tracer/cameras/projective.go:55-60 *)
  Definition fovToFocalLen (fov : F) : outcome F :=
    if ((fov <=? #0) || (fov >=? npi))%bool then Panic else Val (nQ 1 2 / ntan (fov / #2)).
  (** tracer/cameras/projective.go:27-42 *)
  Definition projectiveAperture (fov aperture focusDist : F) : outcome camera :=
    let focusDist := if ((aperture =? #0) && (focusDist =? #0))%bool then #1 else focusDist in
    omap (fun f => transform0 (CProjective f focusDist aperture) (afA (yawPitchRoll (deg #180) #0 #0)) vO) (fovToFocalLen fov).
  (** tracer/cameras/projective.go:14-16 *)
  Definition projective (fov : F) : outcome camera := projectiveAperture fov #0 #1.
  (** tracer/cameras/environmentmap.go:19-21 *)
  Definition environmentMap : camera := transform0 CEnvMap unitMatrix vO.
  (** tracer/cameras/isometric.go:20-32 *)
  Definition isometric (dir : Z) (size : F) : outcome camera :=
    if (dir =? 0)%Z then Val (transform0 (CIsometric size) (afA (yawPitchRoll (deg #90) #0 #0)) vO)
    else if (dir =? 1)%Z then Val (transform0 (CIsometric size) (afA (yawPitchRoll #0 (deg #(-90)) #0)) vO)
    else if (dir =? 2)%Z then Val (transform0 (CIsometric size) (afA (yawPitchRoll #0 #0 #0)) vO)
    else Panic.

  (** tracer/cameras/projective.go:63-85, after the lens sample (xs, ys) has been drawn *)
  Definition projectiveRay (focalLen focusDist : F) (start : vec F) (u v : F) : ray F :=
    let end_ := Vec (- (u - nQ 1 2)) (v - nQ 1 2) focalLen in
    let end_ := if negb (focusDist =? #0) then vmul end_ focusDist else end_ in
    Ray start (vnormalized (vsub end_ start)).
  (** tracer/cameras/environmentmap.go:26-38 *)
  Definition envMapRay (u v : F) : ray F :=
    let phi := - u * #2 * npi in
    let theta := (v - nQ 1 2) * npi in
    Ray vO (Vec (nsin phi * ncos theta) (nsin theta) (ncos phi * ncos theta)).
  (** tracer/cameras/isometric.go:35-42 *)
  Definition isometricRay (s u v : F) : ray F :=
    Ray (Vec ((u - nQ 1 2) * s) ((v - nQ 1 2) * s) #4096) (Vec #0 #0 #(-1)).

  Definition rayFrom0 (c : camera0) (u v : F) : act nat :=
    r <- newRay ;;
    match c with
    | CProjective focalLen focusDist aperture =>
      start <- (if aperture >? #0 then
                  uv <- generateLens rand2 ;;
                  let '(xs, ys) := uniformDisk (fst uv) (snd uv) in
                  mret (Vec (#0 + xs * aperture) (#0 + ys * aperture) #0)
                else mret vO) ;;
      writeRay r (projectiveRay focalLen focusDist start u v) ;;; mret r
    | CEnvMap => writeRay r (envMapRay u v) ;;; mret r
    | CIsometric size => writeRay r (isometricRay size u v) ;;; mret r
    end.
  (** tracer/cameras/withtransform.go:42-47 *)
  Definition camRay (c : camera) (q : ray F) : ray F :=
    Ray (vadd (mmulvec (camMatrix c) (rStart q)) (camPos c)) (mmulvec (camMatrix c) (rDir q)).
  Definition rayFrom (c : camera) (u v : F) : act nat :=
    r <- rayFrom0 (camOrig c) u v ;;
    q <- readRay r ;;
    writeRay r (camRay c q) ;;; mret r.

  (** tracer/scene.go:62-69 *)
  Definition imageFuncOf (fuel : nat) (s : scene F) (cam : camera) (u v : F) : act (color F) :=
    r <- rayFrom cam u v ;;
    c <- lightField rand2 fuel s All r ;;
    putRay r ;;;
    mret c.
End Cameras.
Arguments camera0 F : clear implicits.
Arguments camera F : clear implicits.
