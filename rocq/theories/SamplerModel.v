(** * Model of tracer/sampler.go

    The goroutines of SampleWithCancel are modelled as threads that take tiles from a
    closed channel and execute, interleaved at the granularity of single loads and
    stores of accumulator fields, the code of sampleTile/samplePixel. *)
From Coq Require Import ZArith Reals Bool List.
From Verif Require Import Num Outcome ColorModel SeqModel.
Import ListNotations.

(** ** Tiles (integers) *)
Section Tiles.
  Local Open Scope Z_scope.

  (** tracer/sampler.go:130-132; Go's integer division truncates *)
  Definition divUp (x y : Z) : Z := Z.quot (x - 1) y + 1.
  (** tracer/sampler.go:139-144 *)
  Definition zmin (a b : Z) : Z := if a <? b then a else b.

  (** tracer/sampler.go:134-137 *)
  Record tile : Type := Tile { tx0 : Z; ty0 : Z; tx1 : Z; ty1 : Z }.

  (** the values of x in [for x := x0; x < lim; x += step] *)
  Fixpoint loop_values (fuel : nat) (x lim step : Z) : outcome (list Z) :=
    match fuel with
    | O => NoFuel
    | S n => if x <? lim then omap (cons x) (loop_values n (x + step) lim step) else Val nil
    end.

  Definition loop_fuel (lim : Z) : nat := S (Z.to_nat lim).

  (** Sending on a buffered channel that nobody receives from yet blocks forever when
      the buffer is full; this is reported as [NoFuel] (never returns). *)
  Fixpoint sendAll (cap : Z) (queue : list tile) (ts : list tile) : outcome (list tile) :=
    match ts with
    | nil => Val queue
    | t :: rest =>
      if Z.of_nat (length queue) <? cap then sendAll cap (queue ++ [t]) rest else NoFuel
    end.

  (** tracer/sampler.go:113-127: contents of the channel. Division by zero and a negative
      channel size panic. *)
  Definition tessellate (w h tileSize : Z) : outcome (list tile) :=
    if tileSize =? 0 then Panic else
    let tilesN := divUp w tileSize * divUp h tileSize in
    if tilesN <? 0 then Panic else
    obind (loop_values (loop_fuel w) 0 w tileSize) (fun xs =>
    obind (loop_values (loop_fuel h) 0 h tileSize) (fun ys =>
    sendAll tilesN nil
      (flat_map (fun x0 => map (fun y0 =>
         Tile x0 y0 (zmin (x0 + tileSize) w) (zmin (y0 + tileSize) h)) ys) xs))).
End Tiles.

(** ** Pixel coordinates *)
Section Cam.
  Context {F : Type} `{NF : Num F}.
  Local Open Scope num_scope.

  (** tracer/sampler.go:259-261 *)
  Definition linterp (x1 y1 x2 y2 x : F) : F := y1 + (y2 - y1) * (x - x1) / (x2 - x1).

  (** tracer/sampler.go:241-253 *)
  Definition indexToCam (w h : Z) (ix iy : F) : outcome (F * F) :=
    let W := #w in
    let H := #h in
    if ((ix <? - nhalf) || (iy <? - nhalf) || (ix >? W - nhalf) || (iy >? H - nhalf))%bool then Panic
    else
      Val (linterp (- nhalf) #0 (W - nhalf) #1 ix,
           linterp (- nhalf) (nhalf + nhalf * (H / W)) (H - nhalf) (nhalf - nhalf * (H / W)) iy).

  (** tracer/sampler.go:160-164; math.Min of two converted integers (never NaN, and
      for equal arguments both are the same) *)
  Definition pixelSize (w h : Z) : F :=
    let wf := #w in
    let hf := #h in
    #1 / (if wf <? hf then wf else hf).
End Cam.

(** ** Sampling *)
Definition pixel : Type := (Z * Z)%type.   (* (ix, iy) *)
Inductive field := SumR | SumG | SumB | SqR | SqG | SqB.

(** tracer/sampler.go:22-32: the accumulators sum, sumSq and n. That distinct pixels are
    distinct memory is C62. *)
Record mem (F : Type) : Type := Mem { mN : pixel -> Z; mF : pixel -> field -> F }.
Arguments Mem {F} _ _.
Arguments mN {F} _ _.
Arguments mF {F} _ _ _.

Definition pix_eqb (p q : pixel) : bool := (Z.eqb (fst p) (fst q) && Z.eqb (snd p) (snd q))%bool.
Definition field_eqb (a b : field) : bool :=
  match a, b with
  | SumR, SumR | SumG, SumG | SumB, SumB | SqR, SqR | SqG, SqG | SqB, SqB => true
  | _, _ => false
  end.
Definition storeN {F} (m : mem F) (p : pixel) (v : Z) : mem F :=
  Mem (fun q => if pix_eqb p q then v else mN m q) (mF m).
Definition storeF {F} (m : mem F) (p : pixel) (a : field) (v : F) : mem F :=
  Mem (mN m) (fun q b => if (pix_eqb p q && field_eqb a b)%bool then v else mF m q b).

(** Code of a thread, as a tree of single memory accesses. *)
Inductive prog (F A : Type) : Type :=
| Ret (a : A)
| LoadN (p : pixel) (k : Z -> prog F A)
| StoreN (p : pixel) (v : Z) (k : prog F A)
| LoadF (p : pixel) (a : field) (k : F -> prog F A)
| StoreF (p : pixel) (a : field) (v : F) (k : prog F A)
| Crash.
Arguments Ret {F A} _.
Arguments LoadN {F A} _ _.
Arguments StoreN {F A} _ _ _.
Arguments LoadF {F A} _ _ _.
Arguments StoreF {F A} _ _ _ _.
Arguments Crash {F A}.

Fixpoint pbind {F A B} (x : prog F A) (f : A -> prog F B) : prog F B :=
  match x with
  | Ret a => f a
  | LoadN p k => LoadN p (fun v => pbind (k v) f)
  | StoreN p v k => StoreN p v (pbind k f)
  | LoadF p a k => LoadF p a (fun v => pbind (k v) f)
  | StoreF p a v k => StoreF p a v (pbind k f)
  | Crash => Crash
  end.

Definition plift {F A B} (x : outcome A) (f : A -> prog F B) : prog F B :=
  match x with Val a => f a | _ => Crash end.

Section Sampler.
  Context {F : Type} `{NF : Num F}.
  (** state of the time-seeded pseudo-random generator of a context (ctx.go:51) *)
  Context {G : Type}.
  Local Open Scope num_scope.

  (** tracer/scene.go:71 ImageFunc: gets the context (its sequences and generator) and u, v *)
  Definition imageFunc : Type := ctxseq F -> G -> F -> F -> color F * G.

  (** what a worker owns: its own context, tracer/sampler.go:61 *)
  Definition local : Type := (ctxseq F * G)%type.

  (** tracer/sampler.go:91-97: sub-pixel position *)
  Definition jitter (aa : bool) (w h : Z) (c : ctxseq F) (xi yi : F) : outcome (F * F) :=
    if aa then
      omap (fun '(u, v) => (xi + pixelSize w h * (u - nhalf), yi + pixelSize w h * (v - nhalf)))
           (hseq_generate2 (cs_AA c))
    else Val (xi, yi).

  (** tracer/sampler.go:101-104 *)
  Definition accumulate (p : pixel) (c : color F) {A} (k : prog F A) : prog F A :=
    LoadF p SumR (fun r => LoadF p SumG (fun g => LoadF p SumB (fun b =>
    let s := cladd (Color r g b) c in
    StoreF p SumR (cR s) (StoreF p SumG (cG s) (StoreF p SumB (cB s) (
    LoadF p SqR (fun r => StoreF p SqR (r + cR c * cR c) (
    LoadF p SqG (fun g => StoreF p SqG (g + cG c * cG c) (
    LoadF p SqB (fun b => StoreF p SqB (b + cB c * cB c) k))))))))))).

  (** tracer/sampler.go:86-106: the pass loop of samplePixel *)
  Fixpoint samplePasses (f : imageFunc) (aa : bool) (w h : Z) (p : pixel) (xi yi : F) (n : nat) (l : local) : prog F local :=
    match n with
    | O => Ret l
    | S n =>
      let pixNum := Z.to_nat (w * snd p + fst p)%Z in
      LoadN p (fun n0 =>
      plift (ctxseq_init (fst l) pixNum n0) (fun c =>
      LoadN p (fun n1 => StoreN p (n1 + 1)%Z (
      plift (jitter aa w h c xi yi) (fun '(x, y) =>
      let '(col, g) := f c (snd l) x y in
      let next := samplePasses f aa w h p xi yi n (c, g) in
      if clisnan col then next else accumulate p col next)))))
    end.

  (** tracer/sampler.go:81-107; negative n means no passes (Z.to_nat) *)
  Definition samplePixel (f : imageFunc) (aa : bool) (w h : Z) (n : nat) (p : pixel) (l : local) : prog F local :=
    plift (indexToCam w h #(fst p) #(snd p)) (fun '(xi, yi) =>
    samplePasses f aa w h p xi yi n l).

  (** pixels of a tile in the order of tracer/sampler.go:74-75 *)
  Definition zrange (a b : Z) : list Z := map (fun i => (a + Z.of_nat i)%Z) (seq 0 (Z.to_nat (b - a))).
  Definition tilePixels (t : tile) : list pixel :=
    flat_map (fun iy => map (fun ix => (ix, iy)) (zrange (tx0 t) (tx1 t))) (zrange (ty0 t) (ty1 t)).

  (** tracer/sampler.go:73-79 *)
  Fixpoint samplePixels (f : imageFunc) (aa : bool) (w h : Z) (n : nat) (ps : list pixel) (l : local) : prog F local :=
    match ps with
    | nil => Ret l
    | p :: ps => pbind (samplePixel f aa w h n p l) (samplePixels f aa w h n ps)
    end.
  Definition sampleTile (f : imageFunc) (aa : bool) (w h : Z) (n : nat) (t : tile) (l : local) : prog F local :=
    samplePixels f aa w h n (tilePixels t) l.

  (** ** The worker pool, tracer/sampler.go:54-67 *)
  Inductive worker : Type :=
  | Idle (l : local)                        (* about to receive from the channel *)
  | Busy (t : tile) (c : prog F local)      (* inside sampleTile *)
  | Done.                                   (* has called wg.Done *)

  Record sys : Type := Sys { sQueue : list tile; sWorkers : list worker; sMem : mem F }.

  Inductive wstep (f : imageFunc) (aa : bool) (w h : Z) (n : nat) :
      list tile -> worker -> mem F -> list tile -> worker -> mem F -> Prop :=
  | w_take t q l m : wstep f aa w h n (t :: q) (Idle l) m q (Busy t (sampleTile f aa w h n t l)) m
  | w_done l m : wstep f aa w h n nil (Idle l) m nil Done m
  | w_ret q t l m : wstep f aa w h n q (Busy t (Ret l)) m q (Idle l) m
  | w_loadN q t p k m : wstep f aa w h n q (Busy t (LoadN p k)) m q (Busy t (k (mN m p))) m
  | w_storeN q t p v k m : wstep f aa w h n q (Busy t (StoreN p v k)) m q (Busy t k) (storeN m p v)
  | w_loadF q t p a k m : wstep f aa w h n q (Busy t (LoadF p a k)) m q (Busy t (k (mF m p a))) m
  | w_storeF q t p a v k m : wstep f aa w h n q (Busy t (StoreF p a v k)) m q (Busy t k) (storeF m p a v).

  (** some worker makes a step *)
  Inductive step (f : imageFunc) (aa : bool) (w h : Z) (n : nat) : sys -> sys -> Prop :=
  | step_worker q q' m m' x x' ws1 ws2 :
      wstep f aa w h n q x m q' x' m' ->
      step f aa w h n (Sys q (ws1 ++ x :: ws2) m) (Sys q' (ws1 ++ x' :: ws2) m').

  Inductive steps (f : imageFunc) (aa : bool) (w h : Z) (n : nat) : nat -> sys -> sys -> Prop :=
  | steps_0 s : steps f aa w h n 0 s s
  | steps_S k s1 s2 s3 : step f aa w h n s1 s2 -> steps f aa w h n k s2 s3 -> steps f aa w h n (S k) s1 s3.

  (** all workers start idle with a fresh context; [gs] are their generator states *)
  Definition initSys (shifts : list (F * F)) (gs : list G) (q : list tile) (m : mem F) : sys :=
    Sys q (map (fun g => Idle (newCtxSeq shifts, g)) gs) m.

  (** wg.Wait returns: tracer/sampler.go:67 *)
  Definition finished (s : sys) : Prop := Forall (fun x => x = Done) (sWorkers s).

  (** One complete call of Sample(nPass) by some schedule: tracer/sampler.go:44-71.
      The shifts are the same in every call (fixed seed, ctx.go:46). *)
  Inductive sampleCall (f : imageFunc) (aa : bool) (shifts : list (F * F)) (w h : Z) (nPass : Z) (m m' : mem F) : Prop :=
  | sampleCall_intro q gs k s :
      tessellate w h 16 = Val q -> gs <> nil ->
      steps f aa w h (Z.to_nat nPass) k (initSys shifts gs q m) s ->
      finished s -> sMem s = m' -> sampleCall f aa shifts w h nPass m m'.

  (** tracer/sampler.go:34-42: accumulators of a new sampler *)
  Definition newMem : mem F := Mem (fun _ => 0%Z) (fun _ _ => #0).

  (** tracer/sampler.go:199-201 *)
  Definition imagef (m : mem F) (p : pixel) : color F :=
    clmul (Color (mF m p SumR) (mF m p SumG) (mF m p SumB)) (#1 / #(mN m p)).

  (** tracer/sampler.go:211-221 *)
  Definition variancef (m : mem F) (p : pixel) : color F :=
    let n := #(mN m p) in
    let d := #1 / (n * (n - #1)) in
    let sqr x := x * x in
    Color ((n * mF m p SqR - sqr (mF m p SumR)) * d)
          ((n * mF m p SqG - sqr (mF m p SumG)) * d)
          ((n * mF m p SqB - sqr (mF m p SumB)) * d).

  (** tracer/sampler.go:203-209 *)
  Definition stddevf (m : mem F) (p : pixel) : color F :=
    let v := variancef m p in Color (nsqrt (cR v)) (nsqrt (cG v)) (nsqrt (cB v)).

  (** The schedule with a single worker, executable. *)
  Fixpoint run {A} (c : prog F A) (m : mem F) : outcome (A * mem F) :=
    match c with
    | Ret a => Val (a, m)
    | LoadN p k => run (k (mN m p)) m
    | StoreN p v k => run k (storeN m p v)
    | LoadF p a k => run (k (mF m p a)) m
    | StoreF p a v k => run k (storeF m p a v)
    | Crash => Panic
    end.
  Fixpoint runTiles (f : imageFunc) (aa : bool) (w h : Z) (n : nat) (ts : list tile) (l : local) (m : mem F) : outcome (mem F) :=
    match ts with
    | nil => Val m
    | t :: ts => obind (run (sampleTile f aa w h n t l) m) (fun '(l, m) => runTiles f aa w h n ts l m)
    end.
  Definition sampleSeq (f : imageFunc) (aa : bool) (shifts : list (F * F)) (g : G) (w h nPass : Z) (m : mem F) : outcome (mem F) :=
    obind (tessellate w h 16) (fun q => runTiles f aa w h (Z.to_nat nPass) q (newCtxSeq shifts, g) m).
End Sampler.
Arguments imageFunc F G : clear implicits.
Arguments local F G : clear implicits.
Arguments worker F G : clear implicits.
Arguments sys F G : clear implicits.
