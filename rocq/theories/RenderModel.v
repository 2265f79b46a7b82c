(** * Model of rendering a scene: Scene.ImageFunc sampled by a Sampler

    Puts together tracer/scene.go:62-69 ([imageFuncOf]) and tracer/sampler.go ([sampleCall]). A worker's generator
    state in SamplerModel.v is here its whole context, apart from the sequences that the sampler sets. *)
From Coq Require Import ZArith Reals Bool List.
From Verif Require Import Num Outcome GeomModel ColorModel SeqModel ObjModel SamplerModel SceneModel.
Import ListNotations.

Section Render.
  Context {F G : Type} `{NF : Num F} `{NI : NumInf F} `{TF : Trig F}.
  Variable rand2 : G -> (F * F) * G.

  (** tracer/ctx.go:45-64; [g]: the time-seeded state of sequence3 *)
  Definition freshCtx (shifts : list (F * F)) (g : G) : ctx F G := Ctx 0 (newCtxSeq shifts) g nil nil 0.
  Definition withSeq (c : ctx F G) (q : ctxseq F) : ctx F G := Ctx (cDepth c) q (cRng c) (cPool c) (cHeap c) (cNumRays c).

  (** s.f(ctx, x, y) of tracer/sampler.go:99. In Go a panic ends the program; here it gives black. *)
  Definition sceneFunc (fuel : nat) (s : scene F) (cam : camera F) : imageFunc F (ctx F G) :=
    fun q c u v => match imageFuncOf rand2 fuel s cam u v (withSeq c q) with
                   | Val (col, c') => (col, c')
                   | _ => (black, c)
                   end.

  (** tracer/sampler.go:44-71: [rngs] are the generators of the runtime.NumCPU() workers *)
  Inductive renderCall (fuel : nat) (s : scene F) (cam : camera F) (aa : bool) (shifts : list (F * F)) (w h : Z) (nPass : Z) (m m' : mem F) : Prop :=
  | renderCall_intro q rngs k st :
      tessellate w h 16 = Val q -> rngs <> nil ->
      steps (sceneFunc fuel s cam) aa w h (Z.to_nat nPass) k (initSys shifts (map (freshCtx shifts) rngs) q m) st ->
      finished st -> sMem st = m' -> renderCall fuel s cam aa shifts w h nPass m m'.
  (** calls of Sample one after the other *)
  Inductive renderCalls (fuel : nat) (s : scene F) (cam : camera F) (aa : bool) (shifts : list (F * F)) (w h : Z) : list Z -> mem F -> mem F -> Prop :=
  | render_nil m : renderCalls fuel s cam aa shifts w h nil m m
  | render_cons n ns m1 m2 m3 : renderCall fuel s cam aa shifts w h n m1 m2 ->
      renderCalls fuel s cam aa shifts w h ns m2 m3 -> renderCalls fuel s cam aa shifts w h (n :: ns) m1 m3.
End Render.
