(** * Renderings in exact arithmetic *)
From Coq Require Import ZArith Reals Bool List Lia Lra.
From Verif Require Import Num NumLaws Outcome GeomModel GeomSpec GeomProofs ColorModel SeqModel SeqSpec HaltonProofs SeqProofs
  SamplerModel SamplerSpec SamplerProofs PoolProofs SamplerNum SamplerFacts ObjModel TreeModel ObjSpec SceneModel SceneSpec SceneProofs CtxProofs
  CamProofs ShadeProofs LookSpec LookProofs SceneFacts SceneMore RenderModel RenderSpec IndepProofs PoolRel RenderProofs.
Import ListNotations.
Local Open Scope R_scope.
(** the sine and cosine of the examples *)
#[local] Existing Instance toyTrig.

Section Real.
  Context {G : Type} {NI : NumInf R}.
  Variable rand2 : G -> (R * R) * G.
  Notation ctx := (ctx R G).

  Lemma image_seen fuel s cam u v (c : ctx) :
    0 < ninf -> (forall o, In o (all_objects s) -> sound_object o) -> sMedia s = nil ->
    unit_camera rand2 cam -> (0 <= sRecursionDepth s)%Z -> (Z.to_nat (sRecursionDepth s) < fuel)%nat ->
    idle_ctx c -> random_ok rand2 (cSeq c) ->
    exists col c', imageFuncOf rand2 fuel s cam u v c = Val (col, c') /\ seen rand2 s cam (cSeq c) u v col.
  Proof.
    intros Hi Ho Hm Hc Hd Hf [Hp H0] Hr.
    destruct (shoots_run rand2 cam u v c Hp) as (r & c1 & E1 & E2). set (q := camRay _ _) in *.
    assert (I1 := rayFrom_inv rand2 cam u v c Hp r c1 E1).
    assert (D1 : cDepth c1 = 0%Z) by (rewrite (inv_depth _ _ _ I1); exact H0).
    destruct (evaluation_meaning rand2 s Hi Ho Hm fuel All r q c1) as (col & c2 & E3 & L & _ & _).
    - lia.
    - rewrite D1, Z.sub_0_r. exact Hf.
    - apply I1.
    - apply (inv_use _ _ _ I1). cbn; auto.
    - rewrite (inv_seq _ _ _ I1). exact Hr.
    - exact E2.
    - apply (Hc u v c q Hp). exists r, c1. auto.
    - exists col. eexists. split.
      + unfold imageFuncOf. unfold mbind at 1. rewrite E1. cbn [obind]. unfold mbind at 1. rewrite E3. cbn [obind].
        unfold mbind, putRay, mret. cbn [obind]. reflexivity.
      + exists c, q. split; [exact Hp|]. split; [exists r, c1; auto|]. rewrite D1, Z.sub_0_r, (inv_seq _ _ _ I1) in L. exact L.
  Qed.

  Lemma total_new s n : more_samples s n (acc_at newMem (0, 0)%Z) = total_acc (first_samples s n).
  Proof. exact (more_samples_R s n). Qed.

  Lemma sample_pos_seq aa (shifts : list (R * R)) w h p k q xy : sample_pos aa shifts w h p k = Val (q, xy) ->
    exists pixel, ctxseq_init (newCtxSeq shifts) pixel k = Val q.
  Proof.
    unfold sample_pos. destruct (indexToCam _ _ _ _) as [[xi yi]| |]; try discriminate. cbn [obind].
    destruct (ctxseq_init _ _ _) as [q'| |] eqn:E; try discriminate. cbn [obind].
    destruct (jitter aa w h q' xi yi) as [xy'| |]; try discriminate. cbn [omap]. intros H. injection H as <- _. eauto.
  Qed.

  (** what the pixels of a rendering are *)
  Lemma render_means fuel s cam aa shifts w h ns m :
    0 < ninf -> (forall o, In o (all_objects s) -> sound_object o) -> sMedia s = nil ->
    unit_camera rand2 cam -> (0 <= sRecursionDepth s)%Z -> (Z.to_nat (sRecursionDepth s) < fuel)%nat ->
    (forall g, 0 <= fst (fst (rand2 g)) <= 1 /\ 0 <= snd (fst (rand2 g)) <= 1) ->
    (0 <= w)%Z -> (0 <= h)%Z -> Z.of_nat (length shifts) = (w * h)%Z ->
    Forall (fun n => 0 <= n)%Z ns -> renderCalls rand2 fuel s cam aa shifts w h ns newMem m ->
    forall p, in_image w h p -> exists col : Z -> color R,
      (forall k, (0 <= k < total ns)%Z -> exists q x y, sample_pos aa shifts w h p k = Val (q, (x, y)) /\ seen rand2 s cam q x y (col k)) /\
      let l := first_samples col (Z.to_nat (total ns)) in
      imagef m p = Color (mean (map cR l)) (mean (map cG l)) (mean (map cB l)).
  Proof.
    intros Hi Ho Hm Hc Hd Hf Hr Hw Hh Hl Hn H p Hp.
    assert (X := renders_result rand2 fuel s cam aa shifts w h Hw Hh (fun p k => sample_pos_R aa shifts w h p k Hl)
      (fun p k c => (0 <= k)%Z -> exists q x y, sample_pos aa shifts w h p k = Val (q, (x, y)) /\ seen rand2 s cam q x y c)).
    specialize (fun HH => X HH ns newMem m Hn H p). rewrite (in_image_b w h p Hp) in X.
    assert (Y := gains_more (F := R) _ _ _ _ (X ltac:(
      intros p0 k q x y c Hp0 E Hic Hk; destruct (sample_pos_seq _ _ _ _ _ _ _ _ E) as (pix & Eq);
      destruct (image_seen fuel s cam x y (withSeq c q) Hi Ho Hm Hc Hd Hf (idle_seq c q Hic) (init_random rand2 shifts pix k q Hr Hk Eq)) as (col & c' & Ei & Hs);
      exists q, x, y; split; [exact E|]; unfold sceneFunc; rewrite Ei; exact Hs))).
    destruct Y as (col & Hcol & E). exists col. split.
    - intros k Hk. apply Hcol; [|lia]. cbn [acc_at newMem aN mN]. lia.
    - cbv zeta. apply imagef_mean. rewrite E. exact (total_new col _).
  Qed.

  Lemma Rsum_bounds M l : (forall x, In x l -> 0 <= x <= M) -> 0 <= Rsum l <= INR (length l) * M.
  Proof.
    induction l as [|x l IH]; intros H; [cbn; lra|]. cbn [Rsum length]. rewrite S_INR.
    assert (A := H x (or_introl eq_refl)). assert (B := IH (fun y Hy => H y (or_intror Hy))). lra.
  Qed.
  Lemma mean_bounds M l : l <> nil -> (forall x, In x l -> 0 <= x <= M) -> 0 <= mean l <= M.
  Proof.
    intros Hn H. assert (B := Rsum_bounds M l H). unfold mean. rewrite <- INR_IZR_INZ.
    assert (0 < INR (length l)) as P by (apply lt_0_INR; destruct l; [congruence|cbn; lia]).
    split.
    - apply Rmult_le_pos; [lra|]. left. now apply Rinv_0_lt_compat.
    - apply (Rmult_le_reg_r (INR (length l))); [exact P|]. unfold Rdiv. rewrite Rmult_assoc, Rinv_l by lra. lra.
  Qed.

  (** every sample within M: so is the image *)
  Lemma render_within M fuel s cam aa shifts w h ns m : 0 <= M ->
    (forall u v (c c' : ctx) col, imageFuncOf rand2 fuel s cam u v c = Val (col, c') -> within M col) ->
    (0 <= w)%Z -> (0 <= h)%Z -> Z.of_nat (length shifts) = (w * h)%Z ->
    Forall (fun n => 0 <= n)%Z ns -> (0 < total ns)%Z -> renderCalls rand2 fuel s cam aa shifts w h ns newMem m ->
    forall p, in_image w h p -> within M (imagef m p).
  Proof.
    intros HM Hs Hw Hh Hl Hn Ht H p Hp.
    assert (X := renders_result rand2 fuel s cam aa shifts w h Hw Hh (fun p k => sample_pos_R aa shifts w h p k Hl) (fun p k c => within M c)).
    specialize (fun HH => X HH ns newMem m Hn H p). rewrite (in_image_b w h p Hp) in X.
    assert (Y := gains_more (F := R) _ _ _ _ (X ltac:(
      intros p0 k q x y c Hp0 E Hic; unfold sceneFunc; destruct (imageFuncOf rand2 fuel s cam x y (withSeq c q)) as [[col c']| |] eqn:Ei;
      [exact (Hs _ _ _ _ _ Ei)| |]; unfold within; cbn [fst black cR cG cB]; rnum; lra))).
    destruct Y as (col & Hcol & E).
    rewrite (imagef_mean m p (first_samples col (Z.to_nat (total ns)))) by (rewrite E; exact (total_new col _)).
    assert (Hall : forall c, In c (first_samples col (Z.to_nat (total ns))) -> within M c).
    { intros c Hin. unfold first_samples in Hin. apply in_map_iff in Hin. destruct Hin as (k & <- & Hk). apply in_seq in Hk. apply Hcol.
      cbn [acc_at newMem aN mN]. lia. }
    assert (Hne : first_samples col (Z.to_nat (total ns)) <> nil).
    { destruct (Z.to_nat (total ns)) eqn:En; [lia|]. discriminate. }
    assert (Hg : forall pr : color R -> R, (forall c, within M c -> 0 <= pr c <= M) -> 0 <= mean (map pr (first_samples col (Z.to_nat (total ns)))) <= M).
    { intros pr Hpr. apply mean_bounds.
      - intros En. apply map_eq_nil in En. auto.
      - intros x Hx. apply in_map_iff in Hx. destruct Hx as (c & <- & Hc). auto. }
    unfold within in *. cbn [cR cG cB]. split; [|split]; apply Hg; intros c Hc; apply Hc.
  Qed.

  Lemma image_energy M fuel s cam : 0 <= M -> sLights s = nil -> (forall m, shown s m -> passive M m) -> (forall m, In m (sMedia s) -> passive_medium M m) ->
    forall u v (c c' : ctx) col, imageFuncOf rand2 fuel s cam u v c = Val (col, c') -> within M col.
  Proof.
    intros HM H1 H2 H3 u v c c' col H. unfold imageFuncOf in H.
    apply mbind_val in H. destruct H as (r & c1 & E1 & H). apply mbind_val in H. destruct H as (b & c2 & E2 & H).
    unfold putRay, mbind, mret in H. cbn [obind] in H. injection H as <- _.
    exact (energy M HM rand2 s H1 H2 H3 fuel All r _ _ _ E2).
  Qed.

  (** ** Cameras with unit rays *)
  Lemma unit_moved cam ms : unit_camera rand2 cam -> unit_camera rand2 (fold_left call ms cam).
  Proof.
    intros H u v c q Hp Hq. set (q0 := camRay cam (ray0 (camOrig cam) (fst (rand2 (cRng c))) u v)).
    assert (S0 := shoots_run rand2 cam u v c Hp). fold q0 in S0.
    assert (S1 := moved_camera rand2 cam ms u v c q0 Hp S0).
    rewrite (shoots_fun rand2 _ u v c _ _ Hq S1). cbn [rDir]. unfold norm2. rewrite turned_dot. exact (H u v c q0 Hp S0).
  Qed.
  Lemma unit_projective fov cam : 0 < fov < PI -> projective fov = Val cam -> unit_camera rand2 cam.
  Proof.
    intros Hf E u v c q Hp Hq. destruct (CamProofs.pinhole rand2 fov Hf) as (cam' & E' & S). rewrite E in E'. injection E' as <-.
    rewrite (shoots_fun rand2 _ u v c _ _ Hq (S u v c Hp)). cbn [rDir]. apply unit_of_norm2'. cbn [vz].
    assert (T := tan_half_pos fov Hf). intros Z. assert (/ (2 * tan (fov / 2)) <> 0) by (apply Rinv_neq_0_compat; lra). lra.
  Qed.
  Lemma unit_lens fov aperture fd cam : (forall g, 0 <= snd (fst (rand2 g)) <= 1) -> 0 < fov < PI -> 0 < aperture -> 0 < fd ->
    projectiveAperture fov aperture fd = Val cam -> unit_camera rand2 cam.
  Proof.
    intros Hr Hf Ha Hfd E u v c q Hp Hq. destruct (lens_focus rand2 fov aperture fd Hr Hf Ha Hfd) as (cam' & E' & S). rewrite E in E'. injection E' as <-.
    destruct (S u v) as (p & _ & S'). destruct (S' c Hp) as (q' & S1 & S2 & _).
    rewrite (shoots_fun rand2 _ u v c _ _ Hq S1). exact S2.
  Qed.
  Lemma unit_environment : unit_camera rand2 environmentMap.
  Proof.
    intros u v c q Hp Hq. rewrite (shoots_fun rand2 _ u v c _ _ Hq (env_ray rand2 u v c Hp)). cbn [rDir].
    unfold norm2, dot3; cbn [vx vy vz]. set (a := 2 * PI * u). set (b := PI * (v - / 2)).
    generalize (sin2_cos2 a) (sin2_cos2 b). unfold Rsqr. intros A B. nra.
  Qed.
  Lemma unit_isometric dir size cam : (0 <= dir <= 2)%Z -> isometric dir size = Val cam -> unit_camera rand2 cam.
  Proof.
    intros Hd E u v c q Hp Hq. destruct (iso_rays rand2 dir size Hd) as (cam' & E' & S). rewrite E in E'. injection E' as <-.
    specialize (S u v c Hp).
    assert (C : (dir = 0 \/ dir = 1 \/ dir = 2)%Z) by lia.
    destruct C as [-> | [-> | ->]]; cbn [iso_frame] in S; rewrite (shoots_fun rand2 _ u v c _ _ Hq S); cbn [rDir];
      unfold norm2, dot3, scal3; cbn [vx vy vz]; lra.
  Qed.
End Real.

(** ** C79: a scene of recursion depth 3 *)
Lemma renderSeq_call {F G} `{NF : Num F} `{NI : NumInf F} `{TF : Trig F} (rand2 : G -> (F * F) * G) fuel s cam aa shifts g w h nPass m m' :
  sampleSeq (sceneFunc rand2 fuel s cam) aa shifts (freshCtx shifts g) w h nPass m = Val m' ->
  renderCall rand2 fuel s cam aa shifts w h nPass m m'.
Proof.
  unfold sampleSeq. destruct (tessellate w h 16) as [q| |] eqn:E; cbn [obind]; try discriminate. intros HR.
  destruct (runTiles_steps _ _ _ _ _ _ _ _ _ HR) as (k & Hs).
  apply (renderCall_intro rand2 fuel s cam aa shifts w h nPass m m' q [g] k (Sys nil [Done] m') E); [discriminate|exact Hs|repeat constructor|reflexivity].
Qed.
(** a matte ball behind a clear ball, lit by a rectangle light *)
Definition litScene : outcome (scene b64) :=
  omap (fun l => newScene 3 nil [l] [toyBall (MTransparent (fun _ => Val (Color (nofZ 1) (nofZ 1) (nofZ 1)))) 5; toyBall (MMatte (fun _ => Val grey)) (-5)])
    (rectangleLight to32b (fun _ l => l) grey (nofZ 2) (nofZ 2) (Vec (nofZ 0) (nofZ 1) (nofZ 0))).
Definition frontCam : camera b64 := WithTransform (CIsometric (nofZ 1)) vO unitMatrix.
Definition stuck (g : b64 * b64) : (b64 * b64) * (b64 * b64) := (g, g).
Definition dark : list (b64 * b64) := [(nofZ 0, nofZ 0)].
Definition litRender (s : scene b64) (x : b64) : outcome (mem b64) :=
  sampleSeq (sceneFunc stuck 5 s frontCam) false dark (freshCtx dark (x, x)) 1 1 1 newMem.
Lemma deep_scenes_differ : exists s m1 m2, litScene = Val s /\
  renderCall stuck 5 s frontCam false dark 1 1 1 newMem m1 /\
  renderCall stuck 5 s frontCam false dark 1 1 1 newMem m2 /\
  nltb (nofZ 0) (cR (imagef m1 (0, 0)%Z)) = true /\ nltb (cR (imagef m1 (0, 0)%Z)) (cR (imagef m2 (0, 0)%Z)) = true.
Proof.
  assert (match litScene with Val s =>
            match litRender s (nQ 1 2), litRender s (nQ 1 4) with
            | Val m1, Val m2 => nltb (nofZ 0) (cR (imagef m1 (0, 0)%Z)) && nltb (cR (imagef m1 (0, 0)%Z)) (cR (imagef m2 (0, 0)%Z))
            | _, _ => false end | _ => false end = true) as E by (vm_compute; reflexivity).
  destruct litScene as [s| |]; try discriminate.
  destruct (litRender s (nQ 1 2)) as [m1| |] eqn:E1; try discriminate.
  destruct (litRender s (nQ 1 4)) as [m2| |] eqn:E2; try discriminate.
  apply andb_true_iff in E. exists s, m1, m2. split; [reflexivity|].
  split; [exact (renderSeq_call stuck 5 s frontCam false dark _ 1 1 1 newMem m1 E1)|].
  split; [exact (renderSeq_call stuck 5 s frontCam false dark _ 1 1 1 newMem m2 E2)|exact E].
Qed.

(** ** Summaries *)
Lemma sample_pure {F G} {NF : Num F} {NI : NumInf F} {TF : Trig F} (rand2 : G -> (F * F) * G) fuel (s : scene F) (cam : camera F) u v (c1 c2 : ctx F G) :
  idle_ctx c1 -> idle_ctx c2 -> same_numbers (cSeq c1) (cSeq c2) -> cRng c1 = cRng c2 ->
  same_result (imageFuncOf rand2 fuel s cam u v c1) (imageFuncOf rand2 fuel s cam u v c2) /\
  (forall x1 d1 x2 d2, imageFuncOf rand2 fuel s cam u v c1 = Val (x1, d1) -> imageFuncOf rand2 fuel s cam u v c2 = Val (x2, d2) ->
    cRng d1 = cRng d2 /\ idle_ctx d1).
Proof.
  intros H1 H2 E R. split; [now apply sample_same|]. intros x1 d1 x2 d2 E1 E2. split.
  - exact (sample_same_rng rand2 fuel s cam u v c1 c2 d1 d2 x1 x2 H1 H2 E R E1 E2).
  - exact (sample_idle rand2 fuel s cam u v c1 d1 x1 H1 E1).
Qed.

Lemma scene_schedules {F G} {NF : Num F} {NI : NumInf F} {TF : Trig F} (rand2 : G -> (F * F) * G) fuel (s : scene F) (cam : camera F) aa shifts w h :
  (0 <= w)%Z -> (0 <= h)%Z -> (forall p k, in_image w h p -> exists c xy, sample_pos aa shifts w h p k = Val (c, xy)) ->
  forall n m (rngs : list G) q, rngs <> nil -> tessellate w h 16 = Val q ->
  exists bound, forall k st, steps (sceneFunc rand2 fuel s cam) aa w h n k (initSys shifts (map (freshCtx shifts) rngs) q m) st ->
    (k <= bound)%nat /\
    (forall ws1 x ws2 y ws3 p, sWorkers st = ws1 ++ x :: ws2 ++ y :: ws3 -> pending x = Some p -> pending y <> Some p) /\
    (forall x p, In x (sWorkers st) -> pending x = Some p -> in_image w h p) /\
    (forall x, In x (sWorkers st) -> ~ crashed x) /\
    ((forall st', ~ step (sceneFunc rand2 fuel s cam) aa w h n st st') -> finished st) /\
    (finished st -> sQueue st = nil /\ forall p,
      if in_imageb w h p then aN (acc_at (sMem st) p) = (aN (acc_at m p) + Z.of_nat n)%Z else acc_at (sMem st) p = acc_at m p).
Proof.
  intros Hw Hh Hpos n m rngs q Hg E.
  destruct (render_schedules rand2 fuel s cam aa shifts w h Hw Hh Hpos (fun _ _ _ => True) (fun _ _ _ _ _ _ _ _ _ => I) n m rngs q Hg E) as (B & HB).
  exists B. intros k st Hst. destruct (HB k st Hst) as (A1 & A2 & A3 & A4 & A5 & A6). repeat (split; [assumption|]).
  intros Hfin. destruct (A6 Hfin) as [Q P]. split; [exact Q|]. intros p. specialize (P p).
  destruct (in_imageb w h p); [exact (gains_N _ _ _ _ P)|exact P].
Qed.

Lemma unit_cameras {G} {NI : NumInf R} (rand2 : G -> (R * R) * G) :
  (forall fov cam, 0 < fov < PI -> projective fov = Val cam -> unit_camera rand2 cam) /\
  (forall fov aperture fd cam, (forall g, 0 <= snd (fst (rand2 g)) <= 1) -> 0 < fov < PI -> 0 < aperture -> 0 < fd ->
    projectiveAperture fov aperture fd = Val cam -> unit_camera rand2 cam) /\
  unit_camera rand2 environmentMap /\
  (forall dir size cam, (0 <= dir <= 2)%Z -> isometric dir size = Val cam -> unit_camera rand2 cam) /\
  (forall cam ms, unit_camera rand2 cam -> unit_camera rand2 (fold_left call ms cam)).
Proof.
  split; [exact (unit_projective rand2)|]. split; [exact (unit_lens rand2)|]. split; [exact (unit_environment rand2)|].
  split; [exact (unit_isometric rand2)|exact (unit_moved rand2)].
Qed.

Lemma render_energy (M : R) {G} {NI : NumInf R} (rand2 : G -> (R * R) * G) fuel (s : scene R) (cam : camera R) aa shifts w h ns m :
  0 <= M -> sLights s = nil -> (forall mat, shown s mat -> passive M mat) -> (forall med, In med (sMedia s) -> passive_medium M med) ->
  (0 <= w)%Z -> (0 <= h)%Z -> Z.of_nat (length shifts) = (w * h)%Z ->
  Forall (fun n => 0 <= n)%Z ns -> (0 < total ns)%Z -> renderCalls rand2 fuel s cam aa shifts w h ns newMem m ->
  forall p, in_image w h p -> within M (imagef m p).
Proof.
  intros HM H1 H2 H3. exact (render_within rand2 M fuel s cam aa shifts w h ns m HM (image_energy rand2 M fuel s cam HM H1 H2 H3)).
Qed.

Lemma even_light {G} {NI : NumInf R} (rand2 : G -> (R * R) * G) sq c q col : 10 ^ 99 <= ninf ->
  light_at rand2 (newScene 1 nil nil [backdrop (Some (MFlat (fun _ => Val c)))]) sq 1 All q col -> col = c.
Proof.
  intros Hn (hits & Hh & H). cbn [whoObjects newScene sObjectsAndLights app map] in Hh.
  inversion Hh as [|? h ? hs H1 H2]; subst. inversion H2; subst. clear H2 Hh. unfold backdrop, simpleObj in H1. cbn [oIntersect] in H1. injection H1 as <-.
  destruct H as [[Hfar _]|(h & m & Hl & _ & Hm & Hk)].
  - exfalso. assert (T : (IZR (10 ^ 99) = 10 ^ 99)%R) by (change 99%Z with (Z.of_nat 99); rewrite <- pow_IZR; reflexivity).
    assert (Hfar' : 0 < IZR (10 ^ 99) -> ninf < IZR (10 ^ 99)) by exact (Hfar _ (or_introl eq_refl)). rewrite T in Hfar'.
    assert (P : 0 < 10 ^ 99) by (apply pow_lt; lra). specialize (Hfar' P). lra.
  - destruct (last_nearest_in _ _ Hl) as [[<-|[]] _]. cbn [hMat] in Hm. injection Hm as <-.
    inversion Hk; subst. congruence.
Qed.
Lemma mean_const (x : R) l : l <> nil -> (forall y, In y l -> y = x) -> mean l = x.
Proof.
  intros Hn H. assert (S : Rsum l = INR (length l) * x).
  { clear Hn. induction l as [|y l IH]; [cbn; lra|]. cbn [Rsum length]. rewrite S_INR, (IH (fun z Hz => H z (or_intror Hz))), (H y (or_introl eq_refl)). lra. }
  unfold mean. rewrite <- INR_IZR_INZ, S. assert (0 < INR (length l)) by (apply lt_0_INR; destruct l; [congruence|cbn; lia]).
  field. lra.
Qed.
Lemma even_world (NI : NumInf R) (rand2 : unit -> (R * R) * unit) cam aa shifts w h n m :
  10 ^ 99 <= ninf -> unit_camera rand2 cam ->
  (forall g, 0 <= fst (fst (rand2 g)) <= 1 /\ 0 <= snd (fst (rand2 g)) <= 1) ->
  (0 <= w)%Z -> (0 <= h)%Z -> Z.of_nat (length shifts) = (w * h)%Z -> (0 < n)%Z ->
  renderCalls rand2 2 (newScene 1 nil nil [backdrop (Some (MFlat (fun _ => Val (Color 1 0 (/ 2)))))]) cam aa shifts w h [n] newMem m ->
  forall p, in_image w h p -> imagef m p = Color 1 0 (/ 2).
Proof.
  intros Hi Hc Hr Hw Hh Hl Hn H p Hp.
  destruct (render_means rand2 2 (newScene 1 nil nil [backdrop (Some (MFlat (fun _ => Val (Color 1 0 (/ 2)))))]) cam aa shifts w h [n] m) with (p := p) as (col & Hcol & E); auto.
  - assert (0 < 10 ^ 99) by (apply pow_lt; lra). lra.
  - intros o Ho. cbn in Ho. repeat destruct Ho as [<-|Ho]; try (destruct Ho; fail);
      apply (proj1 (sound_balls NI)); intros q; exists (Color 1 0 (/ 2)); reflexivity.
  - cbn; lia.
  - repeat constructor; lia.
  - cbn [total fold_right] in *. rewrite Z.add_0_r in *. cbv zeta in E. rewrite E.
    assert (Hall : forall c, In c (first_samples col (Z.to_nat n)) -> c = Color 1 0 (/ 2)).
    { intros c Hin. unfold first_samples in Hin. apply in_map_iff in Hin. destruct Hin as (k & <- & Hk). apply in_seq in Hk.
      destruct (Hcol (Z.of_nat k) ltac:(lia)) as (q & x & y & _ & (c0 & r & _ & _ & L)). exact (even_light rand2 _ _ r _ Hi L). }
    assert (Hne : first_samples col (Z.to_nat n) <> nil) by (destruct (Z.to_nat n) eqn:En; [lia|discriminate]).
    f_equal; apply mean_const; try (intros En; apply map_eq_nil in En; auto); intros y Hy; apply in_map_iff in Hy; destruct Hy as (c & <- & Hc'); rewrite (Hall c Hc'); reflexivity.
Qed.

Lemma quadric_material {M} (d : quadricData R M) q h q' m : oIntersect (quadric d) q = Val (h, q') -> hMat h = Some m -> qMat d = Some m.
Proof.
  unfold quadric, simpleObj. cbn [oIntersect omap]. intros H Hm. injection H as <- _. revert Hm. unfold quadricIntersect.
  destruct (quadricABC d q) as [[A B] C]. destruct (_ <? _)%num; [discriminate|].
  destruct (if (_ <? _)%num then _ else _) as [t1 t2].
  destruct (_ && _)%bool; [exact (fun E => E)|]. destruct (_ && _)%bool; [exact (fun E => E)|discriminate].
Qed.
Definition whiteRoom {NI : NumInf R} : scene R := newScene 8 nil nil
  [sphere (Some (MBlend (/ 2) (MReflective (Color 1 1 1)) (/ 2) (MMatte (fun _ => Val (Color (/ 2) (/ 2) (/ 2)))))) 2 zero3;
   backdrop (Some (MFlat (fun _ => Val (Color 1 1 1))))].
Lemma whiteRoom_passive {NI : NumInf R} m : shown whiteRoom m -> passive 1 m.
Proof.
  intros (o & q & h & q' & Ho & Hi & Hm).
  assert (P : passive 1 (MBlend (/ 2) (MReflective (Color 1 1 1)) (/ 2) (MMatte (fun _ => Val (Color (/ 2) (/ 2) (/ 2))))) /\
              passive 1 (MFlat (fun _ => Val (Color 1 1 1)))).
  { cbn [passive]. unfold texture_within, within. cbn [cR cG cB].
    repeat split; try lra; intros; try (match goal with H : Val _ = Val _ |- _ => injection H as <- end); cbn [cR cG cB]; lra. }
  destruct P as [P1 P2].
  assert (D : qMat (sphereData (Some (MBlend (/ 2) (MReflective (Color 1 1 1)) (/ 2) (MMatte (fun _ => Val (Color (/ 2) (/ 2) (/ 2)))))) 2 zero3) =
              Some (MBlend (/ 2) (MReflective (Color 1 1 1)) (/ 2) (MMatte (fun _ => Val (Color (/ 2) (/ 2) (/ 2)))))) by reflexivity.
  unfold whiteRoom, newScene, all_objects in Ho. cbn [sObjects sObjectsAndLights sObjectsMinusLights map app] in Ho. cbn [In] in Ho.
  repeat destruct Ho as [<-|Ho]; try (destruct Ho; fail).
  all: try (apply (fun E => quadric_material _ _ _ _ _ E Hm) in Hi; rewrite D in Hi; injection Hi as <-; exact P1).
  all: unfold backdrop, simpleObj in Hi; cbn [oIntersect omap] in Hi; injection Hi as <- _; cbn [hMat] in Hm; injection Hm as <-; exact P2.
Qed.
