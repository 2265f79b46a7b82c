(** * Rendering a scene: combining the scene, the camera and the worker pool *)
From Coq Require Import ZArith Reals Bool List Lia Lra Permutation.
From Verif Require Import Num NumLaws Outcome GeomModel GeomSpec GeomProofs ColorModel SeqModel SeqSpec HaltonProofs SeqProofs
  SamplerModel SamplerSpec SamplerProofs PoolProofs SamplerNum ObjModel TreeModel ObjSpec SceneModel SceneSpec SceneProofs CtxProofs
  CamProofs LookSpec LookProofs SceneFacts SceneMore RenderModel RenderSpec IndepProofs PoolRel.
Import ListNotations.

(** ** Gains *)
Section Gains.
  Context {F : Type} `{NF : Num F}.
  Lemma more_samples_later (s s' : Z -> color F) n : forall a, (forall k, (aN a <= k)%Z -> s k = s' k) -> more_samples s n a = more_samples s' n a.
  Proof.
    induction n as [|n IH]; intros a H; [reflexivity|]. cbn [more_samples]. rewrite <- (H (aN a)) by lia.
    apply IH. intros k Hk. apply H. unfold add_sample in Hk. cbn [aN] in Hk. lia.
  Qed.
  Lemma gains_more (S : Z -> color F -> Prop) n a b : gains S n a b ->
    exists s, (forall k, (aN a <= k < aN a + Z.of_nat n)%Z -> S k (s k)) /\ b = more_samples s n a.
  Proof.
    induction 1 as [a|n a c b Hc _ (s & Hs & ->)].
    - exists (fun _ => black). split; [intros; lia|reflexivity].
    - exists (fun k => if (k =? aN a)%Z then c else s k). split.
      + intros k Hk. destruct (Z.eqb_spec k (aN a)) as [->|Hne]; [exact Hc|]. apply Hs. unfold add_sample; cbn [aN]. lia.
      + cbn [more_samples]. rewrite Z.eqb_refl. apply more_samples_later. intros k Hk. unfold add_sample in Hk; cbn [aN] in Hk.
        destruct (Z.eqb_spec k (aN a)); [lia|reflexivity].
  Qed.
  Lemma gains_mono (S S' : Z -> color F -> Prop) n a b : (forall k c, S k c -> S' k c) -> gains S n a b -> gains S' n a b.
  Proof. intros H. induction 1; econstructor; eauto. Qed.
  Lemma gains_plus (S : Z -> color F -> Prop) n a b : gains S n a b -> forall k c, gains S k b c -> gains S (n + k) a c.
  Proof. induction 1; intros k d Hd; cbn [Nat.add]; [exact Hd|]. econstructor; eauto. Qed.
  Lemma gains_fun (s : Z -> color F) n a b : gains (fun k c => c = s k) n a b -> b = more_samples s n a.
  Proof. induction 1 as [a|n a c b -> _ ->]; reflexivity. Qed.
  Lemma gains_N (S : Z -> color F -> Prop) n a b : gains S n a b -> aN b = (aN a + Z.of_nat n)%Z.
  Proof. induction 1 as [a|n a c b _ _ ->]; [lia|]. unfold add_sample; cbn [aN]. lia. Qed.
End Gains.

Lemma total_pos ns : Forall (fun n => 0 <= n)%Z ns -> (0 <= total ns)%Z.
Proof. induction 1; cbn; [lia|]. fold (total l). lia. Qed.

(** ** Complete runs of the pool *)
Section Runs.
  Context {F : Type} `{NF : Num F} {G : Type}.
  Variables (f : imageFunc F G) (aa : bool) (shifts : list (F * F)) (w h : Z).
  Hypothesis Hw : (0 <= w)%Z.
  Hypothesis Hh : (0 <= h)%Z.
  Hypothesis Hpos : forall p k, in_image w h p -> exists c xy, sample_pos aa shifts w h p k = Val (c, xy).
  Variable ok : G -> Prop.
  Variable sample : pixel -> Z -> color F -> Prop.
  Hypothesis Hok : forall p k c x y g, in_image w h p -> sample_pos aa shifts w h p k = Val (c, (x, y)) -> ok g ->
    ok (snd (f c g x y)) /\ sample p k (fst (f c g x y)).

  Lemma runs n (m : mem F) gs q : Forall ok gs -> gs <> nil -> tessellate w h 16 = Val q ->
    exists bound, forall k s, steps f aa w h n k (initSys shifts gs q m) s ->
      (k <= bound)%nat /\
      (forall ws1 x ws2 y ws3 p, sWorkers s = ws1 ++ x :: ws2 ++ y :: ws3 -> pending x = Some p -> pending y <> Some p) /\
      (forall x p, In x (sWorkers s) -> pending x = Some p -> in_image w h p) /\
      (forall x, In x (sWorkers s) -> ~ crashed x) /\
      ((forall s', ~ step f aa w h n s s') -> finished s) /\
      (finished s -> sQueue s = nil /\ forall p,
        if in_imageb w h p then gains (sample p) n (acc_at m p) (acc_at (sMem s) p) else acc_at (sMem s) p = acc_at m p).
  Proof.
    intros Fg Hgs E.
    destruct (PoolRel.weight_init shifts w h n ok m q gs E Hw Hh Fg) as (B & W).
    exists B. intros k s Hst.
    assert (I0 := PoolRel.Inv_init shifts w h n ok sample m q gs E Hw Hh Hgs Fg).
    apply (PoolRel.Inv_steps f aa shifts w h n Hpos ok sample Hok m _ _ _ Hst) in I0.
    split; [eapply PoolRel.weight_steps; eauto|].
    split; [intros; eapply PoolRel.Inv_no_race; eauto|].
    split; [intros; eapply PoolRel.Inv_pending_in_image; eauto|].
    split; [intros; eapply PoolRel.Inv_no_crash; eauto|].
    split; [intros Hstuck; eapply PoolRel.Inv_stuck_finished; eauto|].
    assert (sWorkers s <> nil) as Hne by (eapply PoolRel.steps_workers; eauto; cbn; destruct gs; [congruence|discriminate]).
    intros Hfin. split.
    - apply (PoolRel.inv_done _ _ _ _ _ _ _ _ I0). unfold finished in Hfin. destruct (sWorkers s); [congruence|]. inversion Hfin; subst. now left.
    - intros p. exact (PoolRel.Inv_finished _ _ _ _ _ _ _ _ I0 Hne Hfin p).
  Qed.

  Lemma live_or_done (ws : list (worker F G)) : (forall x, In x ws -> ~ crashed x) -> Forall (fun x => x = Done) ws \/
    exists ws1 x ws2, ws = ws1 ++ x :: ws2 /\ x <> Done /\ ~ crashed x.
  Proof.
    induction ws as [|x ws IH]; intros H; [left; constructor|].
    destruct x as [l|t c|].
    - right. exists nil, (Idle l), ws. repeat split; try discriminate. apply H. now left.
    - right. exists nil, (Busy t c), ws. repeat split; try discriminate. apply H. now left.
    - destruct IH as [IH|(ws1 & x & ws2 & -> & H1 & H2)]; [intros; apply H; now right|left; constructor; auto|].
      right. exists (Done :: ws1), x, ws2. auto.
  Qed.
  Lemma can_finish n (m0 : mem F) gs q : Forall ok gs -> gs <> nil -> tessellate w h 16 = Val q ->
    exists j s', steps f aa w h n j (initSys shifts gs q m0) s' /\ finished s'.
  Proof.
    intros Fg Hgs E.
    destruct (PoolRel.weight_init shifts w h n ok m0 q gs E Hw Hh Fg) as (k & W).
    assert (I0 := PoolRel.Inv_init shifts w h n ok sample m0 q gs E Hw Hh Hgs Fg).
    revert I0 W. generalize (initSys shifts gs q m0). induction k as [k IH] using lt_wf_ind. intros s I W.
    assert (finished s \/ exists s', step f aa w h n s s') as [Hfin|(s1 & Hs)].
    { assert (NC := fun x => PoolRel.Inv_no_crash shifts w h n ok sample m0 s x I). destruct s as [q1 ws m]. cbn [sWorkers] in NC.
      destruct (live_or_done ws NC) as [?|(ws1 & x & ws2 & -> & Hx & Hc)]; [auto|].
      right. destruct x as [l|t c|]; [| |congruence].
      - destruct q1 as [|t q1]; eexists; constructor; constructor.
      - destruct c; try (eexists; constructor; constructor; fail). exfalso. now apply Hc. }
    - exists O, s. split; [constructor|auto].
    - destruct (PoolRel.weight_step f aa shifts w h n Hpos ok sample Hok _ _ _ Hs W) as (k' & W' & Hlt).
      destruct (IH k' Hlt s1 (PoolRel.Inv_step f aa shifts w h n Hpos ok sample Hok m0 _ _ Hs I) W') as (j & s' & H1 & H2).
      exists (S j), s'. split; [econstructor; eauto|auto].
  Qed.
End Runs.

(** ** Samples of a scene *)
Section Scene.
  Context {F G : Type} `{NF : Num F} `{NI : NumInf F} `{TF : Trig F}.
  Variable rand2 : G -> (F * F) * G.
  Notation ctx := (ctx F G).

  Lemma fresh_idle shifts (g : G) : idle_ctx (freshCtx (F := F) shifts g).
  Proof. split; [|reflexivity]. split; cbn; [constructor|]. intros i []. Qed.
  Lemma all_idle shifts (gs : list G) : Forall idle_ctx (map (freshCtx (F := F) shifts) gs).
  Proof. apply Forall_forall. intros c Hc. apply in_map_iff in Hc. destruct Hc as (g & <- & _). apply fresh_idle. Qed.
  Lemma idle_seq (c : ctx) q : idle_ctx c -> idle_ctx (withSeq c q).
  Proof. intros H. exact H. Qed.

  Lemma same_numbers_refl (q : ctxseq F) : same_numbers q q.
  Proof. split; reflexivity. Qed.
  Lemma alike_idle lax (c1 c2 : ctx) : idle_ctx c1 -> idle_ctx c2 -> same_numbers (cSeq c1) (cSeq c2) -> (lax = false -> cRng c1 = cRng c2) ->
    alike lax 0 nil c1 c2.
  Proof. intros [P1 D1] [P2 D2] E R. constructor; auto; try (cbn; apply NoDup_nil). intros i j []. Qed.

  Lemma sample_same fuel s cam u v (c1 c2 : ctx) : idle_ctx c1 -> idle_ctx c2 -> same_numbers (cSeq c1) (cSeq c2) -> cRng c1 = cRng c2 ->
    same_result (imageFuncOf rand2 fuel s cam u v c1) (imageFuncOf rand2 fuel s cam u v c2).
  Proof.
    intros H1 H2 E R.
    assert (A := agree_image rand2 false s ltac:(discriminate) 0 fuel cam u v ltac:(discriminate) (or_introl eq_refl) c1 c2 (alike_idle false c1 c2 H1 H2 E (fun _ => R))).
    unfold same_result. destruct (imageFuncOf rand2 fuel s cam u v c1) as [[x1 d1]| |], (imageFuncOf rand2 fuel s cam u v c2) as [[x2 d2]| |]; try exact A.
    exact (proj1 A).
  Qed.
  Lemma sample_same_rng fuel s cam u v (c1 c2 d1 d2 : ctx) x1 x2 : idle_ctx c1 -> idle_ctx c2 -> same_numbers (cSeq c1) (cSeq c2) -> cRng c1 = cRng c2 ->
    imageFuncOf rand2 fuel s cam u v c1 = Val (x1, d1) -> imageFuncOf rand2 fuel s cam u v c2 = Val (x2, d2) ->
    cRng d1 = cRng d2.
  Proof.
    intros H1 H2 E R E1 E2.
    assert (A := agree_image rand2 false s ltac:(discriminate) 0 fuel cam u v ltac:(discriminate) (or_introl eq_refl) c1 c2 (alike_idle false c1 c2 H1 H2 E (fun _ => R))).
    rewrite E1, E2 in A. apply (al_rng _ _ _ _ _ (proj2 A)). reflexivity.
  Qed.
  Lemma sample_idle fuel s cam u v (c d : ctx) x : idle_ctx c -> imageFuncOf rand2 fuel s cam u v c = Val (x, d) -> idle_ctx d.
  Proof.
    intros H E.
    assert (A := agree_image rand2 false s ltac:(discriminate) 0 fuel cam u v ltac:(discriminate) (or_introl eq_refl) c c (alike_idle false c c H H (same_numbers_refl _) (fun _ => eq_refl))).
    rewrite E in A. destruct A as [_ A]. split; [exact (al_1 _ _ _ _ _ A)|exact (al_depth1 _ _ _ _ _ A)].
  Qed.
  Lemma sample_shallow fuel s cam u v (c1 c2 : ctx) : (0 <= sRecursionDepth s <= 2)%Z -> lensless cam ->
    idle_ctx c1 -> idle_ctx c2 -> same_numbers (cSeq c1) (cSeq c2) ->
    same_result (imageFuncOf rand2 fuel s cam u v c1) (imageFuncOf rand2 fuel s cam u v c2).
  Proof.
    intros Hd Hc H1 H2 E.
    assert (A := agree_image rand2 true s (fun _ => proj2 Hd) 0 fuel cam u v (fun _ => conj (Z.le_refl 0) (proj1 Hd)) (or_intror Hc) c1 c2 (alike_idle true c1 c2 H1 H2 E ltac:(discriminate))).
    unfold same_result. destruct (imageFuncOf rand2 fuel s cam u v c1) as [[x1 d1]| |], (imageFuncOf rand2 fuel s cam u v c2) as [[x2 d2]| |]; try exact A.
    exact (proj1 A).
  Qed.

  Lemma sceneFunc_idle fuel s cam q (c : ctx) u v : idle_ctx c -> idle_ctx (snd (sceneFunc rand2 fuel s cam q c u v)).
  Proof.
    intros H. unfold sceneFunc. destruct (imageFuncOf rand2 fuel s cam u v (withSeq c q)) as [[x d]| |] eqn:E; auto.
    exact (sample_idle _ _ _ _ _ _ _ _ (idle_seq c q H) E).
  Qed.
  Lemma sceneFunc_color fuel s cam q (c1 c2 : ctx) u v :
    same_result (imageFuncOf rand2 fuel s cam u v (withSeq c1 q)) (imageFuncOf rand2 fuel s cam u v (withSeq c2 q)) ->
    fst (sceneFunc rand2 fuel s cam q c1 u v) = fst (sceneFunc rand2 fuel s cam q c2 u v).
  Proof.
    unfold same_result, sceneFunc.
    destruct (imageFuncOf rand2 fuel s cam u v (withSeq c1 q)) as [[x1 d1]| |], (imageFuncOf rand2 fuel s cam u v (withSeq c2 q)) as [[x2 d2]| |]; cbn [fst]; tauto.
  Qed.

  (** ** Whole renderings *)
  Variables (fuel : nat) (s : scene F) (cam : camera F) (aa : bool) (shifts : list (F * F)) (w h : Z).
  Hypothesis Hw : (0 <= w)%Z.
  Hypothesis Hh : (0 <= h)%Z.
  Hypothesis Hpos : forall p k, in_image w h p -> exists c xy, sample_pos aa shifts w h p k = Val (c, xy).

  Section Sampled.
    Variable sample : pixel -> Z -> color F -> Prop.
    Hypothesis Hs : forall p k q x y (c : ctx), in_image w h p -> sample_pos aa shifts w h p k = Val (q, (x, y)) -> idle_ctx c ->
      sample p k (fst (sceneFunc rand2 fuel s cam q c x y)).
    Lemma render_ok p k q x y (c : ctx) : in_image w h p -> sample_pos aa shifts w h p k = Val (q, (x, y)) -> idle_ctx c ->
      idle_ctx (snd (sceneFunc rand2 fuel s cam q c x y)) /\ sample p k (fst (sceneFunc rand2 fuel s cam q c x y)).
    Proof. intros Hp E Hc. split; [now apply sceneFunc_idle|eauto]. Qed.

    Lemma render_schedules n (m : mem F) (gs : list G) q : gs <> nil -> tessellate w h 16 = Val q ->
      exists bound, forall k st, steps (sceneFunc rand2 fuel s cam) aa w h n k (initSys shifts (map (freshCtx shifts) gs) q m) st ->
        (k <= bound)%nat /\
        (forall ws1 x ws2 y ws3 p, sWorkers st = ws1 ++ x :: ws2 ++ y :: ws3 -> pending x = Some p -> pending y <> Some p) /\
        (forall x p, In x (sWorkers st) -> pending x = Some p -> in_image w h p) /\
        (forall x, In x (sWorkers st) -> ~ crashed x) /\
        ((forall st', ~ step (sceneFunc rand2 fuel s cam) aa w h n st st') -> finished st) /\
        (finished st -> sQueue st = nil /\ forall p,
          if in_imageb w h p then gains (sample p) n (acc_at m p) (acc_at (sMem st) p) else acc_at (sMem st) p = acc_at m p).
    Proof.
      intros Hg E. apply (runs (sceneFunc rand2 fuel s cam) aa shifts w h Hw Hh Hpos idle_ctx sample render_ok); auto using all_idle.
      destruct gs; [congruence|discriminate].
    Qed.
    Lemma render_result n m m' : renderCall rand2 fuel s cam aa shifts w h n m m' -> forall p,
      if in_imageb w h p then gains (sample p) (Z.to_nat n) (acc_at m p) (acc_at m' p) else acc_at m' p = acc_at m p.
    Proof.
      intros [q rngs k st E Hg Hst Hfin <-] p.
      destruct (render_schedules (Z.to_nat n) m rngs q Hg E) as (B & HB). destruct (HB k st Hst) as (_ & _ & _ & _ & _ & H).
      apply (H Hfin).
    Qed.
    Lemma renders_result ns m m' : Forall (fun n => 0 <= n)%Z ns -> renderCalls rand2 fuel s cam aa shifts w h ns m m' -> forall p,
      if in_imageb w h p then gains (sample p) (Z.to_nat (total ns)) (acc_at m p) (acc_at m' p) else acc_at m' p = acc_at m p.
    Proof.
      intros Hn H p. induction H as [m|n ns m1 m2 m3 H1 H2 IH].
      - destruct (in_imageb w h p); [constructor|reflexivity].
      - inversion Hn as [|? ? Hn1 Hn2]; subst. specialize (IH Hn2). assert (X := render_result _ _ _ H1 p).
        destruct (in_imageb w h p); [|congruence].
        replace (Z.to_nat (total (n :: ns))) with (Z.to_nat n + Z.to_nat (total ns))%nat; [eapply gains_plus; eauto|].
        cbn. fold (total ns). assert (T := total_pos _ Hn2). lia.
    Qed.
  End Sampled.

  Lemma render_exists n m (gs : list G) : gs <> nil -> exists m', renderCall rand2 fuel s cam aa shifts w h n m m'.
  Proof.
    intros Hg. destruct (tessellate_partition w h 16 Hw Hh ltac:(lia)) as (q & E & _).
    destruct (can_finish (sceneFunc rand2 fuel s cam) aa shifts w h Hw Hh Hpos idle_ctx (fun _ _ _ => True)
      (fun p k q x y c _ _ Hc => conj (sceneFunc_idle fuel s cam q c x y Hc) Logic.I) (Z.to_nat n) m (map (freshCtx shifts) gs) q (all_idle shifts gs)) as (j & st & Hst & Hfin); auto.
    - destruct gs; [congruence|discriminate].
    - exists (sMem st). econstructor; eauto.
  Qed.
  Lemma renders_exist ns (g : G) : forall m, exists m', renderCalls rand2 fuel s cam aa shifts w h ns m m'.
  Proof.
    induction ns as [|n ns IH]; intros m; [eexists; constructor|].
    destruct (render_exists n m [g] ltac:(discriminate)) as (m1 & H1). destruct (IH m1) as (m2 & H2). exists m2. econstructor; eauto.
  Qed.

  (** shallow scenes: the same image whatever the generators and schedules *)
  Lemma render_shallow (g0 : G) ns m m' : (0 <= sRecursionDepth s <= 2)%Z -> lensless cam -> Forall (fun n => 0 <= n)%Z ns ->
    renderCalls rand2 fuel s cam aa shifts w h ns m m' -> forall p,
    acc_at m' p = after_passes (sceneFunc rand2 fuel s cam) aa shifts w h (freshCtx shifts g0) (total ns) m p.
  Proof.
    intros Hd Hc Hn H p.
    assert (X := renders_result (fun p k c => c = sample_color (sceneFunc rand2 fuel s cam) aa shifts (freshCtx shifts g0) w h p k)).
    unfold after_passes. specialize (fun HH => X HH ns m m' Hn H p).
    destruct (in_imageb w h p).
    - apply gains_fun. apply X. clear X. intros p0 k q x y c Hp E Hi. unfold sample_color. rewrite E.
      apply sceneFunc_color. apply sample_shallow; auto using same_numbers_refl. apply idle_seq. apply fresh_idle.
    - apply X. clear X. intros p0 k q x y c Hp E Hi. unfold sample_color. rewrite E.
      apply sceneFunc_color. apply sample_shallow; auto using same_numbers_refl. apply idle_seq. apply fresh_idle.
  Qed.
  Lemma renders_agree (g0 : G) ns ns' m m1 m2 : (0 <= sRecursionDepth s <= 2)%Z -> lensless cam ->
    Forall (fun n => 0 <= n)%Z ns -> Forall (fun n => 0 <= n)%Z ns' -> total ns = total ns' ->
    renderCalls rand2 fuel s cam aa shifts w h ns m m1 -> renderCalls rand2 fuel s cam aa shifts w h ns' m m2 ->
    forall p, acc_at m1 p = acc_at m2 p.
  Proof.
    intros Hd Hc Hn Hn' Ht H1 H2 p. rewrite (render_shallow g0 ns m m1), (render_shallow g0 ns' m m2) by auto. now rewrite Ht.
  Qed.
End Scene.
