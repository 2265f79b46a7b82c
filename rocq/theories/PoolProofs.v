(** * Proofs about the worker pool of the sampler *)
From Coq Require Import ZArith Reals Bool List Lia Permutation.
From Verif Require Import Num Outcome ColorModel SeqModel SamplerModel SamplerSpec SamplerProofs.
Import ListNotations.

Definition in_tileb (t : tile) (p : pixel) : bool :=
  ((tx0 t <=? fst p) && (fst p <? tx1 t) && (ty0 t <=? snd p) && (snd p <? ty1 t))%Z%bool.
Lemma in_tileb_spec t p : in_tileb t p = true <-> in_tile t p.
Proof. unfold in_tileb, in_tile. rewrite !andb_true_iff, !Z.leb_le, !Z.ltb_lt. tauto. Qed.
Lemma in_imageb_spec w h p : in_imageb w h p = true <-> in_image w h p.
Proof. unfold in_imageb, in_image. rewrite !andb_true_iff, !Z.leb_le, !Z.ltb_lt. tauto. Qed.
Lemma pix_eqb_spec p q : pix_eqb p q = true <-> p = q.
Proof.
  destruct p, q. unfold pix_eqb; cbn. rewrite andb_true_iff, !Z.eqb_eq. split; [intros [-> ->]; auto|intros E; injection E; auto].
Qed.
Lemma pix_eqb_refl p : pix_eqb p p = true.
Proof. now apply pix_eqb_spec. Qed.
Lemma field_eqb_refl a : field_eqb a a = true.
Proof. now destruct a. Qed.

Lemma zrange_in a b x : In x (zrange a b) <-> (a <= x < b)%Z.
Proof.
  unfold zrange. rewrite in_map_iff. split.
  - intros (i & <- & Hi). apply in_seq in Hi. lia.
  - intros H. exists (Z.to_nat (x - a)). split; [lia|]. apply in_seq. lia.
Qed.
Lemma zrange_nodup a b : NoDup (zrange a b).
Proof. unfold zrange. apply FinFun.Injective_map_NoDup; [intros i j; lia|apply seq_NoDup]. Qed.
Lemma tilePixels_in t p : In p (tilePixels t) <-> in_tile t p.
Proof.
  unfold tilePixels, in_tile. rewrite in_flat_map. split.
  - intros (iy & Hy & Hp). apply in_map_iff in Hp. destruct Hp as (ix & <- & Hx). rewrite zrange_in in *. cbn. tauto.
  - intros [Hx Hy]. exists (snd p). rewrite zrange_in. split; auto. apply in_map_iff. exists (fst p). rewrite zrange_in. destruct p; auto.
Qed.
Lemma tilePixels_nodup t : NoDup (tilePixels t).
Proof.
  unfold tilePixels. generalize (zrange_nodup (ty0 t) (ty1 t)). induction 1 as [|y ys Hy H IH]; cbn; [constructor|].
  apply NoDup_app_intro; auto.
  - apply FinFun.Injective_map_NoDup; [intros a b E; injection E; auto|apply zrange_nodup].
  - intros p Hp Hp'. apply in_map_iff in Hp. destruct Hp as (x & <- & _).
    apply in_flat_map in Hp'. destruct Hp' as (y' & Hy' & Hp'). apply in_map_iff in Hp'. destruct Hp' as (x' & E & _).
    injection E; intros; subst. auto.
Qed.

Section Pool.
  Context {F : Type} `{NF : Num F} {G : Type}.
  Variables (f : imageFunc F G) (aa : bool) (shifts : list (F * F)) (w h : Z) (n : nat) (g0 : G).
  Hypothesis Hf : deterministic f.
  Hypothesis Hpos : forall p k, in_image w h p -> exists c xy, sample_pos aa shifts w h p k = Val (c, xy).

  Let color_of (p : pixel) (k : Z) : color F := sample_color f aa shifts g0 w h p k.

  (** *** Memory *)
  Lemma acc_at_ext (m m' : mem F) p : acc_at m p = acc_at m' p <->
    mN m p = mN m' p /\ forall a, mF m p a = mF m' p a.
  Proof.
    unfold acc_at. split.
    - intros E. injection E; intros. split; auto. destruct a; auto.
    - intros [-> H]. now rewrite !H.
  Qed.
  Lemma acc_storeN_other m p q v : p <> q -> acc_at (storeN m p v) q = acc_at (F:=F) m q.
  Proof.
    intros H. apply acc_at_ext. cbn. split; auto.
    destruct (pix_eqb p q) eqn:E; auto. apply pix_eqb_spec in E. contradiction.
  Qed.
  Lemma acc_storeF_other m p a q v : p <> q -> acc_at (storeF m p a v) q = acc_at (F:=F) m q.
  Proof.
    intros H. apply acc_at_ext. cbn. split; auto. intros b.
    destruct (pix_eqb p q) eqn:E; auto. apply pix_eqb_spec in E. contradiction.
  Qed.
  Lemma acc_storeN_same m m' p v q : acc_at m q = acc_at m' q -> acc_at (storeN m p v) q = acc_at (F:=F) (storeN m' p v) q.
  Proof. rewrite !acc_at_ext. cbn. intros [E H]. split; auto. destruct (pix_eqb p q); auto. Qed.
  Lemma acc_storeF_same m m' p a v q : acc_at m q = acc_at m' q -> acc_at (storeF m p a v) q = acc_at (F:=F) (storeF m' p a v) q.
  Proof. rewrite !acc_at_ext. cbn. intros [E H]. split; auto. intros b. destruct (pix_eqb p q && field_eqb a b)%bool; auto. Qed.

  Definition pix_dec (p q : pixel) : {p = q} + {p <> q}.
  Proof. destruct (pix_eqb p q) eqn:E; [left; now apply pix_eqb_spec|right; intros ->; now rewrite pix_eqb_refl in E]. Defined.

  (** *** Well-behaved programs: accesses inside S, never crash, depth at most d, result in Q *)
  Inductive pok {A} (S : pixel -> Prop) (Q : A -> Prop) : nat -> prog F A -> Prop :=
  | pok_ret d a : Q a -> pok S Q d (Ret a)
  | pok_loadN d p k : S p -> (forall v, pok S Q d (k v)) -> pok S Q (Datatypes.S d) (LoadN p k)
  | pok_storeN d p v k : S p -> pok S Q d k -> pok S Q (Datatypes.S d) (StoreN p v k)
  | pok_loadF d p a k : S p -> (forall v, pok S Q d (k v)) -> pok S Q (Datatypes.S d) (LoadF p a k)
  | pok_storeF d p a v k : S p -> pok S Q d k -> pok S Q (Datatypes.S d) (StoreF p a v k).

  Lemma pok_weaken {A} (P P' : pixel -> Prop) (Q : A -> Prop) d c : pok P Q d c -> (forall p, P p -> P' p) -> forall d', (d <= d')%nat -> pok P' Q d' c.
  Proof.
    intros H HP. induction H as [d a Ha|d p k Hp Hk IH|d p v k Hp Hk IH|d p a k Hp Hk IH|d p a v k Hp Hk IH]; intros d' Hd;
    try (destruct d' as [|d']; [lia|]); constructor; auto; intros; apply IH; lia.
  Qed.
  Lemma pok_bind {A B} (P : pixel -> Prop) (Q : A -> Prop) (Q' : B -> Prop) d d' c k :
    pok P Q d c -> (forall a, Q a -> pok P Q' d' (k a)) -> pok P Q' (d + d') (pbind c k).
  Proof.
    intros H Hk. induction H as [d a Ha|d p k' Hp Hk' IH|d p v k' Hp Hk' IH|d p a k' Hp Hk' IH|d p a v k' Hp Hk' IH]; cbn [pbind Nat.add];
    try (constructor; auto).
    eapply pok_weaken; eauto. lia.
  Qed.

  Lemma run_frame {A} (P : pixel -> Prop) (Q : A -> Prop) d c : pok P Q d c -> forall m m',
    (forall p, P p -> acc_at m p = acc_at m' p) ->
    exists a m1 m1', run c m = Val (a, m1) /\ run c m' = Val (a, m1') /\ Q a /\
      (forall p, P p -> acc_at m1 p = acc_at m1' p) /\ (forall p, ~ P p -> acc_at m1 p = acc_at m p).
  Proof.
    induction 1 as [d a Ha|d p k Hp Hk IH|d p v k Hp Hk IH|d p a k Hp Hk IH|d p a v k Hp Hk IH]; intros m m' E; cbn [run].
    - exists a, m, m'. auto.
    - destruct (proj1 (acc_at_ext _ _ _) (E p Hp)) as [<- _]. now apply IH.
    - destruct (IH (storeN m p v) (storeN m' p v)) as (x & m1 & m1' & R1 & R2 & HQ & HS & HN).
      { intros q Hq. apply acc_storeN_same. auto. }
      exists x, m1, m1'. repeat split; auto. intros q Hq. rewrite HN by auto. apply acc_storeN_other. now intros ->.
    - destruct (proj1 (acc_at_ext _ _ _) (E p Hp)) as [_ H2]. rewrite <- H2. now apply IH.
    - destruct (IH (storeF m p a v) (storeF m' p a v)) as (x & m1 & m1' & R1 & R2 & HQ & HS & HN).
      { intros q Hq. apply acc_storeF_same. auto. }
      exists x, m1, m1'. repeat split; auto. intros q Hq. rewrite HN by auto. apply acc_storeF_other. now intros ->.
  Qed.

  Lemma run_pbind {A B} (c : prog F A) (k : A -> prog F B) : forall m,
    run (pbind c k) m = obind (run c m) (fun '(a, m) => run (k a) m).
  Proof. induction c; intros m; cbn [run pbind obind]; auto. Qed.

  (** *** Contexts *)
  Definition like (c : ctxseq F) : Prop :=
    (forall pix pass, ctxseq_init c pix pass = ctxseq_init (newCtxSeq shifts) pix pass) /\
    cs_AA c = cs_AA (newCtxSeq shifts).
  Definition likeL (l : local F G) : Prop := like (fst l).

  Lemma like_new : like (newCtxSeq shifts).
  Proof. split; auto. Qed.
  Lemma like_init pix pass c : ctxseq_init (newCtxSeq shifts) pix pass = Val c -> like c.
  Proof.
    unfold ctxseq_init, hseq_init, newCtxSeq, newHalton. cbn.
    destruct (nth_error shifts pix) as [[su sv]|] eqn:E; cbn; [|discriminate].
    intros Ec. injection Ec as <-. split; auto.
  Qed.

  Lemma jitter_like c xi yi : like c -> jitter aa w h c xi yi = jitter aa w h (newCtxSeq shifts) xi yi.
  Proof. intros [_ E]. unfold jitter. now rewrite E. Qed.

  (** decomposition of a sample position *)
  Lemma sample_pos_inv p k : in_image w h p -> exists xi yi c x y,
    indexToCam w h (nofZ (fst p)) (nofZ (snd p)) = Val (xi, yi) /\
    (forall j, exists c, ctxseq_init (newCtxSeq shifts) (Z.to_nat (w * snd p + fst p)) j = Val c) /\
    ctxseq_init (newCtxSeq shifts) (Z.to_nat (w * snd p + fst p)) k = Val c /\
    jitter aa w h (newCtxSeq shifts) xi yi = Val (x, y) /\ like c /\
    sample_pos aa shifts w h p k = Val (c, (x, y)).
  Proof.
    intros Hp. destruct (Hpos p k Hp) as (c & [x y] & E). generalize E. unfold sample_pos in E.
    destruct (indexToCam w h (nofZ (fst p)) (nofZ (snd p))) as [[xi yi]| |]; try discriminate. cbn [obind] in E.
    destruct (ctxseq_init (newCtxSeq shifts) (Z.to_nat (w * snd p + fst p)) k) as [c'| |] eqn:E2; try discriminate.
    cbn [obind] in E. generalize (like_init _ _ _ E2). intros L.
    destruct (jitter aa w h c' xi yi) as [[x' y']| |] eqn:E3; try discriminate. cbn [omap] in E. injection E as <- <- <-.
    intros E. exists xi, yi, c', x', y'. repeat split; auto; try apply L.
    - intros j. unfold ctxseq_init, hseq_init in *. cbn in *.
      destruct (nth_error shifts (Z.to_nat (w * snd p + fst p))) as [[su sv]|]; cbn in *; [eauto|discriminate].
    - rewrite <- (jitter_like c') by auto. exact E3.
  Qed.

  Lemma sample_color_eq p k g xi yi c x y : in_image w h p ->
    indexToCam w h (nofZ (fst p)) (nofZ (snd p)) = Val (xi, yi) ->
    ctxseq_init (newCtxSeq shifts) (Z.to_nat (w * snd p + fst p)) k = Val c ->
    jitter aa w h (newCtxSeq shifts) xi yi = Val (x, y) ->
    fst (f c g x y) = color_of p k.
  Proof.
    intros Hp E1 E2 E3. unfold color_of, sample_color, sample_pos. rewrite E1. cbn [obind]. rewrite E2. cbn [obind].
    rewrite (jitter_like c) by (eapply like_init; eauto). rewrite E3. cbn [omap]. apply Hf.
  Qed.

  Lemma pok_accumulate {A} (P : pixel -> Prop) (Q : A -> Prop) d p c k : P p -> pok P Q d k -> pok P Q (12 + d) (accumulate p c k).
  Proof. intros Hp Hk. unfold accumulate. cbn [Nat.add]. repeat (constructor; auto; intros). Qed.

  Lemma pok_samplePasses p xi yi : in_image w h p ->
    indexToCam w h (nofZ (fst p)) (nofZ (snd p)) = Val (xi, yi) ->
    forall k l, likeL l -> pok (eq p) likeL (15 * k) (samplePasses f aa w h p xi yi k l).
  Proof.
    intros Hp E. induction k as [|k IH]; intros l Hl; cbn [samplePasses].
    - constructor. auto.
    - replace (15 * S k)%nat with (S (S (S (12 + 15 * k)))) by lia.
      constructor; auto. intros n0.
      destruct (sample_pos_inv p n0 Hp) as (xi' & yi' & c & x & y & E1 & _ & E2 & E3 & L & _).
      rewrite E in E1. injection E1 as <- <-.
      rewrite (proj1 Hl), E2. cbn [plift]. constructor; auto. intros n1. constructor; auto.
      rewrite (jitter_like c) by auto. rewrite E3. cbn [plift]. destruct (f c (snd l) x y) as [col g].
      destruct (clisnan col).
      + eapply pok_weaken; [apply IH; exact L| auto | lia].
      + apply pok_accumulate; auto.
  Qed.

  Lemma pok_samplePixel p l : in_image w h p -> likeL l -> pok (eq p) likeL (15 * n) (samplePixel f aa w h n p l).
  Proof.
    intros Hp Hl. destruct (sample_pos_inv p 0 Hp) as (xi & yi & c & x & y & E1 & _).
    unfold samplePixel. rewrite E1. cbn [plift]. now apply pok_samplePasses.
  Qed.

  Lemma pok_samplePixels ps : (forall p, In p ps -> in_image w h p) -> forall l, likeL l ->
    pok (fun p => In p ps) likeL (15 * n * length ps) (samplePixels f aa w h n ps l).
  Proof.
    induction ps as [|p ps IH]; intros Hps l Hl; cbn [samplePixels length].
    - constructor; auto.
    - replace (15 * n * S (length ps))%nat with (15 * n + 15 * n * length ps)%nat by lia.
      apply pok_bind with (Q := likeL).
      + eapply pok_weaken; [apply pok_samplePixel; auto; apply Hps; now left| |lia]. intros q <-. now left.
      + intros a Ha. eapply pok_weaken; [apply IH; auto; intros; apply Hps; now right| |lia]. intros q Hq; now right.
  Qed.

  (** *** Sequential effect *)
  Lemma run_accumulate {A} p c (k : prog F A) m : exists m',
    run (accumulate p c k) m = run k m' /\
    acc_at m' p = Acc (mN m p) (Color (nadd (mF m p SumR) (cR c)) (nadd (mF m p SumG) (cG c)) (nadd (mF m p SumB) (cB c)))
      (Color (nadd (mF m p SqR) (nmul (cR c) (cR c))) (nadd (mF m p SqG) (nmul (cG c) (cG c))) (nadd (mF m p SqB) (nmul (cB c) (cB c)))).
  Proof.
    unfold accumulate. cbn [run]. eexists. split; [reflexivity|].
    unfold acc_at. cbn. rewrite !pix_eqb_refl. cbn. reflexivity.
  Qed.

  Lemma run_samplePasses p xi yi : in_image w h p ->
    indexToCam w h (nofZ (fst p)) (nofZ (snd p)) = Val (xi, yi) ->
    forall k l m l' m', likeL l -> run (samplePasses f aa w h p xi yi k l) m = Val (l', m') ->
    acc_at m' p = more_samples (color_of p) k (acc_at m p).
  Proof.
    intros Hp E. induction k as [|k IH]; intros l m l' m' Hl; cbn [samplePasses].
    - cbn [run]. intros R. injection R as <- <-. reflexivity.
    - cbn [run].
      destruct (sample_pos_inv p (mN m p) Hp) as (xi' & yi' & c & x & y & E1 & _ & E2 & E3 & L & _).
      rewrite E in E1. injection E1 as <- <-.
      rewrite (proj1 Hl), E2. cbn [plift run]. rewrite (jitter_like c) by auto. rewrite E3. cbn [plift].
      generalize (sample_color_eq p (mN m p) (snd l) xi yi c x y Hp E E2 E3). intros Ec.
      destruct (f c (snd l) x y) as [col g]. cbn [fst] in Ec. subst col.
      cbn [more_samples]. change (aN (acc_at m p)) with (mN m p).
      destruct (clisnan (color_of p (mN m p))) eqn:EN; intros R.
      + rewrite (IH _ _ _ _ (L : likeL (c, g)) R). f_equal. unfold add_sample. rewrite EN.
        unfold acc_at; cbn. rewrite pix_eqb_refl. reflexivity.
      + destruct (run_accumulate p (color_of p (mN m p)) (samplePasses f aa w h p xi yi k (c, g)) (storeN m p (mN m p + 1))) as (m2 & Rm & Em).
        rewrite Rm in R. rewrite (IH _ _ _ _ (L : likeL (c, g)) R). f_equal. rewrite Em. unfold add_sample. rewrite EN.
        unfold acc_at; cbn. rewrite pix_eqb_refl. reflexivity.
  Qed.

  Lemma run_samplePixels ps : (forall p, In p ps -> in_image w h p) -> NoDup ps -> forall l m, likeL l ->
    exists l' m', run (samplePixels f aa w h n ps l) m = Val (l', m') /\ likeL l' /\
      (forall p, In p ps -> acc_at m' p = more_samples (color_of p) n (acc_at m p)) /\
      (forall p, ~ In p ps -> acc_at m' p = acc_at m p).
  Proof.
    induction ps as [|p ps IH]; intros Hps ND l m Hl; cbn [samplePixels].
    - exists l, m. cbn. tauto.
    - inversion ND as [|? ? Hni ND']; subst.
      assert (in_image w h p) as Hp by (apply Hps; now left).
      rewrite run_pbind.
      destruct (run_frame _ _ _ _ (pok_samplePixel p l Hp Hl) m m (fun _ _ => eq_refl)) as (l1 & m1 & _ & R1 & _ & L1 & _ & O1).
      assert (acc_at m1 p = more_samples (color_of p) n (acc_at m p)) as A1.
      { destruct (sample_pos_inv p 0 Hp) as (xi & yi & c & x & y & E1 & _).
        unfold samplePixel in R1. rewrite E1 in R1. cbn [plift] in R1. exact (run_samplePasses p xi yi Hp E1 n l m l1 m1 Hl R1). }
      rewrite R1. cbn [obind].
      destruct (IH (fun q Hq => Hps q (or_intror Hq)) ND' l1 m1 L1) as (l2 & m2 & R2 & L2 & I2 & O2).
      exists l2, m2. split; [exact R2|split; [exact L2|split]].
      + intros q [<-|Hq].
        * rewrite O2 by auto. exact A1.
        * rewrite I2 by auto. f_equal. apply O1. intros ->. auto.
      + intros q Hq. rewrite O2 by (intros ?; apply Hq; now right). apply O1. intros ->. apply Hq. now left.
  Qed.

  Definition tile_ok (t : tile) : Prop := forall p, in_tile t p -> in_image w h p.

  Lemma run_sampleTile t l m : tile_ok t -> likeL l ->
    exists l' m', run (sampleTile f aa w h n t l) m = Val (l', m') /\ likeL l' /\
      (forall p, in_tile t p -> acc_at m' p = more_samples (color_of p) n (acc_at m p)) /\
      (forall p, ~ in_tile t p -> acc_at m' p = acc_at m p).
  Proof.
    intros Ht Hl. destruct (run_samplePixels (tilePixels t)) with (l := l) (m := m) as (l' & m' & R & L & I & O); auto.
    - intros p Hp. apply Ht. now apply tilePixels_in.
    - apply tilePixels_nodup.
    - exists l', m'. split; [exact R|split; [exact L|split]]; intros p Hp; [apply I|apply O]; now rewrite tilePixels_in.
  Qed.

  Definition tdepth (t : tile) : nat := 15 * n * length (tilePixels t).
  Lemma pok_sampleTile t l : tile_ok t -> likeL l -> pok (in_tile t) likeL (tdepth t) (sampleTile f aa w h n t l).
  Proof.
    intros Ht Hl. eapply pok_weaken; [apply pok_samplePixels; auto| |unfold tdepth; lia].
    - intros p Hp. apply Ht. now apply tilePixels_in.
    - intros p Hp. now apply tilePixels_in.
  Qed.

  (** *** System invariant *)
  Variable m0 : mem F.
  Definition fin (p : pixel) : acc F :=
    if in_imageb w h p then more_samples (color_of p) n (acc_at m0 p) else acc_at m0 p.

  Definition busyTile (x : worker F G) : list tile := match x with Busy t _ => [t] | _ => [] end.
  Definition busyTiles (ws : list (worker F G)) : list tile := flat_map busyTile ws.
  Lemma busyTiles_app ws1 x ws2 : busyTiles (ws1 ++ x :: ws2) = busyTiles ws1 ++ busyTile x ++ busyTiles ws2.
  Proof. unfold busyTiles. rewrite flat_map_app. reflexivity. Qed.
  Lemma busyTiles_in ws t : In t (busyTiles ws) <-> exists c, In (Busy t c) ws.
  Proof.
    unfold busyTiles. rewrite in_flat_map. split.
    - intros ([l|t' c|] & Hx & Ht); cbn in Ht; try tauto. destruct Ht as [<-|[]]. eauto.
    - intros (c & Hc). exists (Busy t c). split; auto. now left.
  Qed.

  (** each pixel is in at most one live tile *)
  Definition disj (l : list tile) : Prop := forall p, (length (filter (fun t => in_tileb t p) l) <= 1)%nat.
  Lemma disj_perm l l' : Permutation l l' -> disj l -> disj l'.
  Proof.
    intros P H p. specialize (H p). enough (length (filter (fun t => in_tileb t p) l) = length (filter (fun t => in_tileb t p) l')) by lia.
    clear H. induction P; cbn; auto.
    - destruct (in_tileb x p); cbn; auto.
    - destruct (in_tileb x p), (in_tileb y p); cbn; auto.
    - congruence.
  Qed.
  Lemma disj_tail t l : disj (t :: l) -> disj l.
  Proof. intros H p. specialize (H p). cbn in H. destruct (in_tileb t p); cbn in H; lia. Qed.
  Lemma disj_head t l p : disj (t :: l) -> in_tile t p -> forall t', In t' l -> ~ in_tile t' p.
  Proof.
    intros H Hp t' Ht' Hp'. specialize (H p). cbn in H. apply in_tileb_spec in Hp, Hp'. rewrite Hp in H. cbn in H.
    assert (In t' (filter (fun t => in_tileb t p) l)) as Hin by (apply filter_In; auto).
    destruct (filter (fun t => in_tileb t p) l); [destruct Hin|cbn in H; lia].
  Qed.

  Definition worker_ok (x : worker F G) : Prop :=
    match x with
    | Idle l => likeL l
    | Busy t c => tile_ok t /\ exists d, pok (in_tile t) likeL d c
    | Done => True
    end.
  Definition live (s : sys F G) : list tile := sQueue s ++ busyTiles (sWorkers s).

  Record Inv (s : sys F G) : Prop := {
    inv_disj : disj (live s);
    inv_q : forall t, In t (sQueue s) -> tile_ok t;
    inv_w : forall x, In x (sWorkers s) -> worker_ok x;
    inv_init : forall t p, In t (sQueue s) -> in_tile t p -> acc_at (sMem s) p = acc_at m0 p;
    inv_busy : forall t c p, In (Busy t c) (sWorkers s) -> in_tile t p ->
       exists l m', run c (sMem s) = Val (l, m') /\ acc_at m' p = fin p;
    inv_rest : forall p, (forall t, In t (live s) -> ~ in_tile t p) -> acc_at (sMem s) p = fin p;
    inv_done : In Done (sWorkers s) -> sQueue s = nil
  }.

  Lemma live_split q ws1 t c ws2 m : Permutation (live (Sys q (ws1 ++ Busy t c :: ws2) m)) (t :: q ++ busyTiles ws1 ++ busyTiles ws2).
  Proof.
    unfold live; cbn [sQueue sWorkers]. rewrite busyTiles_app. cbn [busyTile app].
    rewrite !app_assoc. symmetry. apply Permutation_middle.
  Qed.
  Lemma live_split0 q ws1 x ws2 m : busyTile x = [] -> live (Sys q (ws1 ++ x :: ws2) m) = q ++ busyTiles ws1 ++ busyTiles ws2.
  Proof. intros E. unfold live; cbn [sQueue sWorkers]. rewrite busyTiles_app, E. reflexivity. Qed.

  (** memory changes inside the stepping worker's tile only *)
  Lemma inv_mem_step q ws1 t c c' ws2 m m' d :
    Inv (Sys q (ws1 ++ Busy t c :: ws2) m) ->
    pok (in_tile t) likeL d c' -> run c m = run c' m' ->
    (forall p, ~ in_tile t p -> acc_at m' p = acc_at m p) ->
    Inv (Sys q (ws1 ++ Busy t c' :: ws2) m').
  Proof.
    intros I Hc' Hrun Hout. destruct I as [D Q W N B R Dn]. cbn [sQueue sWorkers sMem] in *.
    assert (disj (t :: q ++ busyTiles ws1 ++ busyTiles ws2)) as D' by (eapply disj_perm; [apply live_split|exact D]).
    assert (forall x, In x (ws1 ++ Busy t c' :: ws2) -> x = Busy t c' \/ In x (ws1 ++ Busy t c :: ws2) /\ In x (ws1 ++ ws2)) as HIn.
    { intros x Hx. rewrite !in_app_iff in *. cbn in *. intuition. }
    split; cbn [sQueue sWorkers sMem].
    - eapply disj_perm; [symmetry; apply live_split|exact D'].
    - exact Q.
    - intros x Hx. destruct (HIn x Hx) as [->|[Hx' _]]; [|now apply W]. cbn. split; [|eauto].
      assert (worker_ok (Busy t c)) as [? _] by (apply W; rewrite in_app_iff; right; now left). auto.
    - intros t' p Ht' Hp. rewrite Hout; [eapply N; eauto|]. intros Hp'. refine (disj_head _ _ _ D' Hp' t' _ Hp). rewrite in_app_iff; auto.
    - intros t' c'' p Hx Hp. destruct (HIn _ Hx) as [E|[Hx' Hx2]].
      + injection E as -> ->. rewrite <- Hrun. apply (B t c p); auto. rewrite in_app_iff; right; now left.
      + destruct (B t' c'' p Hx' Hp) as (l & m1 & R1 & E1).
        destruct (W _ Hx') as [_ [d' P']].
        assert (forall q', in_tile t' q' -> acc_at m q' = acc_at m' q') as Hag.
        { intros q' Hq'. symmetry. apply Hout. intros Hq2. eapply (disj_head _ _ _ D' Hq2 t'); auto.
          rewrite !in_app_iff, !busyTiles_in. rewrite in_app_iff in Hx2. destruct Hx2; eauto. }
        destruct (run_frame _ _ _ _ P' _ _ Hag) as (a & n1 & n2 & S1 & S2 & _ & S3 & _).
        rewrite S1 in R1. injection R1 as <- <-. exists a, n2. split; auto. rewrite <- S3; auto.
    - intros p Hp. rewrite Hout.
      + apply R. intros t' Ht'. apply Hp. eapply Permutation_in; [symmetry; apply live_split|]. eapply Permutation_in; [apply live_split|]; eauto.
      + apply Hp. eapply Permutation_in; [symmetry; apply live_split|]. now left.
    - intros HD. apply Dn. destruct (HIn _ HD) as [E|[? _]]; [discriminate|auto].
  Qed.

  Lemma Inv_step s s' : step f aa w h n s s' -> Inv s -> Inv s'.
  Proof.
    intros Hs I. destruct Hs as [q q' m m' x x' ws1 ws2 Hw].
    assert (worker_ok x) as Wx by (apply (inv_w _ I); cbn; rewrite in_app_iff; right; now left).
    inversion Hw; subst; clear Hw.
    - (* take a tile *)
      destruct I as [D Q W N B R Dn]. cbn [sQueue sWorkers sMem] in *.
      assert (tile_ok t) as Ht by (apply Q; now left).
      assert (Permutation (live (Sys (t :: q') (ws1 ++ Idle l :: ws2) m'))
                (live (Sys q' (ws1 ++ Busy t (sampleTile f aa w h n t l) :: ws2) m'))) as P.
      { rewrite live_split0 by reflexivity. cbn [app]. symmetry. apply live_split. }
      assert (forall y, In y (ws1 ++ Busy t (sampleTile f aa w h n t l) :: ws2) ->
                y = Busy t (sampleTile f aa w h n t l) \/ In y (ws1 ++ Idle l :: ws2)) as HIn.
      { intros y. rewrite !in_app_iff. cbn. intuition. }
      split; cbn [sQueue sWorkers sMem].
      + eapply disj_perm; eauto.
      + intros; apply Q; now right.
      + intros y Hy. destruct (HIn y Hy) as [->|]; [|auto]. cbn. split; auto. eexists. now apply pok_sampleTile.
      + intros; eapply N; eauto. now right.
      + intros t' c p Hy Hp. destruct (HIn _ Hy) as [E|Hy']; [|eapply B; eauto].
        injection E as -> ->. destruct (run_sampleTile t l m' Ht Wx) as (l' & m1 & R1 & _ & In1 & _).
        exists l', m1. split; auto. rewrite In1 by auto. unfold fin.
        assert (in_imageb w h p = true) as -> by (apply in_imageb_spec; auto).
        f_equal. eapply N; eauto. now left.
      + intros p Hp. apply R. intros t' Ht'. apply Hp. eapply Permutation_in; eauto.
      + intros HD. exfalso. assert (t :: q' = nil) by (apply Dn; destruct (HIn _ HD) as [E|]; [discriminate|auto]). discriminate.
    - (* channel empty: done *)
      destruct I as [D Q W N B R Dn]. cbn [sQueue sWorkers sMem] in *.
      assert (forall y, In y (ws1 ++ Done :: ws2) -> y = Done \/ In y (ws1 ++ Idle l :: ws2)) as HIn.
      { intros y. rewrite !in_app_iff. cbn. intuition. }
      assert (live (Sys [] (ws1 ++ Idle l :: ws2) m') = live (Sys [] (ws1 ++ Done :: ws2) m')) as EL by (rewrite !live_split0; auto).
      split; cbn [sQueue sWorkers sMem]; auto.
      + now rewrite <- EL.
      + intros y Hy. destruct (HIn y Hy) as [->|]; [exact Logic.I|auto].
      + intros t' c p Hy Hp. destruct (HIn _ Hy) as [E|Hy']; [discriminate|eauto].
      + intros p Hp. apply R. now rewrite EL.
    - (* tile finished *)
      destruct I as [D Q W N B R Dn]. cbn [sQueue sWorkers sMem] in *.
      assert (forall y, In y (ws1 ++ Idle l :: ws2) -> y = Idle l \/ In y (ws1 ++ Busy t (Ret l) :: ws2)) as HIn.
      { intros y. rewrite !in_app_iff. cbn. intuition. }
      assert (disj (t :: q' ++ busyTiles ws1 ++ busyTiles ws2)) as D' by (eapply disj_perm; [apply live_split|exact D]).
      assert (In (Busy t (Ret l)) (ws1 ++ Busy t (Ret l) :: ws2)) as Hme by (rewrite in_app_iff; right; now left).
      split; cbn [sQueue sWorkers sMem]; auto.
      + rewrite live_split0 by reflexivity. eapply disj_tail; eauto.
      + intros y Hy. destruct (HIn y Hy) as [->|]; [|auto]. cbn. destruct Wx as [_ [d P]]. inversion P; auto.
      + intros t' c p Hy Hp. destruct (HIn _ Hy) as [E|Hy']; [discriminate|eauto].
      + intros p Hp. destruct (in_tileb t p) eqn:Et.
        * apply in_tileb_spec in Et. destruct (B _ _ p Hme Et) as (l1 & m1 & R1 & E1). cbn in R1. injection R1 as <- <-. exact E1.
        * apply R. intros t' Ht'. eapply Permutation_in in Ht'; [|apply live_split].
          destruct Ht' as [<-|Ht']; [rewrite <- in_tileb_spec; congruence|]. apply Hp. rewrite live_split0 by reflexivity. exact Ht'.
      + intros HD. apply Dn. destruct (HIn _ HD) as [E|]; [discriminate|auto].
    - destruct Wx as [_ [d P]]; inversion P; subst; eapply inv_mem_step; eauto.
    - destruct Wx as [_ [d P]]; inversion P; subst; eapply inv_mem_step; eauto.
      intros q Hq. apply acc_storeN_other. now intros ->.
    - destruct Wx as [_ [d P]]; inversion P; subst; eapply inv_mem_step; eauto.
    - destruct Wx as [_ [d P]]; inversion P; subst; eapply inv_mem_step; eauto.
      intros q Hq. apply acc_storeF_other. now intros ->.
  Qed.

  Lemma Inv_steps k s s' : steps f aa w h n k s s' -> Inv s -> Inv s'.
  Proof. induction 1; auto. intros. apply IHsteps. eapply Inv_step; eauto. Qed.

  (** *** No races, no crashes *)
  Lemma Inv_no_race s ws1 x ws2 y ws3 p : Inv s -> sWorkers s = ws1 ++ x :: ws2 ++ y :: ws3 ->
    pending x = Some p -> pending y <> Some p.
  Proof.
    intros I E Hx Hy.
    assert (forall z q, In z (sWorkers s) -> pending z = Some q -> exists t c, z = Busy t c /\ in_tile t q) as H.
    { intros z q Hz Hq. apply (inv_w _ I) in Hz. destruct z as [l|t c|]; try discriminate.
      destruct Hz as [_ [d P]]. exists t, c. split; auto. destruct P; cbn in Hq; try discriminate; injection Hq as <-; auto. }
    destruct (H x p) as (t & c & -> & Ht); [rewrite E, in_app_iff; right; now left|auto|].
    destruct (H y p) as (t' & c' & -> & Ht'); [rewrite E, !in_app_iff; right; right; rewrite in_app_iff; right; now left|auto|].
    generalize (inv_disj _ I). destruct s as [q ws m]. cbn [sWorkers] in E. subst ws. intros D.
    eapply disj_perm in D; [|apply live_split].
    eapply (disj_head _ _ _ D Ht t'); auto. rewrite !in_app_iff. right. right.
    apply busyTiles_in. exists c'. rewrite in_app_iff. right. now left.
  Qed.
  Lemma Inv_pending_in_image s x p : Inv s -> In x (sWorkers s) -> pending x = Some p -> in_image w h p.
  Proof.
    intros I Hx Hq. apply (inv_w _ I) in Hx. destruct x as [l|t c|]; try discriminate.
    destruct Hx as [Ht [d P]]. apply Ht. destruct P; cbn in Hq; try discriminate; injection Hq as <-; auto.
  Qed.
  Lemma Inv_no_crash s x : Inv s -> In x (sWorkers s) -> ~ crashed x.
  Proof.
    intros I Hx. apply (inv_w _ I) in Hx. destruct x as [l|t c|]; cbn; auto.
    destruct Hx as [_ [d P]]. destruct P; auto.
  Qed.

  (** *** Progress and result *)
  Lemma Inv_stuck_finished s : Inv s -> (forall s', ~ step f aa w h n s s') -> finished s.
  Proof.
    intros I Hst. apply Forall_forall. intros x Hx.
    generalize (Inv_no_crash s x I Hx). intros Hc.
    destruct (in_split _ _ Hx) as (ws1 & ws2 & E). destruct s as [q ws m]. cbn [sWorkers] in *. subst ws.
    destruct x as [l|t c|]; auto; exfalso.
    - destruct q as [|t q]; eapply Hst; constructor; constructor.
    - destruct c; try (eapply Hst; constructor; constructor). now apply Hc.
  Qed.
  Lemma Inv_finished s : Inv s -> sWorkers s <> nil -> finished s -> forall p, acc_at (sMem s) p = fin p.
  Proof.
    intros I Hne Hfin p. apply (inv_rest _ I). unfold live.
    assert (sQueue s = nil) as ->.
    { apply (inv_done _ I). unfold finished in Hfin. destruct (sWorkers s); [congruence|]. inversion Hfin; subst. now left. }
    intros t Ht. cbn in Ht. apply busyTiles_in in Ht. destruct Ht as (c & Hc).
    unfold finished in Hfin. rewrite Forall_forall in Hfin. apply Hfin in Hc. discriminate.
  Qed.

  Lemma step_workers s s' : step f aa w h n s s' -> sWorkers s' <> nil.
  Proof. intros []. cbn. destruct ws1; discriminate. Qed.
  Lemma steps_workers k s s' : steps f aa w h n k s s' -> sWorkers s <> nil -> sWorkers s' <> nil.
  Proof. induction 1; auto. intros. apply IHsteps. eapply step_workers; eauto. Qed.

  (** *** Initial state *)
  Lemma Inv_init q gs : tessellate w h 16 = Val q -> (0 <= w)%Z -> (0 <= h)%Z -> gs <> nil -> Inv (initSys shifts gs q m0).
  Proof.
    intros E Hw Hh Hgs. destruct (tessellate_partition w h 16 Hw Hh ltac:(lia)) as (q' & E' & ND & HT & HP).
    rewrite E in E'. injection E' as <-.
    assert (busyTiles (map (fun g => Idle (newCtxSeq shifts, g)) gs) = nil) as EB.
    { clear Hgs. induction gs; cbn; auto. }
    assert (forall t, In t q -> tile_ok t) as TO.
    { intros t Ht p [Hx Hy]. destruct (HT t Ht) as (? & ? & ? & ? & _). split; lia. }
    split; unfold live, initSys; cbn [sQueue sWorkers sMem].
    - rewrite EB, app_nil_r. intros p. destruct (in_imageb w h p) eqn:Ep.
      + apply in_imageb_spec in Ep. destruct (HP p Ep) as (t & Ht & Hpt & Hu).
        assert (forall x, In x (filter (fun t => in_tileb t p) q) -> x = t) as Hall.
        { intros x Hx. apply filter_In in Hx. destruct Hx as [Hx Hx']. apply Hu; auto. now apply in_tileb_spec. }
        generalize (NoDup_filter (fun t => in_tileb t p) ND). intros NDf.
        destruct (filter (fun t => in_tileb t p) q) as [|a [|b l]]; cbn; try lia.
        exfalso. inversion NDf as [|? ? Hni _]; subst. apply Hni. left. rewrite (Hall a), (Hall b); auto; cbn; auto.
      + assert (filter (fun t => in_tileb t p) q = nil) as ->; [|cbn; lia].
        destruct (filter (fun t => in_tileb t p) q) as [|a l] eqn:Ef; auto. exfalso.
        assert (In a (filter (fun t => in_tileb t p) q)) as Ha by (rewrite Ef; now left).
        apply filter_In in Ha. destruct Ha as [Ha Ha']. apply in_tileb_spec in Ha'. apply TO in Ha'; auto.
        apply in_imageb_spec in Ha'. congruence.
    - exact TO.
    - intros x Hx. apply in_map_iff in Hx. destruct Hx as (g & <- & _). apply like_new.
    - auto.
    - intros t c p Hx. apply in_map_iff in Hx. destruct Hx as (g & Eg & _). discriminate.
    - rewrite EB, app_nil_r. intros p Hp. unfold fin. destruct (in_imageb w h p) eqn:Ep; auto.
      exfalso. apply in_imageb_spec in Ep. destruct (HP p Ep) as (t & Ht & Hpt & _). eapply Hp; eauto.
    - intros Hx. apply in_map_iff in Hx. destruct Hx as (g & Eg & _). discriminate.
  Qed.

  (** *** Termination *)
  Inductive wweight : worker F G -> nat -> Prop :=
  | ww_idle l : likeL l -> wweight (Idle l) 1
  | ww_busy t c d : pok (in_tile t) likeL d c -> wweight (Busy t c) (d + 2)
  | ww_done : wweight Done 0.
  Definition qweight (q : list tile) : nat := list_sum (map (fun t => tdepth t + 2)%nat q).
  Lemma qweight_cons t q : qweight (t :: q) = (tdepth t + 2 + qweight q)%nat.
  Proof. reflexivity. Qed.
  Inductive weight : sys F G -> nat -> Prop :=
  | weight_intro q ws m ns : Forall tile_ok q -> Forall2 wweight ws ns -> weight (Sys q ws m) (qweight q + list_sum ns).

  Lemma weight_step s s' k : step f aa w h n s s' -> weight s k -> exists k', weight s' k' /\ (k' < k)%nat.
  Proof.
    intros Hs Hk. destruct Hs as [q q' m m' x x' ws1 ws2 Hw].
    inversion Hk as [? ? ? ns HQ HF]; subst. apply Forall2_app_inv_l in HF. destruct HF as (n1 & n2 & H1 & H2 & ->).
    inversion H2 as [|? nx ? ns2 Hx H2']; subst.
    assert (exists nx', wweight x' nx' /\ Forall tile_ok q' /\ (qweight q' + nx' < qweight q + nx)%nat) as (nx' & Hx' & HQ' & Hlt).
    { inversion Hw; subst; inversion Hx; subst.
      - inversion HQ; subst. eexists. split; [constructor; apply pok_sampleTile; auto|]. split; auto. rewrite qweight_cons. lia.
      - eexists. split; [constructor|]. split; auto; lia.
      - match goal with P : pok _ _ _ (Ret _) |- _ => inversion P; subst end. eexists. split; [constructor; auto|]. split; auto. lia.
      - match goal with P : pok _ _ _ (LoadN _ _) |- _ => inversion P; subst end. eexists. split; [constructor; eauto|]. split; auto. lia.
      - match goal with P : pok _ _ _ (StoreN _ _ _) |- _ => inversion P; subst end. eexists. split; [constructor; eauto|]. split; auto. lia.
      - match goal with P : pok _ _ _ (LoadF _ _ _) |- _ => inversion P; subst end. eexists. split; [constructor; eauto|]. split; auto. lia.
      - match goal with P : pok _ _ _ (StoreF _ _ _ _) |- _ => inversion P; subst end. eexists. split; [constructor; eauto|]. split; auto. lia. }
    exists (qweight q' + list_sum (n1 ++ nx' :: ns2))%nat. split.
    - constructor; auto. apply Forall2_app; auto.
    - rewrite !list_sum_app. cbn [list_sum fold_right]. unfold list_sum in *. cbn. lia.
  Qed.

  Lemma weight_steps j s s' : steps f aa w h n j s s' -> forall k, weight s k -> (j <= k)%nat.
  Proof.
    induction 1 as [|j s1 s2 s3 Hs _ IH]; intros k Hk; [lia|].
    destruct (weight_step _ _ _ Hs Hk) as (k' & Hk' & Hlt). specialize (IH _ Hk'). lia.
  Qed.

  Lemma weight_init q gs : tessellate w h 16 = Val q -> (0 <= w)%Z -> (0 <= h)%Z -> exists k, weight (initSys shifts gs q m0) k.
  Proof.
    intros E Hw Hh. destruct (tessellate_partition w h 16 Hw Hh ltac:(lia)) as (q' & E' & _ & HT & _).
    rewrite E in E'. injection E' as <-.
    exists (qweight q + list_sum (map (fun _ => 1%nat) gs))%nat. constructor.
    - apply Forall_forall. intros t Ht p [Hx Hy]. destruct (HT t Ht) as (? & ? & ? & ? & _). split; lia.
    - induction gs; cbn; constructor; auto. constructor. apply like_new.
  Qed.
End Pool.
