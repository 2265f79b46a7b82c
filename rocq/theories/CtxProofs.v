(** * Recursion depth and ray recycling (C22, C23): a relational program logic for [act] *)
From Coq Require Import ZArith Reals Bool List Permutation Lia.
From Verif Require Import Num NumLaws Outcome GeomModel ColorModel SeqModel ObjModel TreeModel ObjSpec ObjProofs ParamProofs SceneModel SceneSpec SceneProofs.
Import ListNotations.

Section Logic.
  Context {F G : Type}.
  Notation ctx := (ctx F G).
  Variable E : Prop.  (* what is known if the fuel runs out *)

  (** from states in [P] both programs do the same, and reach [Q] if they return *)
  Definition rel {A} (P : ctx -> Prop) (a1 a2 : act F G A) (Q : A -> ctx -> Prop) : Prop :=
    forall c, P c -> a1 c = a2 c /\ match a1 c with Val (x, c') => Q x c' | Panic => True | NoFuel => E end.

  Lemma rel_ret {A} (P : ctx -> Prop) (x : A) (Q : A -> ctx -> Prop) : (forall c, P c -> Q x c) -> rel P (mret x) (mret x) Q.
  Proof. intros H c Hc. split; [reflexivity|]. cbn. auto. Qed.
  Lemma rel_bind {A B} (P : ctx -> Prop) (Q : A -> ctx -> Prop) (R : B -> ctx -> Prop) a1 a2 f1 f2 :
    rel P a1 a2 Q -> (forall x, rel (Q x) (f1 x) (f2 x) R) -> rel P (mbind a1 f1) (mbind a2 f2) R.
  Proof.
    intros Ha Hf c Hc. destruct (Ha c Hc) as [Ea Hq]. unfold mbind. rewrite <- Ea.
    destruct (a1 c) as [[x c']| |]; cbn; auto. now apply Hf.
  Qed.
  Lemma rel_lift {A} (P : ctx -> Prop) (o : outcome A) (Q : A -> ctx -> Prop) :
    (o = NoFuel -> E) -> (forall x c, o = Val x -> P c -> Q x c) -> rel P (mlift o) (mlift o) Q.
  Proof. intros HE HQ c Hc. split; [reflexivity|]. unfold mlift. destruct o; cbn; auto. Qed.
  Lemma rel_pre {A} (P P' : ctx -> Prop) (a1 a2 : act F G A) Q : (forall c, P' c -> P c) -> rel P a1 a2 Q -> rel P' a1 a2 Q.
  Proof. intros H Hr c Hc. apply Hr. auto. Qed.
  Lemma rel_post {A} (P : ctx -> Prop) (a1 a2 : act F G A) (Q Q' : A -> ctx -> Prop) :
    (forall x c, Q x c -> Q' x c) -> rel P a1 a2 Q -> rel P a1 a2 Q'.
  Proof.
    intros H Hr c Hc. destruct (Hr c Hc) as [A1 A2]. split; auto. destruct (a1 c) as [[x c']| |]; auto.
  Qed.
  Lemma rel_ext {A} (P : ctx -> Prop) (a1 a2 b1 b2 : act F G A) Q :
    (forall c, P c -> a1 c = b1 c) -> (forall c, P c -> a2 c = b2 c) -> rel P b1 b2 Q -> rel P a1 a2 Q.
  Proof. intros H1 H2 Hr c Hc. rewrite H1, H2 by auto. now apply Hr. Qed.
End Logic.

Section Rays.
  Context {F G : Type} `{NF : Num F} `{NI : NumInf F} `{TF : Trig F}.
  Variable rand2 : G -> (F * F) * G.
  Notation ctx := (ctx F G).
  Notation material := (material F).
  Notation object := (object F material).

  (** relative to [c0], exactly the rays [held] have been taken, depth and sequences are unchanged *)
  Record inv (c0 : ctx) (held : list nat) (c : ctx) : Prop := Inv {
    inv_pool : pool_ok c;
    inv_depth : cDepth c = cDepth c0;
    inv_seq : cSeq c = cSeq c0;
    inv_use : forall i, in_use c i <-> in_use c0 i \/ In i held;
    inv_heap : forall i, in_use c0 i -> nth_error (cHeap c) i = nth_error (cHeap c0) i;
    inv_nodup : NoDup held;
    inv_fresh : forall i, In i held -> ~ in_use c0 i }.

  Lemma inv_refl c : pool_ok c -> inv c nil c.
  Proof. intros H. constructor; auto using NoDup_nil; intros i; cbn; tauto. Qed.

  Lemma inv_same c c' : inv c nil c' -> same_rays c c'.
  Proof. intros []. split; auto. split; auto. intros i. rewrite inv_use0. cbn; tauto. Qed.

  (** an inner evaluation relative to [c] keeps the invariant of the outer one *)
  Lemma inv_trans c0 held c c' : inv c0 held c -> inv c nil c' -> inv c0 held c'.
  Proof.
    intros H H'. constructor.
    - apply H'.
    - rewrite (inv_depth _ _ _ H'). apply H.
    - rewrite (inv_seq _ _ _ H'). apply H.
    - intros i. rewrite (inv_use _ _ _ H'), (inv_use _ _ _ H). cbn; tauto.
    - intros i Hi. rewrite (inv_heap _ _ _ H'), (inv_heap _ _ _ H); auto. rewrite (inv_use _ _ _ H). auto.
    - apply H.
    - apply H.
  Qed.

  Lemma inv_rng c0 held c g : inv c0 held c -> inv c0 held (withRng c g).
  Proof. intros []. constructor; auto. Qed.
  Lemma inv_numRays c0 held c n : inv c0 held c -> inv c0 held (withNumRays c n).
  Proof. intros []. constructor; auto. Qed.

  Lemma inv_write c0 held c i q : inv c0 held c -> In i held -> inv c0 held (withPool c (cPool c) (setNth (cHeap c) i q)).
  Proof.
    intros [P D Sq U H N Fr] Hi. constructor; auto.
    - destruct P as [P1 P2]. split; auto. cbn. intros j Hj. rewrite setNth_length. auto.
    - intros j. rewrite <- U. unfold in_use. cbn. now rewrite setNth_length.
    - intros j Hj. cbn. rewrite nth_setNth_ne; auto. intros ->. exact (Fr j Hi Hj).
  Qed.
  Lemma inv_rewrite c0 held c i q : inv c0 held c -> nth_error (cHeap c) i = Some q ->
    inv c0 held (withPool c (cPool c) (setNth (cHeap c) i q)).
  Proof. intros Hi Hq. rewrite nth_error_setNth_same by exact Hq. now destruct c. Qed.

  Lemma inv_new c0 held c : inv c0 held c ->
    exists i c', newRay c = Val (i, c') /\ inv c0 (i :: held) c' /\ nth_error (cHeap c') i = Some zeroRay /\ ~ in_use c i.
  Proof.
    intros [P D Sq U H N Fr]. unfold newRay, mbind.
    destruct P as [P1 P2]. destruct (cPool c) as [|i rest] eqn:Ep; cbn.
    - unfold writeRay; cbn. rewrite nth_error_app2, Nat.sub_diag by lia. cbn.
      assert (L : length (setNth (cHeap c ++ [zeroRay]) (length (cHeap c)) zeroRay) = S (length (cHeap c))).
      { rewrite setNth_length, app_length. cbn. lia. }
      assert (nu : ~ in_use c (length (cHeap c))) by (intros [A _]; lia).
      exists (length (cHeap c)). eexists. split; [reflexivity|]. split; [|split].
      + constructor; cbn; auto.
        * split; cbn; [constructor|intros i []].
        * intros i. unfold in_use. cbn. rewrite L.
          specialize (U i). unfold in_use in U. rewrite Ep in U. cbn in U. unfold in_use.
          destruct (Nat.eq_dec i (length (cHeap c))) as [->|Hne].
          -- split; [intros _; right; now left|]. intros _. split; [lia|tauto].
          -- split.
             ++ intros [A B]. assert (i < length (cHeap c))%nat by lia. destruct U as [U _]. destruct U; auto.
             ++ intros HH. assert (A : (i < length (cHeap c))%nat /\ ~ False). { apply U. destruct HH as [?|[?|?]]; auto. congruence. }
                split; [lia|tauto].
        * intros i Hi. rewrite nth_setNth_ne by (intros <-; apply nu; apply U; auto).
          rewrite nth_error_app1; [auto|]. assert (in_use c i) as [A _] by (apply U; auto). exact A.
        * constructor; auto. intros Hin. apply nu. apply U. auto.
        * intros i [<-|Hi]; auto. intros Hu. apply nu. apply U. auto.
      + cbn. apply nth_setNth_eq. rewrite app_length. cbn. lia.
      + exact nu.
    - unfold writeRay; cbn.
      assert (Hi : (i < length (cHeap c))%nat) by (apply P2; cbn; auto).
      assert (nu : ~ in_use c i) by (intros [_ A]; apply A; rewrite Ep; cbn; auto).
      destruct (nth_error (cHeap c) i) as [q|] eqn:En; [|apply nth_error_None in En; lia]. cbn.
      inversion P1 as [|? ? N1 N2]; subst.
      exists i. eexists. split; [reflexivity|]. split; [|split].
      + constructor; cbn; auto.
        * split; cbn; auto. intros j Hj. rewrite setNth_length. apply P2. now right.
        * intros j. unfold in_use. cbn. rewrite setNth_length. specialize (U j). unfold in_use in U. rewrite Ep in U. cbn in U.
          destruct (Nat.eq_dec i j) as [->|Hne].
          -- split; [intros _; right; now left|]. intros _. auto.
          -- split.
             ++ intros [A B]. destruct U as [U _]. destruct U; auto. split; auto. intros [?|?]; auto.
             ++ intros HH. assert (A : (j < length (cHeap c))%nat /\ ~ (i = j \/ In j rest)). { apply U. destruct HH as [?|[?|?]]; auto. congruence. }
                destruct A; split; auto.
        * intros j Hj. rewrite nth_setNth_ne; auto. intros <-. apply nu. apply U. auto.
        * constructor; auto. intros Hin. apply nu. apply U. auto.
        * intros j [<-|Hj]; auto. intros Hu. apply nu. apply U. auto.
      + cbn. apply nth_setNth_eq. exact Hi.
      + exact nu.
  Qed.

  Lemma inv_put c0 held c i : inv c0 (i :: held) c -> inv c0 held (withPool c (i :: cPool c) (cHeap c)).
  Proof.
    intros [P D Sq U H N Fr]. inversion N as [|? ? N1 N2]; subst.
    assert (in_use c i) as [Hl Hn] by (apply U; cbn; auto).
    constructor; auto.
    - destruct P as [P1 P2]. split; cbn; [now constructor|]. intros j [<-|Hj]; auto.
    - intros j. specialize (U j). unfold in_use in *. cbn in *. split.
      + intros [A B]. destruct U as [U _]. destruct U as [?|[?|?]]; auto. exfalso. auto.
      + intros HH. assert (A : (j < length (cHeap c))%nat /\ ~ In j (cPool c)) by (apply U; tauto).
        destruct A as [A B]. split; auto. intros [->|?]; auto. destruct HH as [HH|HH]; auto.
        apply (Fr j); cbn; auto.
    - intros j Hj. apply Fr. now right.
  Qed.

  (** ** Primitive operations *)
  Variable E : Prop.
  Notation rel := (rel (F := F) (G := G) E).
  Variable c0 : ctx.
  Hypothesis seq_ok : forall s, s = cs_1 (cSeq c0) \/ s = cs_2 (cSeq c0) -> hseq_generate2 s = NoFuel -> E.
  Notation I := (inv c0).
  Definition known (held : list nat) (r : nat) : Prop := in_use c0 r \/ In r held.

  Lemma rel_read held r : rel (I held) (readRay r) (readRay r) (fun _ => I held).
  Proof.
    intros c Hc. split; [reflexivity|]. unfold readRay. destruct (nth_error (cHeap c) r); auto.
  Qed.
  Lemma rel_write held i q : In i held -> rel (I held) (writeRay i q) (writeRay i q) (fun _ => I held).
  Proof.
    intros Hi c Hc. split; [reflexivity|]. unfold writeRay. destruct (nth_error (cHeap c) i); auto. now apply inv_write.
  Qed.
  Lemma rel_setStart held i p : In i held -> rel (I held) (setStart i p) (setStart i p) (fun _ => I held).
  Proof. intros Hi. unfold setStart. eapply rel_bind; [apply rel_read|]. intros q. now apply rel_write. Qed.
  Lemma rel_setDir held i p : In i held -> rel (I held) (setDir i p) (setDir i p) (fun _ => I held).
  Proof. intros Hi. unfold setDir. eapply rel_bind; [apply rel_read|]. intros q. now apply rel_write. Qed.
  Lemma rel_new held : rel (I held) newRay newRay (fun i => I (i :: held)).
  Proof.
    intros c Hc. split; [reflexivity|]. destruct (inv_new _ _ _ Hc) as (i & c' & -> & Hi & _). exact Hi.
  Qed.
  Lemma rel_put held i : rel (I (i :: held)) (putRay i) (putRay i) (fun _ => I held).
  Proof. intros c Hc. split; [reflexivity|]. cbn. now apply inv_put. Qed.
  Lemma rel_pseudo held : rel (I held) (pseudo2 rand2) (pseudo2 rand2) (fun _ => I held).
  Proof. intros c Hc. split; [reflexivity|]. unfold pseudo2. destruct (rand2 (cRng c)). now apply inv_rng. Qed.
  Lemma rel_generate2 held : rel (I held) (generate2 rand2) (generate2 rand2) (fun _ => I held).
  Proof.
    intros c Hc. split; [reflexivity|]. unfold generate2.
    destruct (cDepth c =? 0)%Z; auto. rewrite (inv_seq _ _ _ Hc).
    destruct (cDepth c =? 1)%Z.
    { destruct (hseq_generate2 (cs_1 (cSeq c0))) eqn:X; cbn; auto. eapply seq_ok; [|exact X]; auto. }
    destruct (cDepth c =? 2)%Z.
    { destruct (hseq_generate2 (cs_2 (cSeq c0))) eqn:X; cbn; auto. eapply seq_ok; [|exact X]; auto. }
    now apply rel_pseudo.
  Qed.
  Lemma rel_isInitial held : rel (I held) isInitial isInitial (fun _ => I held).
  Proof. intros c Hc. split; [reflexivity|]. unfold isInitial. destruct (cDepth c =? 0)%Z; auto. Qed.

  (** ** Objects *)
  Definition good (o : object) : Prop :=
    (forall q h q', oIntersect o q = Val (h, q') -> q' = q) /\ (forall q, oIntersect o q = NoFuel -> E).
  Definition reports (o : object) (h : hit F material) : Prop := exists q q', oIntersect o q = Val (h, q').

  Lemma rel_intersect held o r : good o ->
    rel (I held) (intersectRay o r) (intersectRay o r) (fun h c => I held c /\ reports o h).
  Proof.
    intros [G1 G2] c Hc. split; [reflexivity|]. unfold intersectRay, mbind, readRay, mlift.
    destruct (nth_error (cHeap c) r) as [q|] eqn:Er; cbn; auto.
    destruct (oIntersect o q) as [[h q']| |] eqn:Eo; cbn; eauto.
    unfold writeRay. rewrite Er. cbn. rewrite (G1 _ _ _ Eo). split; [now apply inv_rewrite|]. now exists q, q'.
  Qed.

  Variable s : scene F.
  Hypothesis objects_good : forall o, In o (all_objects s) -> good o.
  Definition tex_ok (t : texture F) : Prop := forall p, t p = NoFuel -> E.
  Hypothesis shown_ok : forall m, shown s m -> textures tex_ok m.
  Lemma reports_shown o h m : In o (all_objects s) -> reports o h -> hMat h = Some m -> shown s m.
  Proof. intros Ho (q & q' & H) Hm. now exists o, q, h, q'. Qed.
  Lemma sObjects_all o : In o (sObjects s) -> In o (all_objects s).
  Proof. intros H. apply in_or_app; auto. Qed.
  Lemma who_all w o : In o (whoObjects s w) -> In o (all_objects s).
  Proof. intros H. unfold all_objects. destruct w; cbn in H; rewrite !in_app_iff; auto. Qed.

  Lemma rel_frontLoop held r objs : (forall o, In o objs -> In o (all_objects s)) -> forall front,
    (forall m, hMat front = Some m -> textures tex_ok m) ->
    rel (I held) (frontLoop objs r front) (frontLoop objs r front)
      (fun h c => I held c /\ forall m, hMat h = Some m -> textures tex_ok m).
  Proof.
    induction objs as [|o objs IH]; intros Hin front Hf; cbn [frontLoop].
    - apply rel_ret; auto.
    - eapply rel_bind; [apply rel_intersect, objects_good, Hin; now left|].
      intros h. intros c [Hc Hr]. revert c Hc. apply IH; [intros; apply Hin; now right|].
      intros m. destruct (_ && _)%bool; auto.
      intros Hm. apply shown_ok. apply (reports_shown o h); auto. apply Hin; now left.
  Qed.
  Lemma rel_frontmost held r w :
    rel (I held) (intersectFrontmost (whoObjects s w) r) (intersectFrontmost (whoObjects s w) r)
      (fun h c => I held c /\ forall m, hMat h = Some m -> textures tex_ok m).
  Proof.
    unfold intersectFrontmost. eapply rel_bind; [apply rel_read|]. intros q.
    apply rel_frontLoop; [apply who_all|]. cbn. intros m Hm. injection Hm as <-. exact Logic.I.
  Qed.

  Lemma rel_occludeLoop held r len objs : (forall o, In o objs -> In o (all_objects s)) -> forall orig,
    rel (I held) (occludeLoop objs r len orig) (occludeLoop objs r len orig) (fun _ => I held).
  Proof.
    induction objs as [|o objs IH]; intros Hin orig; cbn [occludeLoop].
    - apply rel_ret; auto.
    - eapply rel_bind; [apply rel_intersect, objects_good, Hin; now left|].
      intros h c [Hc Hr]. revert c Hc. change (rel (I held)
        (if ((hT h >? #0) && (hT h <? len))%num%bool
         then match matFilter (hMat h) h orig with
              | Some co => mbind (mlift co) (fun orig => occludeLoop objs r len orig)
              | None => mret black end
         else occludeLoop objs r len orig)
        (if ((hT h >? #0) && (hT h <? len))%num%bool
         then match matFilter (hMat h) h orig with
              | Some co => mbind (mlift co) (fun orig => occludeLoop objs r len orig)
              | None => mret black end
         else occludeLoop objs r len orig) (fun _ => I held)).
      assert (IH' := IH (fun o H => Hin o (or_intror H))).
      destruct (_ && _)%bool; auto.
      destruct (hMat h) as [[]|] eqn:Em; cbn [matFilter]; try (apply rel_ret; auto).
      eapply rel_bind; [|intros x; apply IH'].
      apply rel_lift; auto. intros X.
      assert (T : textures tex_ok (MTransparent t)).
      { apply shown_ok. apply (reports_shown o h); auto. apply Hin; now left. }
      cbn in T. apply (T (hLocal h)). destruct (t (hLocal h)); cbn in X; congruence.
  Qed.
  Lemma rel_occlude held r len orig : rel (I held) (occlude s r len orig) (occlude s r len orig) (fun _ => I held).
  Proof. apply rel_occludeLoop, sObjects_all. Qed.

  Lemma rel_lightSample held l : forall p,
    rel (I held) (lightSample rand2 l p) (lightSample rand2 l p) (fun _ => I held).
  Proof.
    induction l as [pos power|w h center tp k obj|fw inverse l IH obj]; intros p; cbn [lightSample].
    - apply rel_ret; auto.
    - eapply rel_bind; [apply rel_generate2|]. intros uv. apply rel_ret; auto.
    - eapply rel_bind; [apply IH|]. intros [tpos bright]. apply rel_ret; auto.
  Qed.

  Ltac step :=
    cbv zeta;
    match goal with
    | |- CtxProofs.rel _ _ (mbind (readRay _) _) _ _ => eapply rel_bind; [apply rel_read|intros ?q; cbv beta]
    | |- CtxProofs.rel _ _ (mbind newRay _) _ _ => eapply rel_bind; [apply rel_new|intros ?i; cbv beta]
    | |- CtxProofs.rel _ _ (mbind (setStart _ _) _) _ _ => eapply rel_bind; [apply rel_setStart; cbn; auto|intros []; cbv beta]
    | |- CtxProofs.rel _ _ (mbind (setDir _ _) _) _ _ => eapply rel_bind; [apply rel_setDir; cbn; auto|intros []; cbv beta]
    | |- CtxProofs.rel _ _ (mbind (putRay _) _) _ _ => eapply rel_bind; [apply rel_put|intros []; cbv beta]
    | |- CtxProofs.rel _ _ (mbind (generate2 _) _) _ _ => eapply rel_bind; [apply rel_generate2|intros ?uv]
    | |- CtxProofs.rel _ _ (mbind isInitial _) _ _ => eapply rel_bind; [apply rel_isInitial|intros ?ini; cbv beta]
    | |- CtxProofs.rel _ _ (mbind (occlude _ _ _ _) _) _ _ => eapply rel_bind; [apply rel_occlude|intros ?col]
    | |- CtxProofs.rel _ _ (mbind (lightSample _ _ _) _) _ _ => eapply rel_bind; [apply rel_lightSample|intros ?ls]
    | |- CtxProofs.rel _ _ (mret _) _ _ => apply rel_ret; auto
    end.

  (** ** Recursive evaluation *)
  Variable lf1 lf2 : who -> nat -> act F G (color F).
  Hypothesis lf_ok : forall w r' c', pool_ok c' -> cDepth c' = cDepth c0 -> cSeq c' = cSeq c0 ->
    in_use c' r' -> ~ in_use c0 r' -> (forall i, in_use c0 i -> in_use c' i) ->
    lf1 w r' c' = lf2 w r' c' /\ match lf1 w r' c' with Val (_, c'') => inv c' nil c'' | Panic => True | NoFuel => E end.

  Lemma rel_lf held w i : In i held -> rel (I held) (lf1 w i) (lf2 w i) (fun _ => I held).
  Proof.
    intros Hi c Hc. destruct (lf_ok w i c (inv_pool _ _ _ Hc) (inv_depth _ _ _ Hc) (inv_seq _ _ _ Hc)) as [H1 H2].
    - apply (inv_use _ _ _ Hc). auto.
    - now apply (inv_fresh _ _ _ Hc).
    - intros j Hj. apply (inv_use _ _ _ Hc). auto.
    - split; auto. destruct (lf1 w i c) as [[x c']| |]; auto. eapply inv_trans; eauto.
  Qed.

  Lemma rel_matteLights held ls p n sec : In sec held -> forall acc,
    rel (I held) (matteLights rand2 s ls p n sec acc) (matteLights rand2 s ls p n sec acc) (fun _ => I held).
  Proof.
    intros Hs. induction ls as [|l ls IH]; intros acc; cbn [matteLights]; [step|].
    step. destruct ls0 as [lpos intens]. destruct (isBlack intens); auto.
    destruct (_ <=? _)%num; auto. step. step. apply IH.
  Qed.
  Lemma rel_fogLights held ls n p wt sec : In sec held -> forall i acc,
    rel (I held) (fogLights rand2 s i ls n p wt sec acc) (fogLights rand2 s i ls n p wt sec acc) (fun _ => I held).
  Proof.
    intros Hs. induction ls as [|l ls IH]; intros i acc; cbn [fogLights]; [step|].
    destruct (i =? n)%Z; [step|].
    step. destruct ls0 as [lpos intens]. destruct (isBlack intens); auto.
    step. step. step. apply IH.
  Qed.

  Lemma rel_matteShade held t r h : tex_ok t ->
    rel (I held) (matteShade rand2 s lf1 t r h) (matteShade rand2 s lf2 t r h) (fun _ => I held).
  Proof.
    intros Ht. unfold matteShade. step. step. step. step.
    eapply rel_bind; [apply rel_matteLights; cbn; auto|]. intros acc.
    step. step. destruct uv as [u v]. step.
    eapply rel_bind; [apply rel_lf; cbn; auto|]. intros ind. step.
    eapply rel_bind; [apply rel_lift; [apply Ht|intros x c _ Hc; exact Hc]|]. intros refl. step.
  Qed.
  Lemma rel_reflectiveShade held col r h :
    rel (I held) (reflectiveShade lf1 col r h) (reflectiveShade lf2 col r h) (fun _ => I held).
  Proof.
    unfold reflectiveShade. step. step. step. step. step.
    eapply rel_bind; [apply rel_lf; cbn; auto|]. intros ind. step. step.
  Qed.
  Lemma rel_transparentShade held t r h : tex_ok t ->
    rel (I held) (transparentShade lf1 t r h) (transparentShade lf2 t r h) (fun _ => I held).
  Proof.
    intros Ht. unfold transparentShade. step. step. step. step. step.
    eapply rel_bind; [apply rel_lf; cbn; auto|]. intros ind.
    eapply rel_bind; [apply rel_lift; [apply Ht|intros x c _ Hc; exact Hc]|]. intros refl. step. step.
  Qed.
  Lemma rel_refractiveShade held n1 n2 r h :
    rel (I held) (refractiveShade lf1 n1 n2 r h) (refractiveShade lf2 n1 n2 r h) (fun _ => I held).
  Proof.
    unfold refractiveShade. step. destruct (totalReflection _).
    - step. step. step. step. step. eapply rel_bind; [apply rel_lf; cbn; auto|]. intros ind. step. step.
    - step. step. step. step. eapply rel_bind; [apply rel_lf; cbn; auto|]. intros cT.
      step. step. step. step. eapply rel_bind; [apply rel_lf; cbn; auto|]. intros cR. step. step. step.
  Qed.

  Lemma rel_shade m : textures tex_ok m -> forall held r h,
    rel (I held) (shade rand2 s lf1 m r h) (shade rand2 s lf2 m r h) (fun _ => I held).
  Proof.
    induction m as [|t|t|col|n m IH|n1 n2|t|a IHa b IHb|wa a IHa wb b IHb|t a IHa b IHb]; cbn [textures]; intros Ht held r h; cbn [shade].
    - step.
    - apply rel_lift; auto. apply Ht.
    - now apply rel_matteShade.
    - apply rel_reflectiveShade.
    - step. step. step. step. step.
      eapply rel_bind; [apply IH, Ht|]. intros tr.
      eapply rel_bind; [apply rel_lf; cbn; auto|]. intros refl. step. step.
    - apply rel_refractiveShade.
    - now apply rel_transparentShade.
    - destruct Ht. step. destruct (_ >? _)%num; auto.
    - destruct Ht. eapply rel_bind; [apply IHa; auto|]. intros ca.
      eapply rel_bind; [apply IHb; auto|]. intros cb. step.
    - destruct Ht as (Ht & Ha & Hb).
      eapply rel_bind; [apply rel_lift; [apply Ht|intros x c _ Hc; exact Hc]|]. intros k.
      eapply rel_bind; [destruct (cR k >? #0)%num; [now apply IHa|apply rel_ret; auto]|]. intros ca.
      eapply rel_bind; [destruct (#1 - cR k >? #0)%num; [now apply IHb|apply rel_ret; auto]|]. intros cb. step.
  Qed.
  Lemma rel_shadeHit m held r h : (forall m', m = Some m' -> textures tex_ok m') ->
    rel (I held) (shadeHit rand2 s lf1 m r h) (shadeHit rand2 s lf2 m r h) (fun _ => I held).
  Proof.
    destruct m as [m|]; intros H; cbn [shadeHit]; [apply rel_shade; auto|].
    apply rel_lift; discriminate.
  Qed.

  Lemma rel_mediumFilter m held r tMax orig :
    rel (I held) (mediumFilter rand2 s m r tMax orig) (mediumFilter rand2 s m r tMax orig) (fun _ => I held).
  Proof.
    destruct m as [density ambient height|density height numLight]; cbn [mediumFilter].
    - step. destruct (negb ini); [step|]. step. destruct (fogInterval height tMax q) as [a b].
      apply rel_lift; auto. unfold expFogBlend. destruct (negb _); discriminate.
    - step. destruct (negb ini); [step|]. step. destruct (fogInterval height tMax q) as [a b].
      step. destruct uv as [u v]. destruct (randExpInterval u density (b - a)%num) as [ts wt].
      step. step. eapply rel_bind; [apply rel_fogLights; cbn; auto|]. intros acc. step. step.
  Qed.
  Lemma rel_mediaLoop held r tMax ms : forall b,
    rel (I held) (mediaLoop rand2 s ms r tMax b) (mediaLoop rand2 s ms r tMax b) (fun _ => I held).
  Proof.
    induction ms as [|m ms IH]; intros b; cbn [mediaLoop]; [step|].
    eapply rel_bind; [apply rel_mediumFilter|]. intros b'. apply IH.
  Qed.
End Rays.

(** ** The evaluator *)
Section Eval.
  Context {F G : Type} `{NF : Num F} `{NI : NumInf F} `{TF : Trig F}.
  Variable rand2 : G -> (F * F) * G.
  Notation ctx := (ctx F G).
  Variable E : Prop.
  Variable s : scene F.
  Hypothesis objects_good : forall o, In o (all_objects s) -> good E o.
  Hypothesis shown_ok : forall m, shown s m -> textures (tex_ok E) m.

  Definition body (lf : who -> nat -> act F G (color F)) (w : who) (r : nat) : act F G (color F) :=
    d <- getDepth ;;
    if (sRecursionDepth s =? d)%Z then mret black else
    countRay ;;;
    setDepth (d + 1)%Z ;;;
    front <- intersectFrontmost (whoObjects s w) r ;;
    b <- shadeHit rand2 s lf (hMat front) r (HitCoords (hT front) (vnormalized (hNormal front)) (hLocal front)) ;;
    b <- mediaLoop rand2 s (sMedia s) r (hT front) b ;;
    d' <- getDepth ;;
    setDepth (d' - 1)%Z ;;;
    mret b.

  Definition seq_good (q : ctxseq F) : Prop :=
    forall h, h = cs_1 q \/ h = cs_2 q -> hseq_generate2 h = NoFuel -> E.

  Lemma body_rel lf1 lf2 w r (c0 : ctx) :
    pool_ok c0 -> seq_good (cSeq c0) ->
    (sRecursionDepth s <> cDepth c0 -> forall w r' c', pool_ok c' -> cDepth c' = (cDepth c0 + 1)%Z -> cSeq c' = cSeq c0 ->
      in_use c' r' -> ~ in_use c0 r' -> (forall i, in_use c0 i -> in_use c' i) ->
      lf1 w r' c' = lf2 w r' c' /\ match lf1 w r' c' with Val (_, c'') => inv c' nil c'' | Panic => True | NoFuel => E end) ->
    body lf1 w r c0 = body lf2 w r c0 /\
    match body lf1 w r c0 with Val (_, c') => inv c0 nil c' | Panic => True | NoFuel => E end.
  Proof.
    intros Hp Hs Hlf. unfold body.
    rewrite (mbind_run getDepth _ c0 (cDepth c0) c0 eq_refl).
    rewrite (mbind_run getDepth _ c0 (cDepth c0) c0 eq_refl).
    destruct (Z.eqb_spec (sRecursionDepth s) (cDepth c0)) as [Hd|Hd].
    { split; [reflexivity|]. cbn. now apply inv_refl. }
    specialize (Hlf Hd).
    set (c1 := withDepth (withNumRays c0 (cNumRays c0 + 1)) (cDepth c0 + 1)).
    rewrite !(mbind_run countRay _ c0 tt (withNumRays c0 (cNumRays c0 + 1)) eq_refl).
    rewrite !(mbind_run (setDepth (cDepth c0 + 1)) _ (withNumRays c0 (cNumRays c0 + 1)) tt c1 eq_refl).
    assert (H1 : pool_ok c1) by exact Hp.
    cut (rel E (inv c1 nil)
      (front <- intersectFrontmost (whoObjects s w) r ;;
       b <- shadeHit rand2 s lf1 (hMat front) r (HitCoords (hT front) (vnormalized (hNormal front)) (hLocal front)) ;;
       b <- mediaLoop rand2 s (sMedia s) r (hT front) b ;;
       d' <- getDepth ;; setDepth (d' - 1)%Z ;;; mret b)
      (front <- intersectFrontmost (whoObjects s w) r ;;
       b <- shadeHit rand2 s lf2 (hMat front) r (HitCoords (hT front) (vnormalized (hNormal front)) (hLocal front)) ;;
       b <- mediaLoop rand2 s (sMedia s) r (hT front) b ;;
       d' <- getDepth ;; setDepth (d' - 1)%Z ;;; mret b)
      (fun _ => inv c0 nil)).
    { intros H. apply (H c1). now apply inv_refl. }
    eapply rel_bind; [apply (rel_frontmost E c1 s objects_good shown_ok)|].
    intros front c' [Hc' Hm]. revert c' Hc'.
    change (rel E (inv c1 nil)
      (b <- shadeHit rand2 s lf1 (hMat front) r (HitCoords (hT front) (vnormalized (hNormal front)) (hLocal front)) ;;
       b <- mediaLoop rand2 s (sMedia s) r (hT front) b ;;
       d' <- getDepth ;; setDepth (d' - 1)%Z ;;; mret b)
      (b <- shadeHit rand2 s lf2 (hMat front) r (HitCoords (hT front) (vnormalized (hNormal front)) (hLocal front)) ;;
       b <- mediaLoop rand2 s (sMedia s) r (hT front) b ;;
       d' <- getDepth ;; setDepth (d' - 1)%Z ;;; mret b)
      (fun _ => inv c0 nil)).
    eapply rel_bind.
    { apply (rel_shadeHit rand2 E c1 Hs s objects_good shown_ok lf1 lf2); auto. }
    intros b. eapply rel_bind; [apply (rel_mediaLoop rand2 E c1 Hs s objects_good shown_ok)|].
    intros b' c' [P D Sq U H N Fr]. split; [reflexivity|]. cbn.
    constructor; auto. cbn. rewrite D. cbn. lia.
  Qed.

  Lemma memb_in i l : memb i l = true <-> In i l.
  Proof.
    unfold memb. rewrite existsb_exists. split; [intros (x & Hx & Ex)|intros H].
    - apply Nat.eqb_eq in Ex. now subst.
    - exists i. split; auto. apply Nat.eqb_refl.
  Qed.
  Lemma entry_ok_spec active r (c : ctx) : entry_ok s active r c = true <->
    (cDepth c <= sRecursionDepth s)%Z /\ ~ In r active /\ (forall i, In i (r :: active) -> in_use c i).
  Proof.
    unfold entry_ok. rewrite !andb_true_iff, Z.leb_le, negb_true_iff, forallb_forall.
    assert (X : forall i l, memb i l = false <-> ~ In i l).
    { intros i l. rewrite <- memb_in. destruct (memb i l); split; congruence. }
    rewrite X. split.
    - intros [[A B] C]. split; [exact A|]. split; [exact B|]. intros i Hi. specialize (C i Hi).
      apply andb_true_iff in C. destruct C as [C1 C2]. apply Nat.ltb_lt in C1. apply negb_true_iff, X in C2. now split.
    - intros (A & B & C). split; [now split|]. intros i Hi. destruct (C i Hi) as [C1 C2].
      apply andb_true_iff. split; [now apply Nat.ltb_lt|]. now apply negb_true_iff, X.
  Qed.

  Definition enough (fuel : nat) (c : ctx) : Prop := (Z.to_nat (sRecursionDepth s - cDepth c) < fuel)%nat \/ E.

  (** watching the evaluation changes nothing *)
  Theorem watched_eval fuel : forall active w r (c : ctx),
    pool_ok c -> seq_good (cSeq c) -> enough fuel c -> entry_ok s active r c = true ->
    watched rand2 fuel s active w r c = lightField rand2 fuel s w r c /\
    match lightField rand2 fuel s w r c with Val (_, c') => inv c nil c' | Panic => True | NoFuel => E end.
  Proof.
    induction fuel as [|n IH]; intros active w r c Hp Hs Hf He.
    - split; [reflexivity|]. cbn. destruct Hf as [Hf|Hf]; auto. lia.
    - change (lightField rand2 (S n) s w r c) with (body (lightField rand2 n s) w r c).
      assert (X : watched rand2 (S n) s active w r c = body (watched rand2 n s (r :: active)) w r c).
      { cbn [watched]. rewrite He. reflexivity. }
      rewrite X. clear X. apply entry_ok_spec in He. destruct He as (Hd & Hr & Ha).
      assert (R := fun Hlf => body_rel (watched rand2 n s (r :: active)) (lightField rand2 n s) w r c Hp Hs Hlf).
      destruct R as [R1 R2].
      + intros Hne w' r' c' Hp' Hd' Hs' Hu Hnu Hsub.
        destruct (IH (r :: active) w' r' c') as [A B]; auto.
        * now rewrite Hs'.
        * unfold enough in *. rewrite Hd'. destruct Hf as [Hf|Hf]; auto. left. lia.
        * apply entry_ok_spec. split; [lia|]. split.
          -- intros Hi. apply Hnu. now apply Ha.
          -- intros i [<-|Hi]; auto.
        * rewrite A. auto.
      + rewrite R1 in *. auto.
  Qed.

  (** with enough fuel the amount does not matter *)
  Theorem lightField_fuel f1 : forall f2 w r (c : ctx),
    pool_ok c -> seq_good (cSeq c) -> (cDepth c <= sRecursionDepth s)%Z ->
    (Z.to_nat (sRecursionDepth s - cDepth c) < f1)%nat -> (Z.to_nat (sRecursionDepth s - cDepth c) < f2)%nat ->
    lightField rand2 f1 s w r c = lightField rand2 f2 s w r c /\
    match lightField rand2 f1 s w r c with Val (_, c') => inv c nil c' | Panic => True | NoFuel => E end.
  Proof.
    induction f1 as [|f1 IH]; intros [|f2] w r c Hp Hs Hd H1 H2; try lia.
    change (lightField rand2 (S f1) s w r c) with (body (lightField rand2 f1 s) w r c).
    change (lightField rand2 (S f2) s w r c) with (body (lightField rand2 f2 s) w r c).
    apply body_rel; auto. intros Hne w' r' c' Hp' Hd' Hs' _ _ _.
    apply IH; auto; try rewrite Hs'; auto; lia.
  Qed.
End Eval.

(** ** Collected statements *)
Section Collected.
  Context {F G : Type} `{NF : Num F} `{NI : NumInf F} `{TF : Trig F}.
  Variable rand2 : G -> (F * F) * G.
  Notation ctx := (ctx F G).

  Lemma good_true (s : scene F) : restoring s -> forall o, In o (all_objects s) -> good True o.
  Proof. intros H o Ho. split; auto. exact (H o Ho). Qed.
  Lemma textures_true (s : scene F) m : shown s m -> textures (tex_ok True) m.
  Proof.
    intros _. induction m; cbn; auto; try (intros p _; exact I).
    split; auto. intros p _; exact I.
  Qed.
  Lemma seq_true q : seq_good (F := F) True q.
  Proof. intros h _ _. exact I. Qed.
  Lemma good_false (s : scene F) : restoring s -> finishing s -> forall o, In o (all_objects s) -> good False o.
  Proof. intros H [Hf _] o Ho. split; [exact (H o Ho)|exact (Hf o Ho)]. Qed.
  Lemma textures_false (s : scene F) m : finishing s -> shown s m -> textures (tex_ok False) m.
  Proof. intros [_ H] Hm. exact (H m Hm). Qed.
  Lemma seq_false q : seq_finishing q -> seq_good (F := F) False q.
  Proof. intros [A B] h [->| ->] X; auto. Qed.

  Lemma eval_rays fuel (s : scene F) w r (c c' : ctx) b : restoring s -> pool_ok c -> in_use c r ->
    (cDepth c <= sRecursionDepth s)%Z ->
    lightField rand2 fuel s w r c = Val (b, c') -> same_rays c c' /\ cDepth c' = cDepth c /\ cSeq c' = cSeq c.
  Proof.
    intros Hr Hp Hu Hd H.
    destruct (watched_eval rand2 True s (good_true s Hr) (textures_true s) fuel nil w r c Hp (seq_true _)) as [_ X].
    - now right.
    - apply entry_ok_spec. split; auto. split; auto. intros i [<-|[]]; auto.
    - rewrite H in X. split; [now apply inv_same|]. split; apply X.
  Qed.

  Lemma eval_watched fuel (s : scene F) w r (c : ctx) : restoring s -> finishing s -> seq_finishing (cSeq c) ->
    pool_ok c -> in_use c r -> (cDepth c <= sRecursionDepth s)%Z ->
    (Z.to_nat (sRecursionDepth s - cDepth c) < fuel)%nat ->
    watched rand2 fuel s nil w r c = lightField rand2 fuel s w r c /\ watched rand2 fuel s nil w r c <> NoFuel.
  Proof.
    intros Hr Hf Hs Hp Hu Hd Hn.
    destruct (watched_eval rand2 False s (good_false s Hr Hf) (fun m => textures_false s m Hf) fuel nil w r c Hp (seq_false _ Hs)) as [A B].
    - now left.
    - apply entry_ok_spec. split; auto. split; auto. intros i [<-|[]]; auto.
    - split; auto. rewrite A. intros X. now rewrite X in B.
  Qed.

  Lemma eval_fuel f1 f2 (s : scene F) w r (c : ctx) : restoring s -> pool_ok c ->
    (cDepth c <= sRecursionDepth s)%Z ->
    (Z.to_nat (sRecursionDepth s - cDepth c) < f1)%nat -> (Z.to_nat (sRecursionDepth s - cDepth c) < f2)%nat ->
    lightField rand2 f1 s w r c = lightField rand2 f2 s w r c.
  Proof.
    intros Hr Hp Hd H1 H2.
    exact (proj1 (lightField_fuel rand2 True s (good_true s Hr) (textures_true s) f1 f2 w r c Hp (seq_true _) Hd H1 H2)).
  Qed.

  Lemma eval_limit n (s : scene F) w r (c : ctx) : cDepth c = sRecursionDepth s ->
    lightField rand2 (S n) s w r c = Val (black, c).
  Proof. intros H. cbn. rewrite H, Z.eqb_refl. reflexivity. Qed.

  Lemma new_ray_zero (c : ctx) : pool_ok c ->
    exists i c', newRay c = Val (i, c') /\ ~ in_use c i /\ in_use c' i /\ nth_error (cHeap c') i = Some (Ray vO vO) /\
      pool_ok c' /\ (forall j, in_use c j -> in_use c' j /\ nth_error (cHeap c') j = nth_error (cHeap c) j).
  Proof.
    intros Hp. destruct (inv_new c nil c (inv_refl c Hp)) as (i & c' & E & Hi & Hz & Hn).
    exists i, c'. split; auto. split; auto. split; [apply (inv_use _ _ _ Hi); cbn; auto|].
    split; auto. split; [apply Hi|]. intros j Hj. split; [apply (inv_use _ _ _ Hi); auto|now apply (inv_heap _ _ _ Hi)].
  Qed.

  (** a whole image sample *)
  Lemma rayFrom_inv cam u v (c : ctx) : pool_ok c ->
    forall r c', rayFrom rand2 cam u v c = Val (r, c') -> inv c [r] c'.
  Proof.
    intros Hp r c' H.
    assert (X : rel True (inv c nil) (rayFrom rand2 cam u v) (rayFrom rand2 cam u v) (fun r => inv c [r])).
    { unfold rayFrom. eapply rel_bind with (Q := fun r => inv c [r]).
      - unfold rayFrom0. eapply rel_bind; [apply rel_new|]. intros i. cbv beta. destruct (camOrig cam).
        + eapply rel_bind with (Q := fun _ => inv c [i]).
          * destruct (_ >? _)%num.
            -- eapply rel_bind; [apply rel_pseudo|]. intros uv. cbv beta. destruct (uniformDisk _ _). apply rel_ret; auto.
            -- apply rel_ret; auto.
          * intros st. eapply rel_bind; [apply rel_write; cbn; auto|]. intros []. apply rel_ret; auto.
        + eapply rel_bind; [apply rel_write; cbn; auto|]. intros []. apply rel_ret; auto.
        + eapply rel_bind; [apply rel_write; cbn; auto|]. intros []. apply rel_ret; auto.
      - intros i. cbv beta. eapply rel_bind; [apply rel_read|]. intros q. cbv beta.
        eapply rel_bind; [apply rel_write; cbn; auto|]. intros []. apply rel_ret; auto. }
    destruct (X c (inv_refl c Hp)) as [_ X']. now rewrite H in X'.
  Qed.
  Lemma image_rays fuel (s : scene F) cam u v (c c' : ctx) b : restoring s -> pool_ok c ->
    (cDepth c <= sRecursionDepth s)%Z ->
    imageFuncOf rand2 fuel s cam u v c = Val (b, c') -> same_rays c c' /\ cDepth c' = cDepth c.
  Proof.
    intros Hr Hp Hd H. unfold imageFuncOf in H.
    apply mbind_val in H. destruct H as (r & c1 & H1 & H).
    apply mbind_val in H. destruct H as (b' & c2 & H2 & H).
    assert (I1 := rayFrom_inv _ _ _ _ Hp _ _ H1).
    assert (Hu : in_use c1 r) by (apply (inv_use _ _ _ I1); cbn; auto).
    destruct (watched_eval rand2 True s (good_true s Hr) (textures_true s) fuel nil All r c1 (inv_pool _ _ _ I1) (seq_true _)) as [_ X].
    - now right.
    - apply entry_ok_spec. rewrite (inv_depth _ _ _ I1). split; auto. split; auto. intros i [<-|[]]; auto.
    - rewrite H2 in X. assert (I2 := inv_trans _ _ _ _ I1 X). apply inv_put in I2.
      unfold putRay, mbind, mret in H. cbn in H. injection H as <- <-.
      split; [now apply inv_same|]. apply I2.
  Qed.
End Collected.
