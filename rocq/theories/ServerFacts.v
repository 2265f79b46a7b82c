(** * Runs of the server that go wrong, and sequential histories *)
From Coq Require Import ZArith Bool List Lia.
From Verif Require Import ServerModel ServerSpec ServerProofs ApiSpec ApiRender.
Import ListNotations.

Section Runs.
  Context {V : Type}.
  Variable veqb : V -> V -> bool.
  Variable bad : V -> bool.
  Notation server := (server V).
  Notation thread := (thread V).
  Notation tstep := (tstep veqb bad).
  Notation csteps := (csteps veqb bad).
  Notation reachable := (reachable veqb bad).

  Lemma snoc c s ts l t r s' t' : csteps c (s, ts) -> ts = l ++ t :: r -> tstep s t s' t' -> csteps c (s', l ++ t' :: r).
  Proof. intros H -> Ht. eapply css_step; [exact H|]. now constructor. Qed.

  (** two bakes of one view with a cancel between them sample at the same time *)
  Lemma overlap v : veqb v v = true -> bad v = false ->
    exists s ts, reachable [Bake v; Cancel; Bake v] s ts /\ sampling_on 0 ts = 2%nat.
  Proof.
    intros Hv Hb. do 2 eexists. split.
    - unfold reachable. cbn [map].
      eapply (snoc _ _ _ [_; _] _ []); [|reflexivity|apply st_begin].
      eapply (snoc _ _ _ [_; _] _ []); [|reflexivity|apply st_read_num].
      eapply (snoc _ _ _ [_; _] _ []); [|reflexivity|eapply st_read_smplr].
      eapply (snoc _ _ _ [_; _] _ []); [|reflexivity|eapply st_prepare].
      eapply (snoc _ _ _ [_] _ [_]); [|reflexivity|eapply st_cancel].
      eapply (snoc _ _ _ [] _ [_; _]); [|reflexivity|apply st_begin].
      eapply (snoc _ _ _ [] _ [_; _]); [|reflexivity|apply st_read_num].
      eapply (snoc _ _ _ [] _ [_; _]); [|reflexivity|eapply st_read_smplr].
      eapply (snoc _ _ _ [] _ [_; _]); [apply css_refl|reflexivity|eapply st_prepare].
      + unfold prepareBakery. cbn. rewrite Hb. reflexivity.
      + reflexivity.
      + reflexivity.
      + unfold prepareBakery. cbn. rewrite Hv. reflexivity.
      + reflexivity.
    - reflexivity.
  Qed.

  (** a cancelled bake answers with the view of its successor *)
  Lemma stolen v1 v2 : veqb v1 v2 = false -> bad v1 = false -> bad v2 = false ->
    exists s ts, reachable [Bake v1; Cancel; Bake v2] s ts /\ In (TDone (Bake v1) (RImage v2 nil false)) ts.
  Proof.
    intros Hv Hb1 Hb2. do 2 eexists. split.
    - unfold reachable. cbn [map].
      eapply (snoc _ _ _ [] _ [_; _]); [|reflexivity|apply st_finish].
      eapply (snoc _ _ _ [] _ [_; _]); [|reflexivity|eapply st_image].
      eapply (snoc _ _ _ [] _ [_; _]); [|reflexivity|eapply st_reread].
      eapply (snoc _ _ _ [] _ [_; _]); [|reflexivity|apply st_complete].
      eapply (snoc _ _ _ [_; _] _ []); [|reflexivity|eapply st_prepare].
      eapply (snoc _ _ _ [_] _ [_]); [|reflexivity|eapply st_cancel].
      eapply (snoc _ _ _ [] _ [_; _]); [|reflexivity|apply st_begin].
      eapply (snoc _ _ _ [] _ [_; _]); [|reflexivity|apply st_read_num].
      eapply (snoc _ _ _ [] _ [_; _]); [|reflexivity|eapply st_read_smplr].
      eapply (snoc _ _ _ [] _ [_; _]); [apply css_refl|reflexivity|eapply st_prepare].
      + unfold prepareBakery. cbn. rewrite Hb1. reflexivity.
      + reflexivity.
      + reflexivity.
      + unfold prepareBakery. cbn. rewrite Hv, Hb2. reflexivity.
      + reflexivity.
      + reflexivity.
    - left. reflexivity.
  Qed.

  (** a bake goes on after its channel has been closed *)
  Lemma goes_on v : bad v = false -> exists s1 s2 c id,
    reachable [Bake v; Cancel] s1 [TSampling v c id 1; TDone Cancel ROk] /\ In c (svClosed s1) /\
    csteps (s1, [TSampling v c id 1; TDone Cancel ROk]) (s2, [TDone (Bake v) (RImage v [1%Z] false); TDone Cancel ROk]).
  Proof.
    intros Hb. do 4 eexists. split; [|split].
    - unfold reachable. cbn [map].
      eapply (snoc _ _ _ [_] _ []); [|reflexivity|eapply st_cancel].
      eapply (snoc _ _ _ [] _ [_]); [|reflexivity|apply (st_begin veqb bad)].
      eapply (snoc _ _ _ [] _ [_]); [|reflexivity|].
      2:{ apply (st_read_num veqb bad (Server (Some 0%nat) (Some 0%nat) (Some v) 1 1 nil [Smp v nil 0])). }
      eapply (snoc _ _ _ [] _ [_]); [|reflexivity|eapply st_read_smplr].
      eapply (snoc _ _ _ [] _ [_]); [apply css_refl|reflexivity|eapply st_prepare].
      + unfold prepareBakery. cbn. rewrite Hb. reflexivity.
      + reflexivity.
      + reflexivity.
    - left. reflexivity.
    - eapply (snoc _ _ _ [] _ [_]); [|reflexivity|apply st_finish].
      eapply (snoc _ _ _ [] _ [_]); [|reflexivity|].
      2:{ apply (st_image veqb bad (Server None (Some 0%nat) (Some v) 1 1 [0%nat] [Smp v [1%Z] 0]) v 0 (Smp v [1%Z] 0)). reflexivity. }
      eapply (snoc _ _ _ [] _ [_]); [|reflexivity|eapply st_reread; reflexivity].
      eapply (snoc _ _ _ [] _ [_]); [|reflexivity|].
      2:{ apply (st_complete veqb bad (Server None (Some 0%nat) (Some v) 1 1 [0%nat] [Smp v nil 1]) v 0 0 1%Z). }
      apply css_refl.
  Qed.

  Lemma cancel_frees rs s l r s' resp v : reachable rs s (l ++ TStart Cancel :: r) -> tstep s (TStart Cancel) s' (TDone Cancel resp) ->
    resp = ROk /\ prepareBakery veqb bad v s' <> PError.
  Proof.
    intros H Ht. assert (C : chans_ok s).
    { clear Ht. revert H. generalize (l ++ TStart Cancel :: r). intros ts H. revert s ts H. apply run_ind.
      - split; [constructor|split; [easy|discriminate]].
      - intros s l0 t r0 s1 t1 H1 Ht. exact (proj1 (step_chans veqb bad _ _ _ _ H1 Ht)). }
    destruct (cancel_ok s C) as (s2 & E1 & _ & E2).
    inversion Ht; subst; [|congruence]. split; [reflexivity|].
    match goal with X : handleCancel s = Some s' |- _ => rewrite E1 in X; injection X as <- end.
    pose proof (prepare_cases veqb bad v s2) as P. destruct (prepareBakery veqb bad v s2); [|discriminate|discriminate]. congruence.
  Qed.

  (** ** One request at a time *)
  Lemma alone_reading s v c oi on s' resp id : alone veqb bad s (TReading v c oi on) s' resp -> svSmplr s = Some id ->
    (oi = None \/ oi = Some id) -> (on = None \/ on = Some (svNum s)) ->
    alone veqb bad (onSmp id begin s) (TSampling v c id (svNum s)) s' resp.
  Proof.
    intros H. remember (TReading v c oi on) as t eqn:Et. revert oi on Et. induction H as [|s t s1 t1 s2 resp Ht Ha IH]; intros oi on Et Hs Hi Hn; [discriminate|].
    subst t. inversion Ht; subst.
    - apply (IH (Some id0) on); auto. right. congruence.
    - apply (IH oi (Some (svNum s1))); auto.
    - destruct Hi as [|Hi]; [discriminate|]. destruct Hn as [|Hn]; [discriminate|]. injection Hi as ->. injection Hn as ->. exact Ha.
  Qed.
  Lemma alone_sampling s v c id n s' resp m : alone veqb bad (onSmp id begin s) (TSampling v c id n) s' resp -> svSmplr s = Some id ->
    nth_error (svSmps s) id = Some m ->
    s' = finishBake (onSmp id (complete n) (onSmp id begin s)) /\ resp = RImage (smView m) (smCalls m ++ [n]) (negb (Nat.eqb (smRunning m) 0)).
  Proof.
    intros H Hs Hm. inversion H; subst. match goal with X : tstep _ (TSampling _ _ _ _) _ _ |- _ => inversion X; subst; clear X end. clear H.
    match goal with X : alone _ _ _ (TSampled _) _ _ |- _ => inversion X; subst; clear X end.
    match goal with X : tstep _ (TSampled _) _ _ |- _ => inversion X; subst; clear X end.
    match goal with X : alone _ _ _ (TImage _ _) _ _ |- _ => inversion X; subst; clear X end.
    match goal with X : tstep _ (TImage _ _) _ _ |- _ => inversion X; subst; clear X end.
    match goal with X : alone _ _ _ (TUnwind _ _) _ _ |- _ => inversion X; subst; clear X end.
    match goal with X : tstep _ (TUnwind _ _) _ _ |- _ => inversion X; subst; clear X end.
    match goal with X : alone _ _ _ (TDone _ _) _ _ |- _ => inversion X; subst; clear X end.
    2:{ match goal with X : tstep _ (TDone _ _) _ _ |- _ => inversion X end. }
    split; [reflexivity|].
    match goal with X : svSmplr _ = Some ?i, Y : nth_error (svSmps _) ?i = Some ?m0 |- _ = _ =>
      cbn in X; rewrite Hs in X; injection X as <-; cbn in Y; rewrite !upd_nth, Nat.eqb_refl, Hm in Y; cbn in Y; injection Y as <- end.
    reflexivity.
  Qed.
  Lemma alone_done s r resp s' resp' : alone veqb bad s (TDone r resp) s' resp' -> s' = s /\ resp' = resp.
  Proof. intros H. inversion H; subst; [auto|]. match goal with X : tstep _ (TDone _ _) _ _ |- _ => inversion X end. Qed.

  Definition settled (s : server) (h : list (request V)) : Prop :=
    svCancel s = None /\
    match svSmplr s with
    | None => forall v, ~ In (Bake v) h
    | Some id => exists w k, svView s = Some w /\ nth_error (svSmps s) id = Some (Smp w (counting k) 0) /\ svNum s = Z.of_nat (S k) /\
        streak veqb w (rev h) = k /\ forall v, veqb w v = false -> streak veqb v (rev h) = 0%nat
    end.
  Definition well_formed (r : request V) : Prop := match r with Bake v | Preview v => bad v = false | Cancel => True end.

  Hypothesis veqb_eq : forall a b, veqb a b = true <-> a = b.
  Lemma no_streak h v : (forall w, ~ In (Bake w) h) -> streak veqb v (rev h) = 0%nat.
  Proof.
    intros H. assert (G : forall w, ~ In (Bake w) (rev h)) by (intros w Hw; apply in_rev in Hw; now apply (H w)). clear H.
    induction (rev h) as [|[w| |w] l IH]; cbn; auto.
    - exfalso. apply (G w). now left.
    - apply IH. intros w Hw. apply (G w). now right.
    - apply IH. intros w' Hw. apply (G w'). now right.
  Qed.
  Lemma settled_other s h r : settled s h -> (forall v, r <> Bake v) -> settled s (h ++ [r]).
  Proof.
    intros [H1 H2] Hr. split; [exact H1|].
    assert (E : forall v, streak veqb v (rev (h ++ [r])) = streak veqb v (rev h)).
    { intros v. rewrite rev_app_distr. destruct r as [w| |w]; cbn; [now destruct (Hr w)|reflexivity|reflexivity]. }
    destruct (svSmplr s).
    - destruct H2 as (w & k & G1 & G2 & G3 & G4 & G5). exists w, k. rewrite E. repeat split; auto. intros v Hv. rewrite E. auto.
    - intros v Hv. apply in_app_or in Hv. destruct Hv as [Hv|[Hv|[]]]; [now apply (H2 v)|now apply (Hr v)].
  Qed.
  Lemma serve_one s h r s' resp : settled s h -> well_formed r -> alone veqb bad s (TStart r) s' resp ->
    settled s' (h ++ [r]) /\
    match r with
    | Bake v => resp = RImage v (counting (S (streak veqb v (rev h)))) false
    | Cancel => resp = ROk
    | Preview v => resp = RImage v [1%Z] false
    end.
  Proof.
    intros Hs Hw H. inversion H as [|? ? s1 t1 ? ? Ht Ha]; subst. clear H. destruct r as [v| |v].
    - destruct Hs as [Hc Hs]. inversion Ht; subst.
      + match goal with X : prepareBakery _ _ _ _ = _ |- _ => pose proof (prepare_cases veqb bad v s1) as P; rewrite X in P; contradiction end.
      + match goal with X : prepareBakery _ _ _ _ = _ |- _ => pose proof (prepare_cases veqb bad v s) as P; rewrite X in P end.
        destruct P as (_ & P & _). cbn in Hw. congruence.
      + match goal with X : prepareBakery _ _ _ _ = _ |- _ => pose proof (prepare_cases veqb bad v s) as P; rewrite X in P; clear X end.
        destruct P as (_ & -> & [(id & w & P1 & P2 & P3 & ->)|(_ & P & ->)]).
        * rewrite P1 in Hs. destruct Hs as (w' & k & G1 & G2 & G3 & G4 & G5). rewrite P2 in G1. injection G1 as <-.
          apply veqb_eq in P3. subst w.
          apply alone_reading with (id := id) in Ha; auto. destruct (alone_sampling _ _ _ _ _ _ _ _ Ha P1 G2) as [-> ->]. cbn [svNum smView smCalls smRunning].
          rewrite G3. split.
          -- split; [reflexivity|]. unfold finishBake, onSmp. cbn [svSmplr svView svNum svSmps]. rewrite P1. exists v, (S k).
             split; [exact P2|]. split; [rewrite !upd_nth, Nat.eqb_refl, G2; cbn [option_map]; unfold begin, complete; cbn [smView smCalls smRunning pred]; now rewrite counting_S|]. split; [lia|].
             rewrite rev_app_distr. cbn [rev app streak]. rewrite (proj2 (veqb_eq v v) eq_refl). split; [now rewrite G4|].
             intros x Hx. rewrite Hx. reflexivity.
          -- rewrite G4, counting_S. reflexivity.
        * apply alone_reading with (id := length (svSmps s)) in Ha; auto.
          assert (Hn : nth_error (svSmps s ++ [Smp v nil 0]) (length (svSmps s)) = Some (Smp v nil 0)) by (now rewrite nth_error_app2, Nat.sub_diag by lia).
          destruct (alone_sampling _ _ _ _ _ _ _ (Smp v nil 0) Ha eq_refl Hn) as [-> ->]. cbn [svNum smView smCalls smRunning].
          assert (Z : streak veqb v (rev h) = 0%nat).
          { destruct (svSmplr s) as [id|]; [|now apply no_streak]. destruct Hs as (w & k & G1 & G2 & G3 & G4 & G5). apply G5. eapply P; eauto. }
          rewrite Z. split; [|reflexivity]. split; [reflexivity|]. unfold finishBake, onSmp. cbn [svSmplr svView svNum svSmps]. exists v, 1%nat.
          split; [reflexivity|]. split; [rewrite !upd_nth, Nat.eqb_refl, Hn; reflexivity|]. split; [reflexivity|].
          rewrite rev_app_distr. cbn [rev app streak]. rewrite (proj2 (veqb_eq v v) eq_refl). split; [now rewrite Z|].
          intros x Hx. rewrite Hx. reflexivity.
    - inversion Ht; subst.
      + apply alone_done in Ha. destruct Ha as [-> ->]. split; [|reflexivity].
        match goal with X : handleCancel _ = _ |- _ => unfold handleCancel in X; rewrite (proj1 Hs) in X; injection X as <- end.
        apply settled_other; [exact Hs|discriminate].
      + match goal with X : handleCancel _ = _ |- _ => unfold handleCancel in X; rewrite (proj1 Hs) in X; discriminate end.
    - inversion Ht; subst.
      + apply alone_done in Ha. destruct Ha as [-> ->]. split; [|reflexivity]. apply settled_other; [exact Hs|discriminate].
      + cbn in Hw. congruence.
  Qed.
  Lemma served s h : history veqb bad s h -> Forall well_formed (map fst h) -> settled s (map fst h) /\
    forall h1 r resp h2, h = h1 ++ (r, resp) :: h2 ->
    match r with
    | Bake v => resp = RImage v (counting (S (streak veqb v (rev (map fst h1))))) false
    | Cancel => resp = ROk
    | Preview v => resp = RImage v [1%Z] false
    end.
  Proof.
    intros H. induction H as [|s h r s' resp Hh IH Ha].
    - intros _. split; [split; [reflexivity|intros v []]|]. intros [|? ?] ? ? ? X; discriminate.
    - rewrite map_app. cbn [map fst]. intros Hf. apply Forall_app in Hf. destruct Hf as [Hf Hr]. inversion Hr as [|? ? Hw _]; subst.
      destruct (IH Hf) as [G1 G2]. destruct (serve_one _ _ _ _ _ G1 Hw Ha) as [G3 G4]. split; [exact G3|].
      intros h1 r1 resp1 h2 E. destruct (@exists_last _ ((r1, resp1) :: h2)) as (h2' & x & Ex); [discriminate|].
      destruct h2 as [|y h2].
      + apply app_inj_tail in E. destruct E as [<- X]. injection X as <- <-. exact G4.
      + destruct h2' as [|x0 h2']; [discriminate|]. rewrite Ex, app_assoc in E. apply app_inj_tail in E. destruct E as [E _].
        cbn in Ex. injection Ex as <- _. exact (G2 _ _ _ _ E).
  Qed.

  Lemma can_serve s h r : settled s h -> well_formed r -> exists s' resp, alone veqb bad s (TStart r) s' resp.
  Proof.
    intros [Hc Hs] Hw. destruct r as [v| |v].
    - pose proof (prepare_cases veqb bad v s) as P. destruct (prepareBakery veqb bad v s) as [|s1|c s1] eqn:E.
      + contradiction.
      + destruct P as (_ & P & _). cbn in Hw. congruence.
      + assert (G : exists id m, svSmplr s1 = Some id /\ nth_error (svSmps s1) id = Some m).
        { destruct P as (_ & -> & [(id & w & P1 & P2 & P3 & ->)|(_ & P & ->)]); cbn [svSmplr svSmps].
          - rewrite P1 in Hs. destruct Hs as (w' & k & _ & G2 & _). eauto.
          - exists (length (svSmps s)), (Smp v nil 0). split; [reflexivity|]. now rewrite nth_error_app2, Nat.sub_diag by lia. }
        destruct G as (id & m & G1 & G2). do 2 eexists.
        eapply al_step; [apply st_prepare, E|]. eapply al_step; [apply st_read_smplr, G1|]. eapply al_step; [apply st_read_num|].
        eapply al_step; [apply st_begin|]. eapply al_step; [apply st_complete|]. eapply al_step; [apply st_reread, G1|].
        eapply al_step; [apply st_image; cbn [onSmp svSmps]; rewrite !upd_nth, Nat.eqb_refl, G2; reflexivity|].
        eapply al_step; [apply st_finish|]. apply al_done.
    - do 2 eexists. eapply al_step; [apply st_cancel; unfold handleCancel; rewrite Hc; reflexivity|]. apply al_done.
    - do 2 eexists. eapply al_step; [apply st_preview; exact Hw|]. apply al_done.
  Qed.
  Lemma all_served rs : Forall well_formed rs -> exists s h, history veqb bad s h /\ map fst h = rs.
  Proof.
    induction rs as [|r rs IH] using rev_ind; intros H; [exists newServer, nil; split; [constructor|reflexivity]|].
    apply Forall_app in H. destruct H as [H1 H2]. inversion H2; subst. destruct (IH H1) as (s & h & Hh & <-).
    destruct (served _ _ Hh H1) as [G _]. destruct (can_serve s (map fst h) r) as (s' & resp & Ha); auto.
    exists s', (h ++ [(r, resp)]). split; [econstructor; eauto|]. now rewrite map_app.
  Qed.
  Lemma never_refused s h : history veqb bad s h -> Forall well_formed (map fst h) -> forall r resp, In (r, resp) h -> resp <> RError /\ resp <> RCrash.
  Proof.
    intros Hh Hw r resp Hi. apply in_split in Hi. destruct Hi as (h1 & h2 & E). pose proof (proj2 (served s h Hh Hw) h1 r resp h2 E) as P.
    destruct r; rewrite P; split; discriminate.
  Qed.
End Runs.

Section Blocked.
  Context {V : Type}.
  Variable veqb : V -> V -> bool.
  Variable bad : V -> bool.
  (** a view that cannot be rendered blocks all later bakes *)
  Lemma blocked v ws : bad v = true -> exists s, history veqb bad s ((Bake v, RCrash) :: map (fun w => (Bake w, RError)) ws).
  Proof.
    intros Hb. exists (Server (Some 0%nat) None None 0 1 nil nil).
    induction ws as [|w ws IH] using rev_ind.
    - apply (hi_snoc veqb bad newServer nil); [constructor|]. eapply al_step; [|constructor]. apply st_prepare_panic. unfold prepareBakery. cbn. rewrite Hb. reflexivity.
    - rewrite map_app. cbn [map]. rewrite app_comm_cons. eapply hi_snoc; [exact IH|]. eapply al_step; [|constructor]. now apply st_busy.
  Qed.
End Blocked.
