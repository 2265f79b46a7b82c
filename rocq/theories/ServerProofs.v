(** * Invariants of the server *)
From Coq Require Import ZArith Bool List Lia.
From Verif Require Import ServerModel ServerSpec ApiSpec ApiRender.
Import ListNotations.

Section Proofs.
  Context {V : Type}.
  Variable veqb : V -> V -> bool.
  Variable bad : V -> bool.
  Notation server := (server V).
  Notation thread := (thread V).
  Notation tstep := (tstep veqb bad).
  Notation reachable := (reachable veqb bad).

  (** ** Counting threads *)
  Definition count (p : thread -> bool) (ts : list thread) : nat := length (filter p ts).
  Lemma count_mid p l t r : count p (l ++ t :: r) = ((if p t then 1 else 0) + count p (l ++ r))%nat.
  Proof. unfold count. rewrite !filter_app, !app_length. cbn [filter]. destruct (p t); cbn [length]; lia. Qed.
  Lemma count_zero p ts : count p ts = 0%nat <-> forall t, In t ts -> p t = false.
  Proof.
    unfold count. split.
    - intros H t Ht. destruct (p t) eqn:E; [|reflexivity].
      assert (I : In t (filter p ts)) by now apply filter_In. destruct (filter p ts); [easy|discriminate].
    - intros H. induction ts as [|t ts IH]; [reflexivity|]. cbn [filter]. rewrite (H t) by now left. apply IH. intros; apply H; now right.
  Qed.
  Lemma in_mid (P : thread -> Prop) l t r : (forall x, In x (l ++ t :: r) -> P x) <-> P t /\ (forall x, In x (l ++ r) -> P x).
  Proof.
    split.
    - intros H. split; [apply H, in_elt|]. intros x Hx. apply H. apply in_app_or in Hx. apply in_or_app. destruct Hx; [now left|right; now right].
    - intros [H1 H2] x Hx. apply in_app_or in Hx. destruct Hx as [Hx|[<-|Hx]]; [|exact H1|]; apply H2, in_or_app; auto.
  Qed.

  (** ** Induction over runs *)
  Lemma run_ind (P : server -> list thread -> Prop) rs :
    P newServer (map TStart rs) ->
    (forall s l t r s' t', P s (l ++ t :: r) -> tstep s t s' t' -> P s' (l ++ t' :: r)) ->
    forall s ts, reachable rs s ts -> P s ts.
  Proof.
    intros H0 Hs s ts H. unfold reachable in H.
    remember (newServer, map TStart rs) as c0 eqn:E0. remember (s, ts) as c eqn:E.
    revert s ts E. induction H as [c|c1 c2 c3 H12 IH H23]; intros s ts E.
    - rewrite E0 in E. injection E as <- <-. exact H0.
    - rewrite E in H23. inversion H23 as [l t r s2 s' t' Ht E1 [E2 E3]]. rewrite <- E1 in IH.
      apply (Hs s2 l t r s); [now apply IH|exact Ht].
  Qed.

  (** ** Requests keep their identity *)
  Definition req (t : thread) : request V :=
    match t with
    | TStart r => r | TReading v _ _ _ | TSampling v _ _ _ | TSampled v | TImage v _ | TUnwind v _ => Bake v | TDone r _ => r
    end.
  Lemma step_req s t s' t' : tstep s t s' t' -> req t' = req t.
  Proof. intros H. destruct H; reflexivity. Qed.
  Lemma run_req rs s ts : reachable rs s ts -> map req ts = rs.
  Proof.
    revert s ts. apply run_ind.
    - rewrite map_map. cbn. apply map_id.
    - intros s l t r s' t' H Ht. rewrite <- H, !map_app. cbn [map]. now rewrite (step_req _ _ _ _ Ht).
  Qed.

  (** ** Channels *)
  Definition chans_ok (s : server) : Prop :=
    NoDup (svClosed s) /\ (forall c, In c (svClosed s) -> c < svChans s)%nat /\
    (forall c, svCancel s = Some c -> (c < svChans s)%nat /\ ~ In c (svClosed s)).
  Lemma existsb_In c l : existsb (Nat.eqb c) l = true <-> In c l.
  Proof. rewrite existsb_exists. split; [intros (x & Hx & E); apply Nat.eqb_eq in E; now subst|intros H; exists c; split; [exact H|apply Nat.eqb_refl]]. Qed.
  Lemma cancel_ok s : chans_ok s -> exists s', handleCancel s = Some s' /\ chans_ok s' /\ svCancel s' = None.
  Proof.
    intros (H1 & H2 & H3). unfold handleCancel. destruct (svCancel s) as [c|] eqn:E.
    - destruct (H3 c eq_refl) as [H4 H5]. destruct (existsb _ _) eqn:X; [now apply existsb_In in X|].
      eexists. split; [reflexivity|]. split; [|reflexivity]. split; [now constructor|]. split; cbn; [intros x [<-|Hx]; auto|discriminate].
    - exists s. split; [reflexivity|]. split; [|exact E]. split; [exact H1|]. split; [exact H2|]. intros c. rewrite E. discriminate.
  Qed.
  Definition no_crash (t : thread) : Prop := t <> TDone Cancel RCrash.
  Lemma prepare_cases v s : match prepareBakery veqb bad v s with
    | PError => svCancel s <> None
    | PPanic s' => svCancel s = None /\ bad v = true /\ s' = Server (Some (svChans s)) (svSmplr s) (svView s) (svNum s) (S (svChans s)) (svClosed s) (svSmps s)
    | POk c s' => svCancel s = None /\ c = svChans s /\
        ((exists id w, svSmplr s = Some id /\ svView s = Some w /\ veqb w v = true /\
           s' = Server (Some c) (svSmplr s) (svView s) (svNum s) (S c) (svClosed s) (svSmps s)) \/
         (bad v = false /\ (forall id w, svSmplr s = Some id -> svView s = Some w -> veqb w v = false) /\
          s' = Server (Some c) (Some (length (svSmps s))) (Some v) 1 (S c) (svClosed s) (svSmps s ++ [Smp v nil 0])))
    end.
  Proof.
    unfold prepareBakery. destruct (svCancel s) as [c|]; [discriminate|].
    destruct (svSmplr s) as [id|] eqn:E1; [destruct (svView s) as [w|] eqn:E2; [destruct (veqb w v) eqn:E3|]|].
    - split; [reflexivity|]. split; [reflexivity|]. left. now exists id, w.
    - destruct (bad v) eqn:E4; [split; [reflexivity|now split]|].
      split; [reflexivity|]. split; [reflexivity|]. right. split; [reflexivity|]. split; [intros ? ? H H'; now injection H' as <-|reflexivity].
    - destruct (bad v) eqn:E4; [split; [reflexivity|now split]|]. split; [reflexivity|]. split; [reflexivity|]. right. split; [reflexivity|]. split; [discriminate|reflexivity].
    - destruct (bad v) eqn:E4; [split; [reflexivity|now split]|]. split; [reflexivity|]. split; [reflexivity|]. right. split; [reflexivity|]. split; [discriminate|reflexivity].
  Qed.
  Lemma fresh_chan s s' : chans_ok s -> svCancel s' = Some (svChans s) -> svChans s' = S (svChans s) -> svClosed s' = svClosed s -> chans_ok s'.
  Proof.
    intros (H1 & H2 & H3) E1 E2 E3. unfold chans_ok. rewrite E1, E2, E3. split; [exact H1|]. split; [intros c Hc; specialize (H2 c Hc); lia|].
    intros c E; injection E as <-. split; [lia|]. intros Hc. specialize (H2 _ Hc). lia.
  Qed.
  Lemma no_chan s s' : chans_ok s -> svCancel s' = None \/ svCancel s' = svCancel s -> svChans s' = svChans s -> svClosed s' = svClosed s -> chans_ok s'.
  Proof.
    intros (H1 & H2 & H3) E1 E2 E3. unfold chans_ok. rewrite E2, E3. split; [exact H1|]. split; [exact H2|].
    destruct E1 as [E1|E1]; rewrite E1; [discriminate|exact H3].
  Qed.
  Lemma step_chans s t s' t' : chans_ok s -> tstep s t s' t' -> chans_ok s' /\ (no_crash t -> no_crash t').
  Proof.
    intros H Ht. unfold no_crash. destruct Ht as [s v E|s v E|s s1 E|s E|s v E|s v s1 E|s v c s1 E|s v c num id E|s v c id|s v c id num|s v c id num|s v id E|s v id m E|s v r];
      try (split; [assumption|discriminate]).
    - destruct (cancel_ok s H) as (s2 & H2 & H3 & _). rewrite E in H2. injection H2 as <-. split; [exact H3|discriminate].
    - destruct (cancel_ok s H) as (s2 & H2 & H3 & _). rewrite E in H2. discriminate.
    - pose proof (prepare_cases v s) as P. rewrite E in P. destruct P as (P1 & P2 & ->). split; [now apply (fresh_chan s)|discriminate].
    - pose proof (prepare_cases v s) as P. rewrite E in P. destruct P as (P1 & -> & [(id & w & _ & _ & _ & ->)|(_ & _ & ->)]); (split; [now apply (fresh_chan s)|discriminate]).
    - split; [|discriminate]. apply (no_chan s); auto.
  Qed.
  Lemma never_closed_twice rs s ts : reachable rs s ts -> NoDup (svClosed s) /\ ~ In (TDone Cancel RCrash) ts.
  Proof.
    intros H. assert (G : chans_ok s /\ (forall t, In t ts -> no_crash t)).
    { revert s ts H. apply run_ind.
      - split; [split; [constructor|split; [easy|discriminate]]|]. intros t Ht. apply in_map_iff in Ht. destruct Ht as (r & <- & _). discriminate.
      - intros s l t r s' t' [H1 H2] Ht. apply in_mid in H2. destruct H2 as [H2 H3]. destruct (step_chans _ _ _ _ H1 Ht) as [H4 H5].
        split; [exact H4|]. apply in_mid. auto. }
    destruct G as [[G _] G2]. split; [exact G|]. intros Hi. now apply (G2 _ Hi).
  Qed.

  (** ** Bakes in progress *)
  Definition busy (t : thread) : bool :=
    match t with TReading _ _ _ _ | TSampling _ _ _ _ | TSampled _ | TImage _ _ | TUnwind _ _ => true | _ => false end.
  Definition cancelled (t : thread) : bool := match t with TDone Cancel _ => true | _ => false end.
  Definition held (s : server) : nat := match svCancel s with Some _ => 1 | None => 0 end.
  Lemma step_busy s t s' t' : tstep s t s' t' ->
    let b (x : bool) := if x then 1%nat else 0%nat in
    (length (svClosed s') + b (cancelled t) <= length (svClosed s) + b (cancelled t'))%nat /\
    (b (busy t') + length (svClosed s) + held s <= b (busy t) + length (svClosed s') + held s')%nat.
  Proof.
    intros Ht. cbv zeta. unfold held. destruct Ht as [s v E|s v E|s s1 E|s E|s v E|s v s1 E|s v c s1 E|s v c num id E|s v c id|s v c id num|s v c id num|s v id E|s v id m E|s v r];
      cbn [busy cancelled svClosed svCancel onSmp finishBake]; try lia.
    - unfold handleCancel in E. destruct (svCancel s) as [c|] eqn:Ec.
      + destruct (existsb _ _); [discriminate|]. injection E as <-. cbn [svClosed svCancel length]. lia.
      + injection E as <-. rewrite Ec. lia.
    - pose proof (prepare_cases v s) as P. rewrite E in P. destruct P as (P1 & P2 & ->). cbn [svClosed svCancel]. rewrite P1. lia.
    - pose proof (prepare_cases v s) as P. rewrite E in P. destruct P as (P1 & -> & [(id & w & _ & _ & _ & ->)|(_ & _ & ->)]); cbn [svClosed svCancel]; rewrite P1; lia.
    - destruct (svCancel s); lia.
  Qed.
  Lemma bakes_in_progress rs s ts : reachable rs s ts -> (in_progress ts <= held s + length (svClosed s) /\ length (svClosed s) <= cancels rs)%nat.
  Proof.
    intros H. pose proof (run_req rs s ts H) as Hr.
    assert (G : (count busy ts <= held s + length (svClosed s) /\ length (svClosed s) <= count cancelled ts)%nat).
    { clear Hr. revert s ts H. apply run_ind.
      - cbn. split; apply Nat.le_0_l || idtac. replace (count busy (map TStart rs)) with 0%nat; [lia|].
        symmetry. apply count_zero. intros t Ht. apply in_map_iff in Ht. destruct Ht as (r & <- & _). reflexivity.
      - intros s l t r s' t' [H1 H2] Ht. destruct (step_busy _ _ _ _ Ht) as [H3 H4]. cbv zeta in *.
        rewrite !count_mid in *. lia. }
    split; [exact (proj1 G)|]. apply (Nat.le_trans _ _ _ (proj2 G)). clear - Hr. subst rs. unfold cancels, count.
    induction ts as [|t ts IH]; [cbn; lia|]. cbn [map filter]. destruct t as [r| | | | | |r resp]; cbn [req cancelled]; try exact IH.
    - destruct r; cbn [length]; lia.
    - destruct r; cbn [length]; lia.
  Qed.
  Lemma sampling_le id (ts : list thread) : (sampling_on id ts <= in_progress ts)%nat.
  Proof.
    induction ts as [|t ts IH]; [apply Nat.le_0_l|]. unfold sampling_on, in_progress in *. cbn [filter].
    destruct t; cbn [length]; try exact IH; try lia. destruct (Nat.eqb _ _); cbn [length]; lia.
  Qed.
  Lemma bounded_bakes rs s ts id : reachable rs s ts -> (sampling_on id ts <= in_progress ts <= 1 + cancels rs)%nat.
  Proof.
    intros H. split; [apply sampling_le|]. destruct (bakes_in_progress _ _ _ H) as [H1 H2]. unfold held in H1. destruct (svCancel s); lia.
  Qed.

  (** ** Samplers *)
  Definition on_id (id : nat) (t : thread) : bool := match t with TSampling _ _ i _ => Nat.eqb i id | _ => false end.
  Definition ids_ok (n : nat) (t : thread) : Prop :=
    match t with TReading _ _ (Some id) _ | TSampling _ _ id _ | TImage _ id => (id < n)%nat | _ => True end.
  Definition smps_ok (s : server) (ts : list thread) : Prop :=
    (forall id, svSmplr s = Some id -> exists m, nth_error (svSmps s) id = Some m /\ svView s = Some (smView m)) /\
    (forall t, In t ts -> ids_ok (length (svSmps s)) t) /\
    (forall id m, nth_error (svSmps s) id = Some m -> smRunning m = count (on_id id) ts) /\
    (forall id, (length (svSmps s) <= id)%nat -> count (on_id id) ts = 0%nat).
  Lemma upd_length l i f : length (upd (V := V) l i f) = length l.
  Proof. revert i. induction l as [|x l IH]; intros [|i]; cbn; auto. Qed.
  Lemma upd_nth l : forall i f j, nth_error (upd (V := V) l i f) j = if Nat.eqb i j then option_map f (nth_error l j) else nth_error l j.
  Proof.
    induction l as [|x l IH]; intros [|i] f [|j]; cbn; auto.
    - now destruct (Nat.eqb i j).
  Qed.

  Lemma same_smps s s' l t r t' : smps_ok s (l ++ t :: r) -> svSmps s' = svSmps s -> svSmplr s' = svSmplr s -> svView s' = svView s ->
    (forall id, on_id id t' = on_id id t) -> ids_ok (length (svSmps s)) t' -> smps_ok s' (l ++ t' :: r).
  Proof.
    intros (H1 & H2 & H3 & H4) E1 E2 E3 E4 E5. unfold smps_ok. rewrite E1, E2, E3. split; [exact H1|].
    split; [apply in_mid; apply in_mid in H2; tauto|].
    split; intros id; [intros m Hm|intros Hl]; rewrite count_mid, E4; [apply H3 in Hm|apply H4 in Hl]; rewrite count_mid in *; auto.
  Qed.
  Lemma ids_mono n n' t : (n <= n')%nat -> ids_ok n t -> ids_ok n' t.
  Proof. intros Hn. destruct t as [| ? ? [id|] ? | | | | |]; cbn; auto; lia. Qed.
  Lemma step_smps s l t r s' t' : smps_ok s (l ++ t :: r) -> tstep s t s' t' -> smps_ok s' (l ++ t' :: r).
  Proof.
    intros H Ht. destruct Ht as [s v E|s v E|s s1 E|s E|s v E|s v s1 E|s v c s1 E|s v c num id E|s v c id|s v c id num|s v c id num|s v id E|s v id m E|s v x];
      try (apply (same_smps s _ _ _ _ _ H); try reflexivity; try exact I; fail).
    - assert (G : svSmps s1 = svSmps s /\ svSmplr s1 = svSmplr s /\ svView s1 = svView s).
      { unfold handleCancel in E. destruct (svCancel s); [destruct (existsb _ _); [discriminate|]|]; injection E as <-; auto. }
      destruct G as (G1 & G2 & G3). apply (same_smps s _ _ _ _ _ H); auto. exact I.
    - pose proof (prepare_cases v s) as P. rewrite E in P. destruct P as (_ & _ & ->). apply (same_smps s _ _ _ _ _ H); try reflexivity; exact I.
    - pose proof (prepare_cases v s) as P. rewrite E in P. destruct P as (_ & -> & [(id & w & _ & _ & _ & ->)|(_ & _ & ->)]).
      + apply (same_smps s _ _ _ _ _ H); try reflexivity; exact I.
      + destruct H as (H1 & H2 & H3 & H4). unfold smps_ok. cbn [svSmps svSmplr svView].
        apply in_mid in H2. destruct H2 as [_ H2]. split; [|split; [|split]].
        * intros id X; injection X as <-. exists (Smp v nil 0). rewrite nth_error_app2, Nat.sub_diag by lia. now split.
        * apply in_mid. split; [exact I|]. intros y Hy. apply (ids_mono (length (svSmps s))); [rewrite app_length; lia|now apply H2].
        * intros id m Hm. rewrite count_mid. cbn [on_id]. destruct (Nat.lt_ge_cases id (length (svSmps s))) as [Hl|Hl].
          -- rewrite nth_error_app1 in Hm by exact Hl. rewrite (H3 _ _ Hm), count_mid. reflexivity.
          -- rewrite nth_error_app2 in Hm by exact Hl. specialize (H4 _ Hl). rewrite count_mid in H4. cbn [on_id] in H4. rewrite H4.
             destruct (id - length (svSmps s))%nat as [|k]; cbn in Hm; [now injection Hm as <-|]. now destruct k.
        * intros id Hl. rewrite app_length in Hl. cbn [length] in Hl. specialize (H4 id ltac:(lia)). now rewrite count_mid in *.
    - apply (same_smps s _ _ _ _ _ H); try reflexivity. destruct H as (H1 & _). destruct (H1 _ E) as (m & Hm & _). cbn. now apply nth_error_Some; rewrite Hm.
    - apply (same_smps s _ _ _ _ _ H); try reflexivity. destruct H as (_ & H2 & _). apply in_mid in H2. destruct H2 as [H2 _]. destruct id; [exact H2|exact I].
    - destruct H as (H1 & H2 & H3 & H4). unfold smps_ok, onSmp. cbn [svSmps svSmplr svView]. rewrite upd_length.
      apply in_mid in H2. destruct H2 as [H2 H2']. cbn in H2. split; [|split; [|split]].
      + intros i Hi. destruct (H1 i Hi) as (m & Hm & Hv). rewrite upd_nth, Hm. destruct (Nat.eqb id i); cbn [option_map]; [exists (begin m)|exists m]; auto.
      + apply in_mid. split; [exact H2|exact H2'].
      + intros i m Hm. rewrite upd_nth in Hm. rewrite count_mid. cbn [on_id]. destruct (Nat.eqb_spec id i) as [->|Hn].
        * destruct (nth_error (svSmps s) i) as [m0|] eqn:Em; [|discriminate]. injection Hm as <-. cbn [begin smRunning].
          rewrite (H3 _ _ Em), count_mid. reflexivity.
        * rewrite (H3 _ _ Hm), count_mid. reflexivity.
      + intros i Hi. rewrite count_mid. cbn [on_id]. destruct (Nat.eqb_spec id i); [lia|]. specialize (H4 i Hi). now rewrite count_mid in H4.
    - destruct H as (H1 & H2 & H3 & H4). unfold smps_ok, onSmp. cbn [svSmps svSmplr svView]. rewrite upd_length.
      apply in_mid in H2. destruct H2 as [H2 H2']. cbn in H2. split; [|split; [|split]].
      + intros i Hi. destruct (H1 i Hi) as (m & Hm & Hv). rewrite upd_nth, Hm. destruct (Nat.eqb id i); cbn [option_map]; [exists (complete num m)|exists m]; auto.
      + apply in_mid. split; [exact I|exact H2'].
      + intros i m Hm. rewrite upd_nth in Hm. rewrite count_mid. cbn [on_id]. destruct (Nat.eqb_spec id i) as [->|Hn].
        * destruct (nth_error (svSmps s) i) as [m0|] eqn:Em; [|discriminate]. injection Hm as <-. cbn [complete smRunning].
          rewrite (H3 _ _ Em), count_mid. cbn [on_id]. rewrite Nat.eqb_refl. reflexivity.
        * rewrite (H3 _ _ Hm), count_mid. cbn [on_id]. apply Nat.eqb_neq in Hn. now rewrite Hn.
      + intros i Hi. rewrite count_mid. cbn [on_id]. specialize (H4 i Hi). rewrite count_mid in H4. lia.
    - apply (same_smps s _ _ _ _ _ H); try reflexivity. destruct H as (H1 & _). destruct (H1 _ E) as (m & Hm & _). cbn. now apply nth_error_Some; rewrite Hm.
  Qed.
  Lemma run_smps rs s ts : reachable rs s ts -> smps_ok s ts.
  Proof.
    revert s ts. apply run_ind; [|intros; eapply step_smps; eassumption].
    split; [discriminate|]. split; [|split].
    - intros t Ht. apply in_map_iff in Ht. destruct Ht as (r & <- & _). exact I.
    - intros [|id] m H; discriminate.
    - intros id _. apply count_zero. intros t Ht. apply in_map_iff in Ht. destruct Ht as (r & <- & _). reflexivity.
  Qed.

  (** ** Without cancel requests *)
  Definition for_view (v w : V) : Prop := w = v \/ veqb w v = true.
  Definition good_response (r : request V) (resp : response V) : Prop :=
    match r, resp with Bake v, RImage w _ torn => for_view v w /\ torn = false | _, _ => True end.
  Definition own (s : server) (t : thread) : Prop :=
    let current (v : V) (oid : option nat) := (exists w, svView s = Some w /\ for_view v w) /\ svSmplr s <> None /\ (oid = None \/ oid = svSmplr s) in
    match t with
    | TReading v _ oid _ => current v oid
    | TSampling v _ id _ | TImage v id => current v (Some id)
    | TSampled v => current v None
    | TUnwind v resp => good_response (Bake v) resp
    | TDone r resp => good_response r resp
    | TStart _ => True
    end.
  Lemma step_own s l t r s' t' : smps_ok s (l ++ t :: r) -> (count busy (l ++ t :: r) <= held s)%nat -> req t <> Cancel ->
    (forall x, In x (l ++ t :: r) -> own s x) -> tstep s t s' t' -> forall x, In x (l ++ t' :: r) -> own s' x.
  Proof.
    intros Hm Hb Hc Ho Ht. apply in_mid in Ho. destruct Ho as [Ho Hr]. rewrite count_mid in Hb. apply in_mid.
    assert (Hidle : forall s1, count busy (l ++ r) = 0%nat -> forall x, In x (l ++ r) -> own s1 x).
    { intros s1 Z x Hx. rewrite count_zero in Z. specialize (Z x Hx). specialize (Hr x Hx). destruct x; try discriminate Z; exact Hr. }
    assert (Hh : (held s <= 1)%nat) by (unfold held; destruct (svCancel s); lia).
    destruct Ht as [s v E|s v E|s s1 E|s E|s v E|s v s1 E|s v c s1 E|s v c num id E|s v c id|s v c id num|s v c id num|s v id E|s v id m E|s v x];
      cbn [busy req] in *; try (split; [exact I|exact Hr]); try congruence.
    - pose proof (prepare_cases v s) as P. rewrite E in P. destruct P as (P1 & P2 & ->).
      unfold held in Hb; rewrite P1 in Hb. split; [exact I|apply Hidle; lia].
    - pose proof (prepare_cases v s) as P. rewrite E in P. destruct P as (P1 & -> & P). unfold held in Hb; rewrite P1 in Hb.
      split; [|apply Hidle; lia].
      destruct P as [(id & w & P2 & P3 & P4 & ->)|(P2 & P3 & ->)]; cbn.
      + split; [exists w; split; [exact P3|now right]|]. split; [congruence|now left].
      + split; [exists v; split; [reflexivity|now left]|]. split; [discriminate|now left].
    - split; [|exact Hr]. cbn in Ho |- *. rewrite E. destruct Ho as (O1 & O2 & _). split; [exact O1|]. split; [discriminate|now right].
    - split; [|exact Hr]. exact Ho.
    - split; [|apply Hidle; lia]. exact Ho.
    - split; [|apply Hidle; lia]. cbn in Ho |- *. destruct Ho as (O1 & O2 & _). split; [exact O1|]. split; [exact O2|now left].
    - split; [|exact Hr]. cbn in Ho |- *. rewrite E. destruct Ho as (O1 & O2 & _). split; [exact O1|]. split; [discriminate|now right].
    - split; [|exact Hr]. cbn in Ho. destruct Ho as ((w & Ow & Of) & _ & [O|O]); [discriminate|].
      destruct Hm as (M1 & _ & M3 & _). destruct (M1 id (eq_sym O)) as (m' & Em & Ev). rewrite E in Em. injection Em as <-.
      rewrite Ow in Ev. injection Ev as ->. cbn. split; [exact Of|].
      rewrite (M3 _ _ E), count_mid. cbn [on_id].
      replace (count (on_id id) (l ++ r)) with 0%nat; [reflexivity|]. symmetry. apply count_zero. intros x Hx.
      assert (Z : count busy (l ++ r) = 0%nat) by lia. rewrite count_zero in Z. specialize (Z x Hx). destruct x; try discriminate Z; reflexivity.
    - split; [exact Ho|]. apply Hidle; lia.
  Qed.
  Lemma no_cancels rs : cancels rs = 0%nat -> forall r : request V, In r rs -> r <> Cancel.
  Proof.
    intros H r Hr ->. unfold cancels in H. assert (I : In Cancel (filter (fun r : request V => match r with Cancel => true | _ => false end) rs)) by (now apply filter_In).
    destruct (filter _ rs); [easy|discriminate].
  Qed.
  Lemma own_views rs s ts v w calls torn : cancels rs = 0%nat -> reachable rs s ts -> In (TDone (Bake v) (RImage w calls torn)) ts ->
    for_view v w /\ torn = false.
  Proof.
    intros Hc H Hi.
    enough (G : forall x, In x ts -> own s x) by exact (G _ Hi).
    assert (K : reachable rs s ts /\ (forall x, In x ts -> own s x)); [|tauto]. clear Hi.
    revert s ts H.
    assert (G : forall s ts, reachable rs s ts -> forall x, In x ts -> own s x).
    { intros s ts H. unfold reachable, ServerModel.reachable in H. remember (newServer, map TStart rs) as c0 eqn:E0. remember (s, ts) as c eqn:E.
      revert s ts E. induction H as [c|c1 c2 c3 H12 IH H23]; intros s ts E.
      - rewrite E0 in E. injection E as <- <-. intros x Hx. apply in_map_iff in Hx. destruct Hx as (r & <- & _). exact I.
      - rewrite E in H23. inversion H23 as [l t r s2 s' t' Ht E1 [E2 E3]]. rewrite <- E1 in IH, H12. rewrite E0 in H12.
        assert (Hr : reachable rs s2 (l ++ t :: r)) by exact H12.
        apply (step_own s2 l t r s t'); auto.
        + exact (run_smps _ _ _ Hr).
        + destruct (bakes_in_progress _ _ _ Hr) as [B1 B2]. rewrite Hc in B2. unfold in_progress in B1. change (count busy (l ++ t :: r) <= held s2)%nat. unfold count, busy. lia.
        + apply (no_cancels rs Hc). rewrite <- (run_req _ _ _ Hr). apply in_map, in_elt.
        + now apply IH. }
    intros s ts H. split; [exact H|now apply G].
  Qed.
End Proofs.
