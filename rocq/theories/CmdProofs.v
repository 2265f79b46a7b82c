(** * Proofs about the watcher and the halton command *)
From Coq Require Import ZArith Bool List Lia Reals.
From Verif Require Import Num Outcome SeqModel SeqSpec SeqProofs CmdModel CmdSpec.
Import ListNotations.
Local Open Scope Z_scope.

Section Watch.
  Context {Text : Type}.
  Variable builds : Text -> bool.
  Notation watcher := (watcher Text).
  Notation happening := (happening Text).
  Implicit Types w : watcher.
  Notation happen := (happen builds).
  Notation history := (history builds).

  Definition busy (a : at_) : bool := match a with AtBuild _ | AtStart _ => true | _ => false end.
  Definition one w : Prop := wProcs w = [] \/ exists p t, wProcs w = [(p, t)] /\ wLast w = Some p /\ busy (wAt w) = false.
  Definition built w : Prop := match wAt w with AtStart _ => wExe w <> None | _ => True end.

  Lemma without_one p q (t : Text) : wWithout p [(q, t)] = [] \/ wWithout p [(q, t)] = [(q, t)].
  Proof. unfold wWithout. cbn. destruct (Nat.eqb q p); cbn; auto. Qed.
  Lemma without_same p (t : Text) : wWithout p [(p, t)] = [].
  Proof. unfold wWithout. cbn. rewrite Nat.eqb_refl. reflexivity. Qed.

  Lemma one_step w h : one w -> one (happen w h).
  Proof.
    intros [E|(p & t & E & L & B)].
    - destruct h as [f| |q|ok]; cbn; unfold one; cbn; auto.
      + rewrite E. auto.
      + unfold wStep. destruct (wAt w) as [|s|s|s| |] eqn:A.
        * destruct (wFile w) as [f|]; cbn; [|auto]. destruct (_ =? _); cbn; auto.
        * destruct (wLast w); cbn; auto. rewrite E. auto.
        * destruct (wFile w) as [f|]; cbn; [|auto]. destruct (builds _); cbn; auto.
        * destruct ok, (wExe w) as [x|]; cbn; auto. right. exists (wNext w), x. rewrite E. auto.
        * auto.
        * auto.
    - destruct h as [f| |q|ok]; cbn; unfold one; cbn.
      + right. eauto.
      + right. eauto.
      + rewrite E. destruct (without_one q p t) as [->| ->]; eauto 7.
      + unfold wStep. destruct (wAt w) as [|s|s|s| |] eqn:A; cbn in B; try discriminate.
        * destruct (wFile w) as [f|]; cbn; [|eauto 7]. destruct (_ =? _); cbn; [rewrite A|]; eauto 7.
        * rewrite L. cbn. rewrite E, without_same. auto.
        * right. rewrite A. eauto 7.
        * right. rewrite A. eauto 7.
  Qed.
  Lemma built_step w h : built w -> built (happen w h).
  Proof.
    unfold built. intros H. destruct h as [f| |q|ok]; cbn; auto.
    unfold wStep. destruct (wAt w) as [|s|s|s| |] eqn:A.
    - destruct (wFile w) as [f|]; cbn; auto. destruct (_ =? _); cbn; [rewrite A|]; auto.
    - destruct (wLast w); cbn; auto.
    - destruct (wFile w) as [f|]; cbn; [|auto]. destruct (builds _); cbn; auto. discriminate.
    - destruct ok, (wExe w) as [x|]; cbn; auto.
    - rewrite A. auto.
    - rewrite A. auto.
  Qed.
  Lemma history_inv (P : watcher -> Prop) : (forall w h, P w -> P (happen w h)) -> forall l w, P w -> P (history w l).
  Proof. intros H l. induction l as [|h l IH]; intros w HP; [exact HP|]. cbn. apply IH, H, HP. Qed.

  Lemma one_running f l : (length (running (history (wInit f) l)) <= 1)%nat.
  Proof.
    assert (H : one (history (wInit f) l)) by (apply history_inv; [exact one_step|left; reflexivity]).
    unfold running. rewrite map_length. destruct H as [->|(p & t & -> & _)]; cbn; lia.
  Qed.

  (** every stamp remembered is that of a version saved *)
  Definition atStamp (a : at_) : list Z := match a with AtKill s | AtBuild s | AtStart s => [s] | _ => [] end.
  Definition known (l : list Z) w : Prop :=
    In (wStamp w) (0 :: l) /\ (forall s, In s (atStamp (wAt w)) -> In s l) /\ (forall f, wFile w = Some f -> In (fStamp f) l).
  Lemma known_more l l' w : (forall s, In s l -> In s l') -> known l w -> known l' w.
  Proof. intros I (A & B & C). split; [cbn in *; intuition auto|]. split; auto. Qed.
  Lemma known_step l w h : (forall s, In s (stamps [h]) -> In s l) -> known l w -> known l (happen w h).
  Proof.
    intros I (A & B & C). unfold known. destruct h as [f| |q|ok]; cbn [happen wSetFile wSetProcs wStamp wAt wFile].
    - repeat split; auto. intros g [= <-]. apply I. cbn. auto.
    - repeat split; auto. discriminate.
    - auto.
    - unfold wStep. destruct (wAt w) as [|s|s|s| |] eqn:E.
      + destruct (wFile w) as [f|] eqn:Ff; cbn [wGoto wStamp wAt wFile]; [|split; [exact A|split; [intros s []|rewrite Ff; discriminate]]].
        destruct (_ =? _); cbn [wGoto wStamp wAt wFile]; rewrite ?E, ?Ff; (split; [exact A|split; [|exact C]]).
        * intros s [].
        * intros s [<-|[]]. apply C. reflexivity.
      + destruct (wLast w); cbn; repeat split; auto.
      + assert (In s l) by (apply B; cbn; auto).
        destruct (wFile w) as [f|] eqn:Ff; cbn; rewrite ?Ff; [destruct (builds _)|]; cbn; rewrite ?Ff; repeat split; auto; intros ? [].
      + assert (In s l) by (apply B; cbn; auto).
        destruct ok, (wExe w) as [x|]; cbn; repeat split; auto; intros ? [].
      + rewrite E. auto.
      + rewrite E. auto.
  Qed.
  Lemma known_history l0 l w : (forall s, In s (stamps l) -> In s l0) -> known l0 w -> known l0 (history w l).
  Proof.
    revert w. induction l as [|h l IH]; intros w I K; [exact K|]. cbn. apply IH.
    - intros s Hs. apply I. cbn. destruct h; cbn; auto.
    - apply known_step; [|exact K]. intros s Hs. apply I. cbn. destruct h; cbn in *; tauto.
  Qed.

  (** ** Towards the latest version *)
  Section Latest.
    Variable f : file Text.
    Variable g : bool.
    Notation m := (fStamp f).
    Notation t := (fText f).
    Definition settled w : Prop :=
      if builds t then hd_error (wStarted w) = Some t /\ ((exists p, wProcs w = [(p, t)]) \/ (g = false /\ wProcs w = [])) else wProcs w = [].
    Definition K (n : nat) w : Prop :=
      match n, wAt w with
      | 0%nat, AtPoll => wStamp w = m /\ settled w
      | 1%nat, AtStart s => s = m /\ wExe w = Some t /\ builds t = true /\ wProcs w = []
      | 2%nat, AtBuild s => s = m /\ wProcs w = []
      | 3%nat, AtKill s => s = m
      | 4%nat, AtPoll => wStamp w <> m
      | 5%nat, AtStart s | 6%nat, AtBuild s | 7%nat, AtKill s => s <> m
      | _, _ => False
      end.
    Lemma done_K n w p : g = false -> K n w -> K n (happen w (HDone p)).
    Proof.
      intros G. unfold K. cbn [happen wSetProcs wAt wStamp wExe wProcs wFile].
      destruct (wAt w) as [|s|s|s| |]; do 8 (try (destruct n as [|n]; try tauto)); cbn.
      - intros [H S]. split; [exact H|]. revert S. unfold settled. cbn. destruct (builds t).
        + intros [H1 [(q & ->)|[_ ->]]]; (split; [exact H1|]); [|right; auto].
          destruct (without_one p q t) as [->| ->]; [right; auto|left; eauto].
        + intros ->. reflexivity.
      - intros [H ->]. auto.
      - intros (H1 & H2 & H3 & ->). auto.
    Qed.
    Lemma step_K n w : one w -> built w -> wFile w = Some f -> K n w -> exists n', (n' <= pred n)%nat /\ K n' (happen w (HStep true)).
    Proof.
      intros O B Ff. unfold K at 1. cbn [happen]. unfold wStep. unfold built in B. unfold one in O.
      destruct (wAt w) as [|s|s|s| |] eqn:A; do 8 (try (destruct n as [|n]; try tauto)).
      - intros [H S]. exists 0%nat. split; [lia|]. rewrite Ff, H, Z.eqb_refl. unfold K. rewrite A. auto.
      - intros H. exists 3%nat. split; [lia|]. rewrite Ff. destruct (Z.eqb_spec m (wStamp w)); [congruence|]. unfold K. cbn. reflexivity.
      - intros H. exists 2%nat. split; [lia|]. unfold K. cbn. split; [exact H|].
        destruct O as [E|(p & x & E & L & _)].
        + destruct (wLast w); cbn; rewrite E; reflexivity.
        + rewrite L. cbn. rewrite E, without_same. reflexivity.
      - intros H. exists 6%nat. split; [lia|]. unfold K. cbn. exact H.
      - intros (H & E). rewrite Ff. destruct (builds t) eqn:Bt.
        + exists 1%nat. split; [lia|]. unfold K. cbn. auto.
        + exists 0%nat. split; [lia|]. unfold K. cbn. split; [exact H|]. unfold settled. rewrite Bt. exact E.
      - intros H. rewrite Ff. destruct (builds t) eqn:Bt.
        + exists 5%nat. split; [lia|]. unfold K. cbn. auto.
        + exists 4%nat. split; [lia|]. unfold K. cbn. exact H.
      - intros (H & E & Bt & P). exists 0%nat. split; [lia|]. rewrite E. unfold K. cbn. split; [exact H|]. unfold settled. rewrite Bt. cbn. rewrite P.
        split; [reflexivity|]. left. eauto.
      - intros H. exists 4%nat. split; [lia|]. destruct (wExe w); [|congruence]. unfold K. cbn. exact H.
    Qed.
    Lemma K_history l : Forall idle l -> Forall can_start l -> (g = true -> Forall goes_on l) -> forall n w,
      one w -> built w -> wFile w = Some f -> K n w -> exists n', (n' <= n - steps l)%nat /\ K n' (history w l).
    Proof.
      induction l as [|h l IH]; intros I C G n w O B Ff Hk.
      - exists n. unfold steps. cbn. split; [lia|exact Hk].
      - inversion I; subst. inversion C; subst. assert (G' : g = true -> Forall goes_on l) by (intros X; specialize (G X); inversion G; assumption).
        destruct h as [x| |p|[|]]; cbn in *; try tauto.
        + assert (g = false) by (destruct g; [specialize (G eq_refl); inversion G; subst; cbn in *; tauto|reflexivity]).
          destruct (IH ltac:(assumption) ltac:(assumption) G' n (happen w (HDone p))) as (n' & L & Hn); auto using one_step, built_step, done_K. eauto.
        + destruct (step_K n w O B Ff Hk) as (n1 & L1 & Hk1).
          destruct (IH ltac:(assumption) ltac:(assumption) G' n1 (happen w (HStep true))) as (n' & L & Hn); auto using one_step, built_step.
          * cbn. unfold wStep. destruct (wAt w); cbn; auto.
            -- rewrite Ff. destruct (_ =? _); cbn; exact Ff.
            -- destruct (wLast w); cbn; exact Ff.
            -- rewrite Ff. destruct (builds t); cbn; exact Ff.
            -- destruct (wExe w); cbn; exact Ff.
          * exists n'. split; [|exact Hn]. unfold steps in *. cbn. lia.
    Qed.
  End Latest.

  Lemma known_init : known [] (wInit None).
  Proof. repeat split; cbn; [auto|intros s []|discriminate]. Qed.

  Lemma latest (g : bool) l1 l2 f : watching (history (wInit None) l1) -> ~ In (fStamp f) (0 :: stamps l1) -> Forall idle l2 -> Forall can_start l2 ->
    (g = true -> Forall goes_on l2) -> (7 <= steps l2)%nat -> K f g 0 (history (wInit None) (l1 ++ HSave f :: l2)).
  Proof.
    intros [N1 N2] Hs I C G Hn. unfold history. rewrite fold_left_app. cbn [fold_left]. fold (history (wInit None) l1).
    set (w := history (wInit None) l1) in *.
    assert (O : one w) by (apply history_inv; [exact one_step|left; reflexivity]).
    assert (B : built w) by (apply history_inv; [exact built_step|exact Logic.I]).
    destruct (known_history (stamps l1) l1 (wInit None) (fun s h => h)) as (K1 & K2 & _).
    { eapply known_more; [|exact known_init]. intros s []. }
    change (CmdModel.history builds (wInit None) l1) with w in K1, K2.
    assert (X : exists n, (n <= 7)%nat /\ K f g n (happen w (HSave f))).
    { unfold K. cbn. destruct (wAt w) as [|s|s|s| |] eqn:A; try congruence.
      - exists 4%nat. split; [lia|]. intros E. apply Hs. rewrite <- E. exact K1.
      - exists 7%nat. split; [lia|]. intros ->. apply Hs. right. apply K2. cbn. auto.
      - exists 6%nat. split; [lia|]. intros ->. apply Hs. right. apply K2. cbn. auto.
      - exists 5%nat. split; [lia|]. intros ->. apply Hs. right. apply K2. cbn. auto. }
    destruct X as (n & L & Hk).
    destruct (K_history f g l2 I C G n (happen w (HSave f))) as (n' & L' & H); auto using one_step, built_step.
    assert (n' = 0%nat) by lia. subst. exact H.
  Qed.
  Lemma latest_is_rendered l1 l2 f : watching (history (wInit None) l1) -> ~ In (fStamp f) (0 :: stamps l1) -> Forall idle l2 -> Forall can_start l2 -> (7 <= steps l2)%nat ->
    let w := history (wInit None) (l1 ++ HSave f :: l2) in
    watching w /\ if builds (fText f) then hd_error (wStarted w) = Some (fText f) /\ (running w = [] \/ running w = [fText f]) /\ (Forall goes_on l2 -> running w = [fText f])
    else running w = [].
  Proof.
    intros W Hs I C Hn w.
    assert (Kf : K f false 0 w) by (apply latest; auto; discriminate).
    assert (Kt : Forall goes_on l2 -> K f true 0 w) by (intros G; apply latest; auto).
    unfold K in *. unfold watching, running. destruct (wAt w); try tauto. destruct Kf as [_ S]. unfold settled in *. split; [split; discriminate|].
    destruct (builds (fText f)).
    - destruct S as [S1 S2]. split; [exact S1|]. split.
      + destruct S2 as [(p & ->)|[_ ->]]; auto.
      + intros G. destruct (Kt G) as [_ [_ [(p & ->)|[X _]]]]; [reflexivity|discriminate].
    - rewrite S. reflexivity.
  Qed.

  (** ** The watcher goes on as long as it finds the file and can start processes *)
  Lemma goes_on_watching f l : Forall present l -> Forall can_start l -> watching (history (wInit (Some f)) l).
  Proof.
    intros P C.
    assert (H : forall l w, Forall present l -> Forall can_start l -> built w -> wFile w <> None -> watching w -> watching (history w l)).
    { clear. induction l as [|h l IH]; intros w P C B Ff W; [exact W|]. inversion P; subst. inversion C; subst. cbn. apply IH; auto using built_step.
      - destruct h as [x| |p|[|]]; cbn in *; try tauto; try discriminate. unfold wStep. destruct (wAt w); cbn; auto.
        + destruct (wFile w) eqn:E; cbn; [destruct (_ =? _); cbn; rewrite E; discriminate|congruence].
        + destruct (wLast w); cbn; exact Ff.
        + destruct (wFile w) eqn:E; cbn; [destruct (builds _); cbn; rewrite E; discriminate|congruence].
        + destruct (wExe w); cbn; exact Ff.
      - destruct h as [x| |p|[|]]; cbn in *; try tauto. unfold wStep, watching in *. unfold built in B. destruct (wAt w) as [| | | | |] eqn:A; cbn.
        + destruct (wFile w); [|congruence]. destruct (_ =? _); cbn; rewrite ?A; split; discriminate.
        + split; discriminate.
        + destruct (wFile w); [destruct (builds _)|]; cbn; split; discriminate.
        + destruct (wExe w); [|congruence]. cbn. split; discriminate.
        + tauto.
        + tauto. }
    apply H; auto; cbn; [exact Logic.I|discriminate|split; discriminate].
  Qed.
  (** once ended it neither runs nor stops anything *)
  Lemma ended l w : ~ watching w -> Forall goes_on l -> running (history w l) = running w /\ wStarted (history w l) = wStarted w.
  Proof.
    assert (H : forall l w, wAt w = AtExit \/ wAt w = AtCrash -> Forall goes_on l -> running (history w l) = running w /\ wStarted (history w l) = wStarted w).
    { clear. induction l as [|h l IH]; intros w N G; [auto|]. inversion G; subst. cbn.
      assert (E : running (happen w h) = running w /\ wStarted (happen w h) = wStarted w /\ (wAt (happen w h) = AtExit \/ wAt (happen w h) = AtCrash)).
      { destruct h as [x| |p|ok]; cbn in *; try tauto; auto. unfold wStep. destruct N as [N|N]; rewrite N; auto. }
      destruct E as (<- & <- & N'). apply IH; auto. }
    intros N. apply H. unfold watching in N. destruct (wAt w); auto; exfalso; apply N; split; discriminate.
  Qed.
End Watch.

(** ** Counterexamples *)
Notation P := (HStep true).
(** two versions saved within one tick of the file system's clock; the first one is being compiled *)
Definition quick_edits (l : list (happening Z)) : list (happening Z) := [HSave (File 1 10); P; P; P; HSave (File 1 20)] ++ l.
Lemma quick_edit_lost (l : list (happening Z)) : Forall idle l -> Forall can_start l -> Forall goes_on l -> (1 <= steps l)%nat ->
  running (history (fun _ => true) (wInit None) (quick_edits l)) = [10].
Proof.
  intros I C G Hn. unfold quick_edits, history. rewrite fold_left_app. cbn.
  assert (H0 : forall k, In k l -> k = P).
  { rewrite Forall_forall in *. intros [x| |p|[|]] Hk; auto; [destruct (I _ Hk)|destruct (I _ Hk)|destruct (G _ Hk)|destruct (C _ Hk)]. }
  assert (S : forall l, (forall k, In k l -> k = P) -> fold_left (happen (fun _ : Z => true)) l (W (Some (File 1 20)) (Some 10) AtPoll 1 (Some 0%nat) [(0%nat, 10)] 1 [10])
     = W (Some (File 1 20)) (Some 10) AtPoll 1 (Some 0%nat) [(0%nat, 10)] 1 [10]).
  { clear. induction l as [|h l IH]; intros H; [reflexivity|]. cbn. rewrite (H h) by (cbn; auto). apply IH. cbn in H. auto. }
  destruct l as [|h l]; [cbn in Hn; lia|]. rewrite (H0 h) by (cbn; auto). cbn. rewrite S; [reflexivity|]. cbn in H0. auto.
Qed.
(** an editor which saves by removing the file and writing it anew *)
Lemma save_by_replacing_ends : let l := [HSave (File 1 10); P; P; P; P; HRemove; P; HSave (File 2 20)] in
  ~ watching (history (fun _ => true) (wInit None) l) /\ running (history (fun _ => true) (wInit None) l) = [10].
Proof. cbn. split; [|reflexivity]. intros [H _]. apply H. reflexivity. Qed.
Lemma failed_start_crashes : ~ watching (history (fun _ : Z => true) (wInit None) [HSave (File 1 10); P; P; P; HStep false]).
Proof. cbn. intros [_ H]. apply H. reflexivity. Qed.

(** ** The halton command *)
Section HaltonCmd.
  Variables a b : Z.
  Hypothesis Ha : 2 <= a < 2 ^ 53.
  Hypothesis Hb : 2 <= b < 2 ^ 53.
  Lemma haltonLoop_points s max : 1 <= s -> max < 2 ^ 53 -> forall fuel i, 0 <= i -> (Z.to_nat (max - i) < fuel)%nat ->
    exists l : list (b64 * b64), haltonLoop fuel a b s i max = Val l /\ s * Z.of_nat (length l) < Z.max 0 (max - i) + s /\ max - i <= s * Z.of_nat (length l) /\
      forall k u v, nth_error l k = Some (u, v) -> halton a (i + s * Z.of_nat k) = Val u /\ halton b (i + s * Z.of_nat k) = Val v.
  Proof.
    intros Hs Hm. induction fuel as [|fuel IH]; intros i Hi Hf; [lia|]. cbn [haltonLoop].
    destruct (Z.ltb_spec i max) as [L|L].
    - destruct (halton_b64_finite a i Ha) as (u & Eu & _); [lia|]. destruct (halton_b64_finite b i Hb) as (v & Ev & _); [lia|].
      rewrite Eu. cbn [obind]. rewrite Ev. cbn [obind].
      destruct (IH (i + s)) as (l & E & L1 & L2 & N); [lia|lia|]. rewrite E. exists ((u, v) :: l). split; [reflexivity|].
      cbn [length]. split; [destruct (Z.le_gt_cases 0 (max - (i + s))); [lia|]; assert (Z.of_nat (length l) = 0) by nia; lia|]. split; [lia|]. intros [|k] u' v' H.
      + cbn [nth_error] in H. injection H as <- <-. replace (i + s * Z.of_nat 0) with i by lia. auto.
      + cbn [nth_error] in H. destruct (N k u' v' H) as [N1 N2]. replace (i + s * Z.of_nat (S k)) with (i + s + s * Z.of_nat k) by lia. auto.
    - exists []. split; [reflexivity|]. cbn [length]. split; [lia|]. split; [lia|]. intros [|k] u v; discriminate.
  Qed.
  Lemma haltonCmd_points s i n fuel : 1 <= s -> 0 <= i -> 0 <= n -> s * (i + n) < 2 ^ 53 -> (Z.to_nat (s * (i + n)) < fuel)%nat ->
    exists l : list (b64 * b64), haltonCmd fuel a b s i n = Val l /\ n <= Z.of_nat (length l) /\ (i = 0 \/ s = 1 -> Z.of_nat (length l) = n) /\
      forall k u v, nth_error l k = Some (u, v) -> halton a (i + s * Z.of_nat k) = Val u /\ halton b (i + s * Z.of_nat k) = Val v.
  Proof.
    intros Hs Hi Hn Hm Hf. unfold haltonCmd. destruct (haltonLoop_points s (s * (i + n)) Hs Hm fuel i Hi) as (l & E & L1 & L2 & N); [nia|].
    exists l. split; [exact E|]. split; [nia|]. split; [|exact N]. intros [-> | ->]; nia.
  Qed.
End HaltonCmd.
Lemma halton_one_too_many : exists l : list (b64 * b64), haltonCmd 10 2 3 2 1 1 = Val l /\ length l = 2%nat.
Proof.
  destruct (haltonLoop_points 2 3 ltac:(lia) ltac:(lia) 2 4 ltac:(lia) ltac:(lia) 10%nat 1 ltac:(lia)) as (l & E & L1 & L2 & _); [cbn; lia|].
  exists l. split; [exact E|]. lia.
Qed.
