(** * The window of the viewer is kept up to date (C127) *)
From Coq Require Import ZArith Bool List Lia.
From Verif Require Import Num Outcome GeomModel SceneModel ApiModel ViewerModel ViewerSpec WindowSpec.
Import ListNotations.

Section Window.
  Context {F : Type} `{NF : Num F} `{TF : Trig F}.
  Variable to32 : F -> F.
  Variable jsonOk : F -> bool.
  Notation state := (state F).
  Notation run := (run to32 jsonOk).
  Notation iterate := (iterate to32 jsonOk).
  Notation backlog := (handleEventBacklog to32).

  (** [s'] was reached from [s] by logging [l] *)
  Definition grows (s s' : state) (l : list (action F)) : Prop := stLog s' = l ++ stLog s.
  Definition win (s : state) : Prop := stWindowDirty s = false -> on_screen (stLog s) (stImg s) (stSize s).

  Lemma event_win e s s' : handleEvent to32 e s = Val s' ->
    stLog s' = stLog s /\ stImg s' = stImg s /\ (asks_repaint e = true -> stWindowDirty s' = true) /\
    (stWindowDirty s' = false -> stWindowDirty s = false /\ stSize s' = stSize s) /\ (stWindowDirty s = true -> stWindowDirty s' = true).
  Proof.
    destruct e as [press code shift|dir b x y shift|w h| |dead]; cbn [handleEvent].
    - intros E. injection E as <-. unfold handleKeyEvent. destruct press, code, shift; cbn; repeat split; auto; discriminate.
    - intros E. injection E as <-. unfold handleMouseEvent.
      repeat match goal with |- context [match ?x with pair _ _ => _ end] => destruct x as [? ?] end.
      cbv zeta. destruct (isLeft b0); match goal with |- context [negb ?b] => destruct (negb b) end; destruct b; try destruct shift; cbn; repeat split; auto; discriminate.
    - intros E. injection E as <-. cbn. repeat split; auto; discriminate.
    - intros E. injection E as <-. cbn. repeat split; auto; discriminate.
    - unfold handleLifecycleEvent. destruct dead; [destruct (stAborted s); [discriminate|]|]; intros E; injection E as <-; cbn; repeat split; auto; discriminate.
  Qed.

  Lemma backlog_win es : forall s s', backlog es s = Val s' ->
    stLog s' = stLog s /\ stImg s' = stImg s /\ ((exists e, In e es /\ asks_repaint e = true) -> stWindowDirty s' = true) /\
    (stWindowDirty s' = false -> stWindowDirty s = false /\ stSize s' = stSize s) /\ (stWindowDirty s = true -> stWindowDirty s' = true).
  Proof.
    induction es as [|e es IH]; intros s s' E; cbn [handleEventBacklog] in E.
    - injection E as <-. repeat split; auto. intros (e & [] & _).
    - destruct (handleEvent to32 e s) as [s1| |] eqn:E1; cbn [obind] in E; try discriminate.
      destruct (event_win _ _ _ E1) as (L1 & I1 & A1 & D1 & K1). destruct (IH _ _ E) as (L & I & A & D & K).
      split; [congruence|]. split; [congruence|]. split.
      { intros (e' & [<-|H] & R); [auto|]. apply A. eauto. }
      split; [|auto]. intros X. destruct (D X) as (Y & Z). destruct (D1 Y) as (Y' & Z'). split; congruence.
  Qed.

  Lemma repaint_win r s s' : win s -> repaintIfNeeded jsonOk r s = Val s' ->
    stWindowDirty s' = false /\ on_screen (stLog s') (stImg s') (stSize s') /\ stSize s' = stSize s /\
    exists l, grows s s' l /\ (stWindowDirty s = true -> exists i cur, In (AShow i cur (stSize s')) l).
  Proof.
    intros W E. unfold repaintIfNeeded in E.
    set (first := if stRenderDirty s then _ else _) in E.
    assert (forall s1, first = Val s1 -> stSize s1 = stSize s /\ (stWindowDirty s = true -> stWindowDirty s1 = true) /\ win s1 /\
      exists l, grows s s1 l) as H1.
    { intros s1. unfold first. destruct (stRenderDirty s).
      - cbv zeta. destruct (encodable _ _); [|discriminate]. intros X. injection X as <-.
        destruct r; cbn; (split; [reflexivity|]); (split; [auto|]).
        + split; [intros X; discriminate|]. exists [APreview (withSize (stView (cancelBaking s)) (Z.quot (vwWidth (stView (cancelBaking s))) 8) (Z.quot (vwHeight (stView (cancelBaking s))) 8) (vwAntiAlias (stView (cancelBaking s))))].
          reflexivity.
        + split.
          * intros X. cbn in X. destruct (W X) as (l1 & cur & l2 & El & Nl). cbn. eexists (_ :: l1), cur, l2. split; [rewrite El; reflexivity|].
            intros a [<-|Ha]; [intros []|auto].
          * exists [APreview (withSize (stView (cancelBaking s)) (Z.quot (vwWidth (stView (cancelBaking s))) 8) (Z.quot (vwHeight (stView (cancelBaking s))) 8) (vwAntiAlias (stView (cancelBaking s))))].
            reflexivity.
        + split; [intros X; discriminate|]. exists [APreview (withSize (stView (cancelBaking s)) (Z.quot (vwWidth (stView (cancelBaking s))) 8) (Z.quot (vwHeight (stView (cancelBaking s))) 8) (vwAntiAlias (stView (cancelBaking s))))].
          reflexivity.
      - intros X. injection X as <-. repeat split; auto. exists nil. reflexivity. }
    destruct first as [s1| |]; cbn [obind] in E; try discriminate. injection E as <-.
    destruct (H1 s1 eq_refl) as (Z & K & W1 & l & Gl).
    destruct (stWindowDirty s1) eqn:D1.
    - cbn. split; [reflexivity|]. split.
      { exists nil, (stView s1), (stLog s1). split; [reflexivity|]. intros a []. }
      split; [exact Z|]. exists (AShow (stImg s1) (stView s1) (stSize s1) :: l). split; [unfold grows in *; cbn; now rewrite Gl|].
      intros _; eexists _, _; left; reflexivity.
    - split; [exact D1|]. split; [apply W1, D1|]. split; [exact Z|]. exists l. split; [exact Gl|].
      intros X. specialize (K X). congruence.
  Qed.

  Lemma bake_win (s s' : state) : goBakeAndSend jsonOk s = Val s' ->
    stWindowDirty s' = stWindowDirty s /\ stImg s' = stImg s /\ stSize s' = stSize s /\ exists v d, grows s s' [ABake v d].
  Proof.
    unfold goBakeAndSend. cbv zeta. destruct (encodable _ _); [|discriminate]. intros E. injection E as <-. cbn. repeat split. do 2 eexists. reflexivity.
  Qed.
  Lemma bakery_win v r k (s : state) : win s -> let s' := handleBakery v r (received k s) in
    win s' /\ stSize s' = stSize s /\ (stWindowDirty s = true -> stWindowDirty s' = true) /\ exists l, grows s s' l.
  Proof.
    intros W s'. unfold s', handleBakery. cbv zeta. destruct r; cbn.
    - match goal with |- context [if ?b then _ else _] => destruct b end; cbn.
      + split; [discriminate|]. split; [reflexivity|]. split; [auto|]. exists [AAccept v (stView s) (stSize s)]. reflexivity.
      + split; [exact W|]. split; [reflexivity|]. split; [auto|]. exists nil. reflexivity.
    - split; [exact W|]. split; [reflexivity|]. split; [auto|]. exists nil. reflexivity.
    - split; [exact W|]. split; [reflexivity|]. split; [auto|]. exists nil. reflexivity.
  Qed.
  Lemma return_win (s s' : state) : return_ s = Val s' ->
    stWindowDirty s' = stWindowDirty s /\ stImg s' = stImg s /\ stSize s' = stSize s /\ stLog s' = stLog s /\ stReturned s' = true /\ stAborted s = true.
  Proof. unfold return_. destruct (stAborted s) eqn:A; [|discriminate]. intros E. injection E as <-. cbn. auto 10. Qed.

  Lemma backlog_keeps_win es s s' : win s -> backlog es s = Val s' -> win s'.
  Proof.
    intros W E X. destruct (backlog_win _ _ _ E) as (L & I & _ & D & _). destruct (D X) as (Y & Z). rewrite L, I, Z. auto.
  Qed.

  (** one turn of the loop *)
  Definition clean (s : state) : Prop := stWindowDirty s = false /\ on_screen (stLog s) (stImg s) (stSize s).
  Definition shows_in (l : list (action F)) : Prop := exists j cur size, In (AShow j cur size) l.
  Lemma grows_trans s1 s2 s3 l1 l2 : grows s1 s2 l1 -> grows s2 s3 l2 -> grows s1 s3 (l2 ++ l1).
  Proof. unfold grows. intros H1 H2. now rewrite H2, H1, app_assoc. Qed.
  Lemma shows_l l1 l2 : shows_in l1 -> shows_in (l2 ++ l1).
  Proof. intros (j & c & z & H). exists j, c, z. apply in_or_app. now right. Qed.
  Lemma shows_r l1 l2 : shows_in l2 -> shows_in (l2 ++ l1).
  Proof. intros (j & c & z & H). exists j, c, z. apply in_or_app. now left. Qed.

  Lemma iterate_win i s s' : win s -> iterate i s = Val s' ->
    (stWindowDirty s = false \/ stAborted s = false -> clean s') /\
    exists l, grows s s' l /\ ((exists e, In e (events_of i) /\ asks_repaint e = true) -> stReturned s' = false -> shows_in l).
  Proof.
    intros W E. unfold ViewerModel.iterate in E. destruct (stReturned s) eqn:Rt; [discriminate|].
    assert (in1 i = S1Abort \/ in1 i <> S1Abort) as [I1|I1] by (destruct (in1 i); auto; right; discriminate).
    { rewrite I1 in E. destruct (return_win _ _ E) as (D & I & Z & L & R & A). split.
      - intros [X|X]; [|congruence]. split; [congruence|]. rewrite L, I, Z. apply W, X.
      - exists nil. split; [exact L|]. intros _ X. congruence. }
    set (first := match in1 i with S1Events e es => handleEventBacklog to32 (e :: es) s | _ => if stAborted s then NoFuel else Val s end) in E.
    match type of E with context [obind first ?k] => assert (obind first k = Val s') as E' by (destruct (in1 i); [exact E|exact E|congruence]) end.
    clear E. rename E' into E.
    assert (forall s1, first = Val s1 -> win s1 /\ stLog s1 = stLog s /\ ((exists e, In e (events1 (in1 i)) /\ asks_repaint e = true) -> stWindowDirty s1 = true)) as H1.
    { intros s1 X. unfold first in X. unfold events1. destruct (in1 i) as [|e es|].
      - destruct (stAborted s); [discriminate|]. injection X as <-. split; [exact W|]. split; [reflexivity|]. intros (e & [] & _).
      - split; [exact (backlog_keeps_win _ _ _ W X)|]. destruct (backlog_win _ _ _ X) as (L & _ & A & _). auto.
      - congruence. }
    destruct first as [s1| |]; cbn [obind] in E; try discriminate. destruct (H1 s1 eq_refl) as (W1 & L1 & A1). clear H1.
    destruct (repaintIfNeeded jsonOk (inR1 i) s1) as [s2| |] eqn:E2; cbn [obind] in E; try discriminate.
    destruct (repaint_win _ _ _ W1 E2) as (D2 & O2 & Z2 & l2 & G2 & S2).
    match type of E with obind ?b _ = _ => assert (forall s3, b = Val s3 -> clean s3 /\ exists l, grows s2 s3 l) as H3 end.
    { intros s3. destruct (negb _ && _ && _ && _).
      - intros X. destruct (bake_win _ _ X) as (D & I & Z & v & d & G). split; [|eauto]. split; [congruence|].
        rewrite I, Z, G. destruct O2 as (k1 & cur & k2 & El & Nl). exists (ABake v d :: k1), cur, k2. split; [cbn; now rewrite El|].
        intros a [<-|Ha]; [intros []|auto].
      - intros X. injection X as <-. split; [split; assumption|]. exists nil. reflexivity. }
    match type of E with obind ?b _ = _ => destruct b as [s3| |] end; cbn [obind] in E; try discriminate.
    destruct (H3 s3 eq_refl) as ((D3 & O3) & l3 & G3). clear H3.
    assert (grows s s3 (l3 ++ l2)) as G13. { apply (grows_trans _ s2); [|exact G3]. unfold grows in *. now rewrite G2, L1. }
    assert ((exists e, In e (events1 (in1 i)) /\ asks_repaint e = true) -> shows_in (l3 ++ l2)) as S1.
    { intros X. apply shows_l. destruct (S2 (A1 X)) as (j & c & H). exists j, c, (stSize s2). exact H. }
    assert (forall X Y : Prop, (exists e, In e (events_of i) /\ asks_repaint e = true) ->
       ((exists e, In e (events1 (in1 i)) /\ asks_repaint e = true) -> X) -> ((exists e, In e (events3 (in3 i)) /\ asks_repaint e = true) -> Y) -> X \/ Y) as Split.
    { intros X Y (e & He & R) HX HY. unfold events_of in He. apply in_app_or in He as [He|He]; [left; apply HX|right; apply HY]; eauto. }
    unfold events3 in Split. destruct (in3 i) as [e es|k r|].
    - destruct (backlog (e :: es) s3) as [s4| |] eqn:E4; cbn [obind] in E; try discriminate.
      assert (win s4) as W4 by (apply (backlog_keeps_win (e :: es) s3); [intros _; exact O3|exact E4]).
      destruct (backlog_win _ _ _ E4) as (L4 & _ & A4 & _).
      destruct (repaint_win _ _ _ W4 E) as (D5 & O5 & _ & l5 & G5 & S5).
      split; [intros _; split; assumption|]. exists (l5 ++ l3 ++ l2). split.
      { apply (grows_trans _ s3); [exact G13|]. unfold grows in *. now rewrite G5, L4. }
      intros X _. destruct (Split _ _ X S1 A4) as [Y|Y]; [now apply shows_l|]. apply shows_r.
      destruct (S5 Y) as (j & c & H). exists j, c, (stSize s'). exact H.
    - destruct (nth_error (stFlight s3) k) as [v|]; [|discriminate].
      destruct (bakery_win v r k s3) as (W4 & Z4 & K4 & l4 & G4); [intros _; exact O3|].
      destruct (repaint_win _ _ _ W4 E) as (D5 & O5 & _ & l5 & G5 & S5).
      split; [intros _; split; assumption|]. exists (l5 ++ l4 ++ l3 ++ l2). split.
      { apply (grows_trans _ (handleBakery v r (received k s3))); [|exact G5]. apply (grows_trans _ s3); assumption. }
      intros X _. do 2 apply shows_l. destruct (Split _ False X S1) as [Y|[]]; [intros (e & [] & _)|exact Y].
    - destruct (return_win _ _ E) as (D & I & Z & L & R & A). split.
      + intros _. split; [congruence|]. now rewrite L, I, Z.
      + exists (l3 ++ l2). split; [unfold grows in *; congruence|]. intros _ X. congruence.
  Qed.

  Lemma clean_win s : clean s -> win s.
  Proof. intros [_ H] _. exact H. Qed.
  Lemma run_clean is : forall s s', clean s -> run is s = Val s' -> clean s'.
  Proof.
    induction is as [|i is IH]; intros s s' C E; cbn [ViewerModel.run] in E.
    - injection E as <-. exact C.
    - destruct (iterate i s) as [s1| |] eqn:E1; cbn [obind] in E; try discriminate. apply (IH s1); [|exact E].
      destruct (iterate_win i s s1 (clean_win _ C) E1) as (H & _). apply H. left. apply C.
  Qed.
  Lemma window_shows is s : is <> nil -> run is start = Val s -> clean s.
  Proof.
    destruct is as [|i is]; [congruence|]. intros _ E. cbn [ViewerModel.run] in E.
    destruct (iterate i start) as [s1| |] eqn:E1; cbn [obind] in E; try discriminate. apply (run_clean is s1); [|exact E].
    destruct (iterate_win i start s1) as (H & _); [intros X; discriminate|exact E1|]. apply H. now right.
  Qed.
  Lemma window_redrawn is s i s' : run is start = Val s -> iterate i s = Val s' -> stReturned s' = false ->
    (exists e, In e (events_of i) /\ asks_repaint e = true) -> exists l, stLog s' = l ++ stLog s /\ shows_in l.
  Proof.
    intros R E N X. assert (win s) as W.
    { destruct is as [|j is]; [cbn in R; injection R as <-; intros Y; discriminate|]. apply clean_win, (window_shows (j :: is)); [discriminate|exact R]. }
    destruct (iterate_win i s s' W E) as (_ & l & G & S). exists l. split; [exact G|]. auto.
  Qed.
End Window.
