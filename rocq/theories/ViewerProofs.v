(** * Proofs about the viewer that hold for any number type *)
From Coq Require Import ZArith Bool List Lia.
From Verif Require Import Num Outcome GeomModel SceneModel ApiModel ViewerModel ViewerSpec.
Import ListNotations.

Section Proofs.
  Context {F : Type} `{NF : Num F} `{TF : Trig F}.
  Variable to32 : F -> F.
  Variable jsonOk : F -> bool.
  Notation view := (view F).
  Notation state := (state F).
  Notation handleEvent := (handleEvent to32).
  Notation backlog := (handleEventBacklog to32).
  Notation repaintIfNeeded := (repaintIfNeeded jsonOk).
  Notation goBakeAndSend := (goBakeAndSend jsonOk).
  Notation iterate := (iterate to32 jsonOk).
  Notation run := (run to32 jsonOk).
  Definition mayBake (s : state) : bool := negb (stIsBaking s) && negb (stPreview s) && negb (stRenderDirty s) && negb (stPaused s).

  (** ** Invariants of the loop *)
  Section Inv.
    Variable P : state -> Prop.
    Variable okE : event F -> Prop.
    Variable okR : reply -> Prop.
    Hypothesis HE : forall e s s', okE e -> P s -> handleEvent e s = Val s' -> P s'.
    Hypothesis HR : forall r s s', okR r -> P s -> repaintIfNeeded r s = Val s' -> P s'.
    Hypothesis HB : forall s s', P s -> mayBake s = true -> goBakeAndSend s = Val s' -> P s'.
    Hypothesis HK : forall k v r s, P s -> nth_error (stFlight s) k = Some v -> P (handleBakery v r (received k s)).
    Hypothesis HX : forall s s', P s -> return_ s = Val s' -> P s'.

    Lemma backlog_inv : forall es s s', (forall e, In e es -> okE e) -> P s -> backlog es s = Val s' -> P s'.
    Proof.
      induction es as [|e es IH]; intros s s' He Hp; cbn [handleEventBacklog].
      - intros [= <-]. exact Hp.
      - destruct (handleEvent e s) as [s1| |] eqn:E1; cbn [obind]; try discriminate.
        intros E. apply (IH s1); [intros; apply He; now right| |exact E].
        apply (HE e s); [apply He; now left|exact Hp|exact E1].
    Qed.
    Lemma iterate_inv (i : input F) (s s' : state) : (forall e, In e (events_of i) -> okE e) -> okR (inR1 i) -> okR (inR2 i) ->
      P s -> iterate i s = Val s' -> P s'.
    Proof.
      intros He H1 H2 Hp. unfold ViewerModel.iterate. destruct (stReturned s); [discriminate|].
      assert (forall x, in1 i <> S1Abort ->
        obind (match in1 i with S1Events e es => backlog (e :: es) s | _ => if stAborted s then NoFuel else Val s end) (fun s =>
        obind (repaintIfNeeded (inR1 i) s) (fun s =>
        obind (if mayBake s then goBakeAndSend s else Val s) (fun s =>
        match in3 i with
        | S3Abort => return_ s
        | S3Events e es => obind (backlog (e :: es) s) (repaintIfNeeded (inR2 i))
        | S3Bakery k resp =>
          match nth_error (stFlight s) k with
          | None => NoFuel
          | Some v => repaintIfNeeded (inR2 i) (handleBakery v resp (received k s))
          end
        end))) = Val x -> P x) as Main.
      { intros x _.
        destruct (match in1 i with S1Events e es => backlog (e :: es) s | _ => if stAborted s then NoFuel else Val s end) as [s1| |] eqn:E1; cbn [obind]; try discriminate.
        assert (P s1) as P1.
        { destruct (in1 i) as [|e es|] eqn:I1; try (destruct (stAborted s); [discriminate|]; injection E1 as <-; exact Hp).
          apply (backlog_inv (e :: es) s); [|exact Hp|exact E1]. intros e' Hin. apply He. unfold events_of, events1. rewrite I1. apply in_or_app. now left. }
        destruct (repaintIfNeeded (inR1 i) s1) as [s2| |] eqn:E2; cbn [obind]; try discriminate.
        pose proof (HR _ _ _ H1 P1 E2) as P2.
        destruct (if mayBake s2 then goBakeAndSend s2 else Val s2) as [s3| |] eqn:E3; cbn [obind]; try discriminate.
        assert (P s3) as P3 by (destruct (mayBake s2) eqn:M; [apply (HB s2); assumption|injection E3 as <-; exact P2]).
        destruct (in3 i) as [e es|k resp|] eqn:I3.
        - destruct (backlog (e :: es) s3) as [s4| |] eqn:E4; cbn [obind]; try discriminate.
          apply HR; [exact H2|]. apply (backlog_inv (e :: es) s3); [|exact P3|exact E4].
          intros e' Hin. apply He. unfold events_of, events3. rewrite I3. apply in_or_app. now right.
        - destruct (nth_error (stFlight s3) k) as [v|] eqn:Ek; [|discriminate]. apply HR; [exact H2|]. now apply HK.
        - now apply HX. }
      destruct (in1 i) eqn:I1; [apply (Main s'); discriminate|apply (Main s'); discriminate|now apply HX].
    Qed.
    Lemma run_inv : forall is s s', (forall e, In e (all_events is) -> okE e) -> (forall i, In i is -> okR (inR1 i) /\ okR (inR2 i)) ->
      P s -> run is s = Val s' -> P s'.
    Proof.
      induction is as [|i is IH]; intros s s' He Hr Hp; cbn [ViewerModel.run].
      - intros [= <-]. exact Hp.
      - destruct (iterate i s) as [s1| |] eqn:E1; cbn [obind]; try discriminate. intros E.
        apply (IH s1); [| | |exact E].
        + intros e Hin. apply He. cbn [all_events flat_map]. apply in_or_app. now right.
        + intros j Hj. apply Hr. now right.
        + destruct (Hr i (or_introl eq_refl)) as [R1 R2]. apply (iterate_inv i s); [|exact R1|exact R2|exact Hp|exact E1].
          intros e Hin. apply He. cbn [all_events flat_map]. apply in_or_app. now left.
    Qed.
  End Inv.

  (** ** What the handlers leave alone *)
  (** an event does not touch the bakes, and either leaves the view alone or makes it dirty *)
  Definition quietly (s s' : state) : Prop :=
    stFlight s' = stFlight s /\ stIsBaking s' = stIsBaking s /\ (stWantBake s' = true -> stWantBake s = true) /\
    stImg s' = stImg s /\ stLog s' = stLog s /\ (stRes s' = stRes s \/ stRes s' = 0%Z) /\ stReturned s' = stReturned s /\
    (vwWidth (stView s), vwHeight (stView s)) = stSize s /\ (vwWidth (stView s'), vwHeight (stView s')) = stSize s' /\
    (stRenderDirty s' = true \/ stRenderDirty s' = stRenderDirty s /\ stView s' = stView s /\ stSize s' = stSize s).
  Lemma quietly_refl s : (vwWidth (stView s), vwHeight (stView s)) = stSize s -> quietly s s.
  Proof. unfold quietly. intuition auto. Qed.
  Lemma quietly_trans s t u : quietly s t -> quietly t u -> quietly s u.
  Proof.
    unfold quietly. intros (A1 & A2 & A3 & A4 & A5 & A6 & A7 & A8 & A9 & A10) (B1 & B2 & B3 & B4 & B5 & B6 & B7 & B8 & B9 & B10).
    repeat apply conj; try congruence; try tauto.
    - destruct B6 as [B6|B6]; [rewrite B6; exact A6|now right].
    - destruct B10 as [B10|(B10 & B11 & B12)]; [now left|]. destruct A10 as [A10|(A10 & A11 & A12)]; [left; congruence|]. right. repeat apply conj; congruence.
  Qed.
  Ltac quiet := unfold quietly; cbn; repeat apply conj; auto.
  Lemma moveCam_quiet d s : (vwWidth (stView s), vwHeight (stView s)) = stSize s -> quietly s (moveCam d s).
  Proof. intros H. quiet. Qed.
  Lemma rotateCamera_quiet dx dy s : (vwWidth (stView s), vwHeight (stView s)) = stSize s -> quietly s (rotateCamera dx dy s).
  Proof. intros H. quiet. Qed.
  Lemma isometricZoom_quiet f s : (vwWidth (stView s), vwHeight (stView s)) = stSize s -> quietly s (isometricZoom f s).
  Proof. intros H. quiet. Qed.
  Lemma toggleIsometric_quiet d s : (vwWidth (stView s), vwHeight (stView s)) = stSize s -> quietly s (toggleIsometric d s).
  Proof. intros H. quiet. Qed.
  Lemma toggleNormals_quiet s : (vwWidth (stView s), vwHeight (stView s)) = stSize s -> quietly s (toggleNormals s).
  Proof. intros H. quiet. Qed.
  Lemma setMouse_quiet m p x y s : (vwWidth (stView s), vwHeight (stView s)) = stSize s -> quietly s (setMouse m p x y s).
  Proof. intros H. quiet. Qed.
  Hint Resolve moveCam_quiet rotateCamera_quiet isometricZoom_quiet toggleIsometric_quiet toggleNormals_quiet setMouse_quiet quietly_refl : core.
  Lemma quietly_size s s' : quietly s s' -> (vwWidth (stView s'), vwHeight (stView s')) = stSize s'.
  Proof. now unfold quietly. Qed.
  Lemma handleMouse_quiet d b x y sh s : (vwWidth (stView s), vwHeight (stView s)) = stSize s -> quietly s (handleMouseEvent to32 d b x y sh s).
  Proof.
    intros H. unfold handleMouseEvent.
    destruct (match d with DPress => (b, isLeft b) | DRelease => (BNone, if isLeft b then false else stPreview s) | DNone => (stMouse s, stPreview s) end) as [m p].
    set (s1 := setMouse m p (stX s) (stY s) s). assert (quietly s s1) as Q1 by (apply setMouse_quiet; exact H).
    set (s2 := if isLeft m then _ else s1). assert (quietly s s2) as Q2.
    { unfold s2. destruct (isLeft m); [|exact Q1]. apply (quietly_trans s s1); [exact Q1|]. apply rotateCamera_quiet. now apply (quietly_size s). }
    set (s3 := setMouse m p x y s2). assert (quietly s s3) as Q3.
    { apply (quietly_trans s s2); [exact Q2|]. apply setMouse_quiet. now apply (quietly_size s). }
    clearbody s1 s2 s3. pose proof (quietly_size _ _ Q3) as H3.
    destruct (negb (vwIsometric (stView s3))); destruct b; try exact Q3; try destruct sh;
      (apply (quietly_trans s s3); [exact Q3|]); auto.
  Qed.
  Lemma handleEvent_quiet e s s' : (vwWidth (stView s), vwHeight (stView s)) = stSize s -> handleEvent e s = Val s' -> quietly s s'.
  Proof.
    intros H. unfold ViewerModel.handleEvent. destruct e as [press code sh|d b x y sh|w h| |dead].
    - intros [= <-]. unfold handleKeyEvent. destruct press; [|auto]. destruct code; try destruct sh; auto; quiet.
    - intros [= <-]. now apply handleMouse_quiet.
    - intros [= <-]. quiet.
    - intros [= <-]. quiet.
    - unfold handleLifecycleEvent. destruct dead; [destruct (stAborted s); [discriminate|]|]; intros [= <-]; quiet. discriminate.
  Qed.

  (** ** The divisor *)
  Lemma divLoop_values n : divLoop n 8 = match n with O => 8 | 1%nat => 4 | 2%nat => 2 | _ => 1 end%Z.
  Proof. destruct n as [|[|[|n]]]; reflexivity. Qed.
  Lemma divLoop_in n : In (divLoop n 8) [8; 4; 2; 1]%Z.
  Proof. rewrite divLoop_values. destruct n as [|[|[|n]]]; cbn; auto 10. Qed.
  Lemma divLoop_mono m n : (m <= n)%nat -> (divLoop n 8 <= divLoop m 8)%Z.
  Proof. intros H. rewrite !divLoop_values. destruct n as [|[|[|n]]]; destruct m as [|[|[|m]]]; lia. Qed.

  (** ** C71 *)
  Definition goodAccept (a : action F) : Prop :=
    match a with AAccept v cur size => bake_of v cur size | _ => True end.
  Definition Inv71 (s : state) : Prop :=
    (vwWidth (stView s), vwHeight (stView s)) = stSize s /\
    length (stFlight s) = (if stIsBaking s then 1 else 0)%nat /\
    (stWantBake s = true -> stRenderDirty s = false -> forall v, In v (stFlight s) -> bake_of v (stView s) (stSize s)) /\
    Forall goodAccept (stLog s).

  Lemma inv71_event e s s' : Inv71 s -> handleEvent e s = Val s' -> Inv71 s'.
  Proof.
    intros (Sz & Len & Fl & Acc) E. pose proof (handleEvent_quiet _ _ _ Sz E) as (Q1 & Q2 & Q3 & Q4 & Q5 & Q6 & Q7 & Q8 & Q9 & Q10).
    unfold Inv71. rewrite Q1, Q2, Q5. repeat apply conj; auto.
    intros W D v Hv. destruct Q10 as [Q10|(Q10 & Q11 & Q12)]; [congruence|]. rewrite Q11, Q12. apply Fl; auto. congruence.
  Qed.
  Lemma inv71_repaint r s s' : Inv71 s -> repaintIfNeeded r s = Val s' -> Inv71 s'.
  Proof.
    intros (Sz & Len & Fl & Acc). unfold ViewerModel.repaintIfNeeded. destruct (stRenderDirty s) eqn:D.
    - destruct (encodable _ _); cbn [obind]; [|discriminate]. intros [= <-].
      destruct r; cbn; (destruct (stWindowDirty s)); unfold Inv71; cbn; repeat apply conj; auto; try discriminate;
        repeat (constructor; [exact I|]); auto.
    - cbn [obind]. intros [= <-]. destruct (stWindowDirty s); unfold Inv71; cbn; rewrite ?D; repeat apply conj; auto. constructor; [exact I|exact Acc].
  Qed.
  Lemma inv71_bake s s' : Inv71 s -> mayBake s = true -> goBakeAndSend s = Val s' -> Inv71 s'.
  Proof.
    intros (Sz & Len & Fl & Acc) M. unfold ViewerModel.goBakeAndSend. destruct (encodable _ _); [|discriminate]. intros [= <-].
    unfold mayBake in M. rewrite !andb_true_iff, !negb_true_iff in M. destruct M as [[[M1 M2] M3] M4].
    rewrite M1 in Len. apply length_zero_iff_nil in Len.
    unfold Inv71; cbn. rewrite Len. repeat apply conj; auto.
    - intros _ _ v [<-|[]]. exists (divLoop (Z.to_nat (stRes s)) 8). split; [apply divLoop_in|]. split; [|reflexivity].
      unfold downscaled, same_camera. cbn. repeat apply conj; reflexivity.
    - constructor; [exact I|exact Acc].
  Qed.
  Lemma nth_error_firstn_skipn {A} (l : list A) k v : nth_error l k = Some v -> length l = S (length (firstn k l ++ skipn (S k) l)).
  Proof.
    intros H. assert (k < length l)%nat by (apply nth_error_Some; congruence). rewrite app_length, firstn_length, skipn_length. lia.
  Qed.
  Lemma in_firstn_skipn {A} (l : list A) k x : In x (firstn k l ++ skipn (S k) l) -> In x l.
  Proof.
    intros [H|H]%in_app_or.
    - rewrite <- (firstn_skipn k l). apply in_or_app. now left.
    - rewrite <- (firstn_skipn (S k) l). apply in_or_app. now right.
  Qed.
  Lemma inv71_bakery k v r s : Inv71 s -> nth_error (stFlight s) k = Some v -> Inv71 (handleBakery v r (received k s)).
  Proof.
    intros (Sz & Len & Fl & Acc) E. pose proof (nth_error_firstn_skipn _ _ _ E) as L.
    assert (length (firstn k (stFlight s) ++ skipn (S k) (stFlight s)) = 0)%nat as L0 by (destruct (stIsBaking s); lia).
    pose proof (length_zero_iff_nil (firstn k (stFlight s) ++ skipn (S k) (stFlight s))) as [L1 _]. specialize (L1 L0).
    pose proof (nth_error_In _ _ E) as Hin.
    assert (forall t, handleBakery v r (received k s) = t -> Inv71 t) as G; [|now apply G].
    intros t <-. unfold handleBakery. destruct r.
    - cbn [received stIsBaking stRenderDirty stPreview stWantBake]. destruct (stIsBaking s && negb (stRenderDirty s) && negb (stPreview s) && stWantBake s) eqn:C.
      + rewrite !andb_true_iff, !negb_true_iff in C. destruct C as [[[C1 C2] C3] C4].
        unfold Inv71. cbn -[firstn skipn]. rewrite L1. repeat apply conj; auto; [intros _ _ ? []|]. constructor; [|exact Acc]. cbn. apply Fl; auto.
      + unfold Inv71. cbn -[firstn skipn]. rewrite L1. repeat apply conj; auto; intros _ _ ? [].
    - unfold Inv71. cbn -[firstn skipn]. rewrite L1. repeat apply conj; auto; intros _ _ ? [].
    - unfold Inv71. cbn -[firstn skipn]. rewrite L1. repeat apply conj; auto; intros _ _ ? [].
  Qed.
  Lemma inv71_return s s' : Inv71 s -> return_ s = Val s' -> Inv71 s'.
  Proof. intros H. unfold return_. destruct (stAborted s); [|discriminate]. intros [= <-]. exact H. Qed.
  Lemma inv71_run is s s' : Inv71 s -> run is s = Val s' -> Inv71 s'.
  Proof.
    apply (run_inv Inv71 (fun _ => True) (fun _ => True)).
    - intros e t t' _. apply inv71_event.
    - intros r t t' _. apply inv71_repaint.
    - apply inv71_bake.
    - intros k v r t. apply inv71_bakery.
    - apply inv71_return.
    - auto.
    - auto.
  Qed.
  Lemma inv71_start : Inv71 start.
  Proof. unfold Inv71, start. cbn. repeat apply conj; auto. discriminate. Qed.

  Lemma one_bake is s : run is start = Val s -> (length (stFlight s) <= 1)%nat.
  Proof. intros E. destruct (inv71_run _ _ _ inv71_start E) as (_ & L & _). rewrite L. destruct (stIsBaking s); lia. Qed.
  Lemma accepted_current is s v cur size : run is start = Val s -> In (AAccept v cur size) (stLog s) -> bake_of v cur size.
  Proof.
    intros E Hin. destruct (inv71_run _ _ _ inv71_start E) as (_ & _ & _ & Acc). rewrite Forall_forall in Acc. exact (Acc _ Hin).
  Qed.

  (** with a server that answers, everything displayed is up to date *)
  Definition goodShow (a : action F) : Prop :=
    match a with AShow i cur size => up_to_date i cur size | _ => True end.
  Definition InvShow (s : state) : Prop :=
    Inv71 s /\ (stRenderDirty s = false -> up_to_date (stImg s) (stView s) (stSize s)) /\ Forall goodShow (stLog s).
  Lemma invShow_run is s s' : (forall i, In i is -> answers i) -> InvShow s -> run is s = Val s' -> InvShow s'.
  Proof.
    intros Hans. apply (run_inv InvShow (fun _ => True) (fun r => r <> GotEmpty)).
    - intros e t t' _ (I1 & I2 & I3) E. split; [now apply (inv71_event e t)|].
      pose proof (handleEvent_quiet _ _ _ (proj1 I1) E) as (Q1 & Q2 & Q3 & Q4 & Q5 & Q6 & Q7 & Q8 & Q9 & Q10).
      rewrite Q4, Q5. split; [|exact I3]. intros D. destruct Q10 as [Q10|(Q10 & Q11 & Q12)]; [congruence|]. rewrite Q11, Q12. apply I2. congruence.
    - intros r t t' Hr (I1 & I2 & I3) E. split; [now apply (inv71_repaint r t)|]. revert E.
      destruct I1 as (Sz & _).
      unfold ViewerModel.repaintIfNeeded. destruct (stRenderDirty t) eqn:D.
      + destruct (encodable _ _); cbn [obind]; [|discriminate]. intros [= <-].
        destruct r; try (now elim Hr); cbn; rewrite <- ?Sz; unfold downscaled, same_camera; cbn; split; auto 20;
          repeat (constructor; [cbn; unfold downscaled, same_camera; cbn; auto 20|]); auto.
      + cbn [obind]. intros [= <-]. destruct (stWindowDirty t); cbn; rewrite ?D; split; auto.
        constructor; [exact (I2 eq_refl)|exact I3].
    - intros t t' (I1 & I2 & I3) M E. split; [now apply (inv71_bake t)|]. revert E.
      unfold ViewerModel.goBakeAndSend. destruct (encodable _ _); [|discriminate]. intros [= <-]. cbn. split; [exact I2|].
      constructor; [exact I|exact I3].
    - intros k v r t (I1 & I2 & I3) Hk. pose proof (inv71_bakery k v r t I1 Hk) as J. split; [exact J|].
      destruct I1 as (Sz & Len & Fl & Acc).
      assert (forall u, handleBakery v r (received k t) = u -> (stRenderDirty u = false -> up_to_date (stImg u) (stView u) (stSize u)) /\ Forall goodShow (stLog u)) as G; [|now apply G].
      intros u <-. unfold handleBakery. destruct r; try (cbn; split; [exact I2|exact I3]).
      cbn [received stIsBaking stRenderDirty stPreview stWantBake]. destruct (stIsBaking t && negb (stRenderDirty t) && negb (stPreview t) && stWantBake t) eqn:C.
      + rewrite !andb_true_iff, !negb_true_iff in C. destruct C as [[[C1 C2] C3] C4]. cbn. split.
        * intros D. apply Fl; auto. now apply nth_error_In in Hk.
        * constructor; [exact I|exact I3].
      + cbn. split; [exact I2|exact I3].
    - intros t t' H. unfold return_. destruct (stAborted t); [|discriminate]. intros [= <-]. exact H.
    - auto.
    - intros i Hi. exact (Hans i Hi).
  Qed.
  Lemma shown_current is s i cur size : (forall i, In i is -> answers i) -> run is start = Val s ->
    In (AShow i cur size) (stLog s) -> up_to_date i cur size.
  Proof.
    intros Ha E Hin. assert (InvShow start) as I0.
    { split; [exact inv71_start|]. split; [discriminate|constructor]. }
    destruct (invShow_run _ _ _ Ha I0 E) as (_ & _ & Sh). rewrite Forall_forall in Sh. exact (Sh _ Hin).
  Qed.

  (** ** C72: modes and divisors *)
  Definition modesOk (v : view) : Prop := (0 <= vwDebugNormals v <= 2)%Z /\ (0 <= vwIsometricDir v <= 2)%Z.
  Lemma modes_moveCam d s : modesOk (stView s) -> modesOk (stView (moveCam d s)).
  Proof. auto. Qed.
  Lemma modes_handleMouse d b x y sh s : modesOk (stView s) -> modesOk (stView (handleMouseEvent to32 d b x y sh s)).
  Proof.
    intros H. unfold handleMouseEvent.
    destruct (match d with DPress => (b, isLeft b) | DRelease => (BNone, if isLeft b then false else stPreview s) | DNone => (stMouse s, stPreview s) end) as [m p].
    set (s1 := setMouse m p (stX s) (stY s) s). set (s2 := if isLeft m then _ else s1).
    assert (modesOk (stView s2)) as H2 by (unfold s2; destruct (isLeft m); exact H).
    set (s3 := setMouse m p x y s2). assert (modesOk (stView s3)) as H3 by exact H2. clearbody s3.
    destruct (negb (vwIsometric (stView s3))); destruct b; try exact H3; try destruct sh; exact H3.
  Qed.
  Lemma modes_toggleIsometric d s : (0 <= d <= 2)%Z -> modesOk (stView s) -> modesOk (stView (toggleIsometric d s)).
  Proof. intros Hd [A B]. split; [exact A|exact Hd]. Qed.
  Lemma modes_event e s s' : modesOk (stView s) -> handleEvent e s = Val s' -> modesOk (stView s').
  Proof.
    intros H. unfold ViewerModel.handleEvent. destruct e as [press code sh|d b x y sh|w h| |dead].
    - intros [= <-]. unfold handleKeyEvent. destruct press; [|exact H].
      destruct code; try destruct sh; try exact H; try (apply modes_toggleIsometric; [lia|exact H]).
      all: destruct H as [A B]; split; [|exact B]; cbn; destruct (vwDebugNormals (stView s) + 1 >? 2)%Z eqn:G; [lia|]; rewrite Z.gtb_ltb, Z.ltb_ge in G; lia.
    - intros [= <-]. now apply modes_handleMouse.
    - intros [= <-]. exact H.
    - intros [= <-]. exact H.
    - unfold handleLifecycleEvent. destruct dead; [destruct (stAborted s); [discriminate|]|]; intros [= <-]; exact H.
  Qed.
  (** the view is only changed by events *)
  Lemma view_repaint r s s' : repaintIfNeeded r s = Val s' -> stView s' = stView s /\ stAborted s' = stAborted s.
  Proof.
    unfold ViewerModel.repaintIfNeeded. destruct (stRenderDirty s).
    - destruct (encodable _ _); cbn [obind]; [|discriminate]. intros [= <-]. destruct r; cbn; destruct (stWindowDirty s); split; reflexivity.
    - cbn [obind]. intros [= <-]. destruct (stWindowDirty s); split; reflexivity.
  Qed.
  Lemma view_bake s s' : goBakeAndSend s = Val s' -> stView s' = stView s /\ stAborted s' = stAborted s.
  Proof. unfold ViewerModel.goBakeAndSend. destruct (encodable _ _); [|discriminate]. intros [= <-]. split; reflexivity. Qed.
  Lemma view_bakery k v r (s : state) : stView (handleBakery v r (received k s)) = stView s /\ stAborted (handleBakery v r (received k s)) = stAborted s.
  Proof. unfold handleBakery. destruct r; try (split; reflexivity). destruct (_ && _ && _ && _); split; reflexivity. Qed.
  Lemma view_return (s s' : state) : return_ s = Val s' -> stView s' = stView s /\ stAborted s' = stAborted s.
  Proof. unfold return_. destruct (stAborted s); [|discriminate]. intros [= <-]. split; reflexivity. Qed.
  (** hence invariants of the view need only be checked for events *)
  Lemma view_inv (P : view -> Prop) (okE : event F -> Prop) :
    (forall e s s', okE e -> P (stView s) -> handleEvent e s = Val s' -> P (stView s')) ->
    forall is s s', (forall e, In e (all_events is) -> okE e) -> P (stView s) -> run is s = Val s' -> P (stView s').
  Proof.
    intros HE is s s' He. apply (run_inv (fun s => P (stView s)) okE (fun _ => True)).
    - exact HE.
    - intros r t t' _ Hp E. now rewrite (proj1 (view_repaint _ _ _ E)).
    - intros t t' Hp _ E. now rewrite (proj1 (view_bake _ _ E)).
    - intros k v r t Hp _. now rewrite (proj1 (view_bakery k v r t)).
    - intros t t' Hp E. now rewrite (proj1 (view_return _ _ E)).
    - exact He.
    - auto.
  Qed.
  Lemma modes_run is s : run is start = Val s -> modesOk (stView s).
  Proof.
    apply (view_inv modesOk (fun _ => True)).
    - intros e t t' _. apply modes_event.
    - auto.
    - split; cbn; lia.
  Qed.

  (** the newest bake since the last preview *)
  Fixpoint newest (l : list (action F)) : option (view * Z) :=
    match l with
    | [] => None
    | APreview _ :: _ => None
    | ABake v d :: _ => Some (v, d)
    | _ :: l => newest l
    end.
  Fixpoint logOk (l : list (action F)) : Prop :=
    match l with
    | [] => True
    | ABake v d :: l => (forall w e, newest l = Some (w, e) -> (d <= e)%Z /\ same_camera v w) /\ logOk l
    | _ :: l => logOk l
    end.
  Definition Inv72 (s : state) : Prop :=
    (vwWidth (stView s), vwHeight (stView s)) = stSize s /\ (0 <= stRes s)%Z /\ logOk (stLog s) /\
    (stRenderDirty s = false -> forall v e, newest (stLog s) = Some (v, e) -> same_camera (stView s) v /\ (divLoop (Z.to_nat (stRes s)) 8 <= e)%Z).
  Lemma same_camera_trans (a b c : view) : same_camera a b -> same_camera b c -> same_camera a c.
  Proof. unfold same_camera. intuition congruence. Qed.
  Lemma res_event e s s' : is_dead e = false -> handleEvent e s = Val s' -> stRes s' = stRes s.
  Proof.
    unfold ViewerModel.handleEvent. destruct e as [press code sh|d b x y sh|w h| |dead]; cbn [is_dead]; intros Hd.
    - intros [= <-]. unfold handleKeyEvent. destruct press; [|reflexivity]. destruct code; try destruct sh; reflexivity.
    - intros [= <-]. unfold handleMouseEvent.
      destruct (match d with DPress => (b, isLeft b) | DRelease => (BNone, if isLeft b then false else stPreview s) | DNone => (stMouse s, stPreview s) end) as [m p].
      destruct (isLeft m); (destruct (negb _); destruct b; try destruct sh; reflexivity).
    - intros [= <-]. reflexivity.
    - intros [= <-]. reflexivity.
    - destruct dead; [discriminate|]. intros [= <-]. reflexivity.
  Qed.
  Lemma inv72_run is s s' : (forall e, In e (all_events is) -> is_dead e = false) -> Inv72 s -> run is s = Val s' -> Inv72 s'.
  Proof.
    intros Hd. apply (run_inv Inv72 (fun e => is_dead e = false) (fun _ => True)).
    - intros e t t' He (Sz & R & L & N) E.
      pose proof (handleEvent_quiet _ _ _ Sz E) as (Q1 & Q2 & Q3 & Q4 & Q5 & Q6 & Q7 & Q8 & Q9 & Q10).
      pose proof (res_event _ _ _ He E) as QR.
      unfold Inv72. rewrite Q5, QR. repeat apply conj; auto.
      intros D v d Hn. destruct Q10 as [Q10|(Q10 & Q11 & Q12)]; [congruence|]. rewrite Q11. apply N; congruence.
    - intros r t t' _ (Sz & R & L & N). unfold ViewerModel.repaintIfNeeded. destruct (stRenderDirty t) eqn:D.
      + destruct (encodable _ _); cbn [obind]; [|discriminate]. intros [= <-].
        destruct r; cbn; destruct (stWindowDirty t); unfold Inv72; cbn -[divLoop]; (repeat apply conj); auto; try lia; discriminate.
      + cbn [obind]. intros [= <-]. destruct (stWindowDirty t); unfold Inv72; cbn -[divLoop]; rewrite ?D; (repeat apply conj); auto.
    - intros t t' (Sz & R & L & N) M. unfold ViewerModel.goBakeAndSend. destruct (encodable _ _); [|discriminate]. intros [= <-].
      unfold mayBake in M. rewrite !andb_true_iff, !negb_true_iff in M. destruct M as [[[M1 M2] M3] M4].
      unfold Inv72; cbn -[divLoop]. repeat apply conj; auto.
      + intros w e Hn. destruct (N M3 w e Hn) as [C1 C2]. split; [exact C2|exact C1].
      + intros _ v e [= <- <-]. split; [unfold same_camera; cbn; auto 10|lia].
    - intros k v r t (Sz & R & L & N) Hk.
      assert (forall u, handleBakery v r (received k t) = u -> Inv72 u) as G; [|now apply G].
      assert (forall e, (divLoop (Z.to_nat (stRes t)) 8 <= e)%Z -> (divLoop (Z.to_nat (stRes t + 1)) 8 <= e)%Z) as Dm.
      { intros e He. pose proof (divLoop_mono (Z.to_nat (stRes t)) (Z.to_nat (stRes t + 1)) ltac:(lia)). lia. }
      intros u <-. unfold handleBakery.
      destruct r; [destruct (_ && _ && _ && _)|..]; unfold Inv72; cbn -[divLoop]; (repeat apply conj); auto; try lia;
        intros D w e Hn; destruct (N D w e Hn) as [C1 C2]; split; auto.
    - intros t t' H. unfold return_. destruct (stAborted t); [|discriminate]. intros [= <-]. exact H.
    - exact Hd.
    - auto.
  Qed.
  Lemma logOk_app l1 l2 : logOk (l1 ++ l2) -> logOk l2.
  Proof. induction l1 as [|[]]; cbn; auto. intros [_ H]. auto. Qed.
  Lemma newest_bound (l3 : list (action F)) v1 d1 : forall l2, logOk (l2 ++ ABake v1 d1 :: l3) -> (forall a, In a l2 -> ~ is_preview a) ->
    exists w e, newest (l2 ++ ABake v1 d1 :: l3) = Some (w, e) /\ (e <= d1)%Z /\ same_camera w v1.
  Proof.
    induction l2 as [|a l2 IH]; intros H Hp.
    - exists v1, d1. split; [reflexivity|]. split; [lia|]. unfold same_camera. auto 10.
    - assert (logOk (l2 ++ ABake v1 d1 :: l3)) as H' by (destruct a; cbn [app logOk] in H; tauto).
      destruct (IH H' (fun b Hb => Hp b (or_intror Hb))) as (w & e & A & B & C). destruct a as [v|v d|v c sz|i c sz]; cbn [app newest].
      + elim (Hp (APreview v) (or_introl eq_refl)). exact I.
      + exists v, d. cbn [app logOk] in H. destruct (proj1 H w e A) as [D E]. split; [reflexivity|]. split; [lia|]. now apply (same_camera_trans v w v1).
      + exists w, e. auto.
      + exists w, e. auto.
  Qed.
  Lemma bakes_finer is s l1 l2 l3 v2 d2 v1 d1 : (forall e, In e (all_events is) -> is_dead e = false) -> run is start = Val s ->
    stLog s = l1 ++ ABake v2 d2 :: l2 ++ ABake v1 d1 :: l3 -> (forall a, In a l2 -> ~ is_preview a) -> (d2 <= d1)%Z /\ same_camera v2 v1.
  Proof.
    intros Hd E El Hp. assert (Inv72 start) as I0.
    { unfold Inv72, start. cbn -[divLoop]. repeat apply conj; auto; [lia|discriminate]. }
    destruct (inv72_run _ _ _ Hd I0 E) as (_ & _ & L & _). rewrite El in L. apply logOk_app in L. cbn [app logOk] in L.
    destruct (newest_bound l3 v1 d1 l2 (proj2 L) Hp) as (w & e & A & B & C). destruct (proj1 L w e A) as [D G].
    split; [lia|]. now apply (same_camera_trans v2 w v1).
  Qed.
  (** the divisor is one of the four, and it is the one by which the size was divided *)
  Lemma bakes_divisor is s v d : run is start = Val s -> In (ABake v d) (stLog s) -> In d [8; 4; 2; 1]%Z /\ vwAntiAlias v = (d =? 1)%Z.
  Proof.
    intros E Hin.
    assert (forall is s s', Forall (fun a => match a with ABake v d => In d [8; 4; 2; 1]%Z /\ vwAntiAlias v = (d =? 1)%Z | _ => True end) (stLog s) ->
      run is s = Val s' -> Forall (fun a => match a with ABake v d => In d [8; 4; 2; 1]%Z /\ vwAntiAlias v = (d =? 1)%Z | _ => True end) (stLog s')) as G.
    { clear. intros is s s'.
      apply (run_inv (fun s => Forall (fun a => match a with ABake v d => In d [8; 4; 2; 1]%Z /\ vwAntiAlias v = (d =? 1)%Z | _ => True end) (stLog s))
        (fun _ => True) (fun _ => True)).
      - intros e t t' _ H. unfold ViewerModel.handleEvent. destruct e as [press code sh|dir b x y sh|w h| |dead].
        + intros [= <-]. unfold handleKeyEvent. destruct press; [|exact H]. destruct code; try destruct sh; exact H.
        + intros [= <-]. unfold handleMouseEvent.
          destruct (match dir with DPress => (b, isLeft b) | DRelease => (BNone, if isLeft b then false else stPreview t) | DNone => (stMouse t, stPreview t) end) as [m p].
          destruct (isLeft m); (destruct (negb _); destruct b; try destruct sh; exact H).
        + intros [= <-]. exact H.
        + intros [= <-]. exact H.
        + unfold handleLifecycleEvent. destruct dead; [destruct (stAborted t); [discriminate|]|]; intros [= <-]; exact H.
      - intros r t t' _ H. unfold ViewerModel.repaintIfNeeded. destruct (stRenderDirty t).
        + destruct (encodable _ _); cbn [obind]; [|discriminate]. intros [= <-].
          destruct r; cbn; destruct (stWindowDirty t); cbn; repeat (constructor; [exact I|]); exact H.
        + cbn [obind]. intros [= <-]. destruct (stWindowDirty t); [constructor; [exact I|]|]; exact H.
      - intros t t' H _. unfold ViewerModel.goBakeAndSend. destruct (encodable _ _); [|discriminate]. intros [= <-].
        constructor; [|exact H]. split; [apply divLoop_in|reflexivity].
      - intros k v r t H _. unfold handleBakery. destruct r; [destruct (_ && _ && _ && _)|..]; cbn; try exact H. constructor; [exact I|exact H].
      - intros t t' H. unfold return_. destruct (stAborted t); [|discriminate]. intros [= <-]. exact H.
      - auto.
      - auto. }
    specialize (G is start s ltac:(constructor) E). rewrite Forall_forall in G. exact (G _ Hin).
  Qed.

  (** ** C97: left alone, the viewer ends up with the full picture *)
  Definition ready (s : state) : Prop :=
    Inv71 s /\ stPaused s = false /\ stPreview s = false /\ stAborted s = false /\ stReturned s = false /\ encodable jsonOk (stView s) = true /\ (0 <= stRes s)%Z.
  Definition settled (s : state) : Prop := ready s /\ stIsBaking s = false /\ stRenderDirty s = false.
  Lemma encodable_size v w h aa : encodable jsonOk (withSize v w h aa) = encodable jsonOk v.
  Proof. reflexivity. Qed.

  Opaque Inv71.
  (** the first preview *)
  Lemma repaint_ready s : ready s -> exists s', repaintIfNeeded GotImage s = Val s' /\ ready s' /\ stRenderDirty s' = false /\
    stIsBaking s' = stIsBaking s /\ stView s' = stView s /\ stSize s' = stSize s /\ (stRenderDirty s = false -> stRes s' = stRes s).
  Proof.
    intros (I1 & Pa & Pr & Ab & Re & En & R0).
    assert (exists s', repaintIfNeeded GotImage s = Val s' /\ stRenderDirty s' = false /\
      stIsBaking s' = stIsBaking s /\ stView s' = stView s /\ stSize s' = stSize s /\ (stRenderDirty s = false -> stRes s' = stRes s) /\
      stPaused s' = false /\ stPreview s' = false /\ stAborted s' = false /\ stReturned s' = false /\ (0 <= stRes s')%Z) as (s' & E & H).
    { unfold ViewerModel.repaintIfNeeded. destruct (stRenderDirty s) eqn:D.
      - rewrite encodable_size. cbn [cancelBaking stView]. rewrite En. cbn [obind]. eexists. split; [reflexivity|]. cbn.
        repeat apply conj; auto; try lia.
      - cbn [obind]. eexists. split; [reflexivity|]. destruct (stWindowDirty s); cbn; repeat apply conj; auto. }
    destruct H as (H1 & H2 & H3 & H4 & H5 & H6 & H7 & H8 & H9 & H10). exists s'. unfold ready. rewrite H3. repeat apply conj; auto.
    now apply (inv71_repaint GotImage s).
  Qed.
  (** a bake in the air *)
  Lemma bake_ready s : ready s -> stRenderDirty s = false -> exists s' v, (if mayBake s then goBakeAndSend s else Val s) = Val s' /\ ready s' /\
    stRenderDirty s' = false /\ stIsBaking s' = true /\ stView s' = stView s /\ stSize s' = stSize s /\ stRes s' = stRes s /\ stFlight s' = [v] /\
    (stIsBaking s = false -> stWantBake s' = true /\ v = withSize (stView s) (Z.quot (fst (stSize s)) (divLoop (Z.to_nat (stRes s)) 8))
      (Z.quot (snd (stSize s)) (divLoop (Z.to_nat (stRes s)) 8)) (divLoop (Z.to_nat (stRes s)) 8 =? 1)%Z).
  Proof.
    intros (I1 & Pa & Pr & Ab & Re & En & R0) D. unfold mayBake at 1. rewrite Pr, D, Pa. cbn [negb andb]. rewrite !andb_true_r.
    destruct (stIsBaking s) eqn:B; cbn [negb].
    - pose proof I1 as (Sz & Len & Fl & Acc). rewrite B in Len. destruct (stFlight s) as [|v [|]] eqn:Ef; try discriminate.
      exists s, v. unfold ready. repeat apply conj; auto; discriminate.
    - assert (mayBake s = true) as M by (unfold mayBake; now rewrite B, Pr, D, Pa).
      pose proof (inv71_bake s) as J. unfold ViewerModel.goBakeAndSend in *. rewrite encodable_size in *. rewrite En in *.
      pose proof I1 as (Sz & Len & Fl & Acc). rewrite B in Len. apply length_zero_iff_nil in Len.
      eexists. eexists. split; [reflexivity|]. split.
      { split; [apply J; [exact I1|exact M|reflexivity]|]. cbn. auto 10. }
      cbn -[divLoop]. rewrite Len. repeat apply conj; auto.
  Qed.
  (** its arrival *)
  Lemma bakery_ready s v : ready s -> stRenderDirty s = false -> stIsBaking s = true -> stFlight s = [v] ->
    settled (handleBakery v GotImage (received 0 s)) /\
    (forall s', handleBakery v GotImage (received 0 s) = s' -> stView s' = stView s /\ stSize s' = stSize s /\ stRes s' = (stRes s + 1)%Z /\
      (stWantBake s = true -> stImg s' = IBake v /\ stWindowDirty s' = true)).
  Proof.
    intros (I1 & Pa & Pr & Ab & Re & En & R0) D B Ef.
    assert (Inv71 (handleBakery v GotImage (received 0 s))) as J by (apply inv71_bakery; [exact I1|now rewrite Ef]).
    split.
    - unfold settled, ready. rewrite (proj1 (view_bakery 0 v GotImage s)), (proj2 (view_bakery 0 v GotImage s)).
      repeat apply conj; auto; unfold handleBakery; destruct (_ && _ && _ && _); cbn; auto; lia.
    - intros s' <-. unfold handleBakery. cbn [received stIsBaking stRenderDirty stPreview stWantBake]. rewrite D, B, Pr. cbn [negb andb].
      destruct (stWantBake s); cbn; repeat apply conj; auto; discriminate.
  Qed.
  Lemma quiet_iterate s : ready s -> exists s', iterate quiet_turn s = Val s' /\ settled s' /\ stView s' = stView s /\ stSize s' = stSize s /\ (1 <= stRes s')%Z /\
    (settled s -> stRes s' = (stRes s + 1)%Z /\ exists v l, stLog s' = AShow (IBake v) (stView s) (stSize s) :: l /\
      v = withSize (stView s) (Z.quot (fst (stSize s)) (divLoop (Z.to_nat (stRes s)) 8))
        (Z.quot (snd (stSize s)) (divLoop (Z.to_nat (stRes s)) 8)) (divLoop (Z.to_nat (stRes s)) 8 =? 1)%Z).
  Proof.
    intros Hr. pose proof Hr as (I1 & Pa & Pr & Ab & Re & En & R0).
    destruct (repaint_ready s Hr) as (s1 & E1 & Hr1 & D1 & B1 & V1 & S1 & R1).
    destruct (bake_ready s1 Hr1 D1) as (s2 & v & E2 & Hr2 & D2 & B2 & V2 & S2 & R2 & F2 & W2).
    destruct (bakery_ready s2 v Hr2 D2 B2 F2) as ((Hr3 & B3 & D3) & G).
    remember (handleBakery v GotImage (received 0 s2)) as s3 eqn:E3. destruct (G s3 eq_refl) as (V3 & S3 & R3 & W3).
    exists (if stWindowDirty s3 then repaint s3 else s3). split.
    - unfold ViewerModel.iterate, quiet_turn. cbn [in1 in3 inR1 inR2]. rewrite Re, Ab. cbn [obind]. rewrite E1. cbn [obind].
      fold (mayBake s1). rewrite E2. cbn [obind]. rewrite F2. cbn [nth_error]. rewrite <- E3.
      unfold ViewerModel.repaintIfNeeded. rewrite D3. reflexivity.
    - assert (0 <= stRes s1)%Z as R10 by apply Hr1.
      pose proof Hr3 as (J1 & J2 & J3 & J4 & J5 & J6 & J7).
      assert (Inv71 (if stWindowDirty s3 then repaint s3 else s3)) as K.
      { apply (inv71_repaint GotImage s3); [exact J1|]. unfold ViewerModel.repaintIfNeeded. rewrite D3. reflexivity. }
      split; [split; [split; [exact K|]|]; destruct (stWindowDirty s3); cbn; auto 10|].
      split; [destruct (stWindowDirty s3); cbn; congruence|]. split; [destruct (stWindowDirty s3); cbn; congruence|].
      split; [destruct (stWindowDirty s3); cbn; lia|].
      intros (_ & Bs & Ds). specialize (R1 Ds). rewrite B1 in W2. destruct (W2 Bs) as [W2a W2b]. destruct (W3 W2a) as [W3a W3b]. rewrite W3b. cbn.
      split; [lia|]. exists v, (stLog s3). rewrite W3a, V3, S3, V2, S2, V1, S1. split; [reflexivity|]. rewrite W2b, V1, S1, R1. reflexivity.
  Qed.
  Lemma quiet_run n : forall s, settled s -> (3 <= stRes s)%Z -> exists s' v l, run (repeat quiet_turn (S n)) s = Val s' /\
    stView s' = stView s /\ stSize s' = stSize s /\ stLog s' = AShow (IBake v) (stView s) (stSize s) :: l /\ downscaled 1 v (stView s) (stSize s) /\ vwAntiAlias v = true.
  Proof.
    induction n as [|n IH]; intros s Hs Hres.
    - destruct (quiet_iterate s (proj1 Hs)) as (s' & E & Hs' & V & S & R & G). destruct (G Hs) as (G1 & v & l & G2 & G3).
      exists s', v, l. cbn [repeat ViewerModel.run]. rewrite E. cbn [obind].
      assert (divLoop (Z.to_nat (stRes s)) 8 = 1%Z) as Dv.
      { rewrite divLoop_values. destruct (Z.to_nat (stRes s)) as [|[|[|k]]] eqn:Ek; try reflexivity; lia. }
      rewrite Dv in G3. repeat apply conj; auto; rewrite G3; try reflexivity; unfold downscaled, same_camera; cbn; auto 10.
    - destruct (quiet_iterate s (proj1 Hs)) as (s1 & E & Hs' & V & S & R & G). destruct (G Hs) as (G1 & _).
      destruct (IH s1 Hs' ltac:(lia)) as (s' & v & l & A & B & C & D & H & K).
      exists s', v, l. change (repeat quiet_turn (Datatypes.S (Datatypes.S n))) with (quiet_turn (F := F) :: repeat quiet_turn (Datatypes.S n)).
      cbn [ViewerModel.run]. rewrite E. cbn [obind]. rewrite V, S in *. auto 10.
  Qed.
  Lemma run_app is1 : forall is2 s, run (is1 ++ is2) s = obind (run is1 s) (run is2).
  Proof.
    induction is1 as [|i is1 IH]; intros is2 s; cbn [app ViewerModel.run obind]; [reflexivity|].
    destruct (iterate i s); cbn [obind]; auto.
  Qed.
  Lemma quiet_converges is s n : run is start = Val s -> (0 <= stRes s)%Z -> stPaused s = false -> stPreview s = false -> stAborted s = false -> stReturned s = false ->
    encodable jsonOk (stView s) = true ->
    exists s' v l, run (repeat quiet_turn (4 + n)) s = Val s' /\ stLog s' = AShow (IBake v) (stView s) (stSize s) :: l /\
      downscaled 1 v (stView s) (stSize s) /\ vwAntiAlias v = true.
  Proof.
    intros E R0 Pa Pr Ab Re En. assert (ready s) as Hr.
    { unfold ready. repeat apply conj; auto; apply (inv71_run is start); auto; apply inv71_start. }
    destruct (quiet_iterate s Hr) as (s1 & E1 & H1 & V1 & S1 & R1 & _).
    destruct (quiet_iterate s1 (proj1 H1)) as (s2 & E2 & H2 & V2 & S2 & R2 & G2). destruct (G2 H1) as (G2' & _).
    destruct (quiet_iterate s2 (proj1 H2)) as (s3 & E3 & H3 & V3 & S3 & R3 & G3). destruct (G3 H2) as (G3' & _).
    destruct (quiet_run n s3 H3 ltac:(lia)) as (s' & v & l & A & _ & _ & B & C & D).
    exists s', v, l. replace (4 + n)%nat with (3 + S n)%nat by lia. rewrite repeat_app, run_app. cbn [repeat ViewerModel.run obind].
    rewrite E1. cbn [obind]. rewrite E2. cbn [obind]. rewrite E3. cbn [obind].
    assert (stView s3 = stView s) as Vs by congruence. assert (stSize s3 = stSize s) as Ss by congruence. rewrite Vs, Ss in *. auto.
  Qed.
  Lemma res_run is s : run is start = Val s -> (0 <= stRes s)%Z.
  Proof.
    assert (forall is s s', Inv71 s /\ (0 <= stRes s)%Z -> run is s = Val s' -> Inv71 s' /\ (0 <= stRes s')%Z) as G.
    { clear. intros is s s'. apply (run_inv (fun s => Inv71 s /\ (0 <= stRes s)%Z) (fun _ => True) (fun _ => True)).
      - intros e t t' _ [I1 R] E. split; [now apply (inv71_event e t)|].
        pose proof (handleEvent_quiet _ _ _ (proj1 I1) E) as (Q1 & Q2 & Q3 & Q4 & Q5 & Q6 & _). lia.
      - intros r t t' _ [I1 R] E. split; [now apply (inv71_repaint r t)|]. revert E. unfold ViewerModel.repaintIfNeeded. destruct (stRenderDirty t).
        + destruct (encodable _ _); cbn [obind]; [|discriminate]. intros [= <-]. destruct r; cbn; destruct (stWindowDirty t); cbn; lia.
        + cbn [obind]. intros [= <-]. destruct (stWindowDirty t); exact R.
      - intros t t' [I1 R] M E. split; [now apply (inv71_bake t)|]. revert E. unfold ViewerModel.goBakeAndSend.
        destruct (encodable _ _); [|discriminate]. intros [= <-]. exact R.
      - intros k v r t [I1 R] Hk. split; [now apply inv71_bakery|]. unfold handleBakery. destruct r; [destruct (_ && _ && _ && _)|..]; cbn; lia.
      - intros t t' H. unfold return_. destruct (stAborted t); [|discriminate]. intros [= <-]. exact H.
      - auto.
      - auto. }
    intros E. apply (G is start s); [split; [exact inv71_start|cbn; lia]|exact E].
  Qed.
End Proofs.
