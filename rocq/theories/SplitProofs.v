(** * How a bounding volume hierarchy divides its objects *)
From Coq Require Import ZArith Reals Bool List Sorting.Sorted Permutation Lia.
From Flocq Require Import Core.
From Flocq Require IEEE754.BinarySingleNaN.
Import IEEE754.BinarySingleNaN.
From Verif Require Import Num NumLaws Outcome GeomModel ObjModel TreeModel ObjSpec ObjProofs TreeProofs SplitSpec.
Import ListNotations.

Lemma plus_nan (x y : b64) : is_finite x = true -> is_finite y = true -> is_nan (nadd x y) = false.
Proof.
  intros Fx Fy. change (is_nan (Bplus mode_NE x y) = false). pose proof (Bplus_correct 53 1024 eq_refl eq_refl mode_NE x y Fx Fy) as H.
  destruct (Rlt_bool _ _).
  - destruct H as (_ & F & _). destruct (Bplus mode_NE x y); try discriminate; reflexivity.
  - destruct H as (S & _). destruct (Bplus mode_NE x y); try reflexivity. unfold binary_overflow in S. cbn in S. discriminate S.
Qed.
Lemma minus_nan (x y : b64) : is_finite x = true -> is_finite y = true -> is_nan (nsub x y) = false.
Proof.
  intros Fx Fy. change (is_nan (Bminus mode_NE x y) = false). pose proof (Bminus_correct 53 1024 eq_refl eq_refl mode_NE x y Fx Fy) as H.
  destruct (Rlt_bool _ _).
  - destruct H as (_ & F & _). destruct (Bminus mode_NE x y); try discriminate; reflexivity.
  - destruct H as (S & _). destruct (Bminus mode_NE x y); try reflexivity. unfold binary_overflow in S. cbn in S. discriminate S.
Qed.

(** ** the largest component *)
Lemma argMax_max (v : vec b64) : (forall e, is_nan (vget v e) = false) -> forall e, nleb (vget v e) (vget v (argMax v)) = true.
Proof.
  intros N. assert (N' : forall e, nisnan (vget v e) = false) by exact N.
  assert (T : forall e f, nltb (vget v e) (vget v f) = false -> nleb (vget v f) (vget v e) = true) by (intros; apply nltb_false_leb; auto).
  assert (L : forall e f, nltb (vget v e) (vget v f) = true -> nleb (vget v e) (vget v f) = true) by (intros; apply nltb_leb; auto).
  assert (I : forall e, nleb (vget v e) (vget v e) = true) by (intros; apply nleb_refl; auto).
  unfold argMax. cbn [fold_left].
  assert (X0 : nltb (vx v) (vget v AX) = false) by (apply (nltb_irrefl (F := b64))). rewrite X0.
  change (vx v) with (vget v AX).
  destruct (nltb (vget v AX) (vget v AY)) eqn:E1; [destruct (nltb (vget v AY) (vget v AZ)) eqn:E2|destruct (nltb (vget v AX) (vget v AZ)) eqn:E2]; cbn [fst].
  - intros [| |]; [|auto|auto]. eapply (nleb_trans (F := b64)); [apply L, E1|apply L, E2].
  - intros [| |]; auto.
  - intros [| |]; [auto| |auto]. eapply (nleb_trans (F := b64)); [apply T, E1|apply L, E2].
  - intros [| |]; auto.
Qed.

Section S.
  Context {M : Type}.
  Notation object := (object b64 M).
  Variable to32 : b64 -> b64.
  Variable sortSlice : (object -> object -> bool) -> list object -> list object.
  Hypothesis SS : sorts sortSlice.

  Lemma sorts_reorders : reorders sortSlice.
  Proof. intros less l. apply SS. Qed.

  Definition finite_boxes (ch : list object) : Prop := forall o, In o ch -> finite_box o.

  Lemma finite_boxed ch : finite_boxes ch -> boxed ch.
  Proof.
    intros H o Ho. destruct (H o Ho) as (b & E & F). exists b. split; [exact E|].
    assert (G : forall x : b64, is_finite x = true -> nisnan x = false) by (intros x; destruct x; try discriminate; reflexivity).
    unfold vnan. pose proof (F AX) as [A A']. pose proof (F AY) as [B B']. pose proof (F AZ) as [C C'].
    cbn [vget] in *. rewrite !G by assumption. split; reflexivity.
  Qed.

  Lemma lessAlong_order d ch : finite_boxes ch -> ordering (lessAlong d) ch.
  Proof.
    intros H. unfold lessAlong. split; [|split].
    - intros a _. destruct (oBounds a); try reflexivity. apply (nltb_irrefl (F := b64)).
    - intros a b c Ha Hb Hc. destruct (oBounds a), (oBounds b), (oBounds c); try discriminate. apply (nltb_trans (F := b64)).
    - intros a b c Ha Hb Hc. destruct (H a Ha) as (ba & -> & Fa), (H b Hb) as (bb & -> & Fb), (H c Hc) as (bc & -> & Fc).
      assert (S : forall x y : b64, is_finite x = true -> is_finite y = true -> nisnan (nadd x y) = false) by exact plus_nan.
      set (x := nadd (vget (bMin ba) d) (vget (bMax ba) d)). set (y := nadd (vget (bMin bb) d) (vget (bMax bb) d)). set (z := nadd (vget (bMin bc) d) (vget (bMax bc) d)).
      assert (Nx : nisnan x = false) by (apply S; apply Fa). assert (Ny : nisnan y = false) by (apply S; apply Fb). assert (Nz : nisnan z = false) by (apply S; apply Fc).
      intros E1 E2. apply nltb_false_leb in E1; [|assumption|assumption]. apply nltb_false_leb in E2; [|assumption|assumption].
      pose proof (nleb_trans _ _ _ E2 E1) as E. rewrite (nleb_ltb z x Nz Nx) in E. destruct (nltb x z); [discriminate|reflexivity].
  Qed.

  Lemma sorted_split (R : object -> object -> Prop) : forall l1 l2, StronglySorted R (l1 ++ l2) -> forall a b, In a l1 -> In b l2 -> R a b.
  Proof.
    induction l1 as [|x l1 IH]; intros l2 H a b Ha Hb; [destruct Ha|]. cbn [app] in H. inversion H; subst.
    destruct Ha as [<-|Ha]; [|eapply IH; eassumption].
    match goal with F : Forall _ _ |- _ => rewrite Forall_forall in F; apply F, in_or_app; right; exact Hb end.
  Qed.

  Lemma lessAlong_not_beyond d (a b : object) : finite_box a -> finite_box b -> lessAlong d b a = false -> not_beyond d a b.
  Proof.
    intros (ba & Ea & Fa) (bb & Eb & Fb). unfold lessAlong. rewrite Ea, Eb. intros H. exists ba, bb. split; [exact Ea|]. split; [exact Eb|].
    apply nltb_false_leb; [apply plus_nan; apply Fb|apply plus_nan; apply Fa|exact H].
  Qed.

  Lemma box_covers (ch : list object) bb d : ch <> nil -> finite_boxes ch -> makeBoundingBox ch = Val bb ->
    covers ch d (nsub (vget (bMax bb) d) (vget (bMin bb) d)) /\ is_nan (nsub (vget (bMax bb) d) (vget (bMin bb) d)) = false.
  Proof.
    intros Hne HF H. unfold makeBoundingBox in H. apply obind_val in H. destruct H as (hull & Eh & H).
    destruct (hullOf_val _ _ Eh) as (A & B & C).
    assert (Hh : hull <> nil) by (destruct ch; [congruence|destruct hull; cbn in C; [lia|congruence]]).
    destruct (boundingBoxFromHull_spec hull Hh) as [[_ E]|(N & b & E & O)]; [congruence|].
    rewrite E in H. assert (Hb : b = bb) by congruence. subst b. clear E H. destruct O as (O & X0 & X1 & Y0 & Y1 & Z0 & Z1).
    assert (P : forall p, In p hull -> coordinate ch d (vget p d)).
    { intros p Hp. destruct (B p Hp) as (o & b & Ho & Eb & [->| ->]); exists o, b; auto. }
    assert (P' : forall y, coordinate ch d y -> exists p, In p hull /\ y = vget p d).
    { intros y (o & b & Ho & Eb & [->| ->]); destruct (A o Ho) as (b' & Eb' & I1 & I2); rewrite Eb in Eb'; injection Eb' as <-; eauto. }
    assert (W : forall p, In p hull -> nleb (vget (bMin bb) d) (vget p d) = true /\ nleb (vget p d) (vget (bMax bb) d) = true).
    { intros p Hp. destruct (O p Hp) as (? & ? & ? & ? & ? & ?). destruct d; cbn [vget]; auto. }
    assert (L : least ch d (vget (bMin bb) d)).
    { split; [|intros y Hy; destruct (P' y Hy) as (p & Hp & ->); apply W, Hp].
      assert (Q : exists p, In p hull /\ vget p d = vget (bMin bb) d) by (destruct d; assumption). destruct Q as (p & Hp & <-). apply P, Hp. }
    assert (G : greatest ch d (vget (bMax bb) d)).
    { split; [|intros y Hy; destruct (P' y Hy) as (p & Hp & ->); apply W, Hp].
      assert (Q : exists p, In p hull /\ vget p d = vget (bMax bb) d) by (destruct d; assumption). destruct Q as (p & Hp & <-). apply P, Hp. }
    assert (Fc : forall y, coordinate ch d y -> is_finite y = true).
    { intros y (o & b & Ho & Eb & Hy). destruct (HF o Ho) as (b' & Eb' & Fb). rewrite Eb in Eb'. injection Eb' as <-. destruct Hy as [->| ->]; apply Fb. }
    split; [exists (vget (bMin bb) d), (vget (bMax bb) d); auto|]. apply minus_nan; apply Fc; [apply G|apply L].
  Qed.

  Lemma longest_axis (ch : list object) bb : ch <> nil -> finite_boxes ch -> makeBoundingBox ch = Val bb ->
    longest ch (argMax (vsub (bMax bb) (bMin bb))).
  Proof.
    intros Hne HF H. assert (V : forall e, vget (vsub (bMax bb) (bMin bb)) e = nsub (vget (bMax bb) e) (vget (bMin bb) e)) by (intros []; reflexivity).
    set (d := argMax _).
    exists (nsub (vget (bMax bb) d) (vget (bMin bb) d)). destruct (box_covers ch bb d Hne HF H) as [C N]. split; [exact C|]. split; [exact N|].
    intros e. exists (nsub (vget (bMax bb) e) (vget (bMin bb) e)). split; [apply (box_covers ch bb e Hne HF H)|].
    rewrite <- !V. apply argMax_max. intros f. rewrite V. apply (box_covers ch bb f Hne HF H).
  Qed.

  Lemma covers_in (l l' : list object) d s : (forall o, In o l <-> In o l') -> covers l d s -> covers l' d s.
  Proof.
    intros I (lo & hi & [L1 L2] & [G1 G2] & ->).
    assert (C : forall y, coordinate l d y <-> coordinate l' d y) by (intros y; split; intros (o & b & Ho & R); exists o, b; (split; [apply I, Ho|exact R])).
    exists lo, hi. split; [split; [apply C, L1|intros y Hy; apply L2, C, Hy]|]. split; [split; [apply C, G1|intros y Hy; apply G2, C, Hy]|reflexivity].
  Qed.
  Lemma longest_in (l l' : list object) d : (forall o, In o l <-> In o l') -> longest l d -> longest l' d.
  Proof.
    intros I (s & C & N & H). exists s. split; [exact (covers_in l l' d s I C)|]. split; [exact N|].
    intros e. destruct (H e) as (s' & C' & L). exists s'. split; [exact (covers_in l l' e s' I C')|exact L].
  Qed.

  Lemma split_halves : forall fuel (ch : list object) n, ch <> nil -> finite_boxes ch -> buildTree to32 sortSlice fuel ch = Val n ->
    forall bb c0 c1, In (Inner bb c0 c1) (nodes n) -> halves (members c0) (members c1).
  Proof.
    induction fuel as [|fuel IH]; intros ch n Hne HF H; [discriminate|]. cbn [buildTree] in H.
    destruct (Nat.leb_spec (length ch) maxFacePerLeaf) as [L|L]; unfold maxFacePerLeaf in L.
    - apply omap_val in H. destruct H as (bb & _ & ->). intros bb' c0 c1 [E|[]]. discriminate E.
    - apply obind_val in H. destruct H as (bb & Eb & H). cbv zeta in H.
      apply obind_val in H. destruct H as (l & El & H). apply omap_val in H. destruct H as (r & Er & ->).
      set (d := argMax _) in *. destruct (SS (lessAlong d) ch) as [P S]. specialize (S (lessAlong_order d ch HF)).
      set (sl := sortSlice _ ch) in *. clearbody sl.
      pose proof (Permutation_length P) as Ls.
      destruct (half_lengths (length ch) L) as (H1 & H2 & H3 & H4).
      assert (Lf : length (firstn (length sl / 2) sl) = (length ch / 2)%nat) by (rewrite firstn_length, Ls; lia).
      assert (Lk : length (skipn (length sl / 2) sl) = (length ch - length ch / 2)%nat) by (rewrite skipn_length, Ls; lia).
      assert (N1 : firstn (length sl / 2) sl <> nil) by (intros E; rewrite E in Lf; change (0 = length ch / 2)%nat in Lf; lia).
      assert (N2 : skipn (length sl / 2) sl <> nil) by (intros E; rewrite E in Lk; change (0 = length ch - length ch / 2)%nat in Lk; lia).
      assert (Fsl : forall o, In o sl -> finite_box o) by (intros o Ho; apply HF; eapply Permutation_in; eassumption).
      assert (F1 : finite_boxes (firstn (length sl / 2) sl)) by (intros o Ho; apply Fsl; exact (in_firstn _ _ _ Ho)).
      assert (F2 : finite_boxes (skipn (length sl / 2) sl)) by (intros o Ho; apply Fsl; exact (in_skipn _ _ _ Ho)).
      destruct (buildTree_shape to32 sortSlice sorts_reorders _ _ _ N1 El) as [P1 _].
      destruct (buildTree_shape to32 sortSlice sorts_reorders _ _ _ N2 Er) as [P2 _].
      intros bb' c0 c1 [E|I]; [|apply in_app_or in I; destruct I as [I|I]; [exact (IH _ _ N1 F1 El _ _ _ I)|exact (IH _ _ N2 F2 Er _ _ _ I)]].
      assert (c0 = l /\ c1 = r) as [-> ->] by (split; congruence). clear E IH El Er.
      split; [rewrite (Permutation_length P1), (Permutation_length P2), Lf, Lk; lia|].
      exists d. split.
      + eapply longest_in; [|exact (longest_axis ch bb Hne HF Eb)]. intros o.
        assert (PP : Permutation (members l ++ members r) ch).
        { eapply Permutation_trans; [apply Permutation_app; eassumption|]. rewrite firstn_skipn. exact P. }
        split; intros Ho; eapply Permutation_in; [apply Permutation_sym, PP|exact Ho|exact PP|exact Ho].
      + intros a b Ha Hb. apply (Permutation_in _ P1) in Ha. apply (Permutation_in _ P2) in Hb.
        apply lessAlong_not_beyond; [apply F1, Ha|apply F2, Hb|].
        rewrite <- (firstn_skipn (length sl / 2) sl) in S. exact (sorted_split _ _ _ S a b Ha Hb).
  Qed.

  Theorem tree_splits os : os <> nil -> (forall o, In o os -> finite_box o) ->
    exists n, tree to32 sortSlice os = Val (treeOf n) /\ Permutation (members n) os /\
      forall bb l r, In (Inner bb l r) (nodes n) -> halves (members l) (members r).
  Proof.
    intros Hne HF. destruct (buildTree_succeeds to32 sortSlice sorts_reorders (S (length os)) os Hne (finite_boxed os HF)) as [n E]; [lia|].
    exists n. unfold tree. rewrite E. split; [reflexivity|]. split; [apply (buildTree_shape to32 sortSlice sorts_reorders _ _ _ Hne E)|].
    exact (split_halves _ _ _ Hne HF E).
  Qed.
End S.

(** ** a sorting function *)
Section Sort.
  Context {A : Type}.
  Fixpoint insert (less : A -> A -> bool) (x : A) (l : list A) : list A :=
    match l with nil => [x] | y :: l' => if less x y then x :: l else y :: insert less x l' end.
  Definition insertionSort (less : A -> A -> bool) (l : list A) : list A := fold_right (insert less) nil l.

  Lemma insert_perm less x l : Permutation (insert less x l) (x :: l).
  Proof.
    induction l as [|y l IH]; cbn [insert]; [reflexivity|]. destruct (less x y); [reflexivity|].
    eapply Permutation_trans; [apply perm_skip, IH|apply perm_swap].
  Qed.
  Lemma sort_perm less l : Permutation (insertionSort less l) l.
  Proof. induction l as [|x l IH]; cbn; [reflexivity|]. eapply Permutation_trans; [apply insert_perm|apply perm_skip, IH]. Qed.

  Lemma insert_sorted less x l : ordering less (x :: l) -> StronglySorted (fun a b => less b a = false) l -> StronglySorted (fun a b => less b a = false) (insert less x l).
  Proof.
    intros (I & T & N). induction l as [|y l IH]; intros S; cbn [insert]; [repeat constructor|].
    destruct (less x y) eqn:E.
    - constructor; [exact S|]. inversion S as [|? ? Sl Fl]; subst. constructor.
      + destruct (less y x) eqn:E'; [|reflexivity]. pose proof (T x y x (or_introl eq_refl) (or_intror (or_introl eq_refl)) (or_introl eq_refl) E E') as Q.
        rewrite I in Q; [discriminate|now left].
      + rewrite Forall_forall in *. intros z Hz. destruct (less z x) eqn:E'; [|reflexivity].
        assert (Iz : In z (x :: y :: l)) by (cbn; auto).
        pose proof (T z x y Iz (or_introl eq_refl) (or_intror (or_introl eq_refl)) E' E) as Q. rewrite (Fl z Hz) in Q. discriminate.
    - inversion S as [|? ? Sl Fl]; subst. constructor.
      + apply IH; [| | |exact Sl].
        * intros a Ha. apply I. cbn in *. tauto.
        * intros a b c Ha Hb Hc. apply T; cbn in *; tauto.
        * intros a b c Ha Hb Hc. apply N; cbn in *; tauto.
      + rewrite Forall_forall in *. intros z Hz. apply (Permutation_in _ (insert_perm less x l)) in Hz. destruct Hz as [<-|Hz]; [exact E|apply Fl, Hz].
  Qed.
  Lemma ordering_incl less (l l' : list A) : (forall a, In a l' -> In a l) -> ordering less l -> ordering less l'.
  Proof. intros H (I & T & N). split; [|split]; [intros a Ha; apply I; auto|intros a b c Ha Hb Hc; apply T; auto|intros a b c Ha Hb Hc; apply N; auto]. Qed.
  Lemma insertionSort_sorts : sorts insertionSort.
  Proof.
    intros less l. split; [apply sort_perm|]. induction l as [|x l IH]; intros O; cbn; [constructor|].
    apply insert_sorted.
    - eapply ordering_incl; [|exact O]. intros a [<-|Ha]; [now left|right; eapply Permutation_in; [apply sort_perm|exact Ha]].
    - apply IH. eapply ordering_incl; [|exact O]. intros a Ha. now right.
  Qed.
End Sort.
