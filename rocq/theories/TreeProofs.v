(** * Bounding volume hierarchies *)
From Coq Require Import ZArith Reals Bool List Permutation Lra Lia.
From Verif Require Import Num NumLaws Outcome GeomModel GeomSpec GeomProofs ObjModel TreeModel ObjSpec ObjProofs BoxProofs.
Import ListNotations.

Section Tree.
  Context {F : Type} `{NF : Num F} {K : NumKey F} {M : Type}.
  Notation object := (object F M).
  Notation hit := (hit F M).

  (** ** C38, C41 *)
  Variable to32 : F -> F.
  Variable sortSlice : (object -> object -> bool) -> list object -> list object.
  Hypothesis SP : reorders sortSlice.

  Definition corners (b : bbox F) : list (vec F) := [bMin b; bMax b].
  Lemma hullOf_val : forall (ch : list object) hull, hullOf ch = Val hull ->
    (forall o, In o ch -> exists b, oBounds o = Val b /\ In (bMin b) hull /\ In (bMax b) hull) /\
    (forall p, In p hull -> exists o b, In o ch /\ oBounds o = Val b /\ (p = bMin b \/ p = bMax b)) /\
    length hull = 2 * length ch.
  Proof.
    induction ch as [|c ch IH]; intros hull H; cbn [hullOf] in H.
    - injection H as <-. split; [intros o []|split; [intros p []|reflexivity]].
    - apply obind_val in H. destruct H as (b & Eb & H). apply omap_val in H. destruct H as (h & Eh & ->).
      destruct (IH h Eh) as (A & B & C). split; [|split].
      + intros o [->|Ho]; [exists b; cbn; auto|]. destruct (A o Ho) as (b' & E' & X & Y). exists b'; cbn; auto.
      + intros p [<-|[<-|Hp]]; [exists c, b; cbn; auto|exists c, b; cbn; auto|].
        destruct (B p Hp) as (o & b' & X & Y & Z). exists o, b'; cbn; auto.
      + cbn. lia.
  Qed.

  Lemma hullOf_ok : forall (ch : list object), (forall o, In o ch -> exists b, oBounds o = Val b) -> exists hull, hullOf ch = Val hull.
  Proof.
    induction ch as [|c ch IH]; intros H; cbn [hullOf]; [eauto|].
    destruct (H c) as [b ->]; [now left|]. destruct IH as [hull ->]; [intros; apply H; now right|]. cbn. eauto.
  Qed.

  (** every object has a box without NaN *)
  Definition boxed (ch : list object) : Prop :=
    forall o, In o ch -> exists b, oBounds o = Val b /\ vnan (bMin b) = false /\ vnan (bMax b) = false.

  Lemma makeBoundingBox_val (ch : list object) bb : ch <> nil -> makeBoundingBox ch = Val bb ->
    boxed ch /\ (forall o b, In o ch -> oBounds o = Val b -> box_within b bb) /\
    (forall c, In c [vx (bMin bb); vx (bMax bb)] -> exists o b, In o ch /\ oBounds o = Val b /\ In c [vx (bMin b); vx (bMax b)]) /\
    (forall c, In c [vy (bMin bb); vy (bMax bb)] -> exists o b, In o ch /\ oBounds o = Val b /\ In c [vy (bMin b); vy (bMax b)]) /\
    (forall c, In c [vz (bMin bb); vz (bMax bb)] -> exists o b, In o ch /\ oBounds o = Val b /\ In c [vz (bMin b); vz (bMax b)]).
  Proof.
    intros Hne H. unfold makeBoundingBox in H. apply obind_val in H. destruct H as (hull & Eh & H).
    destruct (hullOf_val _ _ Eh) as (A & B & C).
    assert (hull <> nil) as Hh by (destruct ch; [congruence|destruct hull; cbn in C; [lia|congruence]]).
    destruct (boundingBoxFromHull_spec hull Hh) as [[_ E]|(N & b & E & O)]; [congruence|].
    rewrite E in H. injection H as ->. destruct O as (O & X0 & X1 & Y0 & Y1 & Z0 & Z1).
    assert (forall p, In p hull -> vnan p = false) as N'.
    { intros p Hp. destruct (vnan p) eqn:Ep; auto. exfalso. assert (existsb vnan hull = true) as Q by (apply existsb_exists; eauto). congruence. }
    assert (forall (f : vec F -> F) c0 c1, (exists p, In p hull /\ f p = c0) -> (exists p, In p hull /\ f p = c1) ->
      forall c, In c [c0; c1] -> exists o b, In o ch /\ oBounds o = Val b /\ In c [f (bMin b); f (bMax b)]) as G.
    { intros f c0 c1 (p0 & I0 & E0) (p1 & I1 & E1) c [<-|[<-|[]]].
      - destruct (B p0 I0) as (o & b' & X & Y & [->| ->]); exists o, b'; cbn; auto.
      - destruct (B p1 I1) as (o & b' & X & Y & [->| ->]); exists o, b'; cbn; auto. }
    split; [|split; [|split; [|split]]].
    - intros o Ho. destruct (A o Ho) as (b' & E' & X & Y). exists b'; auto.
    - intros o b' Ho Eb. destruct (A o Ho) as (b'' & E' & X & Y). rewrite Eb in E'. injection E' as <-.
      destruct (O _ X) as (? & ? & ? & ? & ? & ?). destruct (O _ Y) as (? & ? & ? & ? & ? & ?). repeat split; auto.
    - apply G; auto.
    - apply G; auto.
    - apply G; auto.
  Qed.

  Lemma makeBoundingBox_ok ch : ch <> nil -> boxed ch -> exists bb, makeBoundingBox ch = Val bb.
  Proof.
    intros Hne H. unfold makeBoundingBox.
    destruct (hullOf_ok ch) as [hull Eh]; [intros o Ho; destruct (H o Ho) as (b & ? & _); eauto|]. rewrite Eh. cbn.
    destruct (hullOf_val _ _ Eh) as (A & B & C).
    assert (hull <> nil) as Hh by (destruct ch; [congruence|destruct hull; cbn in C; [lia|congruence]]).
    destruct (boundingBoxFromHull_spec hull Hh) as [[N _]|(N & b & E & O)]; [exfalso|eauto].
    apply existsb_exists in N. destruct N as (p & Hp & N). destruct (B p Hp) as (o & b & Ho & Eb & [->| ->]);
      destruct (H o Ho) as (b' & E' & N1 & N2); rewrite E' in Eb; injection Eb as ->; congruence.
  Qed.

  Lemma boxed_incl ch ch' : (forall o, In o ch' -> In o ch) -> boxed ch -> boxed ch'.
  Proof. intros I H o Ho. apply H, I, Ho. Qed.
  Lemma in_firstn (n : nat) (l : list object) o : In o (firstn n l) -> In o l.
  Proof. rewrite <- (firstn_skipn n l) at 2. intros; apply in_or_app; auto. Qed.
  Lemma in_skipn (n : nat) (l : list object) o : In o (skipn n l) -> In o l.
  Proof. rewrite <- (firstn_skipn n l) at 2. intros; apply in_or_app; auto. Qed.
  Lemma in_sorted less (l : list object) o : In o (sortSlice less l) -> In o l.
  Proof. intros H. eapply Permutation_in; [apply SP|exact H]. Qed.
  Lemma sorted_length less (l : list object) : length (sortSlice less l) = length l.
  Proof. apply Permutation_length, SP. Qed.

  Lemma half_lengths n : (7 < n -> 0 < n / 2 < n /\ n - n / 2 < n /\ 0 < n - n / 2 /\ n / 2 <= n - n / 2 <= S (n / 2))%nat.
  Proof.
    intros H. assert (n = 2 * (n / 2) + n mod 2)%nat by (apply Nat.div_mod; lia).
    assert (n mod 2 < 2)%nat by (apply Nat.mod_upper_bound; lia). lia.
  Qed.

  (** the shape of everything [buildTree] returns *)
  Lemma buildTree_shape : forall fuel ch n, ch <> nil -> buildTree to32 sortSlice fuel ch = Val n ->
    Permutation (members n) ch /\
    (forall bb l, In (Leaf bb l) (nodes n) -> l <> nil /\ length l <= 7)%nat /\
    (depth n = 0 \/ 7 * 2 ^ (depth n - 1) < length ch)%nat.
  Proof.
    induction fuel as [|fuel IH]; intros ch n Hne H; cbn [buildTree] in H; [discriminate|].
    destruct (Nat.leb_spec (length ch) maxFacePerLeaf) as [L|L]; unfold maxFacePerLeaf in L.
    - apply omap_val in H. destruct H as (bb & _ & ->). split; [apply Permutation_refl|]. split; [|now left].
      cbn. intros bb' l [E|[]]. injection E as _ <-. auto.
    - apply obind_val in H. destruct H as (bb & _ & H). cbv zeta in H.
      apply obind_val in H. destruct H as (l & El & H).
      apply omap_val in H. destruct H as (r & Er & ->). cbn [members nodes depth].
      set (sl := sortSlice _ ch) in *.
      assert (length sl = length ch) as Ls by apply sorted_length.
      destruct (half_lengths (length ch) L) as (H1 & H2 & H3 & H4).
      assert (length (firstn (length sl / 2) sl) = length ch / 2)%nat as Lf by (rewrite firstn_length, Ls; lia).
      assert (length (skipn (length sl / 2) sl) = length ch - length ch / 2)%nat as Lk by (rewrite skipn_length, Ls; lia).
      apply IH in El; [|intros E; rewrite E in Lf; change (0 = length ch / 2)%nat in Lf; lia].
      apply IH in Er; [|intros E; rewrite E in Lk; change (0 = length ch - length ch / 2)%nat in Lk; lia].
      rewrite Lf in El. rewrite Lk in Er. destruct El as (P1 & F1 & D1), Er as (P2 & F2 & D2).
      split; [|split].
      + eapply Permutation_trans; [apply Permutation_app; eassumption|]. rewrite firstn_skipn. apply SP.
      + intros bb' l' [E|I]; [discriminate|]. apply in_app_or in I. destruct I; eauto.
      + right. cbn [Nat.sub]. rewrite Nat.sub_0_r.
        assert (forall d m, (d = 0 \/ 7 * 2 ^ (d - 1) < m) -> m <= S (length ch / 2) -> m <= length ch - length ch / 2 -> 7 * 2 ^ d < length ch)%nat as G.
        { intros d m [->|Hd] M1 M2; [cbn; lia|]. destruct d; [cbn; lia|]. cbn [Nat.sub] in Hd. rewrite Nat.sub_0_r in Hd.
          cbn [Nat.pow]. lia. }
        destruct (Nat.max_dec (depth l) (depth r)) as [->| ->]; eapply G; eauto; lia.
  Qed.

  (** construction terminates, and succeeds exactly when every member has a box *)
  Lemma buildTree_succeeds : forall fuel ch, ch <> nil -> boxed ch -> (length ch < fuel)%nat ->
    exists n, buildTree to32 sortSlice fuel ch = Val n.
  Proof.
    induction fuel as [|fuel IH]; intros ch Hne HB Hf; [lia|]. cbn [buildTree].
    destruct (makeBoundingBox_ok ch Hne HB) as [bb E]. rewrite E.
    destruct (Nat.leb_spec (length ch) maxFacePerLeaf) as [L|L]; unfold maxFacePerLeaf in L; cbn [omap obind]; [eauto|]; cbv zeta.
    set (sl := sortSlice _ ch). assert (length sl = length ch) as Ls by apply sorted_length.
    destruct (half_lengths (length ch) L) as (H1 & H2 & H3 & H4).
    assert (length (firstn (length sl / 2) sl) = length ch / 2)%nat as Lf by (rewrite firstn_length, Ls; lia).
    assert (length (skipn (length sl / 2) sl) = length ch - length ch / 2)%nat as Lk by (rewrite skipn_length, Ls; lia).
    destruct (IH (firstn (length sl / 2) sl)) as [l ->].
    { intros X; rewrite X in Lf; change (0 = length ch / 2)%nat in Lf; lia. }
    { eapply boxed_incl; [|exact HB]. intros o Ho. eapply in_sorted, in_firstn, Ho. }
    { lia. }
    destruct (IH (skipn (length sl / 2) sl)) as [r ->].
    { intros X; rewrite X in Lk; change (0 = length ch - length ch / 2)%nat in Lk; lia. }
    { eapply boxed_incl; [|exact HB]. intros o Ho. eapply in_sorted, in_skipn, Ho. }
    { lia. }
    cbn. eauto.
  Qed.

  Lemma hullOf_fuel ch : hullOf (F := F) (M := M) ch <> NoFuel \/ exists o, In o ch /\ oBounds o = NoFuel.
  Proof.
    induction ch as [|c ch IH]; cbn [hullOf]; [left; discriminate|].
    destruct (oBounds c) eqn:E; cbn; [|left; discriminate|right; exists c; cbn; auto].
    destruct IH as [H|(o & Ho & E')]; [|right; exists o; cbn; auto].
    left. destruct (hullOf ch); cbn; congruence.
  Qed.

  Theorem tree_builds os : os <> nil -> boxed os ->
    exists n, tree to32 sortSlice os = Val (treeOf n) /\ Permutation (members n) os /\
      (forall bb l, In (Leaf bb l) (nodes n) -> l <> nil /\ length l <= 7)%nat /\
      (depth n = 0 \/ 7 * 2 ^ (depth n - 1) < length os)%nat.
  Proof.
    intros Hne HB. destruct (buildTree_succeeds (S (length os)) os Hne HB) as [n E]; [lia|].
    exists n. unfold tree. rewrite E. split; auto. eapply buildTree_shape; eauto.
  Qed.

  Lemma tree_empty : tree to32 sortSlice (nil : list object) = Panic.
  Proof. reflexivity. Qed.

  (** node boxes *)
  Definition fixed32 (b : bbox F) : Prop :=
    to32 (vx (bMin b)) = vx (bMin b) /\ to32 (vy (bMin b)) = vy (bMin b) /\ to32 (vz (bMin b)) = vz (bMin b) /\
    to32 (vx (bMax b)) = vx (bMax b) /\ to32 (vy (bMax b)) = vy (bMax b) /\ to32 (vz (bMax b)) = vz (bMax b).

  Definition from_members (n : node F M) (ch : list object) : Prop :=
    (forall c, In c [vx (bMin (nodeBox n)); vx (bMax (nodeBox n))] -> exists o b, In o ch /\ oBounds o = Val b /\ In c [vx (bMin b); vx (bMax b)]) /\
    (forall c, In c [vy (bMin (nodeBox n)); vy (bMax (nodeBox n))] -> exists o b, In o ch /\ oBounds o = Val b /\ In c [vy (bMin b); vy (bMax b)]) /\
    (forall c, In c [vz (bMin (nodeBox n)); vz (bMax (nodeBox n))] -> exists o b, In o ch /\ oBounds o = Val b /\ In c [vz (bMin b); vz (bMax b)]).

  Lemma boxTo32_fixed (ch : list object) bb : ch <> nil -> makeBoundingBox ch = Val bb ->
    (forall o b, In o ch -> oBounds o = Val b -> fixed32 b) -> boxTo32 to32 bb = bb.
  Proof.
    intros Hne E Hf. destruct (makeBoundingBox_val _ _ Hne E) as (_ & _ & X & Y & Z).
    assert (forall (f : vec F -> F) c, (forall b, fixed32 b -> to32 (f (bMin b)) = f (bMin b) /\ to32 (f (bMax b)) = f (bMax b)) ->
      (exists o b, In o ch /\ oBounds o = Val b /\ In c [f (bMin b); f (bMax b)]) -> to32 c = c) as G.
    { intros f c Hff (o & b & Ho & Eb & Hc). destruct (Hff b (Hf o b Ho Eb)) as [A B]. destruct Hc as [<-|[<-|[]]]; auto. }
    unfold boxTo32. destruct bb as [[a1 a2 a3] [b1 b2 b3]]. cbn [bMin bMax vx vy vz] in *.
    rewrite (G vx a1), (G vx b1), (G vy a2), (G vy b2), (G vz a3), (G vz b3); auto;
      try (intros b (? & ? & ? & ? & ? & ?); auto); try (apply X; cbn; tauto); try (apply Y; cbn; tauto); try (apply Z; cbn; tauto).
  Qed.

  Lemma buildTree_boxes : forall fuel ch n, ch <> nil -> buildTree to32 sortSlice fuel ch = Val n ->
    (forall o b, In o ch -> oBounds o = Val b -> fixed32 b) ->
    forall m, In m (nodes n) ->
      (forall o b, In o (members m) -> oBounds o = Val b -> box_within b (nodeBox m)) /\ from_members m ch.
  Proof.
    induction fuel as [|fuel IH]; intros ch n Hne H Hf m Hm; cbn [buildTree] in H; [discriminate|].
    destruct (Nat.leb_spec (length ch) maxFacePerLeaf) as [L|L]; unfold maxFacePerLeaf in L.
    - apply omap_val in H. destruct H as (bb & E & ->). rewrite (boxTo32_fixed _ _ Hne E Hf) in Hm.
      destruct Hm as [<-|[]]. cbn [members nodeBox]. destruct (makeBoundingBox_val _ _ Hne E) as (_ & W & X & Y & Z).
      split; auto. split; [|split]; auto.
    - assert (buildTree to32 sortSlice (S fuel) ch = Val n) as H0.
      { cbn [buildTree]. destruct (Nat.leb_spec (length ch) maxFacePerLeaf) as [L'|L']; unfold maxFacePerLeaf in L'; [lia|exact H]. }
      destruct (buildTree_shape _ _ _ Hne H0) as (P0 & _).
      apply obind_val in H. destruct H as (bb & E & H). cbv zeta in H.
      apply obind_val in H. destruct H as (l & El & H).
      apply omap_val in H. destruct H as (r & Er & ->). rewrite (boxTo32_fixed _ _ Hne E Hf) in *.
      set (sl := sortSlice _ ch) in *.
      assert (length sl = length ch) as Ls by apply sorted_length.
      destruct (half_lengths (length ch) L) as (H1 & H2 & H3 & H4).
      assert (length (firstn (length sl / 2) sl) = length ch / 2)%nat as Lf by (rewrite firstn_length, Ls; lia).
      assert (length (skipn (length sl / 2) sl) = length ch - length ch / 2)%nat as Lk by (rewrite skipn_length, Ls; lia).
      assert (forall o, In o (firstn (length sl / 2) sl) -> In o ch) as I1 by (intros o Ho; eapply in_sorted, in_firstn, Ho).
      assert (forall o, In o (skipn (length sl / 2) sl) -> In o ch) as I2 by (intros o Ho; eapply in_sorted, in_skipn, Ho).
      assert (forall ch' m', (forall o, In o ch' -> In o ch) -> from_members m' ch' -> from_members m' ch) as Fi.
      { intros ch' m' I (X & Y & Z). split; [|split]; intros c Hc;
          [destruct (X c Hc) as (o & b & ? & ? & ?)|destruct (Y c Hc) as (o & b & ? & ? & ?)|destruct (Z c Hc) as (o & b & ? & ? & ?)]; exists o, b; auto. }
      cbn [nodes] in Hm. destruct Hm as [<-|Hm].
      + cbn [nodeBox]. destruct (makeBoundingBox_val _ _ Hne E) as (_ & W & X & Y & Z).
        split; [|split; [|split]; auto]. intros o b Ho Eb. apply (W o b); auto. eapply Permutation_in; [exact P0|exact Ho].
      + apply in_app_or in Hm. destruct Hm as [Hm|Hm].
        * eapply IH in El; [|intros X; rewrite X in Lf; change (0 = length ch / 2)%nat in Lf; lia|intros; eapply Hf; eauto|exact Hm].
          destruct El; split; auto. eapply Fi; [exact I1|auto].
        * eapply IH in Er; [|intros X; rewrite X in Lk; change (0 = length ch - length ch / 2)%nat in Lk; lia|intros; eapply Hf; eauto|exact Hm].
          destruct Er; split; auto. eapply Fi; [exact I2|auto].
  Qed.

  Theorem tree_boxes os n : os <> nil -> buildTree to32 sortSlice (S (length os)) os = Val n ->
    (forall o b, In o os -> oBounds o = Val b -> fixed32 b) ->
    forall m, In m (nodes n) -> forall o b, In o (members m) -> oBounds o = Val b -> box_within b (nodeBox m).
  Proof. intros. eapply buildTree_boxes; eauto. Qed.
End Tree.

(** ** C39, C40 *)
Section Intersect.
  Context {F : Type} `{NF : Num F} {K : NumKey F} {M : Type}.
  Notation object := (object F M).
  Notation hit := (hit F M).
  Let far : F := nofZ (9 * 10 ^ 99).
  Hypothesis far_pos : nltb (nofZ 0) far = true.

  Lemma neqb_refl_pos x y : nltb x y = true -> neqb y y = true.
  Proof.
    rewrite nkey_ltb, nkey_eqb. destruct (nkey x), (nkey y); cbn; try discriminate; auto; intros _; now apply Reqb_true.
  Qed.
  Lemma nltb_neqb x y : nltb x y = true -> neqb x y = false.
  Proof.
    rewrite nkey_ltb, nkey_eqb. destruct (nkey x), (nkey y); cbn; try discriminate; auto. rewrite Rltb_true, Reqb_false. lra.
  Qed.
  Lemma positive_nan (h : hit) : positive h -> nisnan (hT h) = false.
  Proof. intros H. now apply nltb_not_nan in H. Qed.

  Definition below_far (hits : list hit) : Prop := forall h, In h hits -> positive h -> nltb (hT h) far = true.

  Definition select (front h : hit) : hit :=
    if (nltb (nofZ 0) (hT h) && nltb (hT h) (hT front))%bool then h else front.

  (** the frontmost so far *)
  Definition sofar (hits : list hit) (front : hit) : Prop :=
    nearest_hit hits front \/ (no_hit hits /\ front = farHit).

  Lemma nearest_in (hits : list hit) h : nearest_hit hits h -> In h hits /\ positive h.
  Proof. intros (b & a & -> & P & _). split; auto. apply in_or_app. right. now left. Qed.

  Lemma nearest_min (hits : list hit) h h' : nearest_hit hits h -> In h' hits -> positive h' -> nleb (hT h) (hT h') = true.
  Proof.
    intros (b & a & -> & P & B & A) I P'. apply in_app_or in I. destruct I as [I|[->|I]].
    - apply nltb_leb. auto.
    - apply nleb_refl. now apply positive_nan.
    - auto.
  Qed.

  Lemma no_hit_app (a b : list hit) : no_hit (a ++ b) <-> no_hit a /\ no_hit b.
  Proof.
    split.
    - intros H. split; intros h I; apply H, in_or_app; auto.
    - intros [A B] h I. apply in_app_or in I. destruct I; auto.
  Qed.

  (** joining the answer for a first group of objects with that for a second one *)
  Lemma join hits0 hits1 front frag :
    below_far (hits0 ++ hits1) -> sofar hits0 front ->
    (nearest_hit hits1 frag \/ (no_hit hits1 /\ (frag = farHit \/ ~ positive frag))) ->
    sofar (hits0 ++ hits1) (select front frag).
  Proof.
    intros BF S0 S1. unfold select.
    assert (nearest_hit hits0 front -> nltb (hT front) far = true) as FB.
    { intros N. apply nearest_in in N. destruct N. apply BF; auto. apply in_or_app; auto. }
    destruct S1 as [N1|[N1 S1]].
    - destruct (nearest_in _ _ N1) as [I1 P1]. rewrite P1. cbn.
      destruct S0 as [N0|[N0 ->]].
      + destruct (nltb (hT frag) (hT front)) eqn:E.
        * left. destruct N1 as (b & a & -> & _ & B & A). exists (hits0 ++ b), a. rewrite <- app_assoc. split; auto.
          split; auto. split; auto. intros h' I' P'. apply in_app_or in I'. destruct I' as [I'|I']; auto.
          eapply nlt_le_trans; [exact E|]. eapply nearest_min; eauto.
        * left. assert (positive front) as P0 by (now apply nearest_in in N0).
          destruct N0 as (b & a & -> & _ & B & A). exists b, (a ++ hits1). rewrite <- app_assoc. split; auto.
          split; auto. split; auto. intros h' I' P'. apply in_app_or in I'. destruct I' as [I'|I']; auto.
          eapply nleb_trans; [apply nltb_false_leb; [| |exact E]; now apply positive_nan|]. eapply nearest_min; eauto.
      + cbn [hT farHit]. fold far. rewrite (BF frag); auto; [|apply in_or_app; auto].
        left. destruct N1 as (b & a & -> & _ & B & A). exists (hits0 ++ b), a. rewrite <- app_assoc. split; auto.
        split; auto. split; auto. intros h' I' P'. apply in_app_or in I'. destruct I' as [I'|I']; auto.
        exfalso. eapply N0; eauto.
    - assert ((nltb (nofZ 0) (hT frag) && nltb (hT frag) (hT front))%bool = false) as ->.
      { destruct S1 as [->|S1].
        - cbn [hT farHit]. fold far. destruct S0 as [N0|[N0 ->]].
          + rewrite (nltb_asym (hT front) far); auto. apply andb_false_r.
          + cbn [hT farHit]. fold far. rewrite nltb_irrefl. apply andb_false_r.
        - unfold positive in S1. destruct (nltb (nofZ 0) (hT frag)); auto. congruence. }
      destruct S0 as [N0|[N0 ->]].
      + left. destruct N0 as (b & a & -> & P0 & B & A). exists b, (a ++ hits1). rewrite <- app_assoc. split; auto.
        split; auto. split; auto. intros h' I' P'. apply in_app_or in I'. destruct I' as [I'|I']; auto.
        exfalso. eapply N1; eauto.
      + right. split; auto. apply no_hit_app; auto.
  Qed.

  Lemma leafLoop_spec r : forall leafs hits before front, hits_of leafs r hits ->
    below_far (before ++ hits) -> sofar before front ->
    exists front', leafLoop leafs front r = Val (front', r) /\ sofar (before ++ hits) front'.
  Proof.
    induction leafs as [|o leafs IH]; intros hits before front HO BF S; inversion HO; subst; clear HO; cbn [leafLoop].
    - rewrite app_nil_r. eauto.
    - rewrite H1. cbn [obind]. fold (select front y).
      replace (before ++ y :: l') with ((before ++ [y]) ++ l') in * by (rewrite <- app_assoc; reflexivity).
      apply IH; auto. apply join; auto.
      + intros h I. apply BF. apply in_or_app; auto.
      + destruct (nltb (nofZ 0) (hT y)) eqn:E.
        * left. exists nil, nil. cbn. repeat split; auto; intros h' [].
        * right. split; [|right; unfold positive; congruence]. intros h [<-|[]]. unfold positive. congruence.
  Qed.

  Definition missAnswer (n : node F M) : hit := match n with Leaf _ _ => farHit | Inner _ _ _ => noHit end.

  Theorem nodeIntersect_spec r : forall n hits, hits_of (members n) r hits -> below_far hits -> boxes_ok n r ->
    exists h, nodeIntersect n r = Val (h, r) /\ (nearest_hit hits h \/ (no_hit hits /\ h = missAnswer n)).
  Proof.
    induction n as [bb l|bb a IHa b IHb]; intros hits HO BF OK.
    - destruct (leafLoop_spec r l hits nil farHit HO BF) as (h & E & S).
      { right. split; auto. intros h []. }
      exists h. split; auto.
    - cbn [members] in HO. apply Forall2_app_inv_l in HO. destruct HO as (hits0 & hits1 & H0 & H1 & ->).
      assert (boxes_ok a r) as OKa by (intros m Hm; apply OK; cbn [nodes]; right; apply in_or_app; auto).
      assert (boxes_ok b r) as OKb by (intros m Hm; apply OK; cbn [nodes]; right; apply in_or_app; auto).
      assert (forall (n' : node F M) hs, boxes_ok n' r -> hits_of (members n') r hs -> nltb (nofZ 0) (bbIntersect (nodeBox n') r) = false -> no_hit hs) as PR.
      { intros n' hs OK' HO' E h I P. assert (exists o, In o (members n') /\ oIntersect o r = Val (h, r)) as (o & Io & Eo).
        { clear -HO' I. induction HO'; [destruct I|]. destruct I as [<-|I]; [exists x; cbn; auto|].
          destruct (IHHO' I) as (o & ? & ?). exists o; cbn; auto. }
        assert (In n' (nodes n')) as In' by (destruct n'; cbn; auto).
        generalize (OK' n' In' o h r Io Eo P). congruence. }
      cbn [nodeIntersect].
      assert (exists front, (if nltb (nofZ 0) (bbIntersect (nodeBox a) r) then
                omap (fun '(frag, r') => (if nltb (nofZ 0) (hT frag) then frag else farHit, r')) (nodeIntersect a r)
              else Val (farHit, r)) = Val (front, r) /\ sofar hits0 front) as (front & E0 & S0).
      { destruct (nltb (nofZ 0) (bbIntersect (nodeBox a) r)) eqn:E.
        - destruct (IHa hits0 H0) as (h & Eh & Hh); auto; [intros x I; apply BF, in_or_app; auto|].
          rewrite Eh. cbn [omap]. eexists. split; [reflexivity|]. destruct Hh as [N|[N ->]].
          + destruct (nearest_in _ _ N) as [_ P]. rewrite P. now left.
          + right. split; auto. destruct a; cbn [missAnswer noHit farHit hT]; [fold far; now rewrite far_pos|now rewrite nltb_irrefl].
        - eexists. split; [reflexivity|]. right. split; auto. eapply (PR a); [auto|exact H0|exact E]. }
      cbv zeta. rewrite E0. cbn [obind]. clear E0.
      assert (exists front', (if nltb (nofZ 0) (bbIntersect (nodeBox b) r) then
                omap (fun '(frag, r') => (if (nltb (nofZ 0) (hT frag) && nltb (hT frag) (hT front))%bool then frag else front, r')) (nodeIntersect b r)
              else Val (front, r)) = Val (front', r) /\ sofar (hits0 ++ hits1) front') as (front' & E1 & S1).
      { destruct (nltb (nofZ 0) (bbIntersect (nodeBox b) r)) eqn:E.
        - destruct (IHb hits1 H1) as (h & Eh & Hh); auto; [intros x I; apply BF, in_or_app; auto|].
          rewrite Eh. cbn [omap]. eexists. split; [reflexivity|]. apply join; auto.
          destruct Hh as [N|[N ->]]; [now left|right]. split; auto.
          destruct b; cbn [missAnswer]; [now left|right]. unfold positive. cbn [noHit hT]. rewrite nltb_irrefl. discriminate.
        - eexists. split; [reflexivity|]. assert (no_hit hits1) as N1 by (eapply (PR b); [auto|exact H1|exact E]).
          replace front with (select front noHit) by (unfold select; cbn [noHit hT]; now rewrite nltb_irrefl).
          apply join; auto. right. split; auto. right. unfold positive. cbn [noHit hT]. rewrite nltb_irrefl. discriminate. }
      rewrite E1. cbn [obind]. eexists. split; [reflexivity|].
      destruct S1 as [N|[N ->]].
      + destruct (nearest_in _ _ N) as [I P]. fold far. rewrite (nltb_neqb _ _ (BF _ I P)). now left.
      + right. split; auto. cbn [hT farHit hNormal hLocal hMat]. fold far. rewrite (neqb_refl_pos _ _ far_pos). reflexivity.
  Qed.

  (** the whole tree *)
  Theorem treeIntersect_spec n r hits : hits_of (members n) r hits -> below_far hits -> boxes_ok n r ->
    exists h, oIntersect (treeOf n) r = Val (h, r) /\
      (nearest_hit hits h \/
       (no_hit hits /\ (h = noHit \/ (h = farHit /\ nleb (bbIntersect (nodeBox n) r) (nofZ 0) = false /\ exists bb l, n = Leaf bb l)))).
  Proof.
    intros HO BF OK. cbn [treeOf oIntersect]. unfold treeIntersect.
    destruct (nodeIntersect_spec r n hits HO BF OK) as (h & E & H).
    destruct (nleb (bbIntersect (nodeBox n) r) (nofZ 0)) eqn:L.
    - exists noHit. split; auto. right. split; auto. destruct H as [N|[N _]]; auto.
      exfalso. destruct (nearest_in _ _ N) as [I P].
      assert (exists o, In o (members n) /\ oIntersect o r = Val (h, r)) as (o & Io & Eo).
      { clear -HO I. induction HO; [destruct I|]. destruct I as [<-|I]; [exists x; cbn; auto|].
        destruct (IHHO I) as (o & ? & ?). exists o; cbn; auto. }
      assert (In n (nodes n)) as In' by (destruct n; cbn; auto).
      generalize (OK n In' o h r Io Eo P). intros G.
      assert (nltb (nofZ 0) (nofZ 0) = true) by (eapply nlt_le_trans; eauto). rewrite nltb_irrefl in *. discriminate.
    - exists h. split; auto. destruct H as [N|[N ->]]; auto. right. split; auto.
      destruct n; cbn [missAnswer]; auto. right. eauto.
  Qed.

  (** a leaf root whose box is crossed reports a hit at 9e99 on every miss *)
  Theorem leaf_phantom bb (l : list object) r hits : hits_of l r hits -> no_hit hits -> nleb (bbIntersect bb r) (nofZ 0) = false ->
    oIntersect (treeOf (Leaf bb l)) r = Val (farHit, r).
  Proof.
    intros HO NH L. cbn [treeOf oIntersect]. unfold treeIntersect. cbn [nodeBox nodeIntersect]. rewrite L.
    assert (below_far (nil ++ hits)) as BF by (intros h I P; exfalso; eapply NH; eauto).
    destruct (leafLoop_spec r l hits nil farHit HO BF) as (h & E & S).
    { right. split; auto. intros h []. }
    rewrite E. cbn [app] in S. destruct S as [N|[_ ->]]; auto. exfalso. apply nearest_in in N. destruct N. eapply NH; eauto.
  Qed.
  Theorem leaf_phantom_hit bb (l : list object) r hits : hits_of l r hits -> no_hit hits -> nleb (bbIntersect bb r) (nofZ 0) = false ->
    exists h, oIntersect (treeOf (Leaf bb l)) r = Val (h, r) /\ positive h.
  Proof. intros HO NH L. exists farHit. split; [eapply leaf_phantom; eauto|exact far_pos]. Qed.

  Lemma hits_of_in (os : list object) r hits o : hits_of os r hits -> In o os -> exists h, In h hits /\ oIntersect o r = Val (h, r).
  Proof.
    intros HO. induction HO; intros I; [destruct I|]. destruct I as [<-|I]; [exists y; cbn; auto|].
    destruct (IHHO I) as (h & ? & ?). exists h; cbn; auto.
  Qed.

  (** an inner root reports a miss *)
  Theorem inner_miss bb (n0 n1 : node F M) r hits : hits_of (members (Inner bb n0 n1)) r hits -> no_hit hits ->
    oIntersect (treeOf (Inner bb n0 n1)) r = Val (noHit, r).
  Proof.
    intros HO NH.
    assert (below_far hits) as BF by (intros h I P; exfalso; eapply NH; eauto).
    assert (forall m : node F M, In m (nodes (Inner bb n0 n1)) -> forall o, In o (members m) -> In o (members (Inner bb n0 n1))) as NM.
    { assert (forall n m : node F M, In m (nodes n) -> forall o, In o (members m) -> In o (members n)) as G; [|apply G].
      induction n as [b l|b a IHa c IHc]; cbn [nodes members]; intros m [<-|I] o Io; auto; [destruct I|].
      apply in_or_app. apply in_app_or in I. destruct I; [left; eapply IHa|right; eapply IHc]; eauto. }
    assert (boxes_ok (Inner bb n0 n1) r) as OK.
    { intros m Im o h r' Io E P. exfalso. destruct (hits_of_in _ _ _ o HO) as (h' & I' & E'); [eapply NM; eauto|].
      rewrite E' in E. injection E as -> ->. eapply NH; eauto. }
    destruct (treeIntersect_spec _ _ _ HO BF OK) as (h & E & [N|[_ [->|(-> & _ & bb' & l & D)]]]); auto; [|discriminate].
    exfalso. apply nearest_in in N. destruct N. eapply NH; eauto.
  Qed.
End Intersect.

(** ** Exact arithmetic: a tree shows exactly its members *)
Lemma far_pos_x : nltb (nofZ 0 : xr) (nofZ (9 * 10 ^ 99)) = true.
Proof. cbn [nltb nofZ NumX xltb]. apply Rltb_true. apply IZR_lt. reflexivity. Qed.
Lemma far_pos_b : nltb (nofZ 0 : b64) (nofZ (9 * 10 ^ 99)) = true.
Proof. vm_compute. reflexivity. Qed.
Lemma far_pos_R : nltb (nofZ 0 : R) (nofZ (9 * 10 ^ 99)) = true.
Proof. cbn [nltb nofZ NumR]. apply Rltb_true. apply IZR_lt. reflexivity. Qed.

Section Exact.
  Context {M : Type}.
  Local Open Scope R_scope.
  Notation object := (object xr M).
  Variable sortSlice : (object -> object -> bool) -> list object -> list object.
  Hypothesis SP : reorders sortSlice.
  Variables s d : pt.

  Lemma node_box_finite os n m : os <> nil -> buildTree (fun x => x) sortSlice (S (length os)) os = Val n ->
    (forall o, In o os -> well_boxed s d o) -> In m (nodes n) ->
    exists lo hi, nodeBox m = xbox lo hi /\ off_planes lo hi s /\
      forall o lo' hi', In o (members m) -> oBounds o = Val (xbox lo' hi') -> forall p, in_closed_box lo' hi' p -> in_closed_box lo hi p.
  Proof.
    intros Hne E HW Hm.
    destruct (buildTree_boxes (fun x => x) sortSlice SP _ os n Hne E (fun o b _ _ => ltac:(repeat split)) m Hm) as [W (X & Y & Z)].
    assert (forall (f : vec xr -> xr) (g : pt -> R) c, (forall v, f (xv v) = XF (g v)) ->
      (forall lo hi, off_planes lo hi s -> g s <> g lo /\ g s <> g hi) ->
      (exists o b, In o os /\ oBounds o = Val b /\ In c [f (bMin b); f (bMax b)]) -> exists r, c = XF r /\ g s <> r) as G.
    { intros f g c Hf Hg (o & b & Ho & Eb & Hc). destruct (HW o Ho) as (lo & hi & E' & _ & _ & OP).
      rewrite E' in Eb. injection Eb as <-. destruct (Hg _ _ OP). cbn [bMin bMax xbox] in Hc. rewrite !Hf in Hc.
      destruct Hc as [<-|[<-|[]]]; eauto. }
    destruct (nodeBox m) as [[a1 a2 a3] [b1 b2 b3]] eqn:EB. cbn [bMin bMax vx vy vz] in *.
    destruct (G vx vx a1) as (x0 & -> & Nx0); [reflexivity|unfold off_planes; tauto|apply X; cbn; tauto|].
    destruct (G vx vx b1) as (x1 & -> & Nx1); [reflexivity|unfold off_planes; tauto|apply X; cbn; tauto|].
    destruct (G vy vy a2) as (y0 & -> & Ny0); [reflexivity|unfold off_planes; tauto|apply Y; cbn; tauto|].
    destruct (G vy vy b2) as (y1 & -> & Ny1); [reflexivity|unfold off_planes; tauto|apply Y; cbn; tauto|].
    destruct (G vz vz a3) as (z0 & -> & Nz0); [reflexivity|unfold off_planes; tauto|apply Z; cbn; tauto|].
    destruct (G vz vz b3) as (z1 & -> & Nz1); [reflexivity|unfold off_planes; tauto|apply Z; cbn; tauto|].
    exists (Vec x0 y0 z0), (Vec x1 y1 z1). split; [reflexivity|]. split; [unfold off_planes; cbn; tauto|].
    intros o lo' hi' Ho Eo p (P1 & P2 & P3). destruct (W o _ Ho Eo) as (W1 & W2 & W3 & W4 & W5 & W6).
    cbn [bMin bMax xbox xv vx vy vz nleb NumX] in *.
    assert (forall a b, xleb (XF a) (XF b) = true -> a <= b) as LE.
    { intros a b. unfold xleb. cbn. destruct (Rltb_spec a b), (Reqb_spec a b); cbn; intros; try lra; discriminate. }
    apply LE in W1, W2, W3, W4, W5, W6. unfold in_closed_box. cbn [vx vy vz]. repeat split; lra.
  Qed.

  Theorem tree_exact os o' hits : os <> nil -> d <> zero3 -> (forall o, In o os -> well_boxed s d o) ->
    tree (fun x => x) sortSlice os = Val o' -> hits_of os (xray s d) hits ->
    (forall h, In h hits -> positive h -> nltb (hT h) (XF (IZR (9 * 10 ^ 99))) = true) ->
    exists h, oIntersect o' (xray s d) = Val (h, xray s d) /\
      ((In h hits /\ positive h /\ forall h', In h' hits -> positive h' -> nleb (hT h) (hT h') = true) \/
       (no_hit hits /\ (h = noHit \/ (h = farHit /\ (length os <= 7)%nat)))).
  Proof.
    intros Hne Hd HW HT HO BF. unfold tree in HT. apply omap_val in HT. destruct HT as (n & En & ->).
    destruct (buildTree_shape _ _ SP _ _ _ Hne En) as (P & LS & DP).
    destruct (Permutation_Forall2 (Permutation_sym P) HO) as (hits' & PH & HO').
    assert (boxes_ok n (xray s d)) as OK.
    { intros m Hm o h r' Ho Eo Ph.
      destruct (node_box_finite os n m Hne En HW Hm) as (lo & hi & -> & OP & IN).
      assert (In o os) as Io.
      { eapply Permutation_in; [exact P|]. clear -Hm Ho. revert Hm Ho. induction n as [bb l|bb a IHa b IHb]; intros Hm Ho; cbn [nodes] in Hm.
        - destruct Hm as [<-|[]]. exact Ho.
        - destruct Hm as [<-|Hm]; [exact Ho|]. cbn [members]. apply in_or_app. apply in_app_or in Hm. destruct Hm; auto. }
      destruct (HW o Io) as (lo' & hi' & Eb & OR & RB & _).
      destruct (RB h r' Eo Ph) as (t & Et & Ct).
      assert (in_closed_box lo hi (along s d t)) as Cn by (eapply IN; eauto).
      assert (ordered lo hi) as ON by (destruct Cn as ((? & ?) & (? & ?) & (? & ?)); unfold ordered; lra).
      apply (proj2 (bbIntersects_exact lo hi s d ON OP Hd)).
      exists t. split; auto. unfold positive in Ph. rewrite Et in Ph. cbn in Ph. now apply Rltb_true in Ph. }
    destruct (treeIntersect_spec far_pos_x n (xray s d) hits' HO') as (h & Eh & Hh); auto.
    { intros h I. apply BF. eapply Permutation_in; [apply Permutation_sym; exact PH|exact I]. }
    exists h. split; auto. destruct Hh as [N|[N D]].
    - left. destruct (nearest_in _ _ N) as [I Ps]. split; [eapply Permutation_in; [apply Permutation_sym; exact PH|exact I]|].
      split; auto. intros h' I' P'. eapply nearest_min; eauto. eapply Permutation_in; [exact PH|exact I'].
    - right. split; [intros x I; apply N; eapply Permutation_in; [exact PH|exact I]|].
      destruct D as [->|(-> & _ & bb & l & ->)]; auto. right. split; auto.
      destruct (LS bb l) as [_ L]; [cbn; auto|]. cbn [members] in P. rewrite <- (Permutation_length P). exact L.
  Qed.
End Exact.
