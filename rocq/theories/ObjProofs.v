(** * Proofs about objects that hold for every number type *)
From Coq Require Import ZArith Reals Bool List Lia Permutation.
From Verif Require Import Num NumLaws Outcome GeomModel GeomSpec ObjModel TreeModel ObjSpec.
Import ListNotations.

Lemma obind_val {A B} (x : outcome A) (f : A -> outcome B) b :
  obind x f = Val b -> exists a, x = Val a /\ f a = Val b.
Proof. destruct x; cbn; intros; try discriminate; eauto. Qed.
Lemma omap_val {A B} (f : A -> B) (x : outcome A) b :
  omap f x = Val b -> exists a, x = Val a /\ b = f a.
Proof. destruct x; cbn; intros; try discriminate. injection H as <-; eauto. Qed.

Ltac oinv :=
  repeat match goal with
  | H : obind ?x ?f = Val ?b |- _ => apply obind_val in H; destruct H as (? & ? & H)
  | H : omap ?f ?x = Val ?b |- _ => apply omap_val in H; destruct H as (? & ? & H)
  | H : Val _ = Val _ |- _ => injection H; clear H; intros
  | H : Panic = Val _ |- _ => discriminate H
  | H : NoFuel = Val _ |- _ => discriminate H
  | H : (let '(_, _) := ?p in _) = _ |- _ => destruct p
  end.

(** ** C24: the ray is restored *)
Section Preserve.
  Context {F : Type} `{NF : Num F} `{NI : NumInf F} {M : Type}.
  Notation object := (object F M).

  Definition preserves (o : object) : Prop :=
    forall r h r', oIntersect o r = Val (h, r') -> r' = r.

  Lemma simple_preserves isect ins bounds : preserves (simpleObj isect ins bounds).
  Proof. intros r h r' H. cbn in H. oinv. congruence. Qed.

  Lemma marchLoop_dir keep a b : preserves a -> forall ttl mx off h r h' r',
    marchLoop keep a b ttl mx off h r = Val (h', r') -> rDir r' = rDir r.
  Proof.
    intros Pa. induction ttl as [|n IH]; intros mx off h r h' r' H; cbn in H.
    - congruence.
    - destruct (_ && _)%bool in H.
      + oinv. destruct (keep _) in H.
        * congruence.
        * oinv. apply IH in H.
          match goal with E : oIntersect a _ = _ |- _ => apply Pa in E; subst end. exact H.
      + congruence.
  Qed.

  Lemma march_preserves keep a b : preserves a -> forall r mx h r',
    march keep a b r mx = Val (h, r') -> r' = r.
  Proof.
    intros Pa r mx h r' H. unfold march in H.
    apply obind_val in H. destruct H as ([h1 r1] & E1 & H). apply Pa in E1. subst r1.
    apply omap_val in H. destruct H as ([h2 r2] & E2 & H). apply marchLoop_dir in E2; auto.
    destruct r as [s d]; cbn in *. congruence.
  Qed.

  Lemma marchBoth_preserves keep a b : preserves a -> preserves b -> forall r h r',
    marchBoth keep a b r = Val (h, r') -> r' = r.
  Proof.
    intros Pa Pb r h r' H. unfold marchBoth in H.
    apply obind_val in H. destruct H as ([h1 r1] & E1 & H). apply march_preserves in E1; auto. subst r1.
    apply omap_val in H. destruct H as ([h2 r2] & E2 & H). apply march_preserves in E2; auto. subst r2.
    congruence.
  Qed.

  Lemma and_preserves a b : preserves a -> preserves b -> preserves (cAnd a b).
  Proof. intros Pa Pb r h r'. apply marchBoth_preserves; auto. Qed.
  Lemma or_preserves a b : preserves a -> preserves b -> preserves (cOr a b).
  Proof. intros Pa Pb r h r'. apply marchBoth_preserves; auto. Qed.
  Lemma restrict_preserves a b : preserves a -> preserves (cRestrict a b).
  Proof. intros Pa r h r'. apply march_preserves; auto. Qed.

  Lemma omap_preserves (o : object) (f : hit F M * ray F -> hit F M * ray F) ins bounds tr :
    (forall h r, snd (f (h, r)) = r) -> preserves o ->
    preserves (Obj (fun r => omap f (oIntersect o r)) ins bounds tr).
  Proof.
    intros Hf Po r h r' H. cbn in H. apply omap_val in H. destruct H as ([h1 r1] & E1 & H).
    apply Po in E1. subst r1. generalize (Hf h1 r). rewrite <- H. auto.
  Qed.

  Lemma not_preserves a : preserves a -> preserves (cNot a).
  Proof. intros Pa. apply omap_preserves; auto. Qed.
  Lemma hollow_preserves a : preserves a -> preserves (cHollow a).
  Proof. intros Pa r h r'. apply Pa. Qed.
  Lemma remap_preserves a f : preserves a -> preserves (remap a f).
  Proof. intros Pa. apply omap_preserves; auto. Qed.
  Lemma withMaterial_preserves m a : preserves a -> preserves (withMaterial m a).
  Proof. intros Pa. apply omap_preserves; auto. Qed.
  Lemma bounded_preserves a o : preserves a -> bounded a = Val o -> preserves o.
  Proof.
    intros Pa H. unfold bounded in H. apply omap_val in H. destruct H as (b & _ & ->).
    intros r h r'; cbn. destruct (bbIntersects b r); [apply Pa|congruence].
  Qed.
  Lemma transformedWith_preserves a t b : preserves (transformedWith a t b).
  Proof.
    intros r h r' H. cbn in H. destruct (bbIntersects b r); [|congruence].
    apply omap_val in H. destruct H as ([h1 r1] & _ & H). congruence.
  Qed.

  (** the shape of a transformed object: the base object is untransformed *)
  Lemma transformed_shape : forall (o : object) t o', transformed o t = Val o' ->
    exists base t' b, o' = transformedWith base t' b.
  Proof.
    fix IH 1. intros [isect ins bnd tr] t o' H. destruct tr as [[fwd orig]|]; cbn in H.
    - exact (IH orig _ _ H).
    - apply obind_val in H. destruct H as (b & _ & H). apply omap_val in H. destruct H as (b' & _ & ->). eauto.
  Qed.

  Lemma transformed_preserves a t o : transformed a t = Val o -> preserves o.
  Proof. intros H. destruct (transformed_shape _ _ _ H) as (base & t' & b & ->). apply transformedWith_preserves. Qed.

  (** *** trees *)
  Lemma leafLoop_preserves os : (forall o, In o os -> preserves o) -> forall front r h r',
    leafLoop os front r = Val (h, r') -> r' = r.
  Proof.
    induction os as [|o os IH]; intros P front r h r' H; cbn in H.
    - congruence.
    - apply obind_val in H. destruct H as ([h1 r1] & E1 & H).
      apply (P o) in E1; [|now left]. subst r1. eapply IH; [|exact H]. intros; apply P; now right.
  Qed.

  Lemma nodeIntersect_preserves n : (forall o, In o (members n) -> preserves o) -> forall r h r',
    nodeIntersect n r = Val (h, r') -> r' = r.
  Proof.
    induction n as [bb l|bb a IHa b IHb]; intros P r h r' H.
    - cbn in H. eapply leafLoop_preserves; [exact P|exact H].
    - cbn [nodeIntersect] in H.
      apply obind_val in H. destruct H as ([h1 r1] & E1 & H).
      apply obind_val in H. destruct H as ([h2 r2] & E2 & H).
      assert (r1 = r) as ->.
      { destruct (nltb _ _) in E1; [|congruence].
        apply omap_val in E1. destruct E1 as ([h3 r3] & E3 & E1). injection E1 as _ ->.
        eapply IHa; [|exact E3]. intros; apply P; cbn; apply in_or_app; now left. }
      assert (r2 = r) as ->.
      { destruct (nltb _ _) in E2; [|congruence].
        apply omap_val in E2. destruct E2 as ([h3 r3] & E3 & E2). injection E2 as _ ->.
        eapply IHb; [|exact E3]. intros; apply P; cbn; apply in_or_app; now right. }
      congruence.
  Qed.

  Lemma treeOf_preserves n : (forall o, In o (members n) -> preserves o) -> preserves (treeOf n).
  Proof.
    intros P r h r' H. cbn in H. unfold treeIntersect in H. destruct (nleb _ _) in H.
    - congruence.
    - eapply nodeIntersect_preserves; eauto.
  Qed.

  Variable to32 : F -> F.
  Variable sortSlice : (object -> object -> bool) -> list object -> list object.
  Hypothesis SP : reorders sortSlice.

  Lemma buildTree_members : forall fuel ch n, buildTree to32 sortSlice fuel ch = Val n -> Permutation (members n) ch.
  Proof.
    induction fuel as [|fuel IH]; intros ch n H; cbn [buildTree] in H; [discriminate|].
    destruct (length ch <=? maxFacePerLeaf)%nat.
    - apply omap_val in H. destruct H as (bb & _ & ->). apply Permutation_refl.
    - apply obind_val in H. destruct H as (bb & _ & H). cbv zeta in H.
      apply obind_val in H. destruct H as (l & El & H).
      apply omap_val in H. destruct H as (r & Er & ->). cbn [members].
      apply IH in El. apply IH in Er.
      eapply Permutation_trans; [apply Permutation_app; [exact El|exact Er]|].
      rewrite firstn_skipn. apply SP.
  Qed.

  Lemma tree_shape os o : tree to32 sortSlice os = Val o -> exists n, o = treeOf n /\ Permutation (members n) os.
  Proof.
    intros H. unfold tree in H. apply omap_val in H. destruct H as (n & E & ->).
    exists n. split; auto. eapply buildTree_members; eauto.
  Qed.

  Lemma tree_preserves os o : (forall a, In a os -> preserves a) -> tree to32 sortSlice os = Val o -> preserves o.
  Proof.
    intros P H. destruct (tree_shape _ _ H) as (n & -> & E). apply treeOf_preserves.
    intros a Ha. apply P. eapply Permutation_in; eauto.
  Qed.

  Lemma facesOf_faces fs : forall vs os, facesOf fs vs = Val os ->
    forall o, In o os -> exists a b c, o = face (M := M) a b c.
  Proof.
    induction fs as [|[[i j] k] fs IH]; intros vs os H o Ho; cbn in H.
    - injection H as <-. destruct Ho.
    - apply obind_val in H. destruct H as (a & _ & H).
      apply obind_val in H. destruct H as (b & _ & H).
      apply obind_val in H. destruct H as (c & _ & H).
      apply omap_val in H. destruct H as (rest & E & ->).
      destruct Ho as [<-|Ho]; [eauto|]. eapply IH; eauto.
  Qed.

  Lemma mesh_preserves m fs vs o : mesh to32 sortSlice m fs vs = Val o -> preserves o.
  Proof.
    intros H. unfold mesh in H. apply obind_val in H. destruct H as (vs' & _ & H).
    apply obind_val in H. destruct H as (os & Eo & H). apply omap_val in H. destruct H as (t & Et & ->).
    apply withMaterial_preserves. eapply tree_preserves; [|exact Et].
    intros a Ha. destruct (facesOf_faces _ _ _ Eo a Ha) as (x & y & z & ->). apply simple_preserves.
  Qed.

  Theorem built_preserves o : built to32 sortSlice o -> preserves o.
  Proof.
    induction 1; try apply simple_preserves.
    - now apply and_preserves.
    - now apply or_preserves.
    - now apply restrict_preserves.
    - now apply not_preserves.
    - now apply hollow_preserves.
    - eapply bounded_preserves; eauto.
    - now apply remap_preserves.
    - now apply withMaterial_preserves.
    - eapply transformed_preserves; eauto.
    - eapply tree_preserves; eauto.
    - eapply mesh_preserves; eauto.
    - unfold parametric in H. apply obind_val in H. destruct H as ([vs fs] & _ & H).
      apply obind_val in H. destruct H as (fs' & _ & H). eapply mesh_preserves; eauto.
  Qed.
End Preserve.

(** ** C31: solids *)
Section SolidProofs.
  Context {F : Type} `{NF : Num F} `{NI : NumInf F} {M : Type}.

  Lemma solid_inside (s : solid F M) p : answers s p ->
    exists b, oInside (objectOf s) p = Val b /\ (b = true <-> pointset s p).
  Proof.
    induction s; cbn [answers objectOf pointset]; intros A.
    - destruct A as (b & E). exists b. split; auto. rewrite E. split; congruence.
    - destruct A as [A1 A2]. destruct (IHs1 A1) as (x & E1 & H1), (IHs2 A2) as (y & E2 & H2).
      exists (x && y)%bool. cbn. rewrite E1. cbn. split; [destruct x; auto|].
      rewrite andb_true_iff. tauto.
    - destruct A as [A1 A2]. destruct (IHs1 A1) as (x & E1 & H1), (IHs2 A2) as (y & E2 & H2).
      exists (x || y)%bool. cbn. rewrite E1. cbn. split; [destruct x; auto|].
      rewrite orb_true_iff. tauto.
    - destruct (IHs A) as (x & E & H). exists (negb x). cbn. rewrite E. split; auto.
      rewrite negb_true_iff. rewrite <- H. destruct x; split; congruence.
    - destruct A as [A1 A2]. destruct (IHs1 A1) as (x & E1 & H1), (IHs2 A2) as (y & E2 & H2).
      exists (x && negb y)%bool. cbn. rewrite E1, E2. cbn. split; [destruct x; auto|].
      rewrite andb_true_iff, negb_true_iff, H1. rewrite <- H2. destruct y; intuition congruence.
    - destruct A as [A1 A2]. destruct (IHs1 A1) as (x & E1 & H1), (IHs2 A2) as (y & E2 & H2).
      exists (x && y)%bool. cbn. rewrite E1. cbn. split; [destruct x; auto|].
      rewrite andb_true_iff. tauto.
    - exists false. split; auto. split; [congruence|tauto].
  Qed.

  (** two expressions with the same meaning as point sets have the same Inside *)
  Lemma solid_same_inside (s s' : solid F M) p : answers s p -> answers s' p ->
    (pointset s p <-> pointset s' p) -> oInside (objectOf s) p = oInside (objectOf s') p.
  Proof.
    intros A A' H. destruct (solid_inside s p A) as (b & E & Hb), (solid_inside s' p A') as (b' & E' & Hb').
    rewrite E, E'. f_equal. destruct b, b'; auto; exfalso; intuition congruence.
  Qed.

  Lemma leafInside_spec os p (b : object F M -> bool) : (forall o, In o os -> oInside o p = Val (b o)) ->
    leafInside os p = Val (existsb b os).
  Proof.
    induction os as [|o os IH]; intros H; cbn; auto.
    rewrite (H o (or_introl eq_refl)). cbn. destruct (b o); auto. apply IH. intros; apply H; now right.
  Qed.
  Lemma nodeInside_spec n p (b : object F M -> bool) : (forall o, In o (members n) -> oInside o p = Val (b o)) ->
    nodeInside n p = Val (existsb b (members n)).
  Proof.
    induction n as [bb l|bb x IHx y IHy]; intros H; cbn [nodeInside members].
    - now apply leafInside_spec.
    - rewrite IHx, IHy by (intros; apply H; cbn; apply in_or_app; auto). cbn.
      rewrite existsb_app. destruct (existsb b (members x)); auto.
  Qed.
  Lemma tree_inside to32 sortSlice (os : list (object F M)) o p (b : object F M -> bool) :
    reorders sortSlice -> tree to32 sortSlice os = Val o ->
    (forall a, In a os -> oInside a p = Val (b a)) -> oInside o p = Val (existsb b os).
  Proof.
    intros SP H Hb. destruct (tree_shape _ _ SP _ _ H) as (n & -> & E). cbn.
    rewrite (nodeInside_spec n p b).
    - f_equal. apply eq_true_iff_eq. rewrite !existsb_exists.
      split; intros (x & Hx & Ex); exists x; split; auto.
      + eapply Permutation_in; eauto.
      + eapply Permutation_in; [apply Permutation_sym; eauto|auto].
    - intros a Ha. apply Hb. eapply Permutation_in; eauto.
  Qed.
End SolidProofs.

(** ** C27: bounding boxes of point lists *)
Section Hull.
  Context {F : Type} `{NF : Num F} {K : NumKey F}.

  (** the running minimum of a list *)
  Definition lmin (l : list F) (m : F) : F := fold_left (fun m v => minStep v m) l m.
  Definition lmax (l : list F) (m : F) : F := fold_left (fun m v => maxStep v m) l m.

  Lemma hullLoop_spec : forall l mn mx,
    hullLoop l mn mx = (if existsb vnan l then Panic else
      Val (Vec (lmin (map vx l) (vx mn)) (lmin (map vy l) (vy mn)) (lmin (map vz l) (vz mn)),
           Vec (lmax (map vx l) (vx mx)) (lmax (map vy l) (vy mx)) (lmax (map vz l) (vz mx)))).
  Proof.
    induction l as [|v l IH]; intros mn mx; cbn [hullLoop].
    - destruct mn, mx; reflexivity.
    - unfold checkNaNVec. cbn [existsb]. change (nisnan (vx v) || nisnan (vy v) || nisnan (vz v))%bool with (vnan v).
      destruct (vnan v); cbn [obind orb]; [reflexivity|]. rewrite IH. reflexivity.
  Qed.

  Lemma lmin_spec : forall l m, nisnan m = false -> (forall x, In x l -> nisnan x = false) ->
    (lmin l m = m \/ In (lmin l m) l) /\ nleb (lmin l m) m = true /\ forall x, In x l -> nleb (lmin l m) x = true.
  Proof.
    induction l as [|v l IH]; intros m Hm Hl; cbn [lmin fold_left].
    - split; auto. split; [now apply nleb_refl|intros x []].
    - assert (nisnan v = false) as Hv by (apply Hl; now left).
      unfold minStep at 2 4 6 8. fold (lmin l (if nltb v m then v else m)).
      destruct (nltb v m) eqn:E.
      + destruct (IH v Hv) as (A & B & C); [intros; apply Hl; now right|].
        split; [right; destruct A as [->|A]; [now left|now right]|]. split.
        * eapply nleb_trans; [exact B|now apply nltb_leb].
        * intros x [<-|Hx]; auto.
      + destruct (IH m Hm) as (A & B & C); [intros; apply Hl; now right|].
        split; [destruct A as [A|A]; [now left|right; now right]|]. split; [exact B|].
        intros x [<-|Hx]; auto. eapply nleb_trans; [exact B|]. now apply nltb_false_leb.
  Qed.
  Lemma lmax_spec : forall l m, nisnan m = false -> (forall x, In x l -> nisnan x = false) ->
    (lmax l m = m \/ In (lmax l m) l) /\ nleb m (lmax l m) = true /\ forall x, In x l -> nleb x (lmax l m) = true.
  Proof.
    induction l as [|v l IH]; intros m Hm Hl; cbn [lmax fold_left].
    - split; auto. split; [now apply nleb_refl|intros x []].
    - assert (nisnan v = false) as Hv by (apply Hl; now left).
      unfold maxStep at 2 4 6 8. fold (lmax l (if nltb m v then v else m)).
      destruct (nltb m v) eqn:E.
      + destruct (IH v Hv) as (A & B & C); [intros; apply Hl; now right|].
        split; [right; destruct A as [->|A]; [now left|now right]|]. split.
        * eapply nleb_trans; [apply nltb_leb; exact E|exact B].
        * intros x [<-|Hx]; auto.
      + destruct (IH m Hm) as (A & B & C); [intros; apply Hl; now right|].
        split; [destruct A as [A|A]; [now left|right; now right]|]. split; [exact B|].
        intros x [<-|Hx]; auto. eapply nleb_trans; [|exact B]. apply nltb_false_leb; auto.
  Qed.

  Lemma lext_in (f : vec F -> F) (ext : list F -> F -> F) h rest :
    (ext (map f (h :: rest)) (f h) = f h \/ In (ext (map f (h :: rest)) (f h)) (map f (h :: rest))) ->
    exists p, In p (h :: rest) /\ f p = ext (map f (h :: rest)) (f h).
  Proof.
    intros [E|E].
    - exists h. split; [now left|auto].
    - apply in_map_iff in E. destruct E as (p & E & Hp). exists p. auto.
  Qed.

  Theorem boundingBoxFromHull_spec (hull : list (vec F)) : hull <> nil ->
    (existsb vnan hull = true /\ boundingBoxFromHull hull = Panic) \/
    (existsb vnan hull = false /\ exists b, boundingBoxFromHull hull = Val b /\ hull_box_ok hull b).
  Proof.
    intros Hne. destruct hull as [|h rest]; [congruence|]. unfold boundingBoxFromHull.
    rewrite hullLoop_spec. destruct (existsb vnan (h :: rest)) eqn:E; [left; auto|right]. split; auto.
    assert (forall p, In p (h :: rest) -> vnan p = false) as N.
    { intros p Hp. destruct (vnan p) eqn:E'; auto. exfalso.
      assert (existsb vnan (h :: rest) = true) by (apply existsb_exists; eauto). congruence. }
    assert (forall p, In p (h :: rest) -> nisnan (vx p) = false /\ nisnan (vy p) = false /\ nisnan (vz p) = false) as N3.
    { intros p Hp. apply N in Hp. unfold vnan in Hp. rewrite !orb_false_iff in Hp. tauto. }
    assert (forall f : vec F -> F, (forall p, In p (h :: rest) -> nisnan (f p) = false) ->
      forall x, In x (map f (h :: rest)) -> nisnan x = false) as NM.
    { intros f Hf x Hx. apply in_map_iff in Hx. destruct Hx as (p & <- & Hp). auto. }
    assert (In h (h :: rest)) as Hh by now left.
    assert (forall p, In p (h :: rest) -> nisnan (vx p) = false) as Nx by (intros; now apply N3).
    assert (forall p, In p (h :: rest) -> nisnan (vy p) = false) as Ny by (intros; now apply N3).
    assert (forall p, In p (h :: rest) -> nisnan (vz p) = false) as Nz by (intros; now apply N3).
    destruct (lmin_spec (map vx (h :: rest)) (vx h) (Nx h Hh) (NM vx Nx)) as (A1 & _ & B1).
    destruct (lmin_spec (map vy (h :: rest)) (vy h) (Ny h Hh) (NM vy Ny)) as (A2 & _ & B2).
    destruct (lmin_spec (map vz (h :: rest)) (vz h) (Nz h Hh) (NM vz Nz)) as (A3 & _ & B3).
    destruct (lmax_spec (map vx (h :: rest)) (vx h) (Nx h Hh) (NM vx Nx)) as (A4 & _ & B4).
    destruct (lmax_spec (map vy (h :: rest)) (vy h) (Ny h Hh) (NM vy Ny)) as (A5 & _ & B5).
    destruct (lmax_spec (map vz (h :: rest)) (vz h) (Nz h Hh) (NM vz Nz)) as (A6 & _ & B6).
    apply (lext_in vx lmin) in A1. apply (lext_in vy lmin) in A2. apply (lext_in vz lmin) in A3.
    apply (lext_in vx lmax) in A4. apply (lext_in vy lmax) in A5. apply (lext_in vz lmax) in A6.
    remember (h :: rest) as hull eqn:Hhull.
    cbn [obind]. unfold checkNaNVec; cbn [vx vy vz].
    destruct A1 as (p1 & I1 & E1), A2 as (p2 & I2 & E2), A3 as (p3 & I3 & E3),
             A4 as (p4 & I4 & E4), A5 as (p5 & I5 & E5), A6 as (p6 & I6 & E6).
    rewrite <- E1, <- E2, <- E3, <- E4, <- E5, <- E6.
    rewrite (Nx p1 I1), (Ny p2 I2), (Nz p3 I3), (Nx p4 I4), (Ny p5 I5), (Nz p6 I6). cbn [orb obind].
    eexists. split; [reflexivity|]. unfold hull_box_ok. cbn [bMin bMax vx vy vz].
    split.
    - intros p Hp. rewrite E1, E2, E3, E4, E5, E6.
      assert (In (vx p) (map vx hull)) by now apply in_map.
      assert (In (vy p) (map vy hull)) by now apply in_map.
      assert (In (vz p) (map vz hull)) by now apply in_map. auto 10.
    - repeat split; eauto.
  Qed.
End Hull.
