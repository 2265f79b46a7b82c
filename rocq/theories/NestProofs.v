(** * Trees whose members are themselves trees: the phantom hits of small trees do no harm inside a larger one *)
From Coq Require Import ZArith Reals Bool List Permutation Lra Lia.
From Verif Require Import Num NumLaws Outcome GeomModel GeomSpec GeomProofs ObjModel TreeModel ObjSpec ObjProofs BoxProofs TreeProofs MeshSpec LoadSpec.
Import ListNotations.

Section Near.
  Context {F : Type} {NF : Num F} {NK : NumKey F} {M : Type}.
  Notation object := (object F M).
  Notation hit := (hit F M).
  Notation far := (nofZ (9 * 10 ^ 99) : F).
  Hypothesis far_pos : nltb (nofZ 0) far = true.

  Definition nearHit (h : hit) : hit := if (nltb (nofZ 0) (hT h) && nltb (hT h) far)%bool then h else noHit.
  Definition nearObj (o : object) : object :=
    Obj (fun r => omap (fun '(h, r') => (nearHit h, r')) (oIntersect o r)) (oInside o) (oBounds o) (oTransf o).
  Fixpoint nearNode (n : node F M) : node F M :=
    match n with Leaf bb l => Leaf bb (map nearObj l) | Inner bb a b => Inner bb (nearNode a) (nearNode b) end.

  Lemma nearNode_box n : nodeBox (nearNode n) = nodeBox n.
  Proof. destruct n; reflexivity. Qed.
  Lemma nearNode_members n : members (nearNode n) = map nearObj (members n).
  Proof. induction n as [bb l|bb a IHa b IHb]; cbn [nearNode members]; [ reflexivity | ]. now rewrite map_app, IHa, IHb. Qed.
  Lemma nearNode_nodes n m' : In m' (nodes (nearNode n)) -> exists m, In m (nodes n) /\ m' = nearNode m.
  Proof.
    induction n as [bb l|bb a IHa b IHb]; cbn [nearNode nodes].
    - intros [<- | []]. exists (Leaf bb l). cbn; auto.
    - intros [<- | I]; [ exists (Inner bb a b); cbn; auto | ]. apply in_app_or in I. destruct I as [I | I].
      + destruct (IHa I) as (m & Im & ->). exists m. cbn [In]. split; [ right; apply in_or_app; auto | reflexivity ].
      + destruct (IHb I) as (m & Im & ->). exists m. cbn [In]. split; [ right; apply in_or_app; auto | reflexivity ].
  Qed.

  Lemma nearHit_positive h : positive (nearHit h) -> nearHit h = h /\ positive h /\ nltb (hT h) far = true.
  Proof.
    unfold nearHit, positive. destruct (nltb (nofZ 0) (hT h)) eqn:E1, (nltb (hT h) far) eqn:E2; cbn [andb noHit hT]; auto;
      rewrite nltb_irrefl; discriminate.
  Qed.

  Lemma leafLoop_near r : forall l front, nleb (hT front) far = true ->
    leafLoop (map nearObj l) front r = leafLoop l front r.
  Proof.
    revert r. intros r l. revert r. induction l as [|o l IH]; intros r front Hf; [ reflexivity | ].
    cbn [map leafLoop nearObj oIntersect]. destruct (oIntersect o r) as [[frag r']| |]; cbn [omap obind]; [ | reflexivity | reflexivity ].
    assert (E : (if (nltb (nofZ 0) (hT (nearHit frag)) && nltb (hT (nearHit frag)) (hT front))%bool then nearHit frag else front) =
                (if (nltb (nofZ 0) (hT frag) && nltb (hT frag) (hT front))%bool then frag else front)).
    { unfold nearHit. destruct (nltb (nofZ 0) (hT frag)) eqn:E1; cbn [andb].
      - destruct (nltb (hT frag) far) eqn:E2; [ now rewrite E1 | ]. cbn [noHit hT]. rewrite nltb_irrefl. cbn [andb].
        destruct (nltb (hT frag) (hT front)) eqn:E3; [ | reflexivity ]. rewrite (nlt_le_trans _ _ _ E3 Hf) in E2. discriminate.
      - cbn [noHit hT]. now rewrite nltb_irrefl. }
    rewrite E. apply IH. destruct (nltb (nofZ 0) (hT frag) && nltb (hT frag) (hT front))%bool eqn:E4; [ | exact Hf ].
    apply andb_true_iff in E4. apply nltb_leb. eapply nlt_le_trans; [ apply E4 | exact Hf ].
  Qed.
  Lemma far_le_far : nleb far far = true.
  Proof. apply nleb_refl. destruct (nisnan far) eqn:E; [ | reflexivity ]. exfalso.
    generalize far_pos. rewrite nltb_nan_r by exact E. discriminate. Qed.

  Lemma nodeIntersect_near n : forall r, nodeIntersect (nearNode n) r = nodeIntersect n r.
  Proof.
    induction n as [bb l|bb a IHa b IHb]; intros r; cbn [nearNode nodeIntersect].
    - apply leafLoop_near. cbn [farHit hT]. apply far_le_far.
    - cbv zeta. rewrite !nearNode_box, IHa.
      match goal with |- obind ?x _ = obind ?x _ => destruct x as [[front r1]| |]; [ | reflexivity | reflexivity ] end.
      cbn [obind]. now rewrite IHb.
  Qed.

  Definition near_boxes_ok (n : node F M) (r : ray F) : Prop :=
    forall m, In m (nodes n) -> forall o h r', In o (members m) -> oIntersect o r = Val (h, r') -> positive h ->
      nltb (hT h) far = true -> nltb (nofZ 0) (bbIntersect (nodeBox m) r) = true.

  Theorem treeIntersect_near n r hits : hits_of (members n) r hits -> near_boxes_ok n r ->
    exists h, oIntersect (treeOf n) r = Val (h, r) /\
      ((In h hits /\ positive h /\ nltb (hT h) far = true /\ forall h', In h' hits -> positive h' -> nleb (hT h) (hT h') = true) \/
       ((forall h', In h' hits -> positive h' -> nltb (hT h') far = false) /\
        (h = noHit \/ (h = farHit /\ nleb (bbIntersect (nodeBox n) r) (nofZ 0) = false /\ exists bb l, n = Leaf bb l)))).
  Proof.
    intros HO OK.
    assert (HO' : hits_of (members (nearNode n)) r (map nearHit hits)).
    { rewrite nearNode_members. unfold hits_of in *. clear OK. induction HO as [|o h os hs E _ IH]; cbn [map]; constructor; [ | exact IH ].
      cbn [nearObj oIntersect]. rewrite E. reflexivity. }
    destruct (treeIntersect_spec far_pos (nearNode n) r (map nearHit hits) HO') as (h & E & H).
    - intros h I P. apply in_map_iff in I. destruct I as (h0 & <- & I). destruct (nearHit_positive _ P) as (-> & _ & L). exact L.
    - intros m' Im o' h r' Io Eo P. destruct (nearNode_nodes _ _ Im) as (m & Im0 & ->). rewrite nearNode_members in Io.
      apply in_map_iff in Io. destruct Io as (o & <- & Io). cbn [nearObj oIntersect] in Eo.
      destruct (oIntersect o r) as [[h0 r0]| |] eqn:E0; cbn [omap] in Eo; try discriminate. injection Eo as <- <-.
      destruct (nearHit_positive _ P) as (_ & P0 & L). rewrite nearNode_box. eapply OK; eauto.
    - exists h. split.
      { rewrite <- E. cbn [treeOf oIntersect]. unfold treeIntersect. now rewrite nearNode_box, nodeIntersect_near. }
      destruct H as [N|[N D]].
      + left. destruct (nearest_in _ _ N) as [I P]. apply in_map_iff in I. destruct I as (h0 & Eh & I). subst h.
        pose proof (nearHit_positive _ P) as (Eh & P0 & L). rewrite Eh in *. repeat split; auto.
        intros h' I' P'. destruct (nltb (hT h') far) eqn:L'.
        * assert (E' : nearHit h' = h') by (unfold nearHit; unfold positive in P'; now rewrite P', L').
          rewrite <- E'. eapply nearest_min; [ exact N | now apply in_map | now rewrite E' ].
        * apply nltb_leb. eapply nlt_le_trans; [ exact L | ]. apply nltb_false_leb; [ | | exact L' ].
          -- now apply positive_nan.
          -- destruct (nisnan far) eqn:En; [ | reflexivity ]. generalize far_le_far. rewrite nleb_nan_l by exact En. discriminate.
      + right. split.
        * intros h' I' P'. destruct (nltb (hT h') far) eqn:L'; [ | reflexivity ]. exfalso. apply (N (nearHit h')); [ now apply in_map | ].
          unfold nearHit. unfold positive in *. now rewrite P', L'.
        * destruct D as [-> | (-> & L & bb & l & El)]; [ now left | right ]. rewrite nearNode_box in L. repeat split; auto.
          destruct n; [ eauto | discriminate ].
  Qed.
End Near.

Section Exact_near.
  Context {M : Type}.
  Local Open Scope R_scope.
  Notation object := (object xr M).
  Variable sortSlice : (object -> object -> bool) -> list object -> list object.
  Hypothesis SP : reorders sortSlice.
  Variables s d : pt.

  Lemma nodes_members (n m : node xr M) o : In m (nodes n) -> In o (members m) -> In o (members n).
  Proof.
    induction n as [bb l|bb a IHa b IHb]; intros Hm Ho; cbn [nodes] in Hm.
    - destruct Hm as [<-|[]]. exact Ho.
    - destruct Hm as [<-|Hm]; [exact Ho|]. cbn [members]. apply in_or_app. apply in_app_or in Hm. destruct Hm; auto.
  Qed.

  Lemma hits_in_of (os : list object) r hits : hits_of os r hits -> forall h, In h hits -> exists o, In o os /\ oIntersect o r = Val (h, r).
  Proof.
    intros HO h I. induction HO as [|o h' os hs E _ IH]; [destruct I|]. destruct I as [<-|I]; [exists o; cbn; auto|].
    destruct (IH I) as (o' & ? & ?). exists o'; cbn; auto.
  Qed.
  Lemma Rltb_irrefl x : Rltb x x = false.
  Proof. destruct (Rltb_spec x x); [lra|reflexivity]. Qed.

  Lemma near_node_box os n m : os <> nil -> buildTree (fun x => x) sortSlice (S (length os)) os = Val n ->
    (forall o, In o os -> near_boxed s d o) -> In m (nodes n) ->
    exists lo hi, nodeBox m = xbox lo hi /\ off_planes lo hi s /\
      forall o lo' hi', In o (members m) -> oBounds o = Val (xbox lo' hi') -> forall p, in_closed_box lo' hi' p -> in_closed_box lo hi p.
  Proof.
    intros Hne E HW Hm.
    destruct (buildTree_boxes (fun x => x) sortSlice SP _ os n Hne E (fun o b _ _ => ltac:(repeat split)) m Hm) as [W (X & Y & Z)].
    assert (forall (f : vec xr -> xr) (g : pt -> R) c, (forall v, f (xv v) = XF (g v)) ->
      (forall lo hi, off_planes lo hi s -> g s <> g lo /\ g s <> g hi) ->
      (exists o b, In o os /\ oBounds o = Val b /\ In c [f (bMin b); f (bMax b)]) -> exists r, c = XF r /\ g s <> r) as G.
    { intros f g c Hf Hg (o & b & Ho & Eb & Hc). destruct (HW o Ho) as (lo & hi & E' & _ & OP & _).
      rewrite E' in Eb. injection Eb as <-. destruct (Hg _ _ OP). cbn [bMin bMax xbox] in Hc. rewrite !Hf in Hc.
      destruct Hc as [<-|[<-|[]]]; eauto. }
    destruct (nodeBox m) as [[a1 a2 a3] [b1 b2 b3]] eqn:EB. cbn [bMin bMax vx vy vz] in *.
    destruct (G vx vx a1) as (x0 & -> & Nx0); [reflexivity|unfold off_planes; tauto|apply X; cbn; tauto|].
    destruct (G vx vx b1) as (x1 & -> & Nx1); [reflexivity|unfold off_planes; tauto|apply X; cbn; tauto|].
    destruct (G vy vy a2) as (y0 & -> & Ny0); [reflexivity|unfold off_planes; tauto|apply Y; cbn; tauto|].
    destruct (G vy vy b2) as (y1 & -> & Ny1); [reflexivity|unfold off_planes; tauto|apply Y; cbn; tauto|].
    destruct (G vz vz a3) as (z0 & -> & Nz0); [reflexivity|unfold off_planes; tauto|apply Z; cbn; tauto|].
    destruct (G vz vz b3) as (z1 & -> & Nz1); [reflexivity|unfold off_planes; tauto|apply Z; cbn; tauto|].
    exists (Vec x0 y0 z0), (Vec x1 y1 z1). split; [reflexivity|]. split; [unfold off_planes; cbn; tauto|].
    intros o lo' hi' Ho Eo p (P1 & P2 & P3). destruct (W o _ Ho Eo) as (W1 & W2 & W3 & W4 & W5 & W6).
    cbn [bMin bMax xbox xv vx vy vz nleb NumX] in *.
    assert (forall a b, xleb (XF a) (XF b) = true -> a <= b) as LE.
    { intros a b. unfold xleb. cbn. destruct (Rltb_spec a b), (Reqb_spec a b); cbn; intros; try lra; discriminate. }
    apply LE in W1, W2, W3, W4, W5, W6. unfold in_closed_box. cbn [vx vy vz]. repeat split; lra.
  Qed.

  Lemma well_boxed_near (o : object) : well_boxed s d o -> near_boxed s d o.
  Proof. intros (lo & hi & E & O & R & P). exists lo, hi. repeat split; auto; try apply O; try apply P. intros h r' Eh Ph _. eapply R; eauto. Qed.

  (** a tree of objects short of the horizon, and the tree itself is such an object again *)
  Theorem tree_near os : os <> nil -> d <> zero3 -> (forall o, In o os -> near_boxed s d o) ->
    forall hits, hits_of os (xray s d) hits ->
    exists o' h, tree (fun x => x) sortSlice os = Val o' /\ near_boxed s d o' /\ oIntersect o' (xray s d) = Val (h, xray s d) /\
      ((In h hits /\ positive h /\ nltb (hT h) (XF horizon) = true /\ forall h', In h' hits -> positive h' -> nleb (hT h) (hT h') = true) \/
       ((forall h', In h' hits -> positive h' -> nltb (hT h') (XF horizon) = false) /\ (h = noHit \/ (h = farHit /\ (length os <= 7)%nat)))).
  Proof.
    intros Hne Hd HW hits HO.
    assert (HB : boxed os) by (intros o Io; destruct (HW o Io) as (lo & hi & E & _); exists (xbox lo hi); repeat split; exact E).
    destruct (buildTree_succeeds (fun x => x) sortSlice SP (S (length os)) os Hne HB ltac:(lia)) as (n & En).
    destruct (buildTree_shape _ _ SP _ _ _ Hne En) as (P & LS & DP).
    destruct (Permutation_Forall2 (Permutation_sym P) HO) as (hits' & PH & HO').
    assert (near_boxes_ok n (xray s d)) as OK.
    { intros m Hm o h r' Ho Eo Ph Lh.
      destruct (near_node_box os n m Hne En HW Hm) as (lo & hi & -> & OP & IN).
      assert (In o os) as Io by (eapply Permutation_in; [exact P|eapply nodes_members; eauto]).
      destruct (HW o Io) as (lo' & hi' & Eb & OR & _ & RB).
      destruct (RB h r' Eo Ph Lh) as (t & Et & Ct).
      assert (in_closed_box lo hi (along s d t)) as Cn by (eapply IN; eauto).
      assert (ordered lo hi) as ON by (destruct Cn as ((? & ?) & (? & ?) & (? & ?)); unfold ordered; lra).
      apply (proj2 (bbIntersects_exact lo hi s d ON OP Hd)).
      exists t. split; auto. unfold positive in Ph. rewrite Et in Ph. cbn in Ph. now apply Rltb_true in Ph. }
    assert (PI : forall h, In h hits' <-> In h hits).
    { intros h. split; intros I; eapply Permutation_in; [apply Permutation_sym; exact PH|exact I|exact PH|exact I]. }
    destruct (treeIntersect_near far_pos_x n (xray s d) hits' HO' OK) as (h & Eh & Hh).
    exists (treeOf n), h. split; [unfold tree; now rewrite En|].
    assert (D : (In h hits /\ positive h /\ nltb (hT h) (XF horizon) = true /\ forall h', In h' hits -> positive h' -> nleb (hT h) (hT h') = true) \/
       ((forall h', In h' hits -> positive h' -> nltb (hT h') (XF horizon) = false) /\ (h = noHit \/ (h = farHit /\ (length os <= 7)%nat)))).
    { destruct Hh as [(I & Ph & L & Mi)|(N & D)].
      - left. split; [now apply PI|]. split; auto. split; auto. intros h' I'. apply Mi. now apply PI.
      - right. split; [intros h' I'; apply N; now apply PI|]. destruct D as [->|(-> & _ & bb & l & ->)]; auto. right. split; auto.
        destruct (LS bb l) as [_ L]; [cbn; auto|]. cbn [members] in P. rewrite <- (Permutation_length P). exact L. }
    split; [|split; [exact Eh|exact D]].
    assert (In n (nodes n)) as In' by (destruct n; cbn; auto).
    destruct (near_node_box os n n Hne En HW In') as (lo & hi & EB & OP & IN).
    exists lo, hi. split; [cbn [treeOf oBounds]; now rewrite EB|]. split.
    { destruct os as [|o os']; [congruence|]. destruct (HW o (or_introl eq_refl)) as (lo' & hi' & Eb & OR & _).
      assert (Io : In o (members n)) by (eapply Permutation_in; [apply Permutation_sym; exact P|now left]).
      assert (C : in_closed_box lo hi lo') by (apply (IN o lo' hi' Io Eb); destruct OR as (? & ? & ?); unfold in_closed_box; repeat split; lra).
      destruct C as ((? & ?) & (? & ?) & (? & ?)). unfold ordered. repeat split; lra. }
    split; [exact OP|]. intros h0 r0 E0 P0 L0. rewrite Eh in E0. injection E0 as <- <-. destruct D as [(I & Ph & _ & _)|(_ & [->|[-> _]])].
    - apply PI in I. destruct (hits_in_of _ _ _ HO' h I) as (o & Io & Eo).
      assert (In o os) as Ios by (eapply Permutation_in; [exact P|exact Io]).
      destruct (HW o Ios) as (lo' & hi' & Eb & _ & _ & RB). destruct (RB h (xray s d) Eo P0 L0) as (t & Et & Ct). exists t. split; auto.
      eapply IN; eauto.
    - cbn in P0. rewrite Rltb_irrefl in P0. discriminate.
    - exfalso. cbn [farHit hT nofZ NumX] in L0. unfold horizon in L0. cbn [xltb] in L0. rewrite Rltb_irrefl in L0. discriminate.
  Qed.
End Exact_near.
