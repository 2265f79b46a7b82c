(** * Objects without height fields always answer *)
From Coq Require Import ZArith Reals Bool List Permutation Lia.
From Verif Require Import Num Outcome GeomModel GeomSpec ColorModel SeqModel ObjModel TreeModel ObjSpec ObjProofs SceneModel SceneSpec LightProofs.
Import ListNotations.

Lemma omap_ends {A B} (f : A -> B) o : o <> NoFuel -> omap f o <> NoFuel.
Proof. destruct o; cbn; congruence. Qed.
Lemma obind_ends {A B} (f : A -> outcome B) o : o <> NoFuel -> (forall x, o = Val x -> f x <> NoFuel) -> obind o f <> NoFuel.
Proof. destruct o; cbn; auto; congruence. Qed.

Section Ends.
  Context {F : Type} `{NF : Num F} `{NI : NumInf F} {M : Type}.
  Notation object := (object F M).

  Fixpoint ends (o : object) : Prop :=
    (forall r, oIntersect o r <> NoFuel) /\ (forall p, oInside o p <> NoFuel) /\
    match oTransf o with Some (_, orig) => ends orig | None => True end.

  Lemma ends_intro (o : object) : (forall r, oIntersect o r <> NoFuel) -> (forall p, oInside o p <> NoFuel) -> oTransf o = None -> ends o.
  Proof. destruct o as [i n b t]. cbn [oTransf oIntersect oInside]. intros A B ->. cbn. auto. Qed.
  Lemma ends_isect (o : object) : ends o -> forall r, oIntersect o r <> NoFuel.
  Proof. destruct o; cbn. tauto. Qed.
  Lemma ends_inside (o : object) : ends o -> forall p, oInside o p <> NoFuel.
  Proof. destruct o; cbn. tauto. Qed.

  Lemma simple_ends isect ins bounds : (forall r, isect r <> NoFuel) -> (forall p, ins p <> NoFuel) -> ends (simpleObj isect ins bounds).
  Proof. intros A B. apply ends_intro; auto. intros r. cbn. now apply omap_ends. Qed.

  Lemma oand_ends x y : x <> NoFuel -> y <> NoFuel -> oand x y <> NoFuel.
  Proof. intros A B. apply obind_ends; auto. intros [] _; auto; discriminate. Qed.
  Lemma oor_ends x y : x <> NoFuel -> y <> NoFuel -> oor x y <> NoFuel.
  Proof. intros A B. apply obind_ends; auto. intros [] _; auto; discriminate. Qed.

  Lemma marchLoop_ends keep (a b : object) : ends a -> ends b -> forall ttl mx off h r, marchLoop keep a b ttl mx off h r <> NoFuel.
  Proof.
    intros Ha Hb. induction ttl as [|n IH]; intros mx off h r; cbn [marchLoop]; [discriminate|].
    destruct (_ && _)%bool; [|discriminate]. apply obind_ends; [now apply ends_inside|].
    intros ins _. destruct (keep ins); [discriminate|]. apply obind_ends; [now apply ends_isect|].
    intros [h' r'] _. apply IH.
  Qed.
  Lemma march_ends keep (a b : object) : ends a -> ends b -> forall r mx, march keep a b r mx <> NoFuel.
  Proof.
    intros Ha Hb r mx. unfold march. apply obind_ends; [now apply ends_isect|]. intros [h r1] _.
    apply omap_ends. now apply marchLoop_ends.
  Qed.
  Lemma marchBoth_ends keep (a b : object) : ends a -> ends b -> forall r, marchBoth keep a b r <> NoFuel.
  Proof.
    intros Ha Hb r. unfold marchBoth. apply obind_ends; [now apply march_ends|]. intros [h r1] _.
    apply omap_ends. now apply march_ends.
  Qed.

  Lemma transformed_ends : forall (o : object) t o', ends o -> transformed o t = Val o' -> ends o'.
  Proof.
    fix IH 1. intros [isect ins bnd tr] t o' He H. destruct tr as [[fwd orig]|]; cbn in H.
    - destruct He as (_ & _ & He). exact (IH orig _ _ He H).
    - apply obind_val' in H. destruct H as (b & _ & H). apply omap_val' in H. destruct H as (b' & _ & ->).
      destruct He as (A & B & _). split; [|split; [|exact (conj A (conj B I))]].
      + intros r. cbn. destruct (bbIntersects b' r); [|discriminate]. apply omap_ends. apply A.
      + intros p. cbn. apply B.
  Qed.

  Lemma leafLoop_ends os : (forall o, In o os -> ends o) -> forall front r, leafLoop os front r <> NoFuel.
  Proof.
    induction os as [|o os IH]; intros P front r; cbn; [discriminate|].
    apply obind_ends; [apply ends_isect, P; now left|]. intros [h r'] _. apply IH. intros; apply P; now right.
  Qed.
  Lemma nodeIntersect_ends n : (forall o, In o (members n) -> ends o) -> forall r, nodeIntersect n r <> NoFuel.
  Proof.
    induction n as [bb l|bb a IHa b IHb]; intros P r.
    - cbn. now apply leafLoop_ends.
    - cbn [nodeIntersect]. apply obind_ends.
      + destruct (nltb _ _); [|discriminate]. apply omap_ends, IHa. intros; apply P; cbn; apply in_or_app; now left.
      + intros [h1 r1] _. apply obind_ends; [|intros [h2 r2] _; discriminate].
        destruct (nltb _ _); [|discriminate]. apply omap_ends, IHb. intros; apply P; cbn; apply in_or_app; now right.
  Qed.
  Lemma leafInside_ends os : (forall o : object, In o os -> ends o) -> forall p, leafInside os p <> NoFuel.
  Proof.
    induction os as [|o os IH]; intros P p; cbn; [discriminate|].
    apply oor_ends; [apply ends_inside, P; now left|]. apply IH. intros; apply P; now right.
  Qed.
  Lemma nodeInside_ends n : (forall o : object, In o (members n) -> ends o) -> forall p, nodeInside n p <> NoFuel.
  Proof.
    induction n as [bb l|bb a IHa b IHb]; intros P p; cbn [nodeInside].
    - now apply leafInside_ends.
    - apply oor_ends; [apply IHa|apply IHb]; intros; apply P; cbn; apply in_or_app; auto.
  Qed.
  Lemma treeOf_ends n : (forall o, In o (members n) -> ends o) -> ends (treeOf n).
  Proof.
    intros P. apply ends_intro; [| |reflexivity].
    - intros r. cbn. unfold treeIntersect. destruct (nleb _ _); [discriminate|]. now apply nodeIntersect_ends.
    - intros p. cbn. now apply nodeInside_ends.
  Qed.

  Variable to32 : F -> F.
  Variable sortSlice : (object -> object -> bool) -> list object -> list object.
  Hypothesis SP : reorders sortSlice.

  Lemma withMaterial_ends m (a : object) : ends a -> ends (withMaterial m a).
  Proof. intros Ha. apply ends_intro; [| |reflexivity]; intros; cbn; [apply omap_ends; now apply ends_isect|now apply ends_inside]. Qed.
  Lemma face_ends a b c : ends (face a b c).
  Proof. apply simple_ends; intros; discriminate. Qed.
  Lemma tree_ends os o : (forall a, In a os -> ends a) -> tree to32 sortSlice os = Val o -> ends o.
  Proof.
    intros P H. destruct (tree_shape to32 sortSlice SP _ _ H) as (n & -> & E). apply treeOf_ends.
    intros a Ha. apply P. eapply Permutation_in; eauto.
  Qed.
  Lemma mesh_ends m fs vs o : mesh to32 sortSlice m fs vs = Val o -> ends o.
  Proof.
    intros H. unfold mesh in H. apply obind_val' in H. destruct H as (vs' & _ & H).
    apply obind_val' in H. destruct H as (os & Eo & H). apply omap_val' in H. destruct H as (t & Et & ->).
    apply withMaterial_ends. eapply tree_ends; [|exact Et].
    intros a Ha. destruct (facesOf_faces _ _ _ Eo a Ha) as (x & y & z & ->). apply face_ends.
  Qed.
  Lemma quadric_ends q : ends (quadric q).
  Proof. apply simple_ends; intros; discriminate. Qed.
  Lemma box_ends m mn mx : ends (boxWithBounds m mn mx).
  Proof.
    apply simple_ends; [|intros; discriminate]. intros r. unfold boxIntersect. destruct (negb _); [discriminate|].
    apply omap_ends. unfold boxNormal. repeat (destruct (approx _ _); [discriminate|]). discriminate.
  Qed.
  Lemma restrict_ends (a b : object) : ends a -> ends b -> ends (cRestrict a b).
  Proof. intros; apply ends_intro; [| |reflexivity]; intros; cbn; [now apply march_ends|apply oand_ends; now apply ends_inside]. Qed.

  Theorem iso_free_ends o : iso_free to32 sortSlice o -> ends o.
  Proof.
    induction 1.
    - apply simple_ends; intros; discriminate.
    - apply quadric_ends.
    - apply box_ends.
    - apply face_ends.
    - apply ends_intro; [| |reflexivity]; intros; cbn; [now apply marchBoth_ends|apply oand_ends; now apply ends_inside].
    - apply ends_intro; [| |reflexivity]; intros; cbn; [now apply marchBoth_ends|apply oor_ends; now apply ends_inside].
    - now apply restrict_ends.
    - apply ends_intro; [| |reflexivity]; intros; cbn; apply omap_ends; [now apply ends_isect|now apply ends_inside].
    - apply ends_intro; [| |reflexivity]; intros; cbn; [now apply ends_isect|discriminate].
    - unfold bounded in H0. apply omap_val' in H0. destruct H0 as (b & _ & ->).
      apply ends_intro; [| |reflexivity]; intros; cbn.
      + destruct (bbIntersects b r); [now apply ends_isect|discriminate].
      + destruct (bbInside b p); [now apply ends_inside|discriminate].
    - apply ends_intro; [| |reflexivity]; intros; cbn; [apply omap_ends; now apply ends_isect|now apply ends_inside].
    - now apply withMaterial_ends.
    - eapply transformed_ends; eauto.
    - eapply tree_ends; eauto.
    - eapply mesh_ends; eauto.
    - unfold parametric in H. apply obind_val' in H. destruct H as ([vs fs] & _ & H).
      apply obind_val' in H. destruct H as (fs' & _ & H). eapply mesh_ends; eauto.
  Qed.
  Lemma iso_free_built o : iso_free to32 sortSlice o -> built to32 sortSlice o.
  Proof. induction 1; try (constructor; assumption); econstructor; eassumption. Qed.
End Ends.

Section Lights.
  Context {F : Type} `{NF : Num F} `{NI : NumInf F} `{TF : Trig F}.
  Notation object := (object F (material F)).
  Variable to32 : F -> F.
  Variable sortSlice : (object -> object -> bool) -> list object -> list object.
  Hypothesis SP : reorders sortSlice.

  Lemma transformedLight_ends l t l' : ends (lightObject l) -> transformedLight l t = Val l' -> ends (lightObject l').
  Proof.
    intros He H. destruct l; cbn [transformedLight] in H; try discriminate;
    apply omap_val' in H; destruct H as (o & Ho & ->); cbn [lightObject]; eapply transformed_ends; try exact Ho; exact He.
  Qed.
  (** the emitting surface is only ever asked where it is hit *)
  Lemma planarLight_isect b w h c rs (restr : object) k l : (forall p, oInside restr p <> NoFuel) ->
    planarLight to32 sortSlice b w h c rs restr k = Val l -> ends (lightObject l).
  Proof.
    intros Hr H. unfold planarLight in H. apply omap_val' in H. destruct H as (o & Ho & ->). cbn [lightObject].
    assert (Eo : ends o).
    { unfold rectangle, rectangleWithVertices, quadrilateral, meshWithUV in Ho.
      apply obind_val' in Ho. destruct Ho as (vs & _ & Ho). apply obind_val' in Ho. destruct Ho as (u & _ & Ho).
      eapply mesh_ends; eauto. }
    apply ends_intro; [| |reflexivity]; intros; cbn.
    - unfold andMarch, march. apply obind_ends; [now apply ends_isect|]. intros [h1 r1] _. apply omap_ends.
      generalize (nofZ 0 : F), h1, r1. generalize 100%nat as ttl. induction ttl as [|n IH]; intros off h2 r2; cbn [marchLoop]; [discriminate|].
      destruct (_ && _)%bool; [|discriminate]. apply obind_ends; [apply Hr|]. intros [] _; [discriminate|].
      apply obind_ends; [now apply ends_isect|]. intros [h3 r3] _. apply IH.
    - apply oand_ends; [now apply ends_inside|apply Hr].
  Qed.
  Lemma built_light_ends l : built_light to32 sortSlice l -> ends (lightObject l).
  Proof.
    induction 1 as [power pos|b w h c l H|b d c l H|b a y p l H|l t l' _ IH H].
    - apply ends_intro; [| |reflexivity]; intros; discriminate.
    - eapply planarLight_isect; [|exact H]. intros; discriminate.
    - eapply planarLight_isect; [|exact H]. intros; discriminate.
    - unfold sunLight in H. apply obind_val' in H. destruct H as (dl & Hd & H).
      eapply transformedLight_ends; [|exact H]. eapply planarLight_isect; [|exact Hd]. intros; discriminate.
    - eapply transformedLight_ends; eauto.
  Qed.
  Lemma newScene_ends rd media lights objs :
    (forall o, In o objs -> iso_free to32 sortSlice o) -> (forall l, In l lights -> built_light to32 sortSlice l) ->
    forall o, In o (all_objects (newScene rd media lights objs)) -> forall q, oIntersect o q <> NoFuel.
  Proof.
    intros Ho Hl o Hin q. unfold all_objects, newScene in Hin. cbn in Hin. rewrite !in_app_iff in Hin.
    assert (A : In o objs -> oIntersect o q <> NoFuel).
    { intros H. apply ends_isect. eapply iso_free_ends; eauto. }
    destruct Hin as [H|[[H|H]|[H|H]]]; auto; apply in_map_iff in H; destruct H as (l & <- & Hi).
    - now apply ends_isect, built_light_ends, Hl.
    - cbn. apply omap_ends. now apply ends_isect, built_light_ends, Hl.
  Qed.
End Lights.
