(** * The boxes of solids contain the solids *)
From Coq Require Import ZArith Reals Bool List Lra Lia.
From Flocq Require Import Core.Raux.
From Verif Require Import Num NumLaws Outcome B64 GeomModel GeomSpec ObjModel TreeModel ObjSpec ObjProofs BoxProofs CsgProofs PrimProofs BoundsSpec.
Import ListNotations.

Section Inside.
  Context {F : Type} {NF : Num F} {NI : NumInf F} {NK : NumKey F} {M : Type}.
  Hypothesis Hinf : nkey ninf = XP.
  Hypothesis Hninf : nkey (nopp ninf) = XN.

  Lemma vnan_false (v : vec F) : vnan v = false <->
    xnan (nkey (vx v)) = false /\ xnan (nkey (vy v)) = false /\ xnan (nkey (vz v)) = false.
  Proof. unfold vnan. rewrite !orb_false_iff, !nkey_nan. tauto. Qed.

  Lemma umin_key (x y : F) : nkey (umin x y) = if xltb (nkey x) (nkey y) then nkey x else nkey y.
  Proof. unfold umin. rewrite nkey_ltb. now destruct (xltb _ _). Qed.
  Lemma umax_key (x y : F) : nkey (umax x y) = if xltb (nkey y) (nkey x) then nkey x else nkey y.
  Proof. unfold umax. rewrite nkey_ltb. now destruct (xltb _ _). Qed.

  Lemma umin_below (x y z : F) : xnan (nkey x) = false -> xnan (nkey y) = false ->
    nleb x z = true \/ nleb y z = true -> nleb (umin x y) z = true.
  Proof.
    intros Hx Hy. rewrite !nkey_leb, umin_key. destruct (xltb (nkey x) (nkey y)) eqn:E.
    - intros [H|H]; auto. apply xle_trans with (2 := H). now apply xltb_leb.
    - intros [H|H]; auto. apply xle_trans with (2 := H). rewrite xleb_ltb by auto. now rewrite E.
  Qed.
  Lemma umax_above (x y z : F) : xnan (nkey x) = false -> xnan (nkey y) = false ->
    nleb z x = true \/ nleb z y = true -> nleb z (umax x y) = true.
  Proof.
    intros Hx Hy. rewrite !nkey_leb, umax_key. destruct (xltb (nkey y) (nkey x)) eqn:E.
    - intros [H|H]; auto. apply xle_trans with (1 := H). now apply xltb_leb.
    - intros [H|H]; auto. apply xle_trans with (1 := H). rewrite xleb_ltb by auto. now rewrite E.
  Qed.
  Lemma umin_above (x y z : F) : nleb z x = true -> nleb z y = true -> nleb z (umin x y) = true.
  Proof. unfold umin. now destruct (nltb _ _). Qed.
  Lemma umax_below (x y z : F) : nleb x z = true -> nleb y z = true -> nleb (umax x y) z = true.
  Proof. unfold umax. now destruct (nltb _ _). Qed.
  Lemma umin_number (x y : F) : xnan (nkey x) = false -> xnan (nkey y) = false -> xnan (nkey (umin x y)) = false.
  Proof. unfold umin. now destruct (nltb _ _). Qed.
  Lemma umax_number (x y : F) : xnan (nkey x) = false -> xnan (nkey y) = false -> xnan (nkey (umax x y)) = false.
  Proof. unfold umax. now destruct (nltb _ _). Qed.

  Lemma number_box_spec (b : bbox F) : number_box b <->
    (xnan (nkey (vx (bMin b))) = false /\ xnan (nkey (vy (bMin b))) = false /\ xnan (nkey (vz (bMin b))) = false) /\
    (xnan (nkey (vx (bMax b))) = false /\ xnan (nkey (vy (bMax b))) = false /\ xnan (nkey (vz (bMax b))) = false).
  Proof. unfold number_box. now rewrite !vnan_false. Qed.

  Lemma union_number (a b : bbox F) : number_box a -> number_box b -> number_box (unionBounds a b).
  Proof.
    rewrite !number_box_spec. intros ((A1 & A2 & A3) & A4 & A5 & A6) ((B1 & B2 & B3) & B4 & B5 & B6).
    cbn. repeat split; try apply umin_number; try apply umax_number; auto.
  Qed.
  Lemma intersect_number (a b : bbox F) : number_box a -> number_box b -> number_box (intersectBounds a b).
  Proof.
    rewrite !number_box_spec. intros ((A1 & A2 & A3) & A4 & A5 & A6) ((B1 & B2 & B3) & B4 & B5 & B6).
    cbn. repeat split; try apply umin_number; try apply umax_number; auto.
  Qed.
  Lemma union_has (a b : bbox F) p : number_box a -> number_box b -> box_has a p \/ box_has b p -> box_has (unionBounds a b) p.
  Proof.
    rewrite !number_box_spec. intros ((A1 & A2 & A3) & A4 & A5 & A6) ((B1 & B2 & B3) & B4 & B5 & B6) H.
    unfold box_has in *. cbn.
    repeat split; (apply umin_below || apply umax_above); auto; intuition.
  Qed.
  Lemma intersect_has (a b : bbox F) p : box_has a p -> box_has b p -> box_has (intersectBounds a b) p.
  Proof.
    unfold box_has. intros (A1 & A2 & A3 & A4 & A5 & A6) (B1 & B2 & B3 & B4 & B5 & B6). cbn.
    repeat split; (apply umin_above || apply umax_below); auto.
  Qed.
  Lemma infBox_number : number_box (infBox : bbox F).
  Proof. rewrite number_box_spec. cbn. rewrite Hinf, Hninf. repeat split. Qed.
  Lemma infBox_has p : vnan p = false -> box_has (infBox : bbox F) p.
  Proof.
    rewrite vnan_false. intros (A & B & C). unfold box_has. cbn. rewrite !nkey_leb, Hinf, Hninf.
    repeat split; [destruct (nkey (vx p))|destruct (nkey (vx p))|destruct (nkey (vy p))|destruct (nkey (vy p))
      |destruct (nkey (vz p))|destruct (nkey (vz p))]; (reflexivity || discriminate).
  Qed.
  Lemma bbInside_has (b : bbox F) p : bbInside b p = true -> box_has b p.
  Proof.
    unfold bbInside, box_has. rewrite !andb_true_iff, !nkey_ltb, !nkey_leb.
    intros (((A & B) & C & D) & E & G). repeat split; now apply xltb_leb.
  Qed.

  Lemma and_boxes_inside (a b : object F M) : boxes_inside a -> boxes_inside b ->
    exists bb, bounds2 intersectBounds a b = Val bb /\ number_box bb /\
      forall p, vnan p = false -> oand (oInside a p) (oInside b p) = Val true -> box_has bb p.
  Proof.
    intros (ba & Ea & Na & Ha) (bb & Eb & Nb & Hb). exists (intersectBounds ba bb).
    split; [unfold bounds2; now rewrite Ea, Eb|]. split; [now apply intersect_number|].
    intros p Hp Hi. unfold oand in Hi. apply obind_val in Hi as (x & Ix & Iy).
    destruct x; [|discriminate]. apply intersect_has; auto.
  Qed.
  Lemma not_boxes_inside (a : object F M) : boxes_inside (cNot a).
  Proof. exists infBox. split; [reflexivity|]. split; [apply infBox_number|]. intros p Hp _. now apply infBox_has. Qed.

  Theorem boxes_inside_solid (s : solid F M) :
    (forall o, In o (prims s) -> boxes_inside o) -> boxes_inside (objectOf s).
  Proof.
    induction s as [o|a IHa b IHb|a IHa b IHb|a IHa|a IHa b IHb|a IHa b IHb|a IHa]; intros H.
    - apply H. cbn; auto.
    - apply and_boxes_inside; [apply IHa|apply IHb]; intros o Ho; apply H; cbn; apply in_or_app; auto.
    - destruct IHa as (ba & Ea & Na & Ha); [intros o Ho; apply H; cbn; apply in_or_app; auto|].
      destruct IHb as (bb & Eb & Nb & Hb); [intros o Ho; apply H; cbn; apply in_or_app; auto|].
      exists (unionBounds ba bb). split; [cbn; unfold bounds2; now rewrite Ea, Eb|]. split; [now apply union_number|].
      intros p Hp Hi. cbn in Hi. unfold oor in Hi. apply obind_val in Hi as (x & Ix & Iy).
      apply union_has; auto. destruct x; auto.
    - apply not_boxes_inside.
    - apply and_boxes_inside; [apply IHa|apply not_boxes_inside]; intros o Ho; apply H; cbn; apply in_or_app; auto.
    - apply and_boxes_inside; [apply IHa|apply IHb]; intros o Ho; apply H; cbn; apply in_or_app; auto.
    - destruct IHa as (ba & Ea & Na & Ha); [auto|]. exists ba. split; [exact Ea|]. split; [exact Na|].
      intros p _ Hi. discriminate Hi.
  Qed.

  Lemma quadric_boxes_inside (q : quadricData F M) : number_box (qBounds q) -> boxes_inside (quadric q).
  Proof.
    intros Hn. exists (qBounds q). split; [reflexivity|]. split; [exact Hn|]. intros p _ Hi. apply bbInside_has.
    cbn in Hi. unfold quadricInside in Hi. destruct (bbInside (qBounds q) p); [reflexivity|discriminate].
  Qed.
  Lemma box_boxes_inside (m : option M) (lo hi : vec F) : number_box (BBox lo hi) -> boxes_inside (boxWithBounds m lo hi).
  Proof.
    intros Hn. exists (BBox lo hi). split; [reflexivity|]. split; [exact Hn|]. intros p _ Hi. apply bbInside_has.
    cbn in Hi. now injection Hi.
  Qed.
End Inside.

Lemma b64_boxes_inside {M} (s : solid b64 M) :
  (forall o, In o (prims s) -> boxes_inside o) -> boxes_inside (objectOf s).
Proof. apply boxes_inside_solid; reflexivity. Qed.

(** ** Hits, in exact arithmetic *)
Local Open Scope R_scope.

Section Hits.
  Context {M : Type}.
  Implicit Types a b : object xr M.

  Lemma xtiny : exists e, (tiny : xr) = XF e.
  Proof. eexists. unfold tiny. cbn. destruct (Req_EM_T _ 0) as [H|H]; [lra|reflexivity]. Qed.

  Lemma rayAt_finite s d t : rayAt (xray s d) (XF t) = xv (along s d t).
  Proof. reflexivity. Qed.

  Lemma marchLoop_hits keep a b ba s d : keeps_rays a ->
    (forall s' h r', oIntersect a (xray s' d) = Val (h, r') -> positive h ->
       exists t, hT h = XF t /\ box_has ba (xv (along s' d t))) ->
    forall ttl mx off h h' r',
    oIntersect a (xray (along s d off) d) = Val (h, xray (along s d off) d) ->
    marchLoop keep a b ttl mx (XF off) h (xray (along s d off) d) = Val (h', r') -> positive h' ->
    exists t, hT h' = XF t /\ box_has ba (xv (along s d t)) /\
      exists ins, oInside b (xv (along s d t)) = Val ins /\ keep ins = true.
  Proof.
    intros Ka Ha. destruct xtiny as (e & He). induction ttl as [|ttl IH]; intros mx off h h' r' Hi Hm Hp.
    { cbn in Hm. injection Hm as <- <-. unfold positive in Hp. cbn in Hp. rewrite Rltb_true in Hp. lra. }
    cbn [marchLoop] in Hm. destruct (nltb (nofZ 0) (hT h)) eqn:P; cbn [andb] in Hm.
    2:{ injection Hm as <- <-. unfold positive in Hp. cbn in Hp. rewrite Rltb_true in Hp. lra. }
    destruct (nltb (hT h) mx).
    2:{ injection Hm as <- <-. unfold positive in Hp. cbn in Hp. rewrite Rltb_true in Hp. lra. }
    destruct (Ha _ _ _ Hi P) as (t & Et & Hb). rewrite along_along in Hb.
    apply obind_val in Hm as (ins & Ei & Hm). rewrite Et, rayAt_finite, along_along in Ei.
    destruct (keep ins) eqn:K.
    - injection Hm as <- <-. exists (off + t). cbn [hT]. split; [rewrite Et; cbn; f_equal; ring|].
      split; [exact Hb|]. eauto.
    - apply obind_val in Hm as ((h2 & r2) & E2 & Hm). rewrite Et, He in E2, Hm.
      change (nadd (XF t) (XF e)) with (XF (t + e)) in *.
      change (nadd (XF off) (XF (t + e))) with (XF (off + (t + e))) in *.
      rewrite rayAt_finite, along_along in E2. change (rDir (xray (along s d off) d)) with (xv d) in E2.
      change (Ray (xv (along s d (off + (t + e)))) (xv d)) with (xray (along s d (off + (t + e))) d) in E2.
      assert (r2 = xray (along s d (off + (t + e))) d) as -> by (eapply Ka; exact E2).
      eapply IH; eauto.
  Qed.

  Lemma march_hits keep a b ba s d mx h r' : keeps_rays a ->
    (forall s' h r', oIntersect a (xray s' d) = Val (h, r') -> positive h ->
       exists t, hT h = XF t /\ box_has ba (xv (along s' d t))) ->
    march keep a b (xray s d) mx = Val (h, r') -> positive h ->
    exists t, hT h = XF t /\ box_has ba (xv (along s d t)) /\
      exists ins, oInside b (xv (along s d t)) = Val ins /\ keep ins = true.
  Proof.
    intros Ka Ha Hm Hp. unfold march in Hm. apply obind_val in Hm as ((h1 & r1) & E1 & Hm).
    apply omap_val in Hm as ((h2 & r2) & E2 & Hm). injection Hm as Eh _. subst h2.
    assert (r1 = xray s d) as -> by (eapply Ka; exact E1).
    rewrite <- (along_zero s d) in E1, E2 at 1.
    assert (oIntersect a (xray (along s d 0) d) = Val (h1, xray (along s d 0) d)) as E1'.
    { rewrite E1. now rewrite along_zero. }
    eapply marchLoop_hits; eauto.
  Qed.

  Lemma frontmost_pos (x y : hit xr M) : positive (frontmost x y) ->
    (frontmost x y = x /\ positive x) \/ (frontmost x y = y /\ positive y).
  Proof.
    unfold frontmost, positive. destruct (nltb (hT y) (hT x)).
    - destruct (nltb (nofZ 0) (hT y)) eqn:A; [auto|]. destruct (nltb (nofZ 0) (hT x)) eqn:B; [auto|].
      cbn. rewrite Rltb_true. lra.
    - destruct (nltb (nofZ 0) (hT x)) eqn:A; [auto|]. destruct (nltb (nofZ 0) (hT y)) eqn:B; [auto|].
      cbn. rewrite Rltb_true. lra.
  Qed.

  Lemma march_keeps keep a b : keeps_rays a -> forall r mx h r', march keep a b r mx = Val (h, r') -> r' = r.
  Proof.
    intros Ka r mx h r' Hm. unfold march in Hm. apply obind_val in Hm as ((h1 & r1) & E1 & Hm).
    apply Ka in E1 as ->. apply omap_val in Hm as ((h2 & r2) & E2 & Hm). injection Hm as -> ->.
    assert (forall ttl mx off h r h' r', marchLoop keep a b ttl mx off h r = Val (h', r') -> rDir r' = rDir r) as H.
    { clear -Ka. induction ttl as [|ttl IH]; intros mx off h r h' r' Hm; cbn [marchLoop] in Hm.
      { now injection Hm as <- <-. }
      destruct (_ && _)%bool; [|now injection Hm as <- <-].
      apply obind_val in Hm as (ins & Ei & Hm). destruct (keep ins); [now injection Hm as <- <-|].
      apply obind_val in Hm as ((h2 & r2) & E2 & Hm). apply Ka in E2 as ->. apply IH in Hm. exact Hm. }
    rewrite (H _ _ _ _ _ _ _ E2). now destruct r.
  Qed.

  Lemma marchBoth_hits keep a b ba bb s d h r' : keeps_rays a -> keeps_rays b ->
    (forall s' h r', oIntersect a (xray s' d) = Val (h, r') -> positive h ->
       exists t, hT h = XF t /\ box_has ba (xv (along s' d t))) ->
    (forall s' h r', oIntersect b (xray s' d) = Val (h, r') -> positive h ->
       exists t, hT h = XF t /\ box_has bb (xv (along s' d t))) ->
    marchBoth keep a b (xray s d) = Val (h, r') -> positive h ->
    exists t, hT h = XF t /\
      ((box_has ba (xv (along s d t)) /\ exists ins, oInside b (xv (along s d t)) = Val ins /\ keep ins = true) \/
       (box_has bb (xv (along s d t)) /\ exists ins, oInside a (xv (along s d t)) = Val ins /\ keep ins = true)).
  Proof.
    intros Ka Kb Ha Hb Hm Hp. unfold marchBoth in Hm. apply obind_val in Hm as ((ha & r1) & E1 & Hm).
    apply omap_val in Hm as ((hb & r2) & E2 & Hm). injection Hm as -> ->.
    assert (r1 = xray s d) as -> by (exact (march_keeps keep a b Ka _ _ _ _ E1)).
    destruct (frontmost_pos _ _ Hp) as [(E & P)|(E & P)]; rewrite E.
    - destruct (march_hits keep a b ba s d _ _ _ Ka Ha E1 P) as (t & Et & B & I). exists t. auto.
    - destruct (march_hits keep b a bb s d _ _ _ Kb Hb E2 P) as (t & Et & B & I). exists t. auto.
  Qed.
  Lemma marchBoth_keeps keep a b : keeps_rays a -> keeps_rays b -> forall r h r', marchBoth keep a b r = Val (h, r') -> r' = r.
  Proof.
    intros Ka Kb r h r' Hm. unfold marchBoth in Hm. apply obind_val in Hm as ((ha & r1) & E1 & Hm).
    apply omap_val in Hm as ((hb & r2) & E2 & Hm). injection Hm as -> ->.
    rewrite (march_keeps keep a b Ka _ _ _ _ E1) in E2. exact (march_keeps keep b a Kb _ _ _ _ E2).
  Qed.

  Lemma xv_number p : vnan (xv p) = false.
  Proof. reflexivity. Qed.

  Lemma inside_all (s : solid xr M) : (forall o, In o (prims s) -> boxes_inside o) -> boxes_inside (objectOf s).
  Proof. apply boxes_inside_solid; reflexivity. Qed.

  Lemma inside_of a b ba bb p : oBounds a = Val ba -> oBounds b = Val bb -> boxes_inside b -> oInside b (xv p) = Val true -> box_has bb (xv p).
  Proof. intros _ Eb (b' & Eb' & _ & H) Hi. rewrite Eb in Eb'. injection Eb' as <-. apply H; auto. Qed.

  Lemma and_well_bounded a b : well_bounded a -> well_bounded b -> well_bounded (cAnd a b).
  Proof.
    intros (Ka & Ia & ba & Ea & Ha) (Kb & Ib & bb & Eb & Hb). split; [|split].
    - intros r h r'. now apply marchBoth_keeps.
    - apply and_boxes_inside; auto.
    - exists (intersectBounds ba bb). split; [cbn; unfold bounds2; now rewrite Ea, Eb|].
      intros s d h r' Hi Hp.
      destruct (marchBoth_hits _ a b ba bb s d h r' Ka Kb (fun s' => Ha s' d) (fun s' => Hb s' d) Hi Hp)
        as (t & Et & [(B & ins & I & K)|(B & ins & I & K)]); cbv beta in K; subst ins;
        exists t; (split; [exact Et|]); apply intersect_has; auto.
      + now apply (inside_of a b ba bb).
      + now apply (inside_of b a bb ba).
  Qed.
  Lemma not_well_bounded a : well_bounded a -> well_bounded (cNot a).
  Proof.
    intros (Ka & Ia & ba & Ea & Ha). split; [|split].
    - intros r h r' Hi. cbn in Hi. apply omap_val in Hi as ((h1 & r1) & E & Hi). injection Hi as -> ->. now apply Ka in E.
    - apply not_boxes_inside; reflexivity.
    - exists infBox. split; [reflexivity|]. intros s d h r' Hi Hp. cbn [cNot oIntersect] in Hi.
      apply omap_val in Hi as ((h1 & r1) & E & Hi). injection Hi as -> ->.
      destruct (Ha _ _ _ _ E Hp) as (t & Et & _). exists t. split; [exact Et|]. apply infBox_has; reflexivity.
  Qed.

  Theorem solid_well_bounded (s : solid xr M) :
    (forall o, In o (prims s) -> well_bounded o) -> well_bounded (objectOf s).
  Proof.
    induction s as [o|a IHa b IHb|a IHa b IHb|a IHa|a IHa b IHb|a IHa b IHb|a IHa]; intros H.
    - apply H. cbn; auto.
    - apply and_well_bounded; [apply IHa|apply IHb]; intros o Ho; apply H; cbn; apply in_or_app; auto.
    - assert (well_bounded (objectOf a)) as Wa by (apply IHa; intros o Ho; apply H; cbn; apply in_or_app; auto).
      assert (well_bounded (objectOf b)) as Wb by (apply IHb; intros o Ho; apply H; cbn; apply in_or_app; auto).
      destruct Wa as (Ka & Ia & ba & Ea & Ha), Wb as (Kb & Ib & bb & Eb & Hb). split; [|split].
      + intros r h r'. now apply marchBoth_keeps.
      + apply (inside_all (SOr (SPrim (objectOf a)) (SPrim (objectOf b)))). intros o [<-|[<-|[]]]; auto.
      + exists (unionBounds ba bb). split; [cbn; unfold bounds2; now rewrite Ea, Eb|].
        assert (number_box ba) as Na by (destruct Ia as (x & Ex & Nx & _); rewrite Ea in Ex; now injection Ex as <-).
        assert (number_box bb) as Nb by (destruct Ib as (x & Ex & Nx & _); rewrite Eb in Ex; now injection Ex as <-).
        intros s d h r' Hi Hp.
        destruct (marchBoth_hits _ _ _ ba bb s d h r' Ka Kb (fun s' => Ha s' d) (fun s' => Hb s' d) Hi Hp)
          as (t & Et & [(B & _)|(B & _)]); exists t; (split; [exact Et|]); apply union_has; auto.
    - apply not_well_bounded; auto.
    - apply and_well_bounded; [apply IHa|apply not_well_bounded, IHb]; intros o Ho; apply H; cbn; apply in_or_app; auto.
    - assert (well_bounded (objectOf a)) as Wa by (apply IHa; intros o Ho; apply H; cbn; apply in_or_app; auto).
      assert (well_bounded (objectOf b)) as Wb by (apply IHb; intros o Ho; apply H; cbn; apply in_or_app; auto).
      destruct Wa as (Ka & Ia & ba & Ea & Ha), Wb as (Kb & Ib & bb & Eb & Hb). split; [|split].
      + intros r h r'. cbn. unfold andMarch. now apply march_keeps.
      + apply and_boxes_inside; auto.
      + exists (intersectBounds ba bb). split; [cbn; unfold bounds2; now rewrite Ea, Eb|].
        intros s d h r' Hi Hp. cbn in Hi. unfold andMarch in Hi.
        destruct (march_hits _ _ _ ba s d _ _ _ Ka (fun s' => Ha s' d) Hi Hp) as (t & Et & B & ins & I & K).
        cbv beta in K; subst ins. exists t. split; [exact Et|]. apply intersect_has; auto.
        now apply (inside_of (objectOf a) (objectOf b) ba bb).
    - destruct (IHa H) as (Ka & (ba' & Ea' & Na & _) & ba & Ea & Ha). split; [|split].
      + exact Ka.
      + exists ba'. split; [exact Ea'|]. split; [exact Na|]. intros p _ Hi. discriminate Hi.
      + exists ba. auto.
  Qed.

  (** ** Primitives *)
  Lemma quadric_well_bounded o q c (lo hi : pt) (m : option M) : well_bounded (quadric (Quadric (xv o) (xv q) (XF c) (xbox lo hi) m)).
  Proof.
    split; [|split].
    - intros r h r' Hi. cbn in Hi. now injection Hi as _ <-.
    - apply quadric_boxes_inside. split; reflexivity.
    - exists (xbox lo hi). split; [reflexivity|]. intros s d h r' Hi Hp.
      assert (forall t, bbInside (xbox lo hi) (rayAt (xray s d) t) = true ->
                exists u, t = XF u /\ box_has (xbox lo hi) (xv (along s d u))) as K.
      { intros t Ht. destruct t as [u| | |].
        - exists u. split; auto. apply bbInside_has. exact Ht.
        - rewrite rayAt_inf_outside in Ht; [discriminate|congruence].
        - rewrite rayAt_inf_outside in Ht; [discriminate|congruence].
        - rewrite rayAt_inf_outside in Ht; [discriminate|congruence]. }
      cbn [quadric simpleObj oIntersect omap] in Hi. injection Hi as <- _. revert Hp.
      unfold quadricIntersect. destruct (quadricABC _ _) as [[A B] C]. cbn [qBounds].
      destruct (nltb _ _); [unfold positive; cbn; rewrite Rltb_true; lra|].
      match goal with |- context [if nltb ?x ?y then (?x, ?y) else _] => generalize (if nltb x y then (x, y) else (y, x)) end.
      intros (t1, t2).
      destruct (bbInside (xbox lo hi) (rayAt (xray s d) t1)) eqn:I1.
      + destruct (nltb (nofZ 0) t1); cbn [andb].
        * intros _. apply K; auto.
        * destruct (bbInside (xbox lo hi) (rayAt (xray s d) t2)) eqn:I2;
            [|rewrite andb_false_r; unfold positive; cbn; rewrite Rltb_true; lra].
          destruct (nltb (nofZ 0) t2); cbn [andb]; [intros _; apply K; auto|unfold positive; cbn; rewrite Rltb_true; lra].
      + rewrite andb_false_r.
        destruct (bbInside (xbox lo hi) (rayAt (xray s d) t2)) eqn:I2;
          [|rewrite andb_false_r; unfold positive; cbn; rewrite Rltb_true; lra].
        destruct (nltb (nofZ 0) t2); cbn [andb]; [intros _; apply K; auto|unfold positive; cbn; rewrite Rltb_true; lra].
  Qed.

  (** one axis, whatever the start: both ends are NaN and the ray stays in the slab, or neither is
      and parameters between them are in the slab *)
  Lemma xmul_0_P : xmul (XF 0) XP = XNaN.
  Proof. unfold xmul, xsgn, Rsgn. rewrite Rcompare_Eq by reflexivity. reflexivity. Qed.

  Lemma slab_sound lo hi s d : lo <= hi ->
    (xnan (slabEn lo hi s d) = true /\ xnan (slabEx lo hi s d) = true /\ d = 0 /\ lo <= s <= hi) \/
    (xnan (slabEn lo hi s d) = false /\ xnan (slabEx lo hi s d) = false /\
     forall t, xle (slabEn lo hi s d) (XF t) -> xle (XF t) (slabEx lo hi s d) -> lo <= s + t * d <= hi).
  Proof.
    intros Hl. destruct (Req_EM_T d 0) as [->|Hd].
    2:{ right. destruct (slab_finite lo hi s d Hd Hl) as (a & b & -> & -> & _ & _ & _ & H).
        split; [reflexivity|split; [reflexivity|]]. intros t. rewrite !xle_XF. intros. apply H. lra. }
    destruct (Req_EM_T s hi) as [->|Hh].
    { left. unfold slabEn, slabEx. rewrite xdiv1_0. cbn [xsub xadd xopp].
      replace (hi + - hi) with 0 by ring. rewrite xmul_0_P.
      split; [|split; [|lra]].
      - unfold umin. cbn [nltb NumX]. rewrite xltb_nan_r. reflexivity.
      - unfold umax. cbn [nltb NumX]. rewrite xltb_nan_l. reflexivity. }
    destruct (Req_EM_T s lo) as [->|Hs].
    { right. unfold slabEn, slabEx. rewrite xdiv1_0. cbn [xsub xadd xopp].
      replace (lo + - lo) with 0 by ring. rewrite xmul_0_P, xmul_pos_P by lra.
      split; [reflexivity|split; [reflexivity|]]. intros t H. discriminate H. }
    right. destruct (slab_spec lo hi s 0 Hl Hs Hh) as (A & B & C). split; [exact A|]. split; [exact B|].
    intros t H1 H2. apply C. auto.
  Qed.

  Lemma xle_XF' x y : xleb (XF x) (XF y) = true <-> x <= y.
  Proof. apply xle_XF. Qed.

  Lemma max3_skip (x y z : xr) : xnan x = false ->
    xnan (max3 x y z) = false /\ xle x (max3 x y z) /\
    (xnan y = false -> xle y (max3 x y z)) /\ (xnan z = false -> xle z (max3 x y z)).
  Proof.
    intros Hx. unfold max3, xle. cbn [nltb NumX].
    assert (forall m y : xr, xnan m = false ->
       xnan (if xltb m y then y else m) = false /\ xleb m (if xltb m y then y else m) = true /\
       (xnan y = false -> xleb y (if xltb m y then y else m) = true)) as K.
    { clear. intros m y Hm. destruct (xltb m y) eqn:E.
      - destruct (xltb_not_nan _ _ E) as [_ Hy]. split; [exact Hy|]. split; [now apply xltb_leb|].
        intros _. now apply xleb_refl.
      - split; [exact Hm|]. split; [now apply xleb_refl|]. intros Hy. rewrite xleb_ltb by auto. now rewrite E. }
    destruct (K x y Hx) as (A1 & A2 & A3). set (m := if xltb x y then y else x) in *.
    destruct (K m z A1) as (B1 & B2 & B3). repeat split; auto.
    - apply xle_trans with (2 := B2). exact A2.
    - intros Hy. apply xle_trans with (2 := B2). auto.
  Qed.
  Lemma min3_skip (x y z : xr) : xnan x = false ->
    xnan (min3 x y z) = false /\ xle (min3 x y z) x /\
    (xnan y = false -> xle (min3 x y z) y) /\ (xnan z = false -> xle (min3 x y z) z).
  Proof.
    intros Hx. unfold min3, xle. cbn [nltb NumX].
    assert (forall m y : xr, xnan m = false ->
       xnan (if xltb y m then y else m) = false /\ xleb (if xltb y m then y else m) m = true /\
       (xnan y = false -> xleb (if xltb y m then y else m) y = true)) as K.
    { clear. intros m y Hm. destruct (xltb y m) eqn:E.
      - destruct (xltb_not_nan _ _ E) as [Hy _]. split; [exact Hy|]. split; [now apply xltb_leb|].
        intros _. now apply xleb_refl.
      - split; [exact Hm|]. split; [now apply xleb_refl|]. intros Hy. rewrite xleb_ltb by auto. now rewrite E. }
    destruct (K x y Hx) as (A1 & A2 & A3). set (m := if xltb y x then y else x) in *.
    destruct (K m z A1) as (B1 & B2 & B3). repeat split; auto.
    - apply xle_trans with (1 := B2). exact A2.
    - intros Hy. apply xle_trans with (1 := B2). auto.
  Qed.

  Lemma max3_nan (y z : xr) x : xnan x = true -> xnan (max3 x y z) = true.
  Proof. destruct x; try discriminate. intros _. unfold max3. cbn [nltb NumX]. now rewrite !xltb_nan_l. Qed.

  Lemma bbIntersect_within lo hi s d t : ordered lo hi ->
    bbIntersect (xbox lo hi) (xray s d) = XF t -> 0 < t -> in_closed_box lo hi (along s d t).
  Proof.
    intros (O1 & O2 & O3). rewrite bbIntersect_eq. cbv zeta. rewrite ten_eq, tex_eq.
    generalize (slab_sound (vx lo) (vx hi) (vx s) (vx d) O1), (slab_sound (vy lo) (vy hi) (vy s) (vy d) O2),
      (slab_sound (vz lo) (vz hi) (vz s) (vz d) O3).
    set (ex := slabEn (vx lo) _ _ _). set (ey := slabEn (vy lo) _ _ _). set (ez := slabEn (vz lo) _ _ _).
    set (fx := slabEx (vx lo) _ _ _). set (fy := slabEx (vy lo) _ _ _). set (fz := slabEx (vz lo) _ _ _).
    intros SSx SSy SSz H Ht.
    destruct SSx as [(N1 & N2 & _)|(Nx & Nx' & Sx)].
    { exfalso. generalize (max3_nan ey ez ex N1). destruct (max3 ex ey ez); try discriminate. intros _.
      rewrite xltb_nan_r, xltb_nan_l in H. discriminate H. }
    destruct (max3_skip ex ey ez Nx) as (A0 & A1 & A2 & A3).
    destruct (min3_skip fx fy fz Nx') as (B0 & B1 & B2 & B3).
    assert (xle (max3 ex ey ez) (XF t) /\ xle (XF t) (min3 fx fy fz)) as (L1 & L2).
    { destruct (xltb (min3 fx fy fz) (max3 ex ey ez)) eqn:E; [injection H as <-; lra|].
      assert (xle (max3 ex ey ez) (min3 fx fy fz)) as L by (unfold xle; rewrite xleb_ltb by auto; now rewrite E).
      destruct (xltb (max3 ex ey ez) (XF 0)); rewrite H in *; split; auto; now apply xleb_refl. }
    unfold in_closed_box. split; [|split].
    - apply Sx; [apply xle_trans with (1 := A1); exact L1|apply xle_trans with (1 := L2); exact B1].
    - destruct SSy as [(_ & _ & Z & R)|(Ny & Ny' & Sy)].
      + unfold along. cbn. rewrite Z. lra.
      + apply Sy; [apply xle_trans with (1 := A2 Ny); exact L1|apply xle_trans with (1 := L2); exact (B2 Ny')].
    - destruct SSz as [(_ & _ & Z & R)|(Nz & Nz' & Sz)].
      + unfold along. cbn. rewrite Z. lra.
      + apply Sz; [apply xle_trans with (1 := A3 Nz); exact L1|apply xle_trans with (1 := L2); exact (B3 Nz')].
  Qed.

  (** no face is near a point at infinity *)
  Lemma approx_inf (x : xr) c : (forall r, x <> XF r) -> approx x (XF c) = false.
  Proof.
    intros H. unfold approx. assert (exists e, (nQ 1 (10 ^ 8) : xr) = XF e) as (e & ->).
    { eexists. unfold nQ. cbn. destruct (Req_EM_T _ 0) as [E|E]; [lra|reflexivity]. }
    destruct x as [r| | |]; [destruct (H r eq_refl)| | |]; reflexivity.
  Qed.
  Lemma rayAt_inf s d t : (forall r, t <> XF r) -> forall r,
    vx (rayAt (xray s d) t) <> XF r /\ vy (rayAt (xray s d) t) <> XF r /\ vz (rayAt (xray s d) t) <> XF r.
  Proof.
    intros H r. assert (forall a b : R, xadd (XF a) (xmul (XF b) t) <> XF r) as K.
    { intros a b. destruct t as [x| | |]; [destruct (H x eq_refl)| | |]; cbn; try congruence;
        unfold xinf_of; destruct (Rsgn b); cbn; congruence. }
    assert (forall a b : R, xadd (XF a) (xmul t (XF b)) <> XF r) as K'.
    { intros a b. destruct t as [x| | |]; [destruct (H x eq_refl)| | |]; cbn; try congruence;
        unfold xinf_of; destruct (Rsgn b); cbn; congruence. }
    repeat split; (apply K || apply K').
  Qed.
  Lemma boxNormal_inf lo hi s d t : (forall r, t <> XF r) -> boxNormal (xbox lo hi) (rayAt (xray s d) t) = Panic.
  Proof.
    intros H. assert (forall r, vx (rayAt (xray s d) t) <> XF r /\ vy (rayAt (xray s d) t) <> XF r /\ vz (rayAt (xray s d) t) <> XF r) as K by now apply rayAt_inf.
    unfold boxNormal. cbn [bMin bMax xbox xv vx vy vz].
    rewrite !approx_inf; [reflexivity|..]; intros r; apply K.
  Qed.

  Lemma box_well_bounded (m : option M) lo hi : ordered lo hi -> well_bounded (boxWithBounds m (xv lo) (xv hi)).
  Proof.
    intros Ho. split; [|split].
    - intros r h r' Hi. cbn in Hi. apply omap_val in Hi as (h1 & _ & Hi). now injection Hi as _ <-.
    - apply box_boxes_inside. split; reflexivity.
    - exists (xbox lo hi). split; [reflexivity|]. intros s d h r' Hi Hp.
      cbn [boxWithBounds simpleObj oIntersect] in Hi. apply omap_val in Hi as (h1 & Hb & Hi). injection Hi as <- _.
      unfold boxIntersect in Hb. change (BBox (xv lo) (xv hi)) with (xbox lo hi) in Hb.
      destruct (nltb (nofZ 0) (bbIntersect (xbox lo hi) (xray s d))) eqn:P; cbn [negb] in Hb.
      2:{ injection Hb as <-. unfold positive in Hp. cbn in Hp. rewrite Rltb_true in Hp. lra. }
      apply omap_val in Hb as (n & Hn & ->). cbn [hT] in *.
      destruct (bbIntersect (xbox lo hi) (xray s d)) as [t| | |] eqn:E; try discriminate P.
      + exists t. split; [reflexivity|]. cbn in P. rewrite Rltb_true in P.
        destruct (bbIntersect_within lo hi s d t Ho E P) as ((A & B) & (C & D) & G & K).
        unfold box_has. cbn [bMin bMax xbox xv vx vy vz nleb NumX]. rewrite !xle_XF'. repeat split; assumption.
      + exfalso. rewrite boxNormal_inf in Hn; [discriminate|congruence].
  Qed.

  Lemma remap_well_bounded (o : object xr M) f : well_bounded o -> well_bounded (remap o f).
  Proof.
    intros (K & I & b & E & H). split; [|split].
    - intros r h r' Hi. cbn in Hi. apply omap_val in Hi as ((h1 & r1) & E1 & Hi). injection Hi as _ ->. now apply K in E1.
    - exact I.
    - exists b. split; [exact E|]. intros s d h r' Hi Hp. cbn [remap oIntersect] in Hi.
      apply omap_val in Hi as ((h1 & r1) & E1 & Hi). injection Hi as -> _. exact (H _ _ _ _ E1 Hp).
  Qed.
  Lemma withMaterial_well_bounded (o : object xr M) m : well_bounded o -> well_bounded (withMaterial m o).
  Proof.
    intros (K & I & b & E & H). split; [|split].
    - intros r h r' Hi. cbn in Hi. apply omap_val in Hi as ((h1 & r1) & E1 & Hi). injection Hi as _ ->. now apply K in E1.
    - exact I.
    - exists b. split; [exact E|]. intros s d h r' Hi Hp. cbn [withMaterial oIntersect] in Hi.
      apply omap_val in Hi as ((h1 & r1) & E1 & Hi). injection Hi as -> _. exact (H _ _ _ _ E1 Hp).
  Qed.
  Lemma Val_inj {A} (x y : A) : Val x = Val y -> x = y.
  Proof. congruence. Qed.
  Lemma bounded_well_bounded (o o' : object xr M) : well_bounded o -> bounded o = Val o' -> well_bounded o' /\ oBounds o' = oBounds o.
  Proof.
    intros (K & (b' & E' & N & I) & b & E & H) Hb. unfold bounded in Hb. rewrite E in *. cbn [omap] in Hb. apply Val_inj in Hb. subst o'.
    injection E' as <-. split; [|reflexivity]. split; [|split].
    - intros r h r' Hi. cbn [oIntersect] in Hi. destruct (bbIntersects b r); [exact (K _ _ _ Hi)|congruence].
    - exists b. split; [reflexivity|]. split; [exact N|]. intros p Hp Hi. cbn [oInside] in Hi.
      destruct (bbInside b p); [auto|discriminate].
    - exists b. split; [reflexivity|]. intros s d h r' Hi Hp. cbn [oIntersect] in Hi.
      destruct (bbIntersects b (xray s d)); [exact (H _ _ _ _ Hi Hp)|]. injection Hi as <- _.
      unfold positive in Hp. cbn in Hp. rewrite Rltb_true in Hp. lra.
  Qed.
End Hits.

Theorem assembled_well_bounded {M} (o : object xr M) : assembled o -> well_bounded o.
Proof.
  induction 1.
  - apply quadric_well_bounded.
  - now apply box_well_bounded.
  - now apply and_well_bounded.
  - apply (solid_well_bounded (SOr (SPrim a) (SPrim b))). intros o [<-|[<-|[]]]; auto.
  - now apply not_well_bounded.
  - apply (solid_well_bounded (SRestrict (SPrim a) (SPrim b))). intros o [<-|[<-|[]]]; auto.
  - apply (solid_well_bounded (SHollow (SPrim a))). intros o [<-|[]]; auto.
  - now apply remap_well_bounded.
  - now apply withMaterial_well_bounded.
  - eapply bounded_well_bounded; eauto.
Qed.

(** ** Wrappers *)
Section Wraps.
  Context {F : Type} {NF : Num F} {NI : NumInf F} {M : Type}.
  Theorem wrapped_spec (ws : list (wrap F M)) (o : object F M) :
    keeps_rays o ->
    (forall p, oInside (wrapped ws o) p = oInside o p) /\ oBounds (wrapped ws o) = oBounds o /\
    forall r,
      (forall h r', oIntersect o r = Val (h, r') ->
         oIntersect (wrapped ws o) r =
         Val (Hit (hT h) (hNormal h)
                (match outer_map ws with Some f => f (rayAt r (hT h)) | None => hLocal h end)
                (match outer_material ws with Some m => m | None => hMat h end), r)) /\
      (oIntersect o r = Panic -> oIntersect (wrapped ws o) r = Panic).
  Proof.
    intros K. induction ws as [|[f|m] ws (I & B & H)].
    - split; [reflexivity|]. split; [reflexivity|]. intros r. split; [|auto].
      intros h r' E. cbn [wrapped outer_map outer_material]. rewrite E, (K _ _ _ E). now destruct h.
    - split; [exact I|]. split; [exact B|]. intros r. destruct (H r) as (H1 & H2).
      split; intros; cbn [wrapped remap oIntersect outer_map outer_material].
      + rewrite (H1 _ _ H0). reflexivity.
      + rewrite H2; auto.
    - split; [exact I|]. split; [exact B|]. intros r. destruct (H r) as (H1 & H2).
      split; intros; cbn [wrapped withMaterial oIntersect outer_map outer_material].
      + rewrite (H1 _ _ H0). reflexivity.
      + rewrite H2; auto.
  Qed.
End Wraps.

(** ** Cylinders along any axis *)
Section CylDir.
  Context {M : Type}.
  Definition axis_dist2 (dir : axis) (p c : pt) : R := norm2 (minus3 p c) - (vget p dir - vget c dir)².

  Theorem cylinderDir_exact (m : option M) dir diam height c s d : 0 <= diam -> norm2 d <> (vget d dir)² ->
    let h := quadricIntersect (cylinderDirData m dir diam height c) (Ray s d) in
    let onSurf p := axis_dist2 dir p c = (diam / 2)² /\ Rabs (vget p dir - vget c dir) < height / 2 + tiny in
    (0 < hT h /\ onSurf (along s d (hT h)) /\ hMat h = m /\
       hNormal h = vset (minus3 (along s d (hT h)) c) dir 0 /\
       forall t, 0 < t < hT h -> ~ onSurf (along s d t)) \/
    (h = noHit /\ forall t, 0 < t -> ~ onSurf (along s d t)).
  Proof.
    intros Hdm Hd. cbv zeta.
    set (a := vset (Vec 1 1 1) dir 0).
    set (ext := vset (Vec (diam / 2) (diam / 2) (diam / 2)) dir (height / 2)).
    set (lo := Vec (vx c - vx ext - tiny) (vy c - vy ext - tiny) (vz c - vz ext - tiny)).
    set (hi := Vec (vx c + vx ext + tiny) (vy c + vy ext + tiny) (vz c + vz ext + tiny)).
    assert (cylinderDirData m dir diam height c = Quadric c a (diam / 2 * (diam / 2)) (BBox lo hi) m) as ->.
    { unfold cylinderDirData, bbWithMargin, bbTranslated, lo, hi, ext, a, vadd, vmul.
      destruct dir; cbn [vset vx vy vz bMin bMax nadd nsub nmul ndiv nopp nofZ NumR]; f_equal; f_equal; f_equal; field. }
    assert (lead a d <> 0) as HL.
    { unfold lead, a. intros E. apply Hd. unfold norm2, dot3, Rsqr in *. destruct dir; cbn in *; lra. }
    assert (forall p, quadratic a c p = axis_dist2 dir p c) as Q.
    { intros p. unfold quadratic, axis_dist2, a, norm2, dot3, minus3, Rsqr. destruct dir; cbn; ring. }
    assert (forall p, axis_dist2 dir p c = (diam / 2)² -> in_open_box lo hi p <-> Rabs (vget p dir - vget c dir) < height / 2 + tiny) as I.
    { intros p Hp. generalize tiny_pos; intros TP.
      assert (in_open_box lo hi p <-> (forall x, x = AX \/ x = AY \/ x = AZ -> Rabs (vget p x - vget c x) < vget ext x + tiny)) as Hbox.
      { unfold in_open_box, lo, hi. cbn [vx vy vz]. split.
        - intros (A & B & C) x [-> | [-> | ->]]; cbn [vget]; apply Rabs_def1; lra.
        - intros H. generalize (H AX), (H AY), (H AZ). cbn [vget]. intros A B C.
          assert (Rabs (vx p - vx c) < vx ext + tiny) as A' by auto. assert (Rabs (vy p - vy c) < vy ext + tiny) as B' by auto.
          assert (Rabs (vz p - vz c) < vz ext + tiny) as C' by auto.
          apply Rabs_def2 in A', B', C'. lra. }
      rewrite Hbox. split.
      - intros H. specialize (H dir). unfold ext in H. destruct dir; cbn [vset vget vx vy vz] in *; auto.
      - intros Y x Hx. unfold axis_dist2, norm2, dot3, minus3, Rsqr in Hp.
        unfold ext; destruct dir; cbn [vset vget vx vy vz] in *.
        + destruct (sum_sq_bounds 0 (vy p - vy c) (vz p - vz c) (diam / 2)) as (_ & B2 & B3); [lra|lra|].
          destruct Hx as [-> | [-> | ->]]; cbn [vget vx vy vz] in *; auto; apply Rabs_def1; lra.
        + destruct (sum_sq_bounds (vx p - vx c) 0 (vz p - vz c) (diam / 2)) as (B2 & _ & B3); [lra|lra|].
          destruct Hx as [-> | [-> | ->]]; cbn [vget vx vy vz] in *; auto; apply Rabs_def1; lra.
        + destruct (sum_sq_bounds (vx p - vx c) (vy p - vy c) 0 (diam / 2)) as (B2 & B3 & _); [lra|lra|].
          destruct Hx as [-> | [-> | ->]]; cbn [vget vx vy vz] in *; auto; apply Rabs_def1; lra. }
    destruct (quadric_exact c a (diam / 2 * (diam / 2)) lo hi m s d HL) as [[(A & B & C & D & E & F) N]|[E N]].
    - left. rewrite Q in B. split; auto. split; [split; [exact B|apply I; auto]|]. split; auto. split.
      + rewrite D. unfold a, minus3. destruct dir; cbn [vset vx vy vz]; f_equal; ring.
      + intros t Ht [X Y]. apply (N t Ht). rewrite Q. split; [exact X|now apply I].
    - right. split; auto. intros t Ht [X Y]. apply (N t Ht). rewrite Q. split; [exact X|now apply I].
  Qed.
  Theorem cylinderDir_y (m : option M) (diam height : R) (c : pt) : cylinderDirData m AY diam height c = cylinderData m diam height c.
  Proof.
    rewrite cylinderData_eq. unfold cylinderDirData, bbWithMargin, bbTranslated, vadd, vmul.
    cbn [vset vx vy vz bMin bMax nadd nsub nmul ndiv nopp nofZ NumR]. f_equal. f_equal; f_equal; field.
  Qed.
End CylDir.
