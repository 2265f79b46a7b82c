(** * Proofs about local rendering, animations and defaults *)
From Coq Require Import ZArith Reals Bool List Lia Lra.
From Verif Require Import Num NumLaws Outcome GeomModel ColorModel ObjModel SceneModel ImageModel PpmSpec PpmProofs ApiModel ApiSpec ApiProofs.
Import ListNotations.
Local Open Scope Z_scope.
Ltac Zify.zify_post_hook ::= Z.div_mod_to_equations.

Lemma triangular_S k : 0 <= k -> triangular (k + 1) = triangular k + (k + 1).
Proof.
  intros H. unfold triangular. replace ((k + 1) * (k + 1 + 1)) with (k * (k + 1) + (k + 1) * 2) by ring.
  now rewrite Z.div_add by lia.
Qed.
Lemma counting_S k : counting (S k) = counting k ++ [Z.of_nat (S k)].
Proof. unfold counting. rewrite seq_S, map_app. reflexivity. Qed.
Lemma triangular_mono j k : 0 <= j <= k -> triangular j <= triangular k.
Proof. intros H. unfold triangular. apply Z.div_le_mono; nia. Qed.

Section Render.
  Context {F : Type} `{NF : Num F} `{TF : Trig F}.
  Notation rows := (list (list (color F))).
  Variables png jpeg : rows -> option (list Z).

  Lemma savef_ok (img : rows) fname fs fs' : savef png jpeg img fname nil fs = (false, fs') ->
    exists b, stored_as png jpeg fname img b /\ fsFiles fs' fname = Some b /\ untouched [fname] fs fs' /\ pathExt fname <> dotPpm.
  Proof.
    intros H. apply savef_cases in H. cbv zeta in H. cbn [app] in H. rewrite noExt_ext in H.
    destruct (name_eqb (pathExt fname) dotPng) eqn:E1.
    - apply name_eqb_spec in E1. destruct (png img) as [b|] eqn:Eb; [|now destruct H].
      destruct (fsCreate fs fname); [|now destruct H]. destruct H as (H1 & H2 & H3 & _).
      exists b. split; [|split; [|split; [exact H2|]]].
      + rewrite <- (noExt_ext fname), E1. now apply as_png.
      + rewrite H1. f_equal. apply firstn_all2. destruct (Nat.le_gt_cases (length b) (space_for fs fname)) as [|Hg]; [auto|].
        apply H3 in Hg. discriminate.
      + rewrite E1. discriminate.
    - destruct (name_eqb (pathExt fname) dotJpg || name_eqb (pathExt fname) dotJpeg)%bool eqn:E2; [|now destruct H].
      destruct (jpeg img) as [b|] eqn:Eb; [|now destruct H].
      destruct (fsCreate fs fname); [|now destruct H]. destruct H as (H1 & H2 & H3 & _).
      exists b. split; [|split; [|split; [exact H2|]]].
      + apply orb_true_iff in E2. destruct E2 as [E2|E2]; apply name_eqb_spec in E2; rewrite <- (noExt_ext fname), E2;
          [now apply as_jpg|now apply as_jpeg].
      + rewrite H1. f_equal. apply firstn_all2. destruct (Nat.le_gt_cases (length b) (space_for fs fname)) as [|Hg]; [auto|].
        apply H3 in Hg. discriminate.
      + intros E3. rewrite E3 in E2. discriminate.
  Qed.

  Lemma savePPM_other (img : rows) fname n fs e fs' : savePPM fname img fs = (e, fs') -> n <> fname -> fsFiles fs' n = fsFiles fs n.
  Proof.
    intros H Hn. apply savePPM_cases in H. cbv zeta in H. destruct (fsCreate fs fname).
    - apply H. intros [E|[]]. congruence.
    - now destruct H as [_ ->].
  Qed.
  Lemma savePPM_prefix (img : rows) fname fs fs' : savePPM fname img fs = (false, fs') ->
    fsFiles fs' fname = Some (firstn (space_for fs fname) (asciiBytes img)).
  Proof.
    intros H. apply savePPM_cases in H. cbv zeta in H. destruct (fsCreate fs fname); [apply H|now destruct H].
  Qed.

  Section Local.
    Variables (shot : list Z -> rows) (post : rows -> rows) (flagO : list Z) (numPass : Z).
    Notation image k := (post (shot (counting k))).

    (** what the main output file holds *)
    Definition holds_image (k : nat) (fs : fsys) : Prop :=
      exists b, stored_as png jpeg flagO (image k) b /\ fsFiles fs flagO = Some b /\ pathExt flagO <> dotPpm.

    Definition ended (w : world) : Prop :=
      exists i : nat, wCalls w = counting i /\ (forall j, 0 <= j < Z.of_nat i -> triangular j < numPass) /\
        (wExit w = false -> numPass <= triangular (Z.of_nat i) /\ (i <> O -> holds_image i (wFs w)) /\
           exists n, fsFiles (wFs w) (noExt flagO ++ dotPpm) = Some (firstn n (asciiBytes (image i)))).

    Lemma keep_image k fs fs' e : holds_image k fs -> savePPM (noExt flagO ++ dotPpm) (image k) fs = (e, fs') -> holds_image k fs'.
    Proof.
      intros (b & H1 & H2 & H3) Hs. exists b. split; [exact H1|]. split; [|exact H3].
      rewrite (savePPM_other _ _ flagO _ _ _ Hs); [exact H2|]. intros E. apply H3.
      apply (app_inv_head (noExt flagO)). rewrite noExt_ext. exact E.
    Qed.

    Lemma loop_ends fuel : forall (j : nat) w, wCalls w = counting j -> wExit w = false ->
      (forall i, 0 <= i < Z.of_nat j -> triangular i < numPass) -> (j <> O -> holds_image j (wFs w)) ->
      (Z.to_nat (numPass - triangular (Z.of_nat j)) < fuel)%nat ->
      exists w', renderLoop png jpeg fuel shot post flagO numPass (Z.of_nat j + 1) (triangular (Z.of_nat j)) w = Val w' /\ ended w'.
    Proof.
      induction fuel as [|fuel IH]; intros j w Hc Hx Hj Hf Hfuel; [lia|].
      cbn [renderLoop]. destruct (Z.ltb_spec (triangular (Z.of_nat j)) numPass) as [Hlt|Hge].
      - assert (HS : wCalls w ++ [Z.of_nat j + 1] = counting (S j)) by (rewrite Hc, counting_S; do 2 f_equal; lia).
        assert (HjS : forall i, 0 <= i < Z.of_nat (S j) -> triangular i < numPass).
        { intros i Hi. destruct (Z.eq_dec i (Z.of_nat j)) as [->|]; [exact Hlt|apply Hj; lia]. }
        rewrite HS. unfold checked at 1. cbn [wFs wCalls].
        destruct (savef png jpeg (image (S j)) flagO nil (wFs w)) as [e1 fs1] eqn:E1. destruct e1.
        { eexists; split; [reflexivity|]. exists (S j). cbn [wCalls wExit]. split; [reflexivity|]. split; [exact HjS|discriminate]. }
        unfold checked at 1. cbn [wFs wCalls].
        destruct (savePPM (noExt flagO ++ dotPpm) (image (S j)) fs1) as [e2 fs2] eqn:E2. destruct e2.
        { eexists; split; [reflexivity|]. exists (S j). cbn [wCalls wExit]. split; [reflexivity|]. split; [exact HjS|discriminate]. }
        assert (Hi : holds_image (S j) fs1).
        { destruct (savef_ok _ _ _ _ E1) as (b & B1 & B2 & _ & B3). exists b. now split. }
        pose proof (keep_image _ _ _ _ Hi E2) as Hi2.
        replace (Z.of_nat j + 1 + 1) with (Z.of_nat (S j) + 1) by lia.
        replace (triangular (Z.of_nat j) + (Z.of_nat j + 1)) with (triangular (Z.of_nat (S j)))
          by (rewrite <- triangular_S by lia; f_equal; lia).
        apply IH; auto.
        pose proof (triangular_S (Z.of_nat j) ltac:(lia)) as HT. replace (Z.of_nat (S j)) with (Z.of_nat j + 1) by lia. lia.
      - unfold checked. rewrite Hc. destruct (savePPM (noExt flagO ++ dotPpm) (image j) (wFs w)) as [e fs] eqn:E. destruct e.
        + eexists; split; [reflexivity|]. exists j. cbn [wCalls wExit]. split; [reflexivity|]. split; [exact Hj|discriminate].
        + eexists; split; [reflexivity|]. exists j. cbn [wCalls wExit wFs]. split; [reflexivity|]. split; [exact Hj|].
          intros _. split; [exact Hge|]. split.
          * intros H. eapply keep_image; eauto.
          * eexists. apply (savePPM_prefix _ _ _ _ E).
    Qed.

    Lemma local_ends fs : exists fuel w', renderLocal png jpeg fuel shot post flagO numPass fs = Val w' /\ ended w'.
    Proof.
      exists (S (Z.to_nat numPass)). apply (loop_ends _ 0%nat (World nil fs false)); auto; try (cbn; lia).
      all: try (intros H; now contradiction H).
    Qed.
  End Local.

  (** ** Animations *)
  Lemma digits_zeros k rest a : digits_value (repeat 48 k ++ rest) a = digits_value rest (10 ^ Z.of_nat k * a).
  Proof.
    revert a. induction k as [|k IH]; intros a; cbn [repeat app].
    - now rewrite Z.pow_0_r, Z.mul_1_l.
    - rewrite digits_value_digit by reflexivity. rewrite IH. f_equal.
      rewrite Nat2Z.inj_succ, Z.pow_succ_r by lia. ring.
  Qed.
  Lemma pad5_value i rest : 0 <= i -> stops rest -> digits_value (pad5 i ++ rest) 0 = (i, rest).
  Proof.
    intros Hi Hs. unfold pad5. destruct (Z.ltb_spec i 0); [lia|].
    rewrite <- app_assoc, digits_zeros. destruct (fmtInt_spec i Hi) as (_ & _ & H3). rewrite H3.
    rewrite !Z.mul_0_r, Z.add_0_l. destruct rest as [|b r]; [reflexivity|]. now apply digits_value_stop.
  Qed.
  Lemma pad5_inj i j : 0 <= i -> 0 <= j -> pad5 i ++ dotJpg = pad5 j ++ dotJpg -> i = j.
  Proof.
    intros Hi Hj E. assert (Hs : stops dotJpg) by reflexivity.
    pose proof (pad5_value i dotJpg Hi Hs) as H1. rewrite E, (pad5_value j dotJpg Hj Hs) in H1. now injection H1.
  Qed.
  Lemma pad5_not_last i : 0 <= i -> pad5 i ++ dotJpg <> lastJpg.
  Proof.
    intros Hi E. pose proof (pad5_value i dotJpg Hi eq_refl) as H1. rewrite E in H1. cbv in H1. discriminate.
  Qed.
  Lemma ext_jpg dir x : pathExt (pathJoin dir (x ++ dotJpg)) = dotJpg.
  Proof.
    unfold pathExt, pathJoin. change (47 :: x ++ dotJpg) with ([47] ++ x ++ dotJpg).
    rewrite !app_assoc, rev_app_distr. reflexivity.
  Qed.
  Lemma stored_jpg name img b : pathExt name = dotJpg -> stored_as png jpeg name img b -> jpeg img = Some b.
  Proof.
    intros E H. destruct H as [s i b H|s i b H|s i b H]; auto; exfalso;
      unfold pathExt in E; rewrite rev_app_distr in E; cbn in E; discriminate.
  Qed.

  Section Frames.
    Variables (shots : Z -> list Z -> rows) (passes : Z -> Z) (flagO : list Z).
    Notation frame i := (shots i (repeat 1 (Z.to_nat (passes i)))).
    Notation dir := (framesDir flagO).
    Notation file i := (pathJoin dir (pad5 i ++ dotJpg)).
    Notation lastFile := (pathJoin dir lastJpg).

    Definition jpg_of (name : list Z) (img : rows) (fs : fsys) : Prop := exists b, jpeg img = Some b /\ fsFiles fs name = Some b.
    Definition frames_calls (a n : nat) : list Z := flat_map (fun i => repeat 1 (Z.to_nat (passes (Z.of_nat i)))) (seq a n).

    Lemma frame_ok i w w' : renderFrame png jpeg (shots i) flagO (passes i) i w = Val w' ->
      wCalls w' = wCalls w ++ repeat 1 (Z.to_nat (passes i)) /\
      (wExit w' = false -> jpg_of (file i) (frame i) (wFs w') /\ (0 <= i -> jpg_of lastFile (frame i) (wFs w')) /\
         untouched [file i; lastFile] (wFs w) (wFs w')).
    Proof.
      unfold renderFrame, checked. cbn [wFs wCalls].
      destruct (savef png jpeg (frame i) lastFile nil (wFs w)) as [e1 fs1] eqn:E1. destruct e1.
      { intros H; injection H as <-. cbn. split; [reflexivity|discriminate]. }
      destruct (savef png jpeg (frame i) (file i) nil fs1) as [e2 fs2] eqn:E2. destruct e2.
      { intros H; injection H as <-. cbn. split; [reflexivity|discriminate]. }
      intros H; injection H as <-. cbn [wCalls wExit wFs]. split; [reflexivity|]. intros _.
      destruct (savef_ok _ _ _ _ E1) as (b1 & B1 & B2 & B3 & _). destruct (savef_ok _ _ _ _ E2) as (b2 & C1 & C2 & C3 & _).
      split; [|split].
      - exists b2. split; [|exact C2]. apply (stored_jpg _ _ _ (ext_jpg _ _) C1).
      - intros Hi. exists b1. split; [apply (stored_jpg _ _ _ (ext_jpg dir [108;97;115;116]) B1)|].
        rewrite C3; [exact B2|]. intros [E|[]]. apply app_inv_head in E. injection E as E. now apply (pad5_not_last i).
      - intros n Hn. rewrite C3, B3; [reflexivity| |]; intros [E|[]]; apply Hn; cbn; auto.
    Qed.

    Lemma animate_ok n : forall (a : nat) w w', animateLoop png jpeg n (Z.of_nat a) shots passes flagO w = Val w' -> wExit w = false ->
      (exists k, (k <= n)%nat /\ wCalls w' = wCalls w ++ frames_calls a k /\ (wExit w' = false -> k = n)) /\
      (wExit w' = false ->
        (forall i, Z.of_nat a <= i < Z.of_nat (a + n) -> jpg_of (file i) (frame i) (wFs w')) /\
        (n <> O -> jpg_of lastFile (frame (Z.of_nat (a + n) - 1)) (wFs w')) /\
        (forall f, (forall i, Z.of_nat a <= i < Z.of_nat (a + n) -> f <> file i) -> f <> lastFile -> fsFiles (wFs w') f = fsFiles (wFs w) f)).
    Proof.
      induction n as [|n IH]; intros a w w' H Hx.
      - cbn in H. injection H as <-. split.
        + exists O. split; [lia|]. split; [cbn; now rewrite app_nil_r|auto].
        + intros _. split; [intros i Hi; lia|]. split; [intros Hn; now contradiction Hn|auto].
      - cbn [animateLoop] in H.
        destruct (renderFrame png jpeg (shots (Z.of_nat a)) flagO (passes (Z.of_nat a)) (Z.of_nat a) w) as [w1| |] eqn:E1; try discriminate.
        cbn [obind] in H. destruct (frame_ok _ _ _ E1) as [F1 F2]. destruct (wExit w1) eqn:Ex.
        { injection H as <-. split.
          - exists 1%nat. split; [lia|]. split; [rewrite F1; unfold frames_calls; cbn; now rewrite app_nil_r|congruence].
          - congruence. }
        destruct (F2 eq_refl) as (F3 & F4 & F5).
        replace (Z.of_nat a + 1) with (Z.of_nat (S a)) in H by lia.
        destruct (IH (S a) w1 w' H Ex) as [(k & K1 & K2 & K3) K4]. split.
        + exists (S k). split; [lia|]. split; [rewrite K2, F1, <- app_assoc; reflexivity|]. intros Hw. now rewrite (K3 Hw).
        + intros Hw. destruct (K4 Hw) as (G1 & G2 & G3). split; [|split].
          * intros i Hi. destruct (Z.eq_dec i (Z.of_nat a)) as [->|]; [|apply G1; lia].
            destruct F3 as (b & B1 & B2). exists b. split; [exact B1|]. rewrite G3; [exact B2| |].
            -- intros i Hi2 E. apply app_inv_head in E. injection E as E. apply pad5_inj in E; lia.
            -- intros E. apply app_inv_head in E. injection E as E. apply (pad5_not_last (Z.of_nat a)) in E; [auto|lia].
          * intros _. replace (a + S n)%nat with (S a + n)%nat by lia. destruct n as [|n]; [|now apply G2].
            destruct (F4 ltac:(lia)) as (b & B1 & B2). exists b. replace (Z.of_nat (S a + 0) - 1) with (Z.of_nat a) by lia.
            split; [exact B1|]. cbn in H. injection H as <-. exact B2.
          * intros f Hf Hl. rewrite G3; auto.
            -- apply F5. intros [E|[E|[]]]; [apply (Hf (Z.of_nat a)); [lia|auto]|auto].
            -- intros i Hi. apply Hf. lia.
    Qed.
  End Frames.
End Render.

(** ** Defaults *)
Section Defaults.
  Context {F M L Med : Type} `{NF : Num F} `{TF : Trig F}.
  Variables (nm n2 fb : M).
  Notation spec := (spec F M L Med).
  Notation init := (initDefaults nm n2 fb).

  Lemma wrap_small z : - 2 ^ 62 <= z <= 2 ^ 62 -> wrap64 z = z.
  Proof. intros H. unfold wrap64. rewrite Z.mod_small; lia. Qed.

  Definition sizes (s : spec) : Prop := 0 <= spWidth s <= 2 ^ 52 /\ 0 <= spHeight s <= 2 ^ 52.

  Definition theWidth (s : spec) : Z :=
    if spWidth s =? 0 then if spHeight s =? 0 then 960 else spHeight s * 960 / 540 else spWidth s.
  Definition theHeight (s : spec) : Z :=
    if spHeight s =? 0 then if spWidth s =? 0 then 540 else spWidth s * 540 / 960 else spHeight s.
  Definition theRecursion (s : spec) : Z :=
    if spDebugNormals s =? 2 then 20 else if spRecursion s =? 0 then 1 else spRecursion s.
  Definition theObjects (s : spec) : list (apiObject F M) :=
    if spDebugNormals s =? 1 then applyMaterial fb nm (spObjects s)
    else if spDebugNormals s =? 2 then applyMaterial fb n2 (spObjects s) else spObjects s.
  Definition theMedia (s : spec) : list Med :=
    if (spDebugNormals s =? 1) || (spDebugNormals s =? 2) then nil else spMedia s.
  Definition defaultCamera : outcome (camera F) := omap (fun c => camTranslate c (Vec (nofZ 0) (nofZ 1) (nofZ 0))) (projective (deg (nofZ 90))).

  Lemma init_eq (s : spec) : sizes s ->
    init s = obind (match spCamera s with Some c => Val c | None => defaultCamera end) (fun cam =>
             omap (fun cam => Spec (spLights s) (theObjects s) (theMedia s) (Some cam) (theRecursion s)
                         (if spNumPass s =? 0 then 1 else spNumPass s) (theWidth s) (theHeight s)
                         (spDebugNormals s) (spIsometricFOV s) (spIsometricDir s))
                  (if neqb (spIsometricFOV s) (nofZ 0) then Val cam else isometric (spIsometricDir s) (spIsometricFOV s))).
  Proof.
    intros [Hw Hh]. unfold initDefaults, defaultCamera.
    destruct (match spCamera s with Some c => Val c | None => _ end) as [cam| |]; try reflexivity. cbn [obind].
    assert (Hwq : Z.quot (wrap64 (spHeight s * 960)) 540 = spHeight s * 960 / 540)
      by (rewrite wrap_small by lia; apply Z.quot_div_nonneg; lia).
    assert (Hhq : Z.quot (wrap64 (spWidth s * 540)) 960 = spWidth s * 540 / 960)
      by (rewrite wrap_small by lia; apply Z.quot_div_nonneg; lia).
    assert (E1 : (let '(w, h) := if ((spWidth s =? 0) && (spHeight s =? 0))%bool then (960, 540) else (spWidth s, spHeight s) in
                 let w := if w =? 0 then Z.quot (wrap64 (h * 960)) 540 else w in
                 let h := if h =? 0 then Z.quot (wrap64 (w * 540)) 960 else h in (w, h)) = (theWidth s, theHeight s)).
    { unfold theWidth, theHeight.
      destruct (Z.eqb_spec (spWidth s) 0) as [W0|W0]; destruct (Z.eqb_spec (spHeight s) 0) as [H0|H0]; cbn [andb]; auto;
        repeat match goal with |- context [if (?a =? ?b)%Z then _ else _] => destruct (Z.eqb_spec a b); try lia end;
        rewrite ?Hwq, ?Hhq; auto. }
    assert (E2 : forall o m r, (let '(objs, med) := if spDebugNormals s =? 1 then (applyMaterial fb nm (spObjects s), nil) else (spObjects s, spMedia s) in
                 let '(objs, med, rec) := if spDebugNormals s =? 2 then (applyMaterial fb n2 objs, nil, 20) else (objs, med, if spRecursion s =? 0 then 1 else spRecursion s) in
                 (objs, med, if rec =? 0 then 3 else rec)) = (o, m, r) -> o = theObjects s /\ m = theMedia s /\ r = theRecursion s).
    { intros o m r. unfold theObjects, theMedia, theRecursion.
      destruct (Z.eqb_spec (spDebugNormals s) 1); destruct (Z.eqb_spec (spDebugNormals s) 2); cbn [orb]; try lia;
        destruct (Z.eqb_spec (spRecursion s) 0) as [R0|R0]; cbn [Z.eqb]; try (rewrite (proj2 (Z.eqb_neq _ _) R0));
        intros H; injection H as <- <- <-; auto. }
    destruct (if ((spWidth s =? 0) && (spHeight s =? 0))%bool then _ else _) as [w0 h0]. injection E1 as <- <-.
    destruct (if spDebugNormals s =? 1 then _ else _) as [o0 m0].
    destruct (if spDebugNormals s =? 2 then _ else _) as [[o1 m1] r1].
    destruct (E2 _ _ _ eq_refl) as (-> & -> & <-).
    destruct (if neqb (spIsometricFOV s) (nofZ 0) then _ else _) as [c| |]; reflexivity.
  Qed.

  Lemma init_inv (s s' : spec) : sizes s -> init s = Val s' ->
    exists cam, s' = Spec (spLights s) (theObjects s) (theMedia s) (Some cam) (theRecursion s)
                         (if spNumPass s =? 0 then 1 else spNumPass s) (theWidth s) (theHeight s)
                         (spDebugNormals s) (spIsometricFOV s) (spIsometricDir s) /\
      if neqb (spIsometricFOV s) (nofZ 0) then match spCamera s with Some c => cam = c | None => defaultCamera = Val cam end
      else isometric (spIsometricDir s) (spIsometricFOV s) = Val cam.
  Proof.
    intros Hs H. rewrite (init_eq _ Hs) in H.
    destruct (match spCamera s with Some c => Val c | None => _ end) as [cam| |] eqn:E1; try discriminate. cbn [obind] in H.
    destruct (neqb (spIsometricFOV s) (nofZ 0)).
    - cbn in H. injection H as <-. exists cam. split; [reflexivity|]. destruct (spCamera s); congruence.
    - destruct (isometric _ _) as [c| |]; try discriminate. cbn in H. injection H as <-. now exists c.
  Qed.

  Lemma init_ok (s s' : spec) : init s = Val s' -> 0 <= spRecursion s -> 0 <= spNumPass s -> sizes s ->
    (0 < spNumPass s' /\ (spNumPass s <> 0 -> spNumPass s' = spNumPass s)) /\
    (0 < spRecursion s' /\ (spRecursion s <> 0 -> spDebugNormals s <> 2 -> spRecursion s' = spRecursion s)) /\
    (0 < spWidth s' /\ (spWidth s <> 0 -> spWidth s' = spWidth s)) /\
    (0 <= spHeight s' /\ (spHeight s' = 0 <-> spWidth s = 1 /\ spHeight s = 0) /\ (spHeight s <> 0 -> spHeight s' = spHeight s)) /\
    (spWidth s = 0 -> spHeight s <> 0 -> 9 * spWidth s' <= 16 * spHeight s' < 9 * (spWidth s' + 1)) /\
    (spWidth s <> 0 -> spHeight s = 0 -> 16 * spHeight s' <= 9 * spWidth s' < 16 * (spHeight s' + 1)) /\
    (spWidth s = 0 -> spHeight s = 0 -> 9 * spWidth s' = 16 * spHeight s') /\
    (spCamera s' <> None /\ (neqb (spIsometricFOV s) (nofZ 0) = true -> spCamera s <> None -> spCamera s' = spCamera s)) /\
    (spLights s' = spLights s /\ (spDebugNormals s <> 1 -> spDebugNormals s <> 2 -> spObjects s' = spObjects s /\ spMedia s' = spMedia s)).
  Proof.
    intros H Hr Hn Hs. destruct (init_inv _ _ Hs H) as (cam & -> & Hc). destruct Hs as [Hw Hh].
    cbn [spNumPass spRecursion spWidth spHeight spCamera spLights spObjects spMedia spDebugNormals].
    unfold theWidth, theHeight, theRecursion.
    split; [destruct (Z.eqb_spec (spNumPass s) 0); lia|].
    split; [destruct (Z.eqb_spec (spDebugNormals s) 2); destruct (Z.eqb_spec (spRecursion s) 0); lia|].
    destruct (Z.eqb_spec (spWidth s) 0); destruct (Z.eqb_spec (spHeight s) 0).
    all: split; [lia|]; split; [lia|]; split; [lia|]; split; [lia|]; split; [lia|]; split.
    all: try (split; [discriminate|]; intros E Hc0; rewrite E in Hc; destruct (spCamera s); [now subst cam|now contradiction Hc0]).
    all: split; [reflexivity|]; intros N1 N2; unfold theObjects, theMedia;
      rewrite (proj2 (Z.eqb_neq _ _) N1), (proj2 (Z.eqb_neq _ _) N2); now split.
  Qed.

  Definition quiet (s : spec) : Prop := (spDebugNormals s <> 1 /\ spDebugNormals s <> 2) \/ Forall (fun o => aoIsBackdrop o = false) (spObjects s).

  Lemma same_refl (o : object F M) : same_object o o. Proof. now repeat split. Qed.
  Lemma same_withMaterial m m' (o : object F M) : same_object (withMaterial m o) (withMaterial m (withMaterial m' o)).
  Proof.
    repeat split. intros r. cbn [withMaterial oIntersect]. destruct (oIntersect o r) as [[h r']| |]; reflexivity.
  Qed.
  Lemma apply_twice m (os : list (apiObject F M)) : Forall (fun o => aoIsBackdrop o = false) os ->
    Forall2 (fun a b => same_object (aoInterface a) (aoInterface b)) (applyMaterial fb m os) (applyMaterial fb m (applyMaterial fb m os)).
  Proof.
    induction 1 as [|o os Ho Hos IH]; cbn [applyMaterial map]; constructor; [|exact IH].
    rewrite Ho. cbn [apiWithMaterial aoIsBackdrop aoInterface]. apply same_withMaterial.
  Qed.
  Lemma objects_refl (os : list (apiObject F M)) : Forall2 (fun a b => same_object (aoInterface a) (aoInterface b)) os os.
  Proof. induction os; constructor; auto using same_refl. Qed.

  Lemma init_idempotent (s s' : spec) : init s = Val s' -> 0 <= spRecursion s -> 0 <= spNumPass s ->
    0 <= spWidth s <= 2 ^ 51 -> 0 <= spHeight s <= 2 ^ 51 -> quiet s ->
    exists s'', init s' = Val s'' /\ same_spec s' s''.
  Proof.
    intros H Hr Hn Hw Hh Hq.
    assert (Hs : sizes s) by (split; lia).
    destruct (init_inv _ _ Hs H) as (cam & -> & Hc). set (s1 := Spec _ _ _ _ _ _ _ _ _ _ _).
    assert (Hs1 : sizes s1).
    { unfold sizes; cbn [s1 spWidth spHeight]. unfold theWidth, theHeight.
      destruct (Z.eqb_spec (spWidth s) 0); destruct (Z.eqb_spec (spHeight s) 0); lia. }
    rewrite (init_eq _ Hs1).
    assert (Ecam : (if neqb (spIsometricFOV s1) (nofZ 0) then Val cam else isometric (spIsometricDir s1) (spIsometricFOV s1)) = Val cam)
      by (cbn [s1 spIsometricFOV spIsometricDir]; destruct (neqb _ _); auto).
    change (spCamera s1) with (Some cam). cbn [obind]. rewrite Ecam. cbn [omap].
    eexists; split; [reflexivity|].
    assert (W1 : theWidth s1 = spWidth s1).
    { unfold theWidth at 1. cbn [s1 spWidth spHeight]. unfold theWidth, theHeight.
      destruct (Z.eqb_spec (spWidth s) 0); destruct (Z.eqb_spec (spHeight s) 0);
        repeat match goal with |- context [if (?a =? ?b)%Z then _ else _] => destruct (Z.eqb_spec a b); try lia end. }
    assert (H1 : theHeight s1 = spHeight s1).
    { unfold theHeight at 1. cbn [s1 spWidth spHeight]. unfold theWidth, theHeight.
      destruct (Z.eqb_spec (spWidth s) 0); destruct (Z.eqb_spec (spHeight s) 0);
        repeat match goal with |- context [if (?a =? ?b)%Z then _ else _] => destruct (Z.eqb_spec a b); try lia end. }
    unfold same_spec. cbn [spLights spMedia spCamera spRecursion spNumPass spWidth spHeight spDebugNormals spIsometricFOV spIsometricDir spObjects].
    assert (D1 : spDebugNormals s1 = spDebugNormals s) by reflexivity.
    assert (M1 : spMedia s1 = theMedia s) by reflexivity.
    assert (R1 : spRecursion s1 = theRecursion s) by reflexivity.
    assert (N1 : spNumPass s1 = if spNumPass s =? 0 then 1 else spNumPass s) by reflexivity.
    assert (O1 : spObjects s1 = theObjects s) by reflexivity.
    assert (F1 : spIsometricFOV s1 = spIsometricFOV s /\ spIsometricDir s1 = spIsometricDir s /\ spLights s1 = spLights s /\ spCamera s1 = Some cam) by (repeat split).
    destruct F1 as (F1 & F2 & F3 & F4).
    clearbody s1.
    split; [reflexivity|]. split.
    { unfold theMedia at 1. rewrite D1, M1. unfold theMedia. destruct ((spDebugNormals s =? 1) || (spDebugNormals s =? 2)); reflexivity. }
    split; [exact F4|]. split.
    { unfold theRecursion at 1. rewrite D1, R1. unfold theRecursion.
      destruct (Z.eqb_spec (spDebugNormals s) 2); [reflexivity|]. destruct (Z.eqb_spec (spRecursion s) 0) as [|E]; [reflexivity|].
      now rewrite (proj2 (Z.eqb_neq _ _) E). }
    split. { rewrite N1. destruct (Z.eqb_spec (spNumPass s) 0) as [|E]; [reflexivity|]. now rewrite (proj2 (Z.eqb_neq _ _) E). }
    split; [now symmetry|]. split; [now symmetry|]. do 3 (split; [reflexivity|]).
    unfold theObjects at 1. rewrite D1, O1. unfold theObjects.
    destruct Hq as [[N2 N3]|Hb].
    - rewrite (proj2 (Z.eqb_neq _ _) N2), (proj2 (Z.eqb_neq _ _) N3). apply objects_refl.
    - destruct (spDebugNormals s =? 1); [now apply apply_twice|]. destruct (spDebugNormals s =? 2); [now apply apply_twice|apply objects_refl].
  Qed.

  (** applied twice, the debug view no longer recognizes the backdrop *)
  Lemma init_backdrop (s s1 s2 : spec) o : sizes s -> sizes s1 -> spDebugNormals s = 1 -> spObjects s = [o] -> aoIsBackdrop o = true ->
    init s = Val s1 -> init s1 = Val s2 ->
    exists o1 o2, spObjects s1 = [o1] /\ spObjects s2 = [o2] /\ all_material fb (aoInterface o1) /\ all_material nm (aoInterface o2).
  Proof.
    intros Hs Hs1 Hd Ho Hb H1 H2. destruct (init_inv _ _ Hs H1) as (c1 & E1 & _). destruct (init_inv _ _ Hs1 H2) as (c2 & E2 & _).
    assert (D1 : spDebugNormals s1 = 1) by (rewrite E1; exact Hd).
    assert (O1 : spObjects s1 = [apiWithMaterial (Some fb) o]).
    { rewrite E1. cbn [spObjects]. unfold theObjects. rewrite Hd, Ho. cbn [Z.eqb applyMaterial map]. now rewrite Hb. }
    assert (O2 : spObjects s2 = [apiWithMaterial (Some nm) (apiWithMaterial (Some fb) o)]).
    { rewrite E2. cbn [spObjects]. unfold theObjects. rewrite D1, O1. reflexivity. }
    exists (apiWithMaterial (Some fb) o), (apiWithMaterial (Some nm) (apiWithMaterial (Some fb) o)).
    split; [exact O1|]. split; [exact O2|]. split; intros r h r'; cbn [apiWithMaterial aoInterface withMaterial oIntersect].
    - destruct (oIntersect (aoInterface o) r) as [[h0 r0]| |]; cbn; try discriminate. intros E; now injection E as <- <-.
    - destruct (oIntersect (aoInterface o) r) as [[h0 r0]| |]; cbn; try discriminate. intros E; now injection E as <- <-.
  Qed.
End Defaults.
