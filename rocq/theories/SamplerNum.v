(** * Sampler: coordinates, means and variance; complete runs *)
From Coq Require Import ZArith Reals Bool List Lia Lra Permutation.
From Flocq Require Import Core.
From Flocq Require IEEE754.BinarySingleNaN.
Import IEEE754.BinarySingleNaN.
From Verif Require Import Num NumLaws Outcome B64 ColorModel SeqModel SeqSpec SeqProofs HaltonProofs
  SamplerModel SamplerSpec SamplerProofs PoolProofs.
Import ListNotations.

(** ** Existence of complete runs *)
Section Exist.
  Context {F : Type} `{NF : Num F} {G : Type}.
  Variables (f : imageFunc F G) (aa : bool) (shifts : list (F * F)) (w h : Z) (n : nat) (g0 : G).
  Hypothesis Hf : deterministic f.
  Hypothesis Hpos : forall p k, in_image w h p -> exists c xy, sample_pos aa shifts w h p k = Val (c, xy).

  Lemma progress (m0 : mem F) s : Inv f aa shifts w h n g0 m0 s -> finished s \/ exists s', step f aa w h n s s'.
  Proof.
    intros I. generalize (Inv_no_crash f aa shifts w h n g0 m0 s). intros NC.
    destruct s as [q ws m]. unfold finished; cbn [sWorkers] in *.
    assert (forall ws0 : list (worker F G), (forall x, In x ws0 -> ~ crashed x) -> Forall (fun x => x = Done) ws0 \/
              exists ws1 x ws2, ws0 = ws1 ++ x :: ws2 /\ x <> Done /\ ~ crashed x) as H.
    { clear. induction ws0 as [|x ws0 IH]; intros H; [left; constructor|].
      destruct x as [l|t c|].
      - right. exists nil, (Idle l), ws0. repeat split; try discriminate. apply H. now left.
      - right. exists nil, (Busy t c), ws0. repeat split; try discriminate. apply H. now left.
      - destruct IH as [IH|(ws1 & x & ws2 & -> & H1 & H2)]; [intros; apply H; now right|left; constructor; auto|].
        right. exists (Done :: ws1), x, ws2. auto. }
    destruct (H ws) as [?|(ws1 & x & ws2 & -> & Hx & Hc)]; [intros x Hx; apply (NC x I Hx)|auto|].
    right. destruct x as [l|t c|]; [| |congruence].
    - destruct q as [|t q]; eexists; constructor; constructor.
    - destruct c; try (eexists; constructor; constructor; fail). exfalso. now apply Hc.
  Qed.

  Lemma finish_from (m0 : mem F) k : forall s, Inv f aa shifts w h n g0 m0 s -> weight (F:=F) (G:=G) shifts w h n s k ->
    exists j s', steps f aa w h n j s s' /\ finished s'.
  Proof.
    induction k as [k IH] using lt_wf_ind. intros s I W.
    destruct (progress m0 s I) as [Hfin|(s1 & Hs)].
    - exists O, s. split; [constructor|auto].
    - destruct (weight_step f aa shifts w h n Hpos _ _ _ Hs W) as (k' & W' & Hlt).
      destruct (IH k' Hlt s1 (Inv_step f aa shifts w h n g0 Hf Hpos m0 _ _ Hs I) W') as (j & s' & H1 & H2).
      exists (S j), s'. split; [econstructor; eauto|auto].
  Qed.
End Exist.

(** ** What one call of Sample does *)
Section Calls.
  Context {F : Type} `{NF : Num F} {G : Type}.
  Variables (f : imageFunc F G) (aa : bool) (shifts : list (F * F)) (w h : Z) (g0 : G).
  Hypothesis Hf : deterministic f.
  Hypothesis Hw : (0 <= w)%Z.
  Hypothesis Hh : (0 <= h)%Z.
  Hypothesis Hpos : forall p k, in_image w h p -> exists c xy, sample_pos aa shifts w h p k = Val (c, xy).

  Lemma sampleCall_result nPass m m' : sampleCall f aa shifts w h nPass m m' -> forall p, acc_at m' p = after_passes f aa shifts w h g0 nPass m p.
  Proof.
    intros [q gs k s E Hgs Hst Hfin <-] p.
    generalize (Inv_init f aa shifts w h (Z.to_nat nPass) g0 m q gs E Hw Hh Hgs). intros I0.
    apply (Inv_steps _ _ _ _ _ _ g0 Hf Hpos _ _ _ _ Hst) in I0.
    apply (Inv_finished _ _ _ _ _ _ _ _ _ I0); auto.
    eapply steps_workers; eauto. cbn. destruct gs; [congruence|discriminate].
  Qed.

  Lemma sampleCall_exists nPass m (gs : list G) : gs <> nil -> exists m', sampleCall f aa shifts w h nPass m m'.
  Proof.
    intros Hgs. destruct (tessellate_partition w h 16 Hw Hh ltac:(lia)) as (q & E & _).
    destruct (weight_init (F:=F) (G:=G) shifts w h (Z.to_nat nPass) m q gs E Hw Hh) as (k & W).
    destruct (finish_from f aa shifts w h (Z.to_nat nPass) g0 Hf Hpos m k _ (Inv_init f aa shifts w h (Z.to_nat nPass) g0 m q gs E Hw Hh Hgs) W) as (j & s & H1 & H2).
    exists (sMem s). econstructor; eauto.
  Qed.

  Lemma more_samples_plus (s : Z -> color F) a : forall b x, more_samples s (a + b) x = more_samples s b (more_samples s a x).
  Proof. induction a as [|a IH]; intros b x; cbn [Nat.add more_samples]; auto. Qed.

  Lemma after_passes_ext n m m' p : acc_at m p = acc_at m' p -> after_passes f aa shifts w h g0 n m p = after_passes f aa shifts w h g0 n m' p.
  Proof. unfold after_passes. now intros ->. Qed.

  Lemma total_nonneg ns : Forall (fun n => 0 <= n)%Z ns -> (0 <= total ns)%Z.
  Proof. induction 1; cbn; [lia|]. fold (total l). lia. Qed.

  Lemma sampleCalls_result ns : Forall (fun n => 0 <= n)%Z ns -> forall m m', sampleCalls f aa shifts w h ns m m' ->
    forall p, acc_at m' p = after_passes f aa shifts w h g0 (total ns) m p.
  Proof.
    induction 1 as [|n ns Hn Hns IH]; intros m m' H p; inversion H; subst.
    - unfold after_passes. cbn. destruct (in_imageb w h p); reflexivity.
    - rewrite (IH _ _ H5 p). unfold after_passes at 1.
      match goal with HC : sampleCall _ _ _ _ _ _ _ _ |- _ => rewrite (sampleCall_result _ _ _ HC p) end.
      unfold after_passes. destruct (in_imageb w h p); auto.
      rewrite <- more_samples_plus. f_equal. cbn. fold (total ns). generalize (total_nonneg _ Hns). lia.
  Qed.
End Calls.

Lemma ctxseq_init_new {F} `{Num F} (shifts : list (F * F)) pix k s : nth_error shifts pix = Some s ->
  exists c, ctxseq_init (newCtxSeq shifts) pix k = Val c /\ cs_AA c = newHalton 2 3 shifts.
Proof. intros E. destruct s as [su sv]. unfold ctxseq_init, hseq_init. cbn. rewrite E. cbn. eauto. Qed.

Lemma shift_exists {F} (shifts : list (F * F)) w h p : Z.of_nat (length shifts) = (w * h)%Z -> in_image w h p ->
  exists s, nth_error shifts (Z.to_nat (w * snd p + fst p)) = Some s.
Proof.
  intros Hs [Hx Hy]. destruct (nth_error shifts (Z.to_nat (w * snd p + fst p))) as [s|] eqn:En; [eauto|].
  apply nth_error_None in En. exfalso. assert (0 <= w * snd p + fst p < w * h)%Z by nia. lia.
Qed.

(** ** Positions exist, binary64 *)
Section PosB.
  Local Open Scope R_scope.
  Lemma nhalf_b64 : is_finite (nhalf : b64) = true /\ B2R (nhalf : b64) = 1 / 2.
  Proof.
    unfold nhalf, nQ. cbn [nofZ NumB].
    destruct (bofZ_correct 1) as [F1 E1]; [lia|]. destruct (bofZ_correct 2) as [F2 E2]; [lia|].
    destruct (bdiv_correct (b64_of_Z 1) (b64_of_Z 2)) as [A B]; auto.
    - rewrite E2; lra.
    - rewrite E1, E2. rewrite Rabs_pos_eq by lra. apply Rle_trans with (bpow radix2 0); [cbn; lra|apply bpow_le; lia].
    - split; [exact A|]. cbn [ndiv NumB] in *. rewrite B, E1, E2. apply rnd_id.
      replace (1 / 2) with (bpow radix2 (-1)) by (cbn; lra). apply fmt_bpow. lia.
  Qed.
  Lemma neg_half_b64 : is_finite (nopp nhalf : b64) = true /\ B2R (nopp nhalf : b64) = - (1 / 2).
  Proof.
    destruct nhalf_b64 as [A B]. cbn [nopp NumB] in *. split.
    - rewrite is_finite_Bopp. exact A.
    - rewrite B2R_Bopp. now rewrite B.
  Qed.

  Lemma upper_b64 (x w : Z) : (0 <= x < w)%Z -> (w <= 2 ^ 53)%Z -> nltb (nsub (nofZ w) nhalf) (nofZ x : b64) = false.
  Proof.
    intros Hx Hw. destruct nhalf_b64 as [A B].
    destruct (bofZ_correct w) as [F1 E1]; [lia|]. destruct (bofZ_correct x) as [F2 E2]; [lia|].
    assert (1 <= IZR w <= bpow radix2 53) as Bw by (change (bpow radix2 53) with (IZR (2 ^ 53)); split; apply IZR_le; lia).
    destruct (bsub_correct (nofZ w) nhalf) as [C D]; [exact F1|exact A| |].
    - cbn [nofZ NumB]. rewrite E1, B. rewrite Rabs_pos_eq by lra. apply Rle_trans with (bpow radix2 53); [lra|apply bpow_le; lia].
    - apply not_true_iff_false. rewrite bltb_R by (auto; exact F2).
      cbn [nofZ NumB] in *. rewrite E2. rewrite D, E1, B. apply Rle_not_lt.
      apply Rle_trans with (IZR (w - 1)); [apply IZR_le; lia|]. apply rnd_ge; [apply fmt_Z; lia|]. rewrite minus_IZR. lra.
  Qed.
  Lemma lower_b64 (x : Z) : (0 <= x <= 2 ^ 53)%Z -> nltb (nofZ x : b64) (nopp nhalf) = false.
  Proof.
    intros Hx. destruct neg_half_b64 as [A B]. destruct (bofZ_correct x) as [F2 E2]; [lia|].
    apply not_true_iff_false. rewrite bltb_R by (auto; exact F2). cbn [nofZ NumB]. rewrite E2.
    rewrite B. assert (0 <= IZR x) by (apply IZR_le; lia). lra.
  Qed.

  Lemma indexToCam_b64 w h p : (w <= 2 ^ 53)%Z -> (h <= 2 ^ 53)%Z -> in_image w h p ->
    exists u v : b64, indexToCam w h (nofZ (fst p)) (nofZ (snd p)) = Val (u, v).
  Proof.
    intros Hw Hh [Hx Hy]. unfold indexToCam.
    rewrite !lower_b64, !upper_b64 by lia. cbn [orb]. eauto.
  Qed.

  Lemma sample_pos_b64 aa shifts w h p k : (w <= 2 ^ 53)%Z -> (h <= 2 ^ 53)%Z ->
    Z.of_nat (length shifts) = (w * h)%Z -> in_image w h p ->
    exists c (xy : b64 * b64), sample_pos aa shifts w h p k = Val (c, xy).
  Proof.
    intros Hw Hh Hs Hp. unfold sample_pos. destruct (indexToCam_b64 w h p Hw Hh Hp) as (u & v & E). rewrite E. cbn [obind].
    destruct (shift_exists shifts w h p Hs Hp) as (sh & En).
    destruct (ctxseq_init_new shifts _ k sh En) as (c & -> & EA). cbn [obind].
    unfold jitter. destruct aa; [|cbn [omap]; eauto]. rewrite EA.
    assert (in_unit (b64_of_Z 0)) as H0 by (split; vm_compute; reflexivity).
    destruct (hseq_generate2_in_unit (newHalton 2 3 shifts)) as (a & b & Eg & _);
      [unfold newHalton; cbn [hs_baseU hs_baseV hs_index]; lia ..|exact H0|exact H0|].
    rewrite Eg. cbn [omap]. eauto.
  Qed.
End PosB.

(** ** Exact arithmetic *)
Section Real.
  Local Open Scope R_scope.

  Lemma indexToCam_R w h (ix iy : R) : (1 <= w)%Z -> (1 <= h)%Z ->
    -1 / 2 <= ix <= IZR w - 1 / 2 -> -1 / 2 <= iy <= IZR h - 1 / 2 ->
    indexToCam w h ix iy = Val ((ix + 1 / 2) / IZR w, 1 / 2 + (IZR h / 2 - (iy + 1 / 2)) / IZR w).
  Proof.
    intros Hw Hh Hx Hy. unfold indexToCam, linterp, nhalf, nQ; rnum.
    assert (1 <= IZR w) by (apply IZR_le; lia). assert (1 <= IZR h) by (apply IZR_le; lia).
    rcase; cbn [orb]; try lra.
    f_equal. f_equal.
    - replace (IZR w - 1 / 2 - - (1 / 2)) with (IZR w) by lra. field. lra.
    - replace (IZR h - 1 / 2 - - (1 / 2)) with (IZR h) by lra. field. lra.
  Qed.

  Lemma sample_pos_R aa shifts w h p k :
    Z.of_nat (length shifts) = (w * h)%Z -> in_image w h p ->
    exists c (xy : R * R), sample_pos aa shifts w h p k = Val (c, xy).
  Proof.
    intros Hs Hp. generalize Hp. intros [Hx Hy].
    unfold sample_pos. cbn [nofZ NumR].
    rewrite indexToCam_R; try lia.
    2,3: split; [match goal with |- _ <= IZR ?z => assert (0 <= IZR z) by (apply IZR_le; lia) end; lra|].
    2: { assert (IZR (fst p) <= IZR (w - 1)) as E by (apply IZR_le; lia). rewrite minus_IZR in E. lra. }
    2: { assert (IZR (snd p) <= IZR (h - 1)) as E by (apply IZR_le; lia). rewrite minus_IZR in E. lra. }
    cbn [obind].
    destruct (shift_exists shifts w h p Hs Hp) as (sh & En).
    destruct (ctxseq_init_new shifts _ k sh En) as (c & -> & EA). cbn [obind].
    unfold jitter. destruct aa; [|cbn [omap]; eauto]. rewrite EA. unfold hseq_generate2, newHalton. cbn [hs_baseU hs_baseV hs_index].
    destruct (halton_R_val 2 0) as (r1 & -> & _); try lia. destruct (halton_R_val 3 0) as (r2 & -> & _); try lia. cbn [obind omap]. eauto.
  Qed.

  Lemma Rsum_app a b : Rsum (a ++ b) = Rsum a + Rsum b.
  Proof. induction a; cbn; lra. Qed.

  Lemma first_samples_S s n : first_samples s (S n) = first_samples s n ++ [s (Z.of_nat n)].
  Proof. unfold first_samples. rewrite seq_S, map_app. reflexivity. Qed.

  Lemma clisnan_R (c : color R) : clisnan c = false.
  Proof. unfold clisnan; rnum. rcase; cbn; auto; congruence. Qed.

  Definition acc0 : acc R := Acc 0 (Color 0 0 0) (Color 0 0 0).
  Definition total_acc (l : list (color R)) : acc R :=
    Acc (Z.of_nat (length l))
      (Color (Rsum (map cR l)) (Rsum (map cG l)) (Rsum (map cB l)))
      (Color (Rsum (map (fun c => cR c * cR c) l)) (Rsum (map (fun c => cG c * cG c) l)) (Rsum (map (fun c => cB c * cB c) l))).

  Lemma more_samples_S s n (a : acc R) : more_samples s (S n) a = add_sample (more_samples s n a) (s (aN (more_samples s n a))).
  Proof. replace (S n) with (n + 1)%nat by lia. rewrite more_samples_plus. reflexivity. Qed.

  Lemma more_samples_R s n : more_samples s n acc0 = total_acc (first_samples s n).
  Proof.
    induction n as [|n IH]; [reflexivity|].
    rewrite more_samples_S, IH, first_samples_S. unfold add_sample, total_acc. rewrite clisnan_R.
    cbn [aN aSum aSq]. rewrite app_length, !map_app. cbn [length map]. rewrite !Rsum_app. cbn [Rsum].
    assert (length (first_samples s n) = n) as -> by (unfold first_samples; now rewrite map_length, seq_length).
    rnum. f_equal; [lia| |]; f_equal; cbn [cR cG cB]; lra.
  Qed.

  Lemma imagef_mean (m : mem R) p (l : list (color R)) : acc_at m p = total_acc l ->
    imagef m p = Color (mean (map cR l)) (mean (map cG l)) (mean (map cB l)).
  Proof.
    intros E. unfold acc_at, total_acc in E. injection E as E0 E1 E2 E3 _ _ _.
    unfold imagef, clmul, mean. cbn [cR cG cB]. rewrite E0, E1, E2, E3, !map_length. rnum.
    f_equal; unfold Rdiv; ring.
  Qed.

  Lemma Rsum_dev (l : list R) (c : R) : Rsum (map (fun x => (x - c) * (x - c)) l) =
    Rsum (map (fun x => x * x) l) - 2 * c * Rsum l + IZR (Z.of_nat (length l)) * (c * c).
  Proof.
    induction l as [|x l IH]; cbn [map Rsum length]; [cbn; ring|]. rewrite IH, Nat2Z.inj_succ, succ_IZR. ring.
  Qed.
  Lemma variance_formula (l : list R) : (2 <= length l)%nat ->
    let n := IZR (Z.of_nat (length l)) in
    (n * Rsum (map (fun x => x * x) l) - Rsum l * Rsum l) * (1 / (n * (n - 1))) = variance l.
  Proof.
    intros Hl n. unfold variance. rewrite Rsum_dev. unfold mean. fold n.
    assert (2 <= n) by (apply IZR_le; lia). field. lra.
  Qed.
  Lemma variance_nonneg (l : list R) : (2 <= length l)%nat -> 0 <= variance l.
  Proof.
    intros Hl. unfold variance. apply Rmult_le_pos.
    - generalize (mean l). intros c. induction l as [|x l IH]; cbn [map Rsum]; [lra|].
      destruct l; [cbn in Hl; lia|]. destruct l.
      + cbn. generalize (Rle_0_sqr (x - c)) (Rle_0_sqr (r - c)). unfold Rsqr. lra.
      + generalize (Rle_0_sqr (x - c)) (IH ltac:(cbn; lia)). unfold Rsqr. lra.
    - apply Rlt_le, Rinv_0_lt_compat. assert (2 <= IZR (Z.of_nat (length l))) by (apply IZR_le; lia). lra.
  Qed.

  Lemma variancef_spec (m : mem R) p (l : list (color R)) : (2 <= length l)%nat -> acc_at m p = total_acc l ->
    variancef m p = Color (variance (map cR l)) (variance (map cG l)) (variance (map cB l)) /\
    stddevf m p = Color (sqrt (variance (map cR l))) (sqrt (variance (map cG l))) (sqrt (variance (map cB l))).
  Proof.
    intros Hl E. assert (variancef m p = Color (variance (map cR l)) (variance (map cG l)) (variance (map cB l))) as EV.
    { unfold acc_at, total_acc in E. injection E as E0 E1 E2 E3 E4 E5 E6.
      unfold variancef. rewrite E0, E1, E2, E3, E4, E5, E6. rnum.
      rewrite <- !variance_formula by (rewrite map_length; auto). rewrite !map_length, !map_map. reflexivity. }
    split; auto. unfold stddevf. rewrite EV. reflexivity.
  Qed.
End Real.
