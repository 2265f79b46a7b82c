(** * The sampler properties, assembled from the pool and arithmetic lemmas *)
From Coq Require Import ZArith Reals Bool List Lia Lra.
From Flocq Require Import Core BinarySingleNaN.
From Verif Require Import Num NumLaws Outcome B64 ColorModel SeqModel SeqSpec HaltonProofs SeqProofs SamplerModel SamplerSpec SamplerProofs PoolProofs SamplerNum.
Import ListNotations.

(** ** C12 *)
Lemma tessellate_never_blocks w h ts : (0 <= w)%Z -> (0 <= h)%Z -> (1 <= ts)%Z ->
  exists q, tessellate w h ts = Val q /\ (Z.of_nat (length q) <= divUp w ts * divUp h ts)%Z.
Proof.
  intros Hw Hh Ht. destruct (tessellate_spec w h ts Hw Hh Ht) as (xs & ys & E & _ & _ & _ & _ & Hb).
  rewrite E. eexists. split; [reflexivity|].
  assert (forall (f : Z -> Z -> tile) ys xs, length (flat_map (fun x0 => map (f x0) ys) xs) = (length xs * length ys)%nat) as HL.
  { intros f ys' xs'. induction xs' as [|x xs' IH]; [reflexivity|]. cbn [flat_map]. rewrite app_length, map_length, IH. cbn. lia. }
  rewrite HL. exact Hb.
Qed.

(** ** C13 *)
Section Sched.
  Context {F : Type} `{NF : Num F} {G : Type}.
  Variables (f : imageFunc F G) (aa : bool) (shifts : list (F * F)) (w h : Z).
  Hypothesis Hf : deterministic f.
  Hypothesis Hw : (0 <= w)%Z.
  Hypothesis Hh : (0 <= h)%Z.
  Hypothesis Hpos : forall p k, in_image w h p -> exists c xy, sample_pos aa shifts w h p k = Val (c, xy).

  Lemma schedules nPass (m : mem F) (gs : list G) q g0 : gs <> nil -> tessellate w h 16 = Val q ->
    exists bound, forall k s, steps f aa w h (Z.to_nat nPass) k (initSys shifts gs q m) s ->
      (k <= bound)%nat /\
      (forall ws1 x ws2 y ws3 p, sWorkers s = ws1 ++ x :: ws2 ++ y :: ws3 -> pending x = Some p -> pending y <> Some p) /\
      (forall x p, In x (sWorkers s) -> pending x = Some p -> in_image w h p) /\
      (forall x, In x (sWorkers s) -> ~ crashed x) /\
      ((forall s', ~ step f aa w h (Z.to_nat nPass) s s') ->
        finished s /\ sQueue s = nil /\
        forall p, acc_at (sMem s) p = after_passes f aa shifts w h g0 nPass m p).
  Proof.
    intros Hgs E.
    destruct (weight_init (F:=F) (G:=G) shifts w h (Z.to_nat nPass) m q gs E Hw Hh) as (B & W).
    exists B. intros k s Hst.
    generalize (Inv_init f aa shifts w h (Z.to_nat nPass) g0 m q gs E Hw Hh Hgs). intros I0.
    apply (Inv_steps _ _ _ _ _ _ g0 Hf Hpos _ _ _ _ Hst) in I0.
    split; [eapply weight_steps; eauto|].
    split; [intros; eapply Inv_no_race; eauto|].
    split; [intros; eapply Inv_pending_in_image; eauto|].
    split; [intros; eapply Inv_no_crash; eauto|].
    intros Hstuck. assert (finished s) as Hfin by (eapply Inv_stuck_finished; eauto).
    assert (sWorkers s <> nil) as Hne by (eapply steps_workers; eauto; cbn; destruct gs; [congruence|discriminate]).
    split; auto. split.
    - apply (inv_done _ _ _ _ _ _ _ _ _ I0). unfold finished in Hfin. destruct (sWorkers s); [congruence|]. inversion Hfin; subst. now left.
    - apply (Inv_finished _ _ _ _ _ _ _ _ _ I0); auto.
  Qed.
End Sched.

Section Sched2.
  Context {F : Type} `{NF : Num F} {G : Type}.
  Variables (f : imageFunc F G) (aa : bool) (shifts : list (F * F)) (w h : Z) (g0 : G).
  Hypothesis Hf : deterministic f.
  Hypothesis Hw : (0 <= w)%Z.
  Hypothesis Hh : (0 <= h)%Z.
  Hypothesis Hpos : forall p k, in_image w h p -> exists c xy, sample_pos aa shifts w h p k = Val (c, xy).

  Lemma split_calls ns m m1 m2 p : Forall (fun n => 0 <= n)%Z ns ->
    sampleCalls f aa shifts w h ns m m1 -> sampleCall f aa shifts w h (total ns) m m2 -> acc_at m1 p = acc_at m2 p.
  Proof.
    intros Hn H1 H2. rewrite (sampleCalls_result f aa shifts w h g0 Hf Hw Hh Hpos ns Hn m m1 H1 p).
    now rewrite (sampleCall_result f aa shifts w h g0 Hf Hw Hh Hpos _ m m2 H2 p).
  Qed.

  Lemma calls_exist ns : forall m, exists m', sampleCalls f aa shifts w h ns m m'.
  Proof.
    induction ns as [|n ns IH]; intros m; [eexists; constructor|].
    destruct (sampleCall_exists f aa shifts w h g0 Hf Hw Hh Hpos n m [g0] ltac:(discriminate)) as (m1 & H1).
    destruct (IH m1) as (m2 & H2). exists m2. econstructor; eauto.
  Qed.
End Sched2.

(** ** C14, C18: exact arithmetic *)
Section RealCalls.
  Context {G : Type}.
  Local Open Scope R_scope.

  Lemma in_image_b w h p : in_image w h p -> in_imageb w h p = true.
  Proof. intros [H1 H2]. unfold in_imageb. rewrite !andb_true_iff, !Z.leb_le, !Z.ltb_lt. lia. Qed.

  Lemma calls_total (f : imageFunc R G) aa shifts w h g0 ns m p :
    deterministic f -> (0 <= w)%Z -> (0 <= h)%Z -> Z.of_nat (length shifts) = (w * h)%Z ->
    Forall (fun n => 0 <= n)%Z ns -> sampleCalls f aa shifts w h ns newMem m -> in_image w h p ->
    acc_at m p = total_acc (first_samples (sample_color f aa shifts g0 w h p) (Z.to_nat (total ns))).
  Proof.
    intros Hf Hw Hh Hs Hn HC Hp.
    rewrite (sampleCalls_result f aa shifts w h g0 Hf Hw Hh (fun p k => sample_pos_R aa shifts w h p k Hs) ns Hn _ _ HC p).
    unfold after_passes. rewrite (in_image_b _ _ _ Hp). rewrite <- more_samples_R. reflexivity.
  Qed.

  Lemma calls_mean (f : imageFunc R G) aa shifts w h g0 ns m p :
    deterministic f -> (0 <= w)%Z -> (0 <= h)%Z -> Z.of_nat (length shifts) = (w * h)%Z ->
    Forall (fun n => 0 <= n)%Z ns -> sampleCalls f aa shifts w h ns newMem m -> in_image w h p ->
    let l := first_samples (sample_color f aa shifts g0 w h p) (Z.to_nat (total ns)) in
    imagef m p = Color (mean (map cR l)) (mean (map cG l)) (mean (map cB l)).
  Proof. intros. apply imagef_mean. eapply calls_total; eauto. Qed.

  Lemma calls_variance (f : imageFunc R G) aa shifts w h g0 ns m p :
    deterministic f -> (0 <= w)%Z -> (0 <= h)%Z -> Z.of_nat (length shifts) = (w * h)%Z ->
    Forall (fun n => 0 <= n)%Z ns -> (2 <= total ns)%Z -> sampleCalls f aa shifts w h ns newMem m -> in_image w h p ->
    let l := first_samples (sample_color f aa shifts g0 w h p) (Z.to_nat (total ns)) in
    variancef m p = Color (variance (map cR l)) (variance (map cG l)) (variance (map cB l)) /\
    stddevf m p = Color (sqrt (variance (map cR l))) (sqrt (variance (map cG l))) (sqrt (variance (map cB l))) /\
    0 <= variance (map cR l) /\ 0 <= variance (map cG l) /\ 0 <= variance (map cB l).
  Proof.
    intros Hf Hw Hh Hs Hn Ht HC Hp l.
    assert (2 <= length l)%nat as Hl by (unfold l, first_samples; rewrite map_length, seq_length; lia).
    destruct (variancef_spec m p l Hl) as [H1 H2]; [eapply calls_total; eauto|].
    split; [exact H1|]. split; [exact H2|].
    split; [|split]; apply variance_nonneg; now rewrite map_length.
  Qed.
End RealCalls.

(** ** C15 *)
Section Nan.
  Context {F : Type} `{NF : Num F}.
  (** samples of passes aN a, aN a + 1, ... *)
  Lemma more_samples_valid (s : Z -> color F) n : forall a,
    more_samples s n a =
    let l := filter (fun c => negb (clisnan c)) (map (fun k => s (aN a + Z.of_nat k)%Z) (seq 0 n)) in
    Acc (aN a + Z.of_nat n) (fold_left cladd l (aSum a))
      (fold_left cladd (map (fun c => clmul3 c c) l) (aSq a)).
  Proof.
    induction n as [|n IH]; intros a.
    - cbn. destruct a as [k u v]. cbn. f_equal. lia.
    - cbn [more_samples]. rewrite IH. cbn [seq map filter].
      rewrite <- seq_shift, map_map.
      assert (forall x, map (fun k => s (aN (add_sample a x) + Z.of_nat k)%Z) (seq 0 n) = map (fun k => s (aN a + Z.of_nat (S k))%Z) (seq 0 n)) as EM.
      { intros x. apply map_ext. intros k. f_equal. unfold add_sample. cbn [aN]. lia. }
      rewrite EM. rewrite Z.add_0_r. destruct a as [k u v]. cbn [aN aSum aSq add_sample].
      destruct (clisnan (s k)) eqn:EN; cbn [negb fold_left map]; cbv zeta; f_equal; try lia.
  Qed.
End Nan.

Section NanB.
  Context {G : Type}.
  Lemma image_valid (f : imageFunc b64 G) aa shifts w h g0 nPass m p :
    deterministic f -> (0 <= w <= 2 ^ 53)%Z -> (0 <= h <= 2 ^ 53)%Z -> Z.of_nat (length shifts) = (w * h)%Z ->
    (0 <= nPass)%Z -> sampleCall f aa shifts w h nPass newMem m -> in_image w h p ->
    let all := map (fun k => sample_color f aa shifts g0 w h p (Z.of_nat k)) (seq 0 (Z.to_nat nPass)) in
    let valid := filter (fun c => negb (clisnan c)) all in
    imagef m p = clmul (fold_left cladd valid black) (ndiv (nofZ 1) (nofZ (Z.of_nat (length all)))).
  Proof.
    intros Hf Hw Hh Hs Hn HC Hp all valid.
    generalize (sampleCall_result f aa shifts w h g0 Hf (proj1 Hw) (proj1 Hh)
      (fun p k => sample_pos_b64 aa shifts w h p k (proj2 Hw) (proj2 Hh) Hs) _ _ _ HC p). intros E.
    unfold after_passes in E. rewrite (in_image_b _ _ _ Hp) in E. rewrite more_samples_valid in E.
    change (map (fun k => sample_color f aa shifts g0 w h p (aN (acc_at newMem p) + Z.of_nat k)%Z) (seq 0 (Z.to_nat nPass))) with all in E.
    fold valid in E. cbv zeta in E.
    assert (mN m p = Z.of_nat (Z.to_nat nPass)) as E0 by exact (f_equal aN E).
    assert (Color (mF m p SumR) (mF m p SumG) (mF m p SumB) = fold_left cladd valid black) as E1 by exact (f_equal aSum E).
    unfold imagef. rewrite E0, E1.
    assert (length all = Z.to_nat nPass) as -> by (unfold all; now rewrite map_length, seq_length). reflexivity.
  Qed.

  (** an image function that is NaN in pass 0 and 1 afterwards *)
  Definition flaky : imageFunc b64 unit := fun c g _ _ =>
    (if Z.eqb (hs_index (cs_1 c)) 0 then gray (ndiv (nofZ 0) (nofZ 0)) else gray (nofZ 1), g).
End NanB.

Lemma flaky_det : deterministic flaky.
Proof. intros c g g' x y. reflexivity. Qed.

Lemma pos_1x1 aa p k : in_image 1 1 p -> exists c (xy : b64 * b64), sample_pos aa [(nofZ 0, nofZ 0)] 1 1 p k = Val (c, xy).
Proof. intros Hp. apply sample_pos_b64; try lia; auto. Qed.

Lemma nan_counts :
  deterministic flaky /\
  clisnan (sample_color flaky false [(nofZ 0, nofZ 0)] tt 1 1 (0, 0)%Z 0) = true /\
  neqb (cR (sample_color flaky false [(nofZ 0, nofZ 0)] tt 1 1 (0, 0)%Z 1)) (nofZ 1) = true /\
  (exists m, sampleCall flaky false [(nofZ 0, nofZ 0)] 1 1 2 newMem m) /\
  forall m, sampleCall flaky false [(nofZ 0, nofZ 0)] 1 1 2 newMem m -> neqb (cR (imagef m (0, 0)%Z)) (nQ 1 2) = true.
Proof.
  split; [exact flaky_det|]. split; [vm_compute; reflexivity|]. split; [vm_compute; reflexivity|]. split.
  - apply (sampleCall_exists flaky false _ 1 1 tt flaky_det) with (gs := [tt]); try lia; [|discriminate].
    intros p k. apply pos_1x1.
  - intros m HC.
    assert (forall p, acc_at m p = after_passes flaky false [(nofZ 0, nofZ 0)] 1 1 tt 2 newMem p) as E.
    { apply (sampleCall_result flaky false _ 1 1 tt flaky_det); try lia; auto. intros p k. apply pos_1x1. }
    specialize (E (0, 0)%Z). generalize (f_equal aN E) (f_equal (fun a => cR (aSum a)) E). intros E0 E1.
    unfold imagef, clmul. cbn [cR cG cB]. unfold acc_at in E0, E1. cbn [aN aSum cR] in E0, E1. rewrite E0, E1. vm_compute. reflexivity.
Qed.

(** ** C16 *)
Section AA.
  Context {F : Type} `{NF : Num F}.
  Lemma ctxseq_init_AA (c c' : ctxseq F) pix k : ctxseq_init c pix k = Val c' -> cs_AA c' = cs_AA c.
  Proof.
    unfold ctxseq_init. destruct (hseq_init (cs_1 c) pix k); cbn [obind]; try discriminate.
    destruct (hseq_init (cs_2 c) pix k); cbn [obind]; try discriminate.
    destruct (hseq_init (cs_L c) pix k); cbn [obind]; try discriminate. now intros [= <-].
  Qed.
  Lemma pos_constant aa (shifts : list (F * F)) w h p k k' c c' xy xy' :
    sample_pos aa shifts w h p k = Val (c, xy) -> sample_pos aa shifts w h p k' = Val (c', xy') -> xy = xy'.
  Proof.
    unfold sample_pos. destruct (indexToCam w h (nofZ (fst p)) (nofZ (snd p))) as [[xi yi]| |]; cbn [obind]; try discriminate.
    destruct (ctxseq_init (newCtxSeq shifts) (Z.to_nat (w * snd p + fst p)) k) as [c1| |] eqn:E1; cbn [obind]; try discriminate.
    destruct (ctxseq_init (newCtxSeq shifts) (Z.to_nat (w * snd p + fst p)) k') as [c2| |] eqn:E2; cbn [obind]; try discriminate.
    apply ctxseq_init_AA in E1. apply ctxseq_init_AA in E2. unfold jitter. rewrite E1, E2. destruct aa.
    - destruct (hseq_generate2 (cs_AA (newCtxSeq shifts))) as [[u v]| |]; cbn [omap]; congruence.
    - cbn [omap]. congruence.
  Qed.
End AA.

Section Cam.
  Local Open Scope R_scope.
  Lemma pixel_centre_range w h p : in_image w h p ->
    -1 / 2 <= IZR (fst p) <= IZR w - 1 / 2 /\ -1 / 2 <= IZR (snd p) <= IZR h - 1 / 2.
  Proof.
    intros [Hx Hy]. assert (0 <= IZR (fst p)) by (apply IZR_le; lia). assert (0 <= IZR (snd p)) by (apply IZR_le; lia).
    assert (IZR (fst p) <= IZR (w - 1)) as E1 by (apply IZR_le; lia). rewrite minus_IZR in E1.
    assert (IZR (snd p) <= IZR (h - 1)) as E2 by (apply IZR_le; lia). rewrite minus_IZR in E2. lra.
  Qed.

  (** the sampled point with anti-aliasing: the pixel centre shifted down by a sixth of PixelSize *)
  Lemma pos_R (shifts : list (R * R)) w h p k c x y :
    in_image w h p -> sample_pos true shifts w h p k = Val (c, (x, y)) ->
    exists u v, indexToCam w h (IZR (fst p)) (IZR (snd p)) = Val (u, v) /\ x = u /\ y = v - pixelSize w h / 6.
  Proof.
    intros Hp. generalize (pixel_centre_range _ _ _ Hp). intros [H1 H2]. destruct Hp as [Hx Hy].
    unfold sample_pos. cbn [nofZ NumR]. rewrite indexToCam_R by (auto; lia). cbn [obind].
    destruct (ctxseq_init (newCtxSeq shifts) (Z.to_nat (w * snd p + fst p)) k) as [c1| |] eqn:E1; cbn [obind]; try discriminate.
    apply ctxseq_init_AA in E1. unfold jitter. rewrite E1. unfold newCtxSeq, hseq_generate2, newHalton. cbn [cs_AA hs_baseU hs_baseV hs_index hs_shiftU hs_shiftV].
    rewrite (halton_R 2 0 1) by (cbn; lia). rewrite (halton_R 3 0 1) by (cbn; lia). cbn [obind omap].
    assert (forall x : R, 0 <= x < 1 -> frac (nadd x (nofZ 0)) = x) as Hfr.
    { intros z Hz. unfold frac; rnum. rewrite Rplus_0_r. replace (Zfloor z) with 0%Z; [lra|]. symmetry. apply Zfloor_imp. cbn. lra. }
    change (IZR (revd 2 1 (0 + 1)) / IZR (2 ^ Z.of_nat 1)) with (1 / 2).
    change (IZR (revd 3 1 (0 + 1)) / IZR (3 ^ Z.of_nat 1)) with (1 / 3).
    rewrite !Hfr by lra. unfold nhalf, nQ; rnum.
    intros [= _ <- <-]. eexists _, _. split; [reflexivity|]. unfold pixelSize; rnum. split; lra.
  Qed.

  (** *** C17 *)
  Lemma indexToCam_props w h : (1 <= w)%Z -> (1 <= h)%Z ->
    (forall ix iy, -1 / 2 <= ix <= IZR w - 1 / 2 -> -1 / 2 <= iy <= IZR h - 1 / 2 ->
      exists u v, indexToCam w h ix iy = Val (u, v) /\ 0 <= u <= 1 /\ ((h <= w)%Z -> 0 <= v <= 1)) /\
    (forall ix iy jx jy u v u' v', indexToCam w h ix iy = Val (u, v) -> indexToCam w h jx jy = Val (u', v') ->
      u' - u = (jx - ix) / IZR w /\ v' - v = - ((jy - iy) / IZR w)) /\
    indexToCam w h ((IZR w - 1) / 2) ((IZR h - 1) / 2) = Val (1 / 2, 1 / 2).
  Proof.
    intros Hw Hh. assert (1 <= IZR w) as W by (apply IZR_le; lia). assert (1 <= IZR h) as H by (apply IZR_le; lia).
    split; [|split].
    - intros ix iy Hx Hy. rewrite indexToCam_R by auto. eexists _, _. split; [reflexivity|].
      assert (0 < / IZR w) as Iw by (apply Rinv_0_lt_compat; lra).
      split; [|intros Hhw; apply IZR_le in Hhw].
      + split; [apply Rmult_le_pos; lra|]. apply Rmult_le_reg_r with (IZR w); [lra|]. unfold Rdiv. rewrite Rmult_assoc, Rinv_l; lra.
      + assert (IZR h / 2 - (iy + 1 / 2) <= IZR w / 2) as A1 by lra. assert (- (IZR w / 2) <= IZR h / 2 - (iy + 1 / 2)) as A2 by lra.
        apply Rmult_le_compat_r with (r := / IZR w) in A1; [|lra]. apply Rmult_le_compat_r with (r := / IZR w) in A2; [|lra].
        replace (IZR w / 2 * / IZR w) with (1 / 2) in A1 by (field; lra). replace (- (IZR w / 2) * / IZR w) with (- (1 / 2)) in A2 by (field; lra).
        unfold Rdiv at 2 4. lra.
    - assert (forall ix iy u v, indexToCam w h ix iy = Val (u, v) -> u = (ix + 1 / 2) / IZR w /\ v = 1 / 2 + (IZR h / 2 - (iy + 1 / 2)) / IZR w) as G.
      { intros ix iy u v E.
        assert (-1 / 2 <= ix <= IZR w - 1 / 2 /\ -1 / 2 <= iy <= IZR h - 1 / 2) as [R1 R2].
        { unfold indexToCam, nhalf, nQ in E; revert E; rnum. rcase; cbn [orb]; try discriminate. intros _. lra. }
        rewrite indexToCam_R in E by auto. now injection E as <- <-. }
      intros ix iy jx jy u v u' v' E1 E2. apply G in E1. apply G in E2. destruct E1 as [-> ->], E2 as [-> ->]. split; field; lra.
    - rewrite indexToCam_R by (auto; lra). f_equal. f_equal; field; lra.
  Qed.

  Lemma portrait_outside w h : (1 <= w)%Z -> (w < h)%Z ->
    exists u v, indexToCam w h 0 (-1 / 2) = Val (u, v) /\ 1 < v.
  Proof.
    intros Hw Hh. assert (1 <= IZR w) as W by (apply IZR_le; lia). assert (IZR w < IZR h) as H by (apply IZR_lt; lia).
    rewrite indexToCam_R by (try lia; lra). eexists _, _. split; [reflexivity|].
    assert (1 / 2 < IZR h / 2 / IZR w).
    { apply Rmult_lt_reg_r with (IZR w); [lra|]. replace (IZR h / 2 / IZR w * IZR w) with (IZR h / 2) by (field; lra). lra. }
    replace (IZR h / 2 - (-1 / 2 + 1 / 2)) with (IZR h / 2) by lra. lra.
  Qed.

  (** *** C19 *)
  Lemma pixelSize_R w h : (1 <= w)%Z -> (1 <= h)%Z -> pixelSize w h = 1 / Rmin (IZR w) (IZR h).
  Proof. intros. unfold pixelSize; rnum. unfold Rmin. rcase; destruct (Rle_dec (IZR w) (IZR h)); try lra; f_equal; lra. Qed.

  Lemma jitter_inside w h p a b u v :
    in_image w h p -> (w <= h)%Z -> 0 <= a < 1 -> 0 <= b < 1 ->
    indexToCam w h (IZR (fst p)) (IZR (snd p)) = Val (u, v) ->
    Rabs (pixelSize w h * (a - 1 / 2)) <= 1 / IZR w / 2 /\ Rabs (pixelSize w h * (b - 1 / 2)) <= 1 / IZR w / 2 /\
    IZR (fst p) / IZR w <= u + pixelSize w h * (a - 1 / 2) <= (IZR (fst p) + 1) / IZR w.
  Proof.
    intros Hp Hwh Ha Hb E. destruct (pixel_centre_range _ _ _ Hp) as [R1 R2]. destruct Hp as [Hx Hy].
    rewrite indexToCam_R in E by (auto; lia). injection E as <- <-.
    assert (1 <= IZR w) as W by (apply IZR_le; lia). apply IZR_le in Hwh.
    rewrite pixelSize_R by lia. rewrite Rmin_left by auto.
    assert (0 < / IZR w) as Iw by (apply Rinv_0_lt_compat; lra).
    assert (forall c, 0 <= c < 1 -> Rabs (1 / IZR w * (c - 1 / 2)) <= 1 / IZR w / 2) as A.
    { intros c Hc. unfold Rdiv. rewrite Rmult_1_l. apply Rabs_le. nra. }
    split; [apply A; auto|]. split; [apply A; auto|].
    unfold Rdiv. nra.
  Qed.

  Lemma landscape_jitter : exists w h p a b u v, in_image w h p /\ 0 <= a < 1 /\ 0 <= b < 1 /\
    indexToCam w h (IZR (fst p)) (IZR (snd p)) = Val (u, v) /\
    u + pixelSize w h * (a - 1 / 2) < IZR (fst p) / IZR w.
  Proof.
    exists 2%Z, 1%Z, (0, 0)%Z, 0, 0. cbn [fst snd]. rewrite indexToCam_R by (try lia; lra). rewrite pixelSize_R by lia.
    rewrite Rmin_right by lra. eexists _, _. split; [split; cbn; lia|]. split; [lra|]. split; [lra|]. split; [reflexivity|]. lra.
  Qed.

  Lemma actual_sample_outside (shifts : list (R * R)) w h p k c x y u v :
    in_image w h p -> (3 * h < w)%Z ->
    indexToCam w h (IZR (fst p)) (IZR (snd p)) = Val (u, v) ->
    sample_pos true shifts w h p k = Val (c, (x, y)) -> y < v - 1 / IZR w / 2.
  Proof.
    intros Hp Hwh E HS. destruct (pos_R _ _ _ _ _ _ _ _ Hp HS) as (u' & v' & E' & _ & ->).
    rewrite E in E'. injection E' as <- <-. destruct Hp as [Hx Hy].
    assert (1 <= IZR h) as H1 by (apply IZR_le; lia). assert (3 * IZR h < IZR w) as H2 by (rewrite <- mult_IZR; apply IZR_lt; lia).
    rewrite pixelSize_R by lia. rewrite Rmin_right by lra.
    assert (/ IZR w < / (3 * IZR h)) as H3 by (apply Rinv_lt_contravar; nra).
    rewrite Rinv_mult in H3. unfold Rdiv. lra.
  Qed.
End Cam.

(** ** C79: an image function whose colour is the next number of the pseudo-random generator, as used beyond recursion level 2 *)
Definition noisy : imageFunc b64 (b64 * b64) := fun _ g _ _ => (gray (fst g), g).

(** *** the executable one-worker schedule is a schedule *)
Section Seq.
  Context {F : Type} `{NF : Num F} {G : Type}.
  Variables (f : imageFunc F G) (aa : bool) (w h : Z) (n : nat).

  Lemma steps_app j k s1 s2 s3 : steps f aa w h n j s1 s2 -> steps f aa w h n k s2 s3 -> steps f aa w h n (j + k) s1 s3.
  Proof. induction 1; cbn [Nat.add]; auto. intros. econstructor; eauto. Qed.

  Lemma one_step q q' m m' x x' : wstep f aa w h n q x m q' x' m' -> step f aa w h n (Sys q [x] m) (Sys q' [x'] m').
  Proof. intros H. exact (step_worker f aa w h n q q' m m' x x' nil nil H). Qed.

  Lemma run_steps q t (c : prog F (local F G)) : forall m l m', run c m = Val (l, m') ->
    exists k, steps f aa w h n k (Sys q [Busy t c] m) (Sys q [Busy t (Ret l)] m').
  Proof.
    induction c as [a|p k IH|p v k IH|p a k IH|p a v k IH|]; intros m l m' E; cbn [run] in E.
    - injection E as <- <-. exists 0%nat. constructor.
    - destruct (IH _ _ _ _ E) as (j & H). exists (S j). econstructor; [apply one_step; constructor|exact H].
    - destruct (IH _ _ _ E) as (j & H). exists (S j). econstructor; [apply one_step; constructor|exact H].
    - destruct (IH _ _ _ _ E) as (j & H). exists (S j). econstructor; [apply one_step; constructor|exact H].
    - destruct (IH _ _ _ E) as (j & H). exists (S j). econstructor; [apply one_step; constructor|exact H].
    - discriminate.
  Qed.

  Lemma runTiles_steps ts : forall l m m', runTiles f aa w h n ts l m = Val m' ->
    exists k, steps f aa w h n k (Sys ts [Idle l] m) (Sys nil [Done] m').
  Proof.
    induction ts as [|t ts IH]; intros l m m' E; cbn [runTiles] in E.
    - injection E as <-. exists 1%nat. econstructor; [apply one_step; constructor|constructor].
    - destruct (run (sampleTile f aa w h n t l) m) as [[l1 m1]| |] eqn:E1; cbn [obind] in E; try discriminate.
      destruct (run_steps ts t _ _ _ _ E1) as (j & H1). destruct (IH _ _ _ E) as (k & H2).
      exists (S (j + S k)). econstructor; [apply one_step; constructor|].
      eapply steps_app; [exact H1|]. econstructor; [apply one_step; constructor|exact H2].
  Qed.
End Seq.

Lemma sampleSeq_call {F} `{Num F} {G} (f : imageFunc F G) aa shifts g w h nPass m m' :
  sampleSeq f aa shifts g w h nPass m = Val m' -> sampleCall f aa shifts w h nPass m m'.
Proof.
  unfold sampleSeq. destruct (tessellate w h 16) as [q| |] eqn:E; cbn [obind]; try discriminate. intros HR.
  destruct (runTiles_steps _ _ _ _ _ _ _ _ _ HR) as (k & Hs).
  apply (sampleCall_intro f aa shifts w h nPass m m' q [g] k (Sys nil [Done] m') E); [discriminate|exact Hs|repeat constructor|reflexivity].
Qed.

Lemma not_reproducible : exists m1 m2,
    sampleCall noisy false [(nofZ 0, nofZ 0)] 1 1 1 newMem m1 /\
    sampleCall noisy false [(nofZ 0, nofZ 0)] 1 1 1 newMem m2 /\
    neqb (cR (imagef m1 (0, 0)%Z)) (cR (imagef m2 (0, 0)%Z)) = false.
Proof.
  assert (match sampleSeq noisy false [(nofZ 0, nofZ 0)] (nofZ 0, nofZ 0) 1 1 1 newMem,
                sampleSeq noisy false [(nofZ 0, nofZ 0)] (nQ 1 2, nQ 1 2) 1 1 1 newMem with
          | Val m1, Val m2 => neqb (cR (imagef m1 (0, 0)%Z)) (cR (imagef m2 (0, 0)%Z)) = false
          | _, _ => False end) as E by (vm_compute; reflexivity).
  destruct (sampleSeq noisy false [(nofZ 0, nofZ 0)] (nofZ 0, nofZ 0) 1 1 1 newMem) as [m1| |] eqn:E1; try contradiction.
  destruct (sampleSeq noisy false [(nofZ 0, nofZ 0)] (nQ 1 2, nQ 1 2) 1 1 1 newMem) as [m2| |] eqn:E2; try contradiction.
  exists m1, m2. split; [eapply sampleSeq_call, E1|]. split; [eapply sampleSeq_call, E2|exact E].
Qed.
