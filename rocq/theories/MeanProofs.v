(** * Accuracy of the images of a sampler *)
From Coq Require Import ZArith Reals Bool List Lra Lia Psatz.
From Flocq Require Import Core.
From Flocq Require IEEE754.BinarySingleNaN.
Import IEEE754.BinarySingleNaN.
From Verif Require Import Num NumLaws Outcome B64 BoxFloat FloatSpec FloatErr ColorModel SeqModel SamplerModel SamplerSpec SamplerFacts SamplerNum MeanSpec MeanFloat.
Import ListNotations.
Local Open Scope R_scope.

Lemma roundoff_u : roundoff = u. Proof. rewrite u_val. reflexivity. Qed.

Lemma finite_eqb (x : b64) : is_finite x = true -> neqb x x = true.
Proof. intros F. destruct x as [| | |[|] m e B]; try discriminate F; [now destruct s| |]; cbn; unfold Beqb, SpecFloat.SFeqb; cbn; now rewrite Z.compare_refl, Pos.compare_cont_refl. Qed.
Lemma sane_not_nan k c : sane k c -> clisnan c = false.
Proof. intros ((A & _) & (B & _) & (C & _)). unfold clisnan. now rewrite !finite_eqb. Qed.

Lemma more_S (s : Z -> color b64) n (a : acc b64) : more_samples s (S n) a = add_sample (more_samples s n a) (s (aN (more_samples s n a))).
Proof. replace (S n) with (n + 1)%nat by lia. rewrite more_samples_plus. reflexivity. Qed.

Lemma fsum_snoc l x : fsum (l ++ [x]) = nadd (fsum l) x.
Proof. unfold fsum. now rewrite fold_left_app. Qed.

Section Acc.
  Variable s : Z -> color b64.
  Variable a0 : acc b64.
  Hypothesis A0 : aN a0 = 0%Z /\ aSum a0 = black /\ aSq a0 = black.
  Definition upto_n (n : nat) : list (color b64) := map (fun k => s (Z.of_nat k)) (seq 0 n).
  Lemma upto_S n : upto_n (S n) = upto_n n ++ [s (Z.of_nat n)].
  Proof. unfold upto_n. rewrite seq_S, map_app. reflexivity. Qed.

  Lemma acc_sums ch k n : channel ch -> (forall c, In c (upto_n n) -> sane k c) ->
    aN (more_samples s n a0) = Z.of_nat n /\
    ch (aSum (more_samples s n a0)) = fsum (map ch (upto_n n)) /\ ch (aSq (more_samples s n a0)) = fsum (squares (map ch (upto_n n))).
  Proof.
    intros Hc. destruct A0 as (B1 & B2 & B3). induction n as [|n IH]; intros HS.
    - cbn [more_samples upto_n seq map squares]. rewrite B1, B2, B3. split; [reflexivity|]. destruct Hc as [-> |[-> | ->]]; split; reflexivity.
    - rewrite upto_S in HS |- *. destruct IH as (I1 & I2 & I3); [intros c Hi; apply HS, in_or_app; now left|].
      assert (Hn : clisnan (s (Z.of_nat n)) = false) by (apply (sane_not_nan k), HS, in_or_app; right; now left).
      rewrite more_S, I1. unfold add_sample. rewrite Hn. cbn [aN aSum aSq]. split; [rewrite I1; lia|].
      unfold squares. rewrite !map_app. cbn [map]. rewrite !fsum_snoc. change (map (fun x : b64 => nmul x x) (map ch (upto_n n))) with (squares (map ch (upto_n n))). rewrite <- I2, <- I3.
      destruct Hc as [-> |[-> | ->]]; split; reflexivity.
  Qed.
End Acc.

Section Image.
  Context {G : Type}.
  Variables (f : imageFunc b64 G) (aa : bool) (shifts : list (b64 * b64)) (w h : Z) (g0 : G) (ns : list Z) (m : mem b64) (p : pixel).
  Hypothesis Hf : deterministic f.
  Hypothesis Hw : (0 <= w <= 2 ^ 53)%Z.
  Hypothesis Hh : (0 <= h <= 2 ^ 53)%Z.
  Hypothesis Hs : Z.of_nat (length shifts) = (w * h)%Z.
  Hypothesis Hn : Forall (fun n => 0 <= n)%Z ns.
  Hypothesis HC : sampleCalls f aa shifts w h ns newMem m.
  Hypothesis Hp : in_image w h p.
  Let l := pixel_samples f aa shifts g0 w h p (total ns).

  Lemma len_l : (0 <= total ns)%Z -> Z.of_nat (length l) = total ns.
  Proof. intros H. unfold l, pixel_samples. rewrite map_length, seq_length. lia. Qed.

  Lemma acc_image ch k : channel ch -> (0 <= total ns)%Z -> (forall c, In c l -> sane k c) ->
    mN m p = Z.of_nat (length (map ch l)) /\ ch (aSum (acc_at m p)) = fsum (map ch l) /\ ch (aSq (acc_at m p)) = fsum (squares (map ch l)).
  Proof.
    intros Hc H0 HS.
    assert (E := sampleCalls_result f aa shifts w h g0 Hf (proj1 Hw) (proj1 Hh) (fun p k => sample_pos_b64 aa shifts w h p k (proj2 Hw) (proj2 Hh) Hs) ns Hn _ _ HC p).
    unfold after_passes in E. rewrite (in_image_b _ _ _ Hp) in E. rewrite E, map_length, len_l by exact H0.
    assert (Z0 : aN (acc_at (newMem (F := b64)) p) = 0%Z /\ aSum (acc_at (newMem (F := b64)) p) = black /\ aSq (acc_at (newMem (F := b64)) p) = black) by (split; [reflexivity|split; reflexivity]).
    destruct (acc_sums (sample_color f aa shifts g0 w h p) (acc_at newMem p) Z0 ch k (Z.to_nat (total ns)) Hc HS) as (A & B & C).
    split; [|split; [exact B|exact C]]. rewrite <- E in A. change (mN m p = Z.of_nat (Z.to_nat (total ns))) in A. lia.
  Qed.

  Lemma tame_channel ch k : channel ch -> (forall c, In c l -> sane k c) -> tame k (map ch l).
  Proof.
    intros Hc HS. apply Forall_forall. intros x Hx. apply in_map_iff in Hx. destruct Hx as (c & <- & Hi). destruct (HS c Hi) as (A & B & C). destruct Hc as [-> |[-> | ->]]; assumption.
  Qed.
  Lemma reals_vals ch : reals ch l = vals (map ch l).
  Proof. unfold reals, vals. now rewrite map_map. Qed.
  Lemma reals_mags ch : map Rabs (reals ch l) = mags (map ch l).
  Proof. unfold reals, mags. now rewrite !map_map. Qed.

  Lemma image_near ch : (1 <= total ns <= 2 ^ 26)%Z -> (forall c, In c l -> sane 900 c) -> channel ch ->
    is_finite (ch (imagef m p)) = true /\
    Rabs (B2R (ch (imagef m p)) - mean (reals ch l)) <= (IZR (total ns) + 3) * roundoff * mean (map Rabs (reals ch l)) + bpow radix2 (-1075).
  Proof.
    intros HT HS Hc. destruct (acc_image ch 900 Hc ltac:(lia) HS) as (A & B & _).
    assert (LL : length (map ch l) = length l) by apply map_length. assert (LZ := len_l ltac:(lia)).
    destruct (fmean_near (map ch l) (tame_channel ch 900 Hc HS) ltac:(rewrite LL, LZ; lia)) as [F E].
    assert (IE : ch (imagef m p) = nmul (ndiv (nofZ 1) (nofZ (Z.of_nat (length (map ch l))))) (fsum (map ch l))).
    { rewrite <- B, <- A. unfold imagef, clmul, acc_at. cbn [aSum]. destruct Hc as [-> |[-> | ->]]; reflexivity. }
    rewrite IE. split; [exact F|]. unfold mean. rewrite reals_mags, reals_vals, roundoff_u, <- eta_val. unfold vals at 2. unfold mags at 2. rewrite !map_length, <- LZ, <- !INR_IZR_INZ. rewrite LL in E. exact E.
  Qed.

  Lemma var_near ch : (2 <= total ns <= 2 ^ 26)%Z -> (forall c, In c l -> sane 400 c) -> channel ch ->
    is_finite (ch (variancef m p)) = true /\ Rabs (B2R (ch (variancef m p)) - variance (reals ch l)) <= variance_error (reals ch l).
  Proof.
    intros HT HS Hc. destruct (acc_image ch 400 Hc ltac:(lia) HS) as (A & B & C).
    assert (LL : length (map ch l) = length l) by apply map_length. assert (LZ := len_l ltac:(lia)).
    assert (L2 : (2 <= Z.of_nat (length (map ch l)) <= 2 ^ 26)%Z) by (rewrite LL, LZ; lia).
    destruct (fvar_near (map ch l) (tame_channel ch 400 Hc HS) L2) as [F E]. rewrite (variance_real _ L2) in E.
    assert (IE : ch (variancef m p) = fvar (map ch l)).
    { unfold fvar. cbv zeta. rewrite <- B, <- C, <- A. unfold variancef, acc_at. cbn [aSum aSq]. destruct Hc as [-> |[-> | ->]]; reflexivity. }
    rewrite IE. split; [exact F|]. rewrite reals_vals. unfold variance_error. cbv zeta. eapply Rle_trans; [exact E|].
    unfold vals at 2. rewrite map_length, <- INR_IZR_INZ, roundoff_u. unfold sumsq, vals. rewrite !map_map, map_length. assert (H20 := eta_20). lra.
  Qed.

  Lemma stddev_ok ch : (2 <= total ns <= 2 ^ 26)%Z -> (forall c, In c l -> sane 400 c) -> channel ch ->
    let V := variance (reals ch l) in let e := variance_error (reals ch l) in e < V ->
    let d := B2R (ch (stddevf m p)) in
    is_finite (ch (stddevf m p)) = true /\ 0 < d /\ Rabs (d * d - V) <= e + 3 * roundoff * (V + e).
  Proof.
    intros HT HS Hc V e He d. destruct (var_near ch HT HS Hc) as [F E]. fold V e in E.
    assert (IE : ch (stddevf m p) = nsqrt (ch (variancef m p))) by (destruct Hc as [-> |[-> | ->]]; reflexivity).
    unfold d. rewrite IE. set (v := ch (variancef m p)) in *. assert (AB := Rabs_def2 _ _ (Rle_lt_trans _ _ _ E He)).
    assert (VP : 0 < B2R v) by lra. destruct (sqrt_R v F ltac:(lra)) as [F2 E2]. split; [exact F2|]. rewrite E2.
    assert (VM : bpow radix2 (-1074) <= B2R v).
    { assert (X := generic_format_ge_bpow radix2 fexp64 (-1074) (fun e => Z.le_max_r _ _) (B2R v) VP (fmt_B2R v)). exact X. }
    assert (SM : bpow radix2 (-537) <= sqrt (B2R v)).
    { rewrite <- (sqrt_Rsqr (bpow radix2 (-537))) by apply bpow_ge_0. apply sqrt_le_1_alt. unfold Rsqr. rewrite <- bpow_plus. exact VM. }
    assert (S0 := bpow_gt_0 radix2 (-537)).
    destruct (rnd_rel (sqrt (B2R v))) as (q & Hq & R). { rewrite Rabs_pos_eq by lra. eapply Rle_trans; [|exact SM]. apply bpow_le. lia. }
    rewrite R. assert (US := u_small). assert (P := u_pos). apply Rabs_le_inv in Hq. split; [apply Rmult_lt_0_compat; lra|].
    replace (sqrt (B2R v) * (1 + q) * (sqrt (B2R v) * (1 + q))) with (sqrt (B2R v) * sqrt (B2R v) * ((1 + q) * (1 + q))) by ring. rewrite sqrt_sqrt by lra.
    replace (B2R v * ((1 + q) * (1 + q)) - V) with (B2R v - V + B2R v * (2 * q + q * q)) by ring.
    eapply Rle_trans; [apply Rabs_triang|]. apply Rplus_le_compat; [exact E|]. rewrite Rabs_mult, (Rabs_pos_eq (B2R v)) by lra.
    assert (X : Rabs (2 * q + q * q) <= 3 * u). { apply Rabs_le. nra. }
    rewrite roundoff_u, (Rmult_comm (3 * u)). apply Rmult_le_compat; [lra|apply Rabs_pos| |exact X]. apply Rabs_le_inv in E. lra.
  Qed.

  Lemma one_pass_nan ch : total ns = 1%Z -> (forall c, In c l -> sane 400 c) -> channel ch -> is_nan (ch (stddevf m p)) = true.
  Proof.
    intros HT HS Hc. destruct (acc_image ch 400 Hc ltac:(lia) HS) as (A & B & C).
    assert (LL : length (map ch l) = length l) by apply map_length. assert (LZ := len_l ltac:(lia)).
    assert (IE : ch (stddevf m p) = nsqrt (fvar (map ch l))).
    { unfold fvar. cbv zeta. rewrite <- B, <- C, <- A. unfold stddevf, variancef, acc_at. cbn [aSum aSq]. destruct Hc as [-> |[-> | ->]]; reflexivity. }
    rewrite IE. clear IE. assert (T := tame_channel ch 400 Hc HS). destruct (map ch l) as [|x [|y r]] eqn:EL; cbn [length] in LL; try lia.
    inversion T as [|? ? [Fx Bx] _]; subst. unfold fvar. cbv zeta. cbn [length]. change (Z.of_nat 1) with 1%Z.
    unfold fsum, squares. cbn [map fold_left].
    assert (B8 : Rabs (B2R x * B2R x) <= bpow radix2 800). { change 800%Z with (400 + 400)%Z. rewrite bpow_plus, Rabs_mult. apply Rmult_le_compat; auto using Rabs_pos. }
    destruct (mul_u 800 x x ltac:(lia) Fx Fx B8) as (F & _ & B').
    destruct (Z_b 0 ltac:(lia)) as [F0 E0]. destruct (Z_b 1 ltac:(lia)) as [F1 E1].
    assert (AD : forall y : b64, is_finite y = true -> Rabs (B2R y) <= bpow radix2 800 -> is_finite (nadd (nofZ 0) y) = true /\ B2R (nadd (nofZ 0) y) = B2R y).
    { intros y Fy By. destruct (badd_correct (nofZ 0) y F0 Fy) as [Fa Ea]; [rewrite E0, Rplus_0_l; eapply Rle_trans; [exact By|apply bpow_big; lia]|]. split; [exact Fa|]. rewrite Ea, E0, Rplus_0_l. apply rnd_id, fmt_B2R. }
    destruct (AD x Fx ltac:(eapply Rle_trans; [exact Bx|apply bpow_le; lia])) as [G1 H1]. destruct (AD (nmul x x) F B') as [G2 H2].
    destruct (one_mul (nadd (nofZ 0) (nmul x x)) G2) as [G3 H3]; [rewrite H2; eapply Rle_trans; [exact B'|apply bpow_le; lia]|].
    assert (BG : forall k, (k <= 1000)%Z -> bpow radix2 k <= big) by apply bpow_big.
    destruct (bmul_correct (nadd (nofZ 0) x) (nadd (nofZ 0) x) G1 G1) as [G4 H4]; [rewrite H1; eapply Rle_trans; [exact B8|apply BG; lia]|].
    destruct (bmul_correct x x Fx Fx) as [_ H5]; [eapply Rle_trans; [exact B8|apply BG; lia]|].
    rewrite H1, <- H5 in H4. rewrite H2 in H3.
    set (a := nmul (nofZ 1) (nadd (nofZ 0) (nmul x x)) : b64) in *. set (b := nmul (nadd (nofZ 0) x) (nadd (nofZ 0) x) : b64) in *.
    destruct (bsub_correct a b G3 G4) as [G6 H6]; [rewrite H3, H4; replace (B2R (nmul x x) - B2R (nmul x x)) with 0 by ring; rewrite Rabs_R0; apply bpow_ge_0|].
    rewrite H3, H4 in H6. replace (B2R (nmul x x) - B2R (nmul x x)) with 0 in H6 by ring. rewrite rnd_0 in H6.
    set (c := nsub a b : b64) in *. clearbody c. clear - G6 H6.
    assert (Z : exists sg, c = B754_zero sg). { destruct c as [sg| | |sg mm ee bb]; try discriminate G6; [now exists sg|]. exfalso. apply eq_0_F2R in H6. destruct sg; discriminate H6. }
    destruct Z as [sg ->]. destruct sg; vm_compute; reflexivity.
  Qed.
End Image.

(** ** A picture of one colour whose standard deviation is not a number *)
Definition uniform7 : imageFunc b64 unit := fun _ g _ _ => (gray (nQ 7 10), g).
Lemma uniform7_nan :
  deterministic uniform7 /\ (exists m, sampleCall uniform7 false [(nofZ 0, nofZ 0)] 1 1 5 newMem m) /\
  forall m, sampleCall uniform7 false [(nofZ 0, nofZ 0)] 1 1 5 newMem m -> nisnan (cR (stddevf m (0, 0)%Z)) = true.
Proof.
  assert (D : deterministic uniform7) by (intros c g g' x y; reflexivity). split; [exact D|]. split.
  - apply (sampleCall_exists uniform7 false _ 1 1 tt D) with (gs := [tt]); try lia; [|discriminate]. intros p k. apply pos_1x1.
  - intros m HC.
    assert (forall p, acc_at m p = after_passes uniform7 false [(nofZ 0, nofZ 0)] 1 1 tt 5 newMem p) as E.
    { apply (sampleCall_result uniform7 false _ 1 1 tt D); try lia; auto. intros p k. apply pos_1x1. }
    specialize (E (0, 0)%Z). generalize (f_equal aN E) (f_equal (fun a => cR (aSum a)) E) (f_equal (fun a => cR (aSq a)) E). intros E0 E1 E2.
    unfold stddevf, variancef. cbn [cR cG cB]. unfold acc_at in E0, E1, E2. cbn [aN aSum aSq cR] in E0, E1, E2. rewrite E0, E1, E2. vm_compute. reflexivity.
Qed.

(** ** Examples *)
Definition blink : imageFunc b64 unit := fun c g _ _ => (if Z.eqb (hs_index (cs_1 c)) 0 then gray (nofZ 0) else gray (nofZ 1), g).
Lemma two_calls (f : imageFunc b64 unit) a b : deterministic f -> exists m, sampleCalls f false [(nofZ 0, nofZ 0)] 1 1 [a; b] newMem m.
Proof.
  intros D.
  destruct (sampleCall_exists f false [(nofZ 0, nofZ 0)] 1 1 tt D ltac:(lia) ltac:(lia) (fun p k => pos_1x1 false p k) a newMem [tt] ltac:(discriminate)) as [m1 H1].
  destruct (sampleCall_exists f false [(nofZ 0, nofZ 0)] 1 1 tt D ltac:(lia) ltac:(lia) (fun p k => pos_1x1 false p k) b m1 [tt] ltac:(discriminate)) as [m2 H2].
  exists m2. econstructor; [exact H1|]. econstructor; [exact H2|]. constructor.
Qed.
Lemma uniform_sample k : sample_color uniform7 false [(nofZ 0, nofZ 0)] tt 1 1 (0, 0)%Z k = gray (nQ 7 10).
Proof.
  unfold sample_color. destruct (pos_1x1 false (0, 0)%Z k ltac:(split; cbn; lia)) as (c & xy & E). rewrite E. destruct xy. reflexivity.
Qed.
Lemma seven : is_finite (nQ 7 10 : b64) = true /\ / 2 <= B2R (nQ 7 10 : b64) <= 1.
Proof.
  destruct (Z_b 7 ltac:(lia)) as [F7 E7]. destruct (Z_b 10 ltac:(lia)) as [F10 E10].
  assert (F : is_finite (nQ 7 10 : b64) = true) by (vm_compute; reflexivity). split; [exact F|]. destruct (Z_b 1 ltac:(lia)) as [F1 E1].
  assert (FH : is_finite (nhalf : b64) = true) by apply nhalf_b64. assert (EH : B2R (nhalf : b64) = 1 / 2) by apply nhalf_b64.
  split.
  - replace (/ 2) with (B2R (nhalf : b64)) by (rewrite EH; lra). apply bleb_R; [assumption|assumption|vm_compute; reflexivity].
  - replace 1 with (B2R (nofZ 1 : b64)) by exact E1. apply bleb_R; [assumption|assumption|vm_compute; reflexivity].
Qed.
Lemma uniform_image : exists m, sampleCalls uniform7 false [(nofZ 0, nofZ 0)] 1 1 [2; 3]%Z newMem m /\
  Rabs (B2R (cG (imagef m (0, 0)%Z)) - B2R (nQ 7 10 : b64)) <= 9 * bpow radix2 (-53).
Proof.
  assert (D : deterministic uniform7) by (intros c g g' x y; reflexivity). destruct (two_calls uniform7 2 3 D) as [m HC]. exists m. split; [exact HC|].
  destruct seven as [F7 B7].
  assert (PS : pixel_samples uniform7 false [(nofZ 0, nofZ 0)] tt 1 1 (0, 0)%Z (total [2; 3]%Z) = repeat (gray (nQ 7 10)) 5).
  { unfold pixel_samples. change (Z.to_nat (total [2; 3]%Z)) with 5%nat. cbn [seq map]. rewrite !uniform_sample. reflexivity. }
  destruct (image_near uniform7 false [(nofZ 0, nofZ 0)] 1 1 tt [2; 3]%Z m (0, 0)%Z D ltac:(lia) ltac:(lia) eq_refl) with (ch := fun c : color b64 => cG c) as [F E].
  - repeat constructor; lia.
  - exact HC.
  - split; cbn; lia.
  - cbn. lia.
  - rewrite PS. intros c Hc. apply repeat_spec in Hc. subst c. assert (AM : at_most 900 (nQ 7 10 : b64)). { split; [exact F7|]. rewrite Rabs_pos_eq by lra. apply Rle_trans with (bpow radix2 0); [change (bpow radix2 0) with 1; lra|apply bpow_le; lia]. } exact (conj AM (conj AM AM)).
  - right. now left.
  - rewrite PS in E. cbn [repeat] in E. unfold reals, mean, gray in E. cbn [map Rsum cG length total fold_right] in E. change (IZR (Z.of_nat 5)) with 5 in E.
    set (s := B2R (nQ 7 10 : b64)) in *. change (IZR (2 + (3 + 0))) with 5 in E.
    replace ((s + (s + (s + (s + (s + 0))))) / 5) with s in E by lra. rewrite Rabs_pos_eq with (x := s) in E by lra.
    replace ((s + (s + (s + (s + (s + 0))))) / 5) with s in E by lra. unfold roundoff in E.
    assert (bpow radix2 (-1075) <= bpow radix2 (-53)) by (apply bpow_le; lia). assert (P := bpow_gt_0 radix2 (-53)).
    assert (8 * bpow radix2 (-53) * s <= 8 * bpow radix2 (-53) * 1) by (apply Rmult_le_compat_l; lra). eapply Rle_trans; [exact E|]. lra.
Qed.
Lemma blink_deviation : exists m, sampleCalls blink false [(nofZ 0, nofZ 0)] 1 1 [1; 1]%Z newMem m /\
  is_finite (cB (stddevf m (0, 0)%Z)) = true /\ Rabs (B2R (cB (stddevf m (0, 0)%Z)) * B2R (cB (stddevf m (0, 0)%Z)) - 1 / 2) <= / 10 ^ 14.
Proof.
  assert (D : deterministic blink) by (intros c g g' x y; reflexivity). destruct (two_calls blink 1 1 D) as [m HC]. exists m. split; [exact HC|].
  destruct (Z_b 0 ltac:(lia)) as [F0 E0]. destruct (Z_b 1 ltac:(lia)) as [F1 E1].
  assert (PS : pixel_samples blink false [(nofZ 0, nofZ 0)] tt 1 1 (0, 0)%Z (total [1; 1]%Z) = [gray (nofZ 0); gray (nofZ 1)]).
  { unfold pixel_samples. change (Z.to_nat (total [1; 1]%Z)) with 2%nat. cbn [seq map]. reflexivity. }
  assert (VV : variance [0; 1] = 1 / 2). { unfold variance, mean. cbn [length map Rsum]. change (IZR (Z.of_nat 2)) with 2. field. }
  assert (VE : variance_error [0; 1] <= / 10 ^ 15 * 2).
  { unfold variance_error. cbn [length map Rsum]. change (IZR (Z.of_nat 2)) with 2. unfold roundoff. assert (bpow radix2 (-1070) <= bpow radix2 (-53)) by (apply bpow_le; lia). change (bpow radix2 (-53)) with (/ 9007199254740992) in *. lra. }
  assert (RE : reals (fun c : color b64 => cB c) [gray (nofZ 0); gray (nofZ 1)] = [0; 1]) by (unfold reals, gray; cbn [map cB]; now rewrite E0, E1).
  assert (E20 : 0 <= variance_error [0; 1]).
  { unfold variance_error. cbn [length map Rsum]. change (IZR (Z.of_nat 2)) with 2. unfold roundoff. assert (P := bpow_gt_0 radix2 (-1070)). change (bpow radix2 (-53)) with (/ 9007199254740992). lra. }
  assert (A0 : at_most 400 (nofZ 0 : b64)) by (split; [exact F0|rewrite E0, Rabs_R0; apply bpow_ge_0]).
  assert (A1 : at_most 400 (nofZ 1 : b64)) by (split; [exact F1|rewrite E1, Rabs_R1; change 1 with (bpow radix2 0); apply bpow_le; lia]).
  assert (X := stddev_ok blink false [(nofZ 0, nofZ 0)] 1 1 tt [1; 1]%Z m (0, 0)%Z D ltac:(lia) ltac:(lia) eq_refl ltac:(repeat constructor; lia) HC ltac:(split; cbn; lia) (fun c : color b64 => cB c) ltac:(cbn; lia)).
  rewrite PS, RE, VV in X. destruct X as (X1 & _ & X3).
  - intros c [<- |[<- |[]]]; [exact (conj A0 (conj A0 A0))|exact (conj A1 (conj A1 A1))].
  - right. now right.
  - lra.
  - split; [exact X1|]. eapply Rle_trans; [exact X3|]. unfold roundoff. change (bpow radix2 (-53)) with (/ 9007199254740992). lra.
Qed.
