(** * The slope of the sRGB curve, and measures of brightness *)
From Coq Require Import ZArith Reals Bool List Lra Lia.
From Flocq Require Import Core.
From Flocq Require IEEE754.BinarySingleNaN.
Import IEEE754.BinarySingleNaN.
From Verif Require Import Num NumLaws Outcome B64 ColorModel ColorProofs FloatErr DullSpec ToneSpec.
Import ListNotations.
Local Open Scope R_scope.

(** ** Slope *)
Definition top : R := Rpower (210 / 211) (12 / 5).
Lemma top_1 : 1055 / 1000 * Rpower top (10 / 24) - 5 / 100 = 1.
Proof. unfold top. rewrite Rpower_mult. replace (12 / 5 * (10 / 24)) with 1 by lra. rewrite Rpower_1; lra. Qed.
Lemma top_lt_1 : top < 1.
Proof. unfold top. rewrite <- (Rpower_1l (12 / 5)). unfold Rpower at 1 2. apply exp_increasing. apply Rmult_lt_compat_l; [lra|]. apply ln_increasing; lra. Qed.

Lemma near (f g : R -> R) x l d : 0 < d -> (forall y, Rabs (y - x) < d -> f y = g y) -> derivable_pt_lim g x l -> derivable_pt_lim f x l.
Proof.
  intros Hd E H eps He. destruct (H eps He) as (del & Hdel). assert (M : 0 < Rmin d del) by (apply Rmin_glb_lt; [exact Hd|apply cond_pos]).
  exists (mkposreal _ M). intros h H0 Hh. cbn [pos] in Hh. rewrite (E (x + h)), (E x).
  - apply Hdel; [exact H0|]. eapply Rlt_le_trans; [exact Hh|apply Rmin_r].
  - replace (x - x) with 0 by ring. now rewrite Rabs_R0.
  - replace (x + h - x) with h by ring. eapply Rlt_le_trans; [exact Hh|apply Rmin_l].
Qed.
Lemma low (c : R) : 0 <= c <= thr -> linearToSRGB c = 1292 / 100 * c.
Proof. intros H. apply (proj1 (proj2 (proj2 gamma_ok))). unfold thr in H. exact H. Qed.
Lemma high (c : R) : thr < c <= top -> linearToSRGB c = 1055 / 1000 * Rpower c (10 / 24) - 5 / 100.
Proof.
  intros H. pose proof top_lt_1. rewrite linearToSRGB_R, clipR_id by (unfold thr in *; lra). unfold enc. destruct (Rleb_spec c thr); [lra|]. cbv zeta.
  destruct (Rltb_spec 1 (1055 / 1000 * Rpower c (10 / 24) - 5 / 100)) as [L|L]; [|reflexivity]. exfalso.
  pose proof (Rpower_le_base c top (10 / 24) ltac:(unfold thr in *; lra) ltac:(lra) ltac:(lra)). pose proof top_1. lra.
Qed.
Lemma slope_low (c : R) : 0 < c < thr -> derivable_pt_lim linearToSRGB c (srgbSlope c).
Proof.
  intros H. apply (near _ (fun y => 1292 / 100 * y) _ _ (Rmin c (thr - c))).
  - apply Rmin_glb_lt; lra.
  - intros y Hy. apply low. assert (Rabs (y - c) < c) by (eapply Rlt_le_trans; [exact Hy|apply Rmin_l]). assert (Rabs (y - c) < thr - c) by (eapply Rlt_le_trans; [exact Hy|apply Rmin_r]).
    apply Rabs_lt_inv in H0, H1. lra.
  - unfold srgbSlope, nQ. rnum. destruct (Rleb_spec c (31308 / 10000000)); [|unfold thr in *; lra].
    pose proof (derivable_pt_lim_scal id (1292 / 100) c 1 (derivable_pt_lim_id c)) as D. rewrite Rmult_1_r in D. exact D.
Qed.
Lemma slope_high (c : R) : thr < c < top -> derivable_pt_lim linearToSRGB c (srgbSlope c).
Proof.
  intros H. apply (near _ (fun y => 1055 / 1000 * Rpower y (10 / 24) - 5 / 100) _ _ (Rmin (c - thr) (top - c))).
  - apply Rmin_glb_lt; lra.
  - intros y Hy. apply high. assert (Rabs (y - c) < c - thr) by (eapply Rlt_le_trans; [exact Hy|apply Rmin_l]). assert (Rabs (y - c) < top - c) by (eapply Rlt_le_trans; [exact Hy|apply Rmin_r]).
    apply Rabs_lt_inv in H0, H1. lra.
  - unfold srgbSlope, nQ. rnum. destruct (Rleb_spec c (31308 / 10000000)); [unfold thr in *; lra|].
    replace (1055 / 1000 * (10 / 24) * Rpower c (-14 / 24)) with (1055 / 1000 * (10 / 24 * Rpower c (10 / 24 - 1)) - 0).
    2: { replace (10 / 24 - 1) with (-14 / 24) by lra. ring. }
    apply (derivable_pt_lim_minus (fun y => 1055 / 1000 * Rpower y (10 / 24)) (fun _ => 5 / 100)).
    + apply (derivable_pt_lim_scal (fun y => Rpower y (10 / 24))). apply derivable_pt_lim_power. unfold thr in H. lra.
    + apply derivable_pt_lim_const.
Qed.
Lemma slope_left (h : R) : - thr <= h < 0 -> (linearToSRGB (thr + h) - linearToSRGB thr) / h = srgbSlope thr.
Proof.
  intros H. rewrite !low by (unfold thr in *; lra). unfold srgbSlope, nQ. rnum. destruct (Rleb_spec thr (31308 / 10000000)); [|unfold thr in *; lra]. field. lra.
Qed.
Lemma jump (h : R) : 0 < h -> linearToSRGB thr + 4 / 1000 <= linearToSRGB (thr + h).
Proof.
  intros H. set (g := Rmin h (1 / 2)). assert (G : 0 < g /\ g <= 1 / 2 /\ g <= h) by (unfold g; split; [apply Rmin_glb_lt; lra|split; [apply Rmin_r|apply Rmin_l]]).
  apply Rle_trans with (linearToSRGB (thr + g)); [|apply (proj1 (proj2 gamma_ok)); lra].
  rewrite (low thr) by (unfold thr; lra). rewrite linearToSRGB_R, clipR_id by (unfold thr; lra). unfold enc. destruct (Rleb_spec (thr + g) thr); [lra|]. cbv zeta.
  assert (R : (1292 / 100 * thr + 54 / 1000) / (1055 / 1000) <= Rpower thr (10 / 24)) by (apply root_ge; unfold thr; lra).
  pose proof (Rpower_le_base thr (thr + g) (10 / 24) ltac:(unfold thr; lra) ltac:(lra) ltac:(lra)).
  destruct (Rltb_spec 1 (1055 / 1000 * Rpower (thr + g) (10 / 24) - 5 / 100)); unfold thr in *; lra.
Qed.
Lemma no_slope : ~ exists l, derivable_pt_lim linearToSRGB thr l.
Proof.
  intros (l & H). destruct (H 1 ltac:(lra)) as (d & Hd). pose proof (cond_pos d) as Pd. pose proof (Rabs_pos l) as Pl.
  set (h := Rmin (d / 2) (/ (1000 * (Rabs l + 2)))).
  assert (I : 0 < / (1000 * (Rabs l + 2))) by (apply Rinv_0_lt_compat; lra).
  assert (Hh : 0 < h <= d / 2 /\ h <= / (1000 * (Rabs l + 2))) by (unfold h; split; [split; [apply Rmin_glb_lt; lra|apply Rmin_l]|apply Rmin_r]).
  specialize (Hd h ltac:(lra)). rewrite Rabs_pos_eq in Hd by lra. specialize (Hd ltac:(lra)). pose proof (jump h ltac:(lra)) as J. apply Rabs_lt_inv in Hd.
  assert (Q : (linearToSRGB (thr + h) - linearToSRGB thr) / h < l + 1) by lra. apply (Rmult_lt_compat_r h) in Q; [|lra]. unfold Rdiv in Q. rewrite Rmult_assoc, Rinv_l, Rmult_1_r in Q by lra.
  pose proof (Rle_abs l). assert (K : (Rabs l + 2) * h <= / 1000). { apply Rle_trans with ((Rabs l + 2) * / (1000 * (Rabs l + 2))); [apply Rmult_le_compat_l; lra|]. right. field. lra. }
  nra.
Qed.

(** ** Gray *)
Lemma gray_mean (c : color R) : clgray c = (cR c + cG c + cB c) / 3 /\ (forall v : R, clgray (gray v) = v) /\
  Rmin (cR c) (Rmin (cG c) (cB c)) <= clgray c <= Rmax (cR c) (Rmax (cG c) (cB c)).
Proof.
  unfold clgray, gray. rnum. cbn [cR cG cB]. split; [reflexivity|]. split; [intros v; field|].
  unfold Rmin, Rmax. repeat destruct Rle_dec; lra.
Qed.

Lemma add_from (x y : b64) (B : R) k : fmt B -> B <= bpow radix2 k -> (k <= 1000)%Z -> is_finite x = true -> is_finite y = true -> 0 <= B2R x -> 0 <= B2R y -> B2R x + B2R y <= B ->
  is_finite (nadd x y) = true /\ 0 <= B2R (nadd x y) <= B.
Proof.
  intros HB Hk K Fx Fy Px Py L. destruct (badd_correct x y Fx Fy) as [F E].
  { rewrite Rabs_pos_eq by lra. eapply Rle_trans; [exact L|]. eapply Rle_trans; [exact Hk|apply bpow_big, K]. }
  split; [exact F|]. rewrite E. split; [apply rnd_nonneg; lra|apply rnd_le; [exact HB|exact L]].
Qed.
Lemma fmt_3 k : (0 <= k <= 900)%Z -> fmt (3 * bpow radix2 k).
Proof.
  intros K. apply generic_format_FLT. exists (Float radix2 3 k); [reflexivity|cbn; lia|cbn; lia].
Qed.
Lemma gray_range k (c : color b64) : (0 <= k <= 900)%Z -> lit k c -> from0 k (clgray c).
Proof.
  intros K ((F1 & R1) & (F2 & R2) & (F3 & R3)). unfold clgray. set (P := bpow radix2 k) in *. assert (Pp : 0 < P) by apply bpow_gt_0.
  assert (P2 : 2 * P = bpow radix2 (k + 1)) by (unfold P; rewrite Z.add_comm, bpow_plus; reflexivity).
  destruct (add_from (cR c) (cG c) (2 * P) (k + 1)) as [F4 R4]; try assumption; try lra; try lia; [rewrite P2; apply fmt_bpow; lia|].
  assert (P4 : 4 * P = bpow radix2 (k + 2)) by (unfold P; rewrite Z.add_comm, bpow_plus; reflexivity).
  destruct (add_from (nadd (cR c) (cG c)) (cB c) (3 * P) (k + 2)) as [F5 R5]; try assumption; try lra; try lia; [now apply fmt_3|].
  set (s := nadd (nadd (cR c) (cG c)) (cB c)) in *. destruct (Z_b 3 ltac:(lia)) as [F E].
  assert (Q : 0 <= B2R s / 3 <= P) by lra.
  destruct (bdiv_correct s (nofZ 3) F5) as [G H]; [rewrite E; lra|rewrite E, Rabs_pos_eq by lra; apply Rle_trans with P; [lra|apply bpow_big; lia]|].
  split; [exact G|]. fold P. rewrite H, E. split; [apply rnd_nonneg; lra|apply rnd_le; [apply fmt_bpow; lia|lra]].
Qed.
Lemma gray_not_exact : let v : b64 := nofZ 6755399441055746 in neqb (clgray (gray v)) v = false.
Proof. vm_compute. reflexivity. Qed.

(** ** Max *)
Lemma max_largest (c : color b64) : each (fun x => nisnan x = false) c -> (clmax c = cR c \/ clmax c = cG c \/ clmax c = cB c) /\ each (fun x => nleb x (clmax c) = true) c.
Proof.
  intros (N1 & N2 & N3). unfold clmax, each. cbv zeta.
  destruct (nltb (cR c) (cG c)) eqn:E1.
  - destruct (nltb (cG c) (cB c)) eqn:E2.
    + split; [now right; right|]. split; [|split]; [|now apply nltb_leb|now apply nleb_refl]. apply nltb_leb. now apply nltb_trans with (cG c).
    + split; [now right; left|]. split; [|split]; [now apply nltb_leb|now apply nleb_refl|]. now apply nltb_false_leb.
  - destruct (nltb (cR c) (cB c)) eqn:E2.
    + split; [now right; right|]. split; [|split]; [now apply nltb_leb| |now apply nleb_refl]. apply nltb_leb. apply (nle_lt_trans _ (cR c)); [now apply nltb_false_leb|exact E2].
    + split; [now left|]. split; [|split]; [now apply nleb_refl|now apply nltb_false_leb|now apply nltb_false_leb].
Qed.
Lemma gray_near k (v : b64) : (-800 <= k <= 900)%Z -> is_finite v = true -> Rabs (B2R v) <= bpow radix2 k ->
  is_finite (clgray (gray v)) = true /\ Rabs (B2R (clgray (gray v)) - B2R v) <= bpow radix2 (k - 50).
Proof.
  intros K F H. unfold clgray, gray. cbn [cR cG cB]. set (P := bpow radix2 k) in *. assert (Pp : 0 < P) by apply bpow_gt_0. pose proof u_pos as U.
  assert (P2 : bpow radix2 (k + 1) = 2 * P) by (unfold P; rewrite Z.add_comm, bpow_plus; reflexivity). assert (P4 : bpow radix2 (k + 2) = 4 * P) by (unfold P; rewrite Z.add_comm, bpow_plus; reflexivity).
  assert (P50 : bpow radix2 (k - 50) = P * (8 * u)). { unfold P. unfold Z.sub. rewrite bpow_plus, u_val. apply f_equal. change (bpow radix2 (- (50))) with (/ 1125899906842624). lra. }
  assert (Pu : 0 < P * u <= P * / 1000). { split; [now apply Rmult_lt_0_compat|]. apply Rmult_le_compat_l; [lra|]. rewrite u_val. lra. }
  apply Rabs_le_inv in H. destruct (add_u (k + 1) v v ltac:(lia) F F) as (F1 & E1 & M1); [rewrite P2; apply Rabs_le; lra|]. rewrite P2 in *. apply Rabs_le_inv in E1.
  destruct (add_u (k + 2) (nadd v v) v ltac:(lia) F1 F) as (F2 & E2 & M2); [rewrite P4; apply Rabs_le; lra|]. rewrite P4 in *. apply Rabs_le_inv in E2.
  destruct (Z_b 3 ltac:(lia)) as [F3 E3].
  destruct (div_u (k + 1) (nadd (nadd v v) v) (nofZ 3) ltac:(lia) F2) as (F4 & E4 & _); [rewrite E3; lra|rewrite E3, P2; apply Rabs_le; lra|]. rewrite E3, P2 in E4. apply Rabs_le_inv in E4.
  split; [exact F4|]. rewrite P50. apply Rabs_le. lra.
Qed.
Lemma gray_not_exact' : exists v : b64, is_finite v = true /\ neqb (clgray (gray v)) v = false.
Proof. exists (nofZ 6755399441055746). split; [vm_compute; reflexivity|exact gray_not_exact]. Qed.
Lemma gray_example : clgray (Color 1 2 6) = 3 /\ neqb (clmax (Color (nofZ 1) (nofZ 7) (nofZ 3) : color b64)) (nofZ 7) = true.
Proof. split; [unfold clgray; rnum; cbn [cR cG cB]; lra|vm_compute; reflexivity]. Qed.
Lemma slope_both (c : R) : 0 < c < Rpower (210 / 211) (12 / 5) -> c <> 31308 / 10000000 -> derivable_pt_lim linearToSRGB c (srgbSlope c).
Proof. intros [H1 H2] N. fold top in H2. destruct (Rlt_le_dec c thr); [apply slope_low; lra|apply slope_high; unfold thr in *; lra]. Qed.
Lemma slope_example : derivable_pt_lim linearToSRGB (1 / 1000) (1292 / 100) /\ exists l, derivable_pt_lim linearToSRGB (1 / 2) l /\ 0 < l < 1.
Proof.
  assert (T : 1 / 2 < Rpower (210 / 211) (12 / 5)).
  { apply Rlt_le_trans with (Rpower (210 / 211) 3); [replace 3 with (INR 3) by (simpl; lra); rewrite Rpower_pow by lra; lra|].
    unfold Rpower. assert (ln (210 / 211) < 0) by (rewrite <- ln_1; apply ln_increasing; lra). destruct (Rle_lt_or_eq_dec (3 * ln (210 / 211)) (12 / 5 * ln (210 / 211))) as [L|L]; [lra|left; now apply exp_increasing|right; now rewrite L]. }
  split.
  - assert (D := slope_both (1 / 1000) ltac:(lra) ltac:(lra)). unfold srgbSlope, nQ in D. revert D. rnum. destruct (Rleb_spec (1 / 1000) (31308 / 10000000)); [|lra]. intros D. exact D.
  - eexists. split; [apply slope_both; lra|]. unfold srgbSlope, nQ. rnum. destruct (Rleb_spec (1 / 2) (31308 / 10000000)); [lra|].
    assert (L : ln (1 / 2) < 0) by (rewrite <- ln_1; apply ln_increasing; lra). pose proof (Rpower_pos (1 / 2) (-14 / 24)).
    assert (U : Rpower (1 / 2) (-14 / 24) <= 2).
    { assert (E : Rpower (1 / 2) (- (1)) = 2) by (rewrite Rpower_Ropp, Rpower_1 by lra; lra). apply Rle_trans with (Rpower (1 / 2) (- (1))); [|lra]. unfold Rpower.
      destruct (Rle_lt_or_eq_dec (-14 / 24 * ln (1 / 2)) (- (1) * ln (1 / 2))) as [M|M]; [lra|left; now apply exp_increasing|right; now rewrite M]. }
    lra.
Qed.
