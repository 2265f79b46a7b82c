(** * Gamma encoding over the reals *)
From Coq Require Import ZArith Reals Bool List Lra Lia.
From Verif Require Import Num NumLaws Outcome ColorModel ImageModel.
Import ListNotations.
Local Open Scope R_scope.

Lemma Rpower_pos x y : 0 < Rpower x y.
Proof. unfold Rpower. apply exp_pos. Qed.

Lemma Rpower_1l y : Rpower 1 y = 1.
Proof. unfold Rpower. rewrite ln_1, Rmult_0_r. apply exp_0. Qed.

Lemma Rpower_le_base x y a : 0 < x -> x <= y -> 0 <= a -> Rpower x a <= Rpower y a.
Proof. intros H H0 H1. apply Rle_Rpower_l; lra. Qed.

(** x^(10/24) against a rational bound *)
Lemma root_12 t : 0 < t -> Rpower t (10 / 24) ^ 12 = t ^ 5.
Proof.
  intros H. rewrite <- Rpower_pow by apply Rpower_pos. rewrite Rpower_mult.
  replace (10 / 24 * INR 12) with (INR 5) by (simpl; lra). now rewrite Rpower_pow.
Qed.
Lemma root_ge q t : 0 < t -> 0 <= q -> q ^ 12 <= t ^ 5 -> q <= Rpower t (10 / 24).
Proof.
  intros Ht Hq H. destruct (Rle_or_lt q (Rpower t (10 / 24))) as [|L]; [easy|exfalso].
  assert (P : 0 < Rpower t (10 / 24)) by apply Rpower_pos.
  rewrite <- (root_12 t) in H by easy.
  assert (E : forall n, (0 < n)%nat -> Rpower t (10 / 24) ^ n < q ^ n).
  { intros n Hn. induction n as [|n IH]; [lia|].
    destruct n as [|n]; [simpl; lra|].
    assert (Rpower t (10/24) ^ S n < q ^ S n) by (apply IH; lia).
    change (Rpower t (10/24) * Rpower t (10/24) ^ S n < q * q ^ S n).
    apply Rmult_le_0_lt_compat; try lra. apply pow_le; lra. }
  specialize (E 12%nat ltac:(lia)). lra.
Qed.

Definition thr : R := 31308 / 10000000.

(** the encoding after clipping *)
Definition enc (c : R) : R :=
  if Rleb c thr then 1292 / 100 * c
  else let s := 1055 / 1000 * Rpower c (10 / 24) - 5 / 100 in if Rltb 1 s then 1 else s.

Definition clipR (c : R) : R := Rmax 0 (Rmin c 1).

Lemma clip_R (c : R) : clip c = clipR c.
Proof.
  unfold clip, clipR. rnum. cbv zeta. unfold Rmax, Rmin.
  destruct (Rltb_spec c 0); [destruct (Rltb_spec 1 0)|destruct (Rltb_spec 1 c)]; repeat destruct Rle_dec; lra.
Qed.
Lemma linearToSRGB_R (c : R) : linearToSRGB c = enc (clipR c).
Proof. unfold linearToSRGB, enc, thr. rewrite clip_R. unfold nQ. rnum. reflexivity. Qed.

Lemma clipR_range c : 0 <= clipR c <= 1.
Proof. unfold clipR, Rmax, Rmin. repeat destruct Rle_dec; lra. Qed.
Lemma clipR_mono c d : c <= d -> clipR c <= clipR d.
Proof. unfold clipR, Rmax, Rmin. repeat destruct Rle_dec; lra. Qed.
Lemma clipR_id c : 0 <= c <= 1 -> clipR c = c.
Proof. unfold clipR, Rmax, Rmin. repeat destruct Rle_dec; lra. Qed.

(** just above the threshold the curve is above the linear part *)
Lemma enc_threshold : 1292 / 100 * thr <= 1055 / 1000 * Rpower thr (10 / 24) - 5 / 100.
Proof.
  assert (H : (1292 / 100 * thr + 5 / 100) / (1055 / 1000) <= Rpower thr (10 / 24)).
  { apply root_ge; unfold thr; lra. }
  unfold thr in *. lra.
Qed.

Lemma enc_range c : 0 <= c <= 1 -> 0 <= enc c <= 1.
Proof.
  intros H. unfold enc. destruct (Rleb_spec c thr) as [L|L].
  - unfold thr in L. lra.
  - cbv zeta. destruct (Rltb_spec 1 (1055 / 1000 * Rpower c (10 / 24) - 5 / 100)); [lra|].
    assert (Rpower thr (10 / 24) <= Rpower c (10 / 24)) by (apply Rpower_le_base; unfold thr in *; lra).
    pose proof enc_threshold. unfold thr in *. lra.
Qed.
Lemma enc_mono c d : 0 <= c -> c <= d -> d <= 1 -> enc c <= enc d.
Proof.
  intros H0 H H1. unfold enc.
  destruct (Rleb_spec c thr) as [L|L]; destruct (Rleb_spec d thr) as [M|M]; cbv zeta.
  - lra.
  - assert (Rpower thr (10 / 24) <= Rpower d (10 / 24)) by (apply Rpower_le_base; unfold thr in *; lra).
    pose proof enc_threshold. destruct (Rltb_spec 1 (1055 / 1000 * Rpower d (10 / 24) - 5 / 100)); unfold thr in *; lra.
  - lra.
  - assert (Rpower c (10 / 24) <= Rpower d (10 / 24)) by (apply Rpower_le_base; unfold thr in *; lra).
    destruct (Rltb_spec 1 (1055 / 1000 * Rpower d (10 / 24) - 5 / 100)),
             (Rltb_spec 1 (1055 / 1000 * Rpower c (10 / 24) - 5 / 100)); lra.
Qed.

Lemma gamma_ok :
  (forall c : R, 0 <= linearToSRGB c <= 1) /\
  (forall c d : R, c <= d -> linearToSRGB c <= linearToSRGB d) /\
  (forall c : R, 0 <= c <= 31308 / 10000000 -> linearToSRGB c = 1292 / 100 * c) /\
  (forall c : R, c <= 0 -> linearToSRGB c = 0) /\
  (forall c : R, 1 <= c -> linearToSRGB c = 1).
Proof.
  split; [|split; [|split; [|split]]].
  - intros c. rewrite linearToSRGB_R. apply enc_range, clipR_range.
  - intros c d H. rewrite !linearToSRGB_R. pose proof (clipR_range c). pose proof (clipR_range d).
    apply enc_mono; try easy. now apply clipR_mono.
  - intros c H. rewrite linearToSRGB_R, clipR_id by lra. unfold enc. destruct (Rleb_spec c thr); unfold thr in *; lra.
  - intros c H. rewrite linearToSRGB_R. replace (clipR c) with 0 by (unfold clipR, Rmax, Rmin; repeat destruct Rle_dec; lra).
    unfold enc. destruct (Rleb_spec 0 thr); unfold thr in *; lra.
  - intros c H. rewrite linearToSRGB_R. replace (clipR c) with 1 by (unfold clipR, Rmax, Rmin; repeat destruct Rle_dec; lra).
    unfold enc. destruct (Rleb_spec 1 thr); [unfold thr in *; lra|]. rewrite Rpower_1l. cbv zeta.
    match goal with |- context [Rltb 1 ?s] => destruct (Rltb_spec 1 s) end; lra.
Qed.

Lemma trunc16_range {F} `{Num F} `{Trig F} (c : F) : (0 <= trunc16 c <= 65535)%Z.
Proof.
  unfold trunc16. cbv zeta. set (i := ntrunc _). clearbody i.
  destruct (Z.ltb_spec 65535 i); destruct (Z.ltb_spec (if (65535 <? i)%Z then 65535%Z else i) 0);
    repeat match goal with |- context [(?a <? ?b)%Z] => destruct (Z.ltb_spec a b) end; lia.
Qed.

(** at the reals: the encoded channel is the encoding scaled to 16 bits and rounded down *)
Lemma Ztrunc_range x : 0 <= x <= 65535 -> (0 <= Flocq.Core.Raux.Ztrunc x <= 65535)%Z.
Proof.
  intros [H1 H2]. rewrite Flocq.Core.Raux.Ztrunc_floor by easy. split.
  - apply Flocq.Core.Raux.Zfloor_lub. easy.
  - apply Flocq.Core.Raux.Zfloor_le in H2. rewrite Flocq.Core.Raux.Zfloor_IZR in H2. easy.
Qed.
Lemma trunc16_R (c : R) : trunc16 c = Flocq.Core.Raux.Zfloor (65535 * linearToSRGB c).
Proof.
  pose proof (proj1 gamma_ok c) as G. unfold trunc16. cbv zeta. rnum.
  set (y := linearToSRGB c) in *. rewrite (Rmult_comm 65535).
  assert (0 <= y * 65535 <= 65535) as B by lra.
  pose proof (Ztrunc_range _ B) as T.
  rewrite <- (Flocq.Core.Raux.Ztrunc_floor (y * 65535)) by lra.
  destruct (Z.ltb_spec 65535 (Flocq.Core.Raux.Ztrunc (y * 65535))); [lia|].
  destruct (Z.ltb_spec (Flocq.Core.Raux.Ztrunc (y * 65535)) 0); lia.
Qed.
Lemma trunc16_R_mono (c d : R) : c <= d -> (trunc16 c <= trunc16 d)%Z.
Proof.
  intros H. rewrite !trunc16_R. apply Flocq.Core.Raux.Zfloor_le.
  pose proof (proj1 (proj2 gamma_ok) c d H). lra.
Qed.
Lemma trunc16_R_ends (c : R) : (c <= 0 -> trunc16 c = 0%Z) /\ (1 <= c -> trunc16 c = 65535%Z).
Proof.
  destruct gamma_ok as (_ & _ & _ & G0 & G1). split; intros H; rewrite trunc16_R.
  - rewrite (G0 c H). rewrite Rmult_0_r. apply (Flocq.Core.Raux.Zfloor_IZR 0).
  - rewrite (G1 c H). rewrite Rmult_1_r. apply (Flocq.Core.Raux.Zfloor_IZR 65535).
Qed.
(** image/color's RGBA agrees with the 16-bit channels of the PPM encoder *)
Lemma rgba_R (c : color R) : rgba c = (trunc16 (cR c), trunc16 (cG c), trunc16 (cB c), 65535%Z).
Proof.
  assert (E : forall x : R, (ntrunc (linearToSRGB x * nofZ 65535)%num mod 2 ^ 32)%Z = trunc16 x).
  { intros x. pose proof (proj1 gamma_ok x) as G. rewrite trunc16_R. rnum. set (y := linearToSRGB x) in *.
    rewrite Flocq.Core.Raux.Ztrunc_floor by lra. rewrite (Rmult_comm y).
    apply Z.mod_small. rewrite <- Flocq.Core.Raux.Ztrunc_floor by lra.
    pose proof (Ztrunc_range (65535 * y) ltac:(lra)). lia. }
  unfold rgba. cbv zeta. now rewrite !E.
Qed.

(** ** Decoding *)
Definition dec (s : R) : R :=
  if Rleb s (4045 / 100000) then s / (1292 / 100) else Rpower ((s + 55 / 1000) / (1055 / 1000)) (24 / 10).
Lemma sRGBToLinear_R (s : R) : sRGBToLinear s = dec s.
Proof. unfold sRGBToLinear, dec, nQ. rnum. reflexivity. Qed.

(** x^(12/5) grows by at most 12/5 per unit below 1 *)
Lemma pow_slope y z : 0 < y -> y <= z -> z <= 1 ->
  Rpower y (24 / 10) <= Rpower z (24 / 10) <= Rpower y (24 / 10) + 24 / 10 * (z - y).
Proof.
  intros Hy Hz H1. split; [apply Rpower_le_base; lra|].
  destruct (Req_dec y z) as [->|N]; [lra|].
  destruct (MVT_cor2 (fun x => Rpower x (24 / 10)) (fun x => 24 / 10 * Rpower x (24 / 10 - 1)) y z ltac:(lra)) as (c & Hc & B).
  { intros c Hc. apply derivable_pt_lim_power. lra. }
  assert (Rpower c (24 / 10 - 1) <= 1).
  { apply Rle_trans with (Rpower 1 (24 / 10 - 1)); [apply Rpower_le_base; lra|rewrite Rpower_1l; lra]. }
  assert (24 / 10 * Rpower c (24 / 10 - 1) * (z - y) <= 24 / 10 * (z - y)).
  { apply Rmult_le_compat_r; lra. }
  lra.
Qed.

(** encoding and decoding is exact in the dark, and otherwise brightens by at most 12/1055 *)
Lemma round_trip (c : R) : 0 <= c <= 1 ->
  (c <= 31308 / 10000000 -> sRGBToLinear (linearToSRGB c) = c) /\
  c <= sRGBToLinear (linearToSRGB c) <= c + 12 / 1055.
Proof.
  intros H. rewrite sRGBToLinear_R, linearToSRGB_R, clipR_id by easy.
  assert (A : c <= 31308 / 10000000 -> dec (enc c) = c).
  { intros L. unfold enc. destruct (Rleb_spec c thr) as [_|M]; [|unfold thr in M; lra].
    unfold dec. destruct (Rleb_spec (1292 / 100 * c) (4045 / 100000)) as [_|M]; lra. }
  split; [exact A|].
  destruct (Rle_or_lt c (31308 / 10000000)) as [L|L]; [rewrite A by easy; lra|].
  unfold enc. destruct (Rleb_spec c thr) as [M|M]; [unfold thr in M; lra|]. cbv zeta.
  set (y := Rpower c (10 / 24)).
  assert (Y0 : 0 < y) by apply Rpower_pos.
  assert (Y1 : y <= 1) by (unfold y; apply Rle_trans with (Rpower 1 (10 / 24)); [apply Rpower_le_base; lra|rewrite Rpower_1l; lra]).
  assert (YC : Rpower y (24 / 10) = c).
  { unfold y. rewrite Rpower_mult. replace (10 / 24 * (24 / 10)) with 1 by lra. apply Rpower_1. lra. }
  assert (T : 1292 / 100 * thr <= 1055 / 1000 * y - 5 / 100).
  { pose proof enc_threshold.
    assert (Rpower thr (10 / 24) <= y) by (unfold y; apply Rpower_le_base; unfold thr in *; lra). lra. }
  destruct (Rltb_spec 1 (1055 / 1000 * y - 5 / 100)) as [S|S].
  - unfold dec. destruct (Rleb_spec 1 (4045 / 100000)); [lra|].
    replace ((1 + 55 / 1000) / (1055 / 1000)) with 1 by lra. rewrite Rpower_1l.
    pose proof (pow_slope y 1 Y0 Y1 ltac:(lra)) as P. rewrite Rpower_1l, YC in P. lra.
  - unfold dec. destruct (Rleb_spec (1055 / 1000 * y - 5 / 100) (4045 / 100000)) as [D|D].
    + exfalso.
      assert (E : (4045 / 100000 + 5 / 100) / (1055 / 1000) < y).
      { eapply Rlt_le_trans with (Rpower thr (10 / 24)).
        - assert ((4046 / 100000 + 5 / 100) / (1055 / 1000) <= Rpower thr (10 / 24)) by (apply root_ge; unfold thr; lra). lra.
        - unfold y. apply Rpower_le_base; unfold thr in *; lra. }
      lra.
    + replace ((1055 / 1000 * y - 5 / 100 + 55 / 1000) / (1055 / 1000)) with (y + 5 / 1055) by lra.
      pose proof (pow_slope y (y + 5 / 1055) Y0 ltac:(lra) ltac:(lra)) as P. rewrite YC in P. lra.
Qed.

(** 0.99 encodes to 1, like 1 itself *)
Lemma round_trip_fails : linearToSRGB (99 / 100) = 1 /\ sRGBToLinear (linearToSRGB (99 / 100)) = 1.
Proof.
  assert (E : linearToSRGB (99 / 100) = 1).
  { rewrite linearToSRGB_R, clipR_id by lra. unfold enc. destruct (Rleb_spec (99 / 100) thr); [unfold thr in *; lra|]. cbv zeta.
    assert ((10501 / 10000) / (1055 / 1000) <= Rpower (99 / 100) (10 / 24)) by (apply root_ge; lra).
    match goal with |- context [Rltb 1 ?s] => destruct (Rltb_spec 1 s) end; lra. }
  split; [easy|]. rewrite E, sRGBToLinear_R. unfold dec. destruct (Rleb_spec 1 (4045 / 100000)); [lra|].
  replace ((1 + 55 / 1000) / (1055 / 1000)) with 1 by lra. apply Rpower_1l.
Qed.
