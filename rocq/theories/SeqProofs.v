(** * Sequences: binary64 behaviour and sampling maps *)
From Coq Require Import ZArith Reals Bool List Lra Lia Nsatz.
From Flocq Require Import Core.
From Flocq Require IEEE754.BinarySingleNaN.
Import IEEE754.BinarySingleNaN.
From Verif Require Import Num NumLaws Outcome B64 GeomModel GeomSpec GeomProofs SeqModel SeqSpec.
Import ListNotations.
Local Open Scope R_scope.

(** ** Integer quotient through floating point *)
Lemma b64_quotient (i b : Z) : (0 <= i < 2 ^ 53)%Z -> (2 <= b < 2 ^ 53)%Z ->
  ntrunc (nfloor (ndiv (nofZ i) (nofZ b : b64))) = (i / b)%Z.
Proof.
  intros Hi Hb. cbn [nofZ NumB].
  destruct (bofZ_correct i) as [Fi Ei]; [lia|]. destruct (bofZ_correct b) as [Fb Eb]; [lia|].
  assert (0 < IZR b) as Pb by (apply IZR_lt; lia).
  assert (0 <= IZR i) as Pi by (apply IZR_le; lia).
  assert (0 <= IZR i / IZR b <= bpow radix2 53) as Hq.
  { split.
    - apply Rmult_le_pos; [lra|]. apply Rlt_le, Rinv_0_lt_compat; lra.
    - apply Rmult_le_reg_r with (IZR b); [lra|]. unfold Rdiv. rewrite Rmult_assoc, Rinv_l by lra.
      change (bpow radix2 53) with (IZR (2 ^ 53)). rewrite Rmult_1_r, <- mult_IZR. apply IZR_le. nia. }
  destruct (bdiv_correct (b64_of_Z i) (b64_of_Z b)) as [Fd Ed].
  - exact Fi.
  - rewrite Eb. lra.
  - rewrite Ei, Eb. rewrite Rabs_pos_eq by lra. eapply Rle_trans; [apply Hq|]. apply bpow_le. lia.
  - destruct (bfloor_correct _ Fd) as [Ff Ef].
    rewrite Ei, Eb in Ed. rewrite Ed, rnd_quotient in Ef by lia.
    assert (0 <= i / b < 2 ^ 53)%Z by (split; [apply Z.div_pos; lia | apply Z.div_lt_upper_bound; nia]).
    rewrite btrunc_correct; rewrite ?Ef, ?Ztrunc_IZR; auto. unfold int_min. lia.
Qed.

(** base-b digits of n, least significant first, [fuel] of them at most *)
Fixpoint digits (fuel : nat) (b n : Z) : list Z :=
  match fuel with
  | O => nil
  | S k => if (0 <? n)%Z then (n mod b)%Z :: digits k b (n / b) else nil
  end.

Lemma digits_spec b : (2 <= b)%Z -> forall fuel n, (0 <= n < 2 ^ Z.of_nat fuel)%Z ->
  digits_value b (digits fuel b n) = n /\ Forall (fun d => 0 <= d < b)%Z (digits fuel b n).
Proof.
  intros Hb. induction fuel as [|k IH]; intros n Hn; cbn [digits].
  - cbn in *. split; [lia|constructor].
  - destruct (Z.ltb_spec 0 n) as [H|H].
    + rewrite Nat2Z.inj_succ, Z.pow_succ_r in Hn by lia.
      destruct (IH (n / b)%Z) as [E1 E2].
      { split; [apply Z.div_pos; lia|]. apply Z.div_lt_upper_bound; nia. }
      split.
      * cbn [digits_value fold_right]. fold (digits_value b (digits k b (n / b))). rewrite E1.
        generalize (Z.div_mod n b ltac:(lia)). lia.
      * constructor; auto. apply Z.mod_pos_bound. lia.
    + split; [cbn; lia|constructor].
Qed.

Lemma halton_loop_digits (b : Z) (bf : b64) : (2 <= b < 2 ^ 53)%Z -> bf = nofZ b ->
  forall fuel k n f r, (0 <= n < 2 ^ Z.of_nat k)%Z -> (n < 2 ^ 53)%Z -> (k < fuel)%nat ->
  halton_loop (F:=b64) fuel b n bf f r = Val (accum bf (digits k b n) f r).
Proof.
  intros Hb ->. induction fuel as [|fuel IH]; intros k n f r Hn Hn' Hk; [lia|].
  cbn [halton_loop]. destruct (Z.ltb_spec 0 n) as [H|H].
  - destruct k as [|k]; [cbn in Hn; lia|].
    destruct (Z.eqb_spec b 0); [lia|].
    cbv zeta. rewrite b64_quotient by lia.
    rewrite Nat2Z.inj_succ, Z.pow_succ_r in Hn by lia.
    rewrite (IH k).
    + cbn [digits]. destruct (Z.ltb_spec 0 n); [|lia]. unfold accum; cbn [fold_left].
      rewrite Z.rem_mod_nonneg by lia. reflexivity.
    + split; [apply Z.div_pos; lia|]. apply Z.div_lt_upper_bound; nia.
    + apply Z.div_lt_upper_bound; nia.
    + lia.
  - assert (n = 0)%Z as -> by lia. destruct k; reflexivity.
Qed.

Lemma log2_53 n : (0 < n < 2 ^ 53)%Z -> (Z.log2 n < 53)%Z.
Proof. intros H. apply Z.log2_lt_pow2; lia. Qed.

Lemma halton_b64_digits (b i : Z) : (2 <= b < 2 ^ 53)%Z -> (0 <= i < 2 ^ 53 - 1)%Z ->
  halton (F:=b64) b i = Val (accum (nofZ b) (digits 53 b (i + 1)) (nofZ 1) (nofZ 0)).
Proof.
  intros Hb Hi. unfold halton, halton_fuel.
  set (k := S (Z.to_nat (Z.log2 (i + 1)))).
  assert (i + 1 < 2 ^ Z.of_nat k)%Z as Hk.
  { unfold k. rewrite Nat2Z.inj_succ, Z2Nat.id by apply Z.log2_nonneg. apply Z.log2_spec. lia. }
  rewrite (halton_loop_digits b _ Hb eq_refl _ k); [|lia|lia|unfold k; lia].
  do 2 f_equal.
  (* extra fuel for the digits is harmless *)
  assert (k <= 53)%nat as Hk53 by (unfold k; generalize (log2_53 (i + 1) ltac:(lia)) (Z.log2_nonneg (i + 1)); lia).
  clear - Hb Hi Hk Hk53. clearbody k. generalize 53%nat Hk53. revert k Hk Hk53. 
  assert (0 <= i + 1)%Z as Hn by lia. revert Hn. generalize (i + 1)%Z. clear i Hi. intros n Hn k Hk _ m Hm.
  revert n Hn m Hm Hk. induction k as [|k IH]; intros n Hn m Hm Hk.
  - cbn in Hk. assert (n = 0)%Z as -> by lia. destruct m; reflexivity.
  - destruct m as [|m]; [lia|]. cbn [digits]. destruct (Z.ltb_spec 0 n); auto.
    f_equal. rewrite Nat2Z.inj_succ, Z.pow_succ_r in Hk by lia. apply IH.
    + apply Z.div_pos; lia.
    + lia.
    + apply Z.div_lt_upper_bound; nia.
Qed.

Lemma digits_length k b n : (length (digits k b n) <= k)%nat.
Proof. revert n; induction k; intros; cbn; [lia|]. destruct (0 <? n)%Z; cbn; [specialize (IHk (n / b)%Z)|]; lia. Qed.

(** finiteness and sign of the accumulated value *)
Lemma accum_finite (b : Z) : (2 <= b < 2 ^ 53)%Z -> forall ds (f r : b64) (e : Z),
  Forall (fun d => 0 <= d < b)%Z ds ->
  is_finite f = true -> 0 <= B2R f <= 1 -> is_finite r = true -> 0 <= B2R r <= bpow radix2 e ->
  (53 <= e)%Z -> (e + Z.of_nat (length ds) <= 1000)%Z ->
  is_finite (accum (nofZ b) ds f r) = true /\
  0 <= B2R (accum (nofZ b) ds f r) <= bpow radix2 (e + Z.of_nat (length ds)).
Proof.
  intros Hb. induction ds as [|d ds IH]; intros f r e HF Ff Hf Fr Hr He Hlen.
  - unfold accum; cbn. rewrite Z.add_0_r. auto.
  - inversion HF as [|? ? Hd HF']; subst.
    destruct (bofZ_correct b) as [Fb Eb]; [lia|]. destruct (bofZ_correct d) as [Fd Ed]; [lia|].
    assert (2 <= IZR b) as Pb by (apply IZR_le; lia).
    assert (0 <= B2R f / IZR b <= 1) as Hdiv.
    { split.
      - apply Rmult_le_pos; [lra|]. apply Rlt_le, Rinv_0_lt_compat; lra.
      - apply Rmult_le_reg_r with (IZR b); [lra|]. unfold Rdiv. rewrite Rmult_assoc, Rinv_l by lra. lra. }
    assert (1 <= big) as H1big by (change 1 with (bpow radix2 0); apply bpow_le; lia).
    destruct (bdiv_correct f (nofZ b)) as [F1 E1].
    { exact Ff. } { cbn [nofZ NumB]. rewrite Eb; lra. }
    { cbn [nofZ NumB]. rewrite Eb. rewrite Rabs_pos_eq by lra. lra. }
    cbn [nofZ NumB] in E1. rewrite Eb in E1.
    assert (0 <= B2R (ndiv f (nofZ b : b64)) <= 1) as Hf1.
    { cbn [nofZ NumB]. rewrite E1. split; [apply rnd_nonneg; lra|]. apply rnd_le; [apply (fmt_Z 1); lia|lra]. }
    set (f1 := ndiv f (nofZ b : b64)) in *.
    assert (0 <= IZR d <= bpow radix2 53) as HdR.
    { change (bpow radix2 53) with (IZR (2 ^ 53)). split; apply IZR_le; lia. }
    assert (bpow radix2 53 <= bpow radix2 e) as H53 by (apply bpow_le; lia).
    assert (bpow radix2 (e + 1) <= big) as Hebig by (apply bpow_le; cbn [length] in Hlen; lia).
    assert (bpow radix2 (e + 1) = 2 * bpow radix2 e) as Hbe by (rewrite bpow_plus; cbn; ring).
    destruct (bmul_correct f1 (nofZ d)) as [F2 E2].
    { exact F1. } { exact Fd. }
    { cbn [nofZ NumB]. rewrite Ed. rewrite Rabs_pos_eq by nra. nra. }
    cbn [nofZ NumB] in E2. rewrite Ed in E2.
    assert (0 <= B2R (nmul f1 (nofZ d)) <= bpow radix2 53) as Hm.
    { cbn [nofZ NumB]. rewrite E2. split; [apply rnd_nonneg; nra|]. apply rnd_le; [apply fmt_bpow; lia|nra]. }
    set (x := nmul f1 (nofZ d)) in *.
    destruct (badd_correct r x) as [F3 E3].
    { exact Fr. } { exact F2. } { rewrite Rabs_pos_eq by lra. lra. }
    assert (0 <= B2R (nadd r x) <= bpow radix2 (e + 1)) as Hs.
    { rewrite E3. split; [apply rnd_nonneg; lra|]. apply rnd_le; [apply fmt_bpow; lia|lra]. }
    destruct (IH f1 (nadd r x) (e + 1)%Z) as [G1 G2]; auto; try lia.
    { cbn [length] in Hlen. lia. }
    cbn [length]. replace (e + Z.of_nat (S (length ds)))%Z with (e + 1 + Z.of_nat (length ds))%Z by lia.
    split; [exact G1|exact G2].
Qed.

Lemma halton_b64_finite (b i : Z) : (2 <= b < 2 ^ 53)%Z -> (0 <= i < 2 ^ 53 - 1)%Z ->
  exists r : b64, halton b i = Val r /\ is_finite r = true /\ 0 <= B2R r <= bpow radix2 106.
Proof.
  intros Hb Hi. eexists. split; [now apply halton_b64_digits|].
  destruct (digits_spec b ltac:(lia) 53 (i + 1)) as [_ HF]; [cbn; lia|].
  generalize (digits_length 53 b (i + 1)); intros HL.
  destruct (accum_finite b Hb (digits 53 b (i + 1)) (nofZ 1) (nofZ 0) 53 HF) as [A B]; auto; try lia.
  - change (B2R (nofZ 1)) with (B2R (b64_of_Z 1)). rewrite (proj2 (bofZ_correct 1 ltac:(lia))). lra.
  - change (B2R (nofZ 0)) with 0. split; [lra|apply bpow_ge_0].
  - split; auto. split; [tauto|]. eapply Rle_trans; [apply B|]. apply bpow_le. lia.
Qed.

(** ** Frac *)
Lemma frac_range (x : b64) : is_finite x = true -> 0 <= B2R x ->
  is_finite (frac x) = true /\ B2R (frac x) = B2R x - IZR (Zfloor (B2R x)) /\ 0 <= B2R (frac x) < 1.
Proof.
  intros Fx Hx. unfold frac. destruct (bfloor_correct x Fx) as [Ff Ef].
  generalize (Zfloor_lb (B2R x)) (Zfloor_ub (B2R x)); intros L U.
  destruct (bsub_correct x (nfloor x)) as [A B]; auto.
  - rewrite Ef. rewrite Rabs_pos_eq by lra. apply Rle_trans with 1; [lra|].
    change 1 with (bpow radix2 0). apply bpow_le. lia.
  - rewrite Ef in B. rewrite rnd_id in B by (apply frac_fmt; [apply fmt_B2R|exact Hx]).
    rewrite B. repeat split; auto; lra.
Qed.


Lemma in_unit_R (x : b64) : is_finite x = true -> (in_unit x <-> 0 <= B2R x < 1).
Proof.
  intros Fx. unfold in_unit. rewrite bleb_R, bltb_R by auto.
  change (B2R (nofZ 0)) with 0. change (B2R (nofZ 1)) with (B2R (b64_of_Z 1)).
  rewrite (proj2 (bofZ_correct 1 ltac:(lia))). tauto.
Qed.
Lemma in_unit_finite (x : b64) : in_unit x -> is_finite x = true.
Proof.
  unfold in_unit. destruct x as [s|[]| |]; intros [A B]; try reflexivity; exfalso.
  - vm_compute in A; discriminate.
  - vm_compute in B; discriminate.
  - vm_compute in A; discriminate.
Qed.

Lemma frac_in_unit (x : b64) : is_nan x = false -> nltb x ninf = true -> nleb (nofZ 0) x = true -> in_unit (frac x).
Proof.
  intros Hn Hlt Hle. assert (is_finite x = true) as Fx by (destruct x as [s|[]| |]; try reflexivity; exfalso; [vm_compute in Hle|vm_compute in Hlt|vm_compute in Hn]; discriminate).
  assert (0 <= B2R x) as Hx by (apply (bleb_R (nofZ 0) x) in Hle; auto).
  destruct (frac_range x Fx Hx) as (A & _ & B). now apply in_unit_R.
Qed.

Lemma hseq_generate2_in_unit (s : hseq b64) :
  (2 <= hs_baseU s < 2 ^ 53)%Z -> (2 <= hs_baseV s < 2 ^ 53)%Z -> (0 <= hs_index s < 2 ^ 53 - 1)%Z ->
  in_unit (hs_shiftU s) -> in_unit (hs_shiftV s) ->
  exists u v, hseq_generate2 s = Val (u, v) /\ in_unit u /\ in_unit v.
Proof.
  intros HU HV HI SU SV. unfold hseq_generate2.
  destruct (halton_b64_finite _ _ HU HI) as (hu & EU & FU & RU).
  destruct (halton_b64_finite _ _ HV HI) as (hv & EV & FV & RV).
  rewrite EU, EV. cbn [obind]. do 2 eexists. split; [reflexivity|].
  assert (forall h sh : b64, is_finite h = true -> 0 <= B2R h <= bpow radix2 106 -> in_unit sh -> in_unit (frac (nadd h sh))) as G.
  { intros h sh Fh Rh Hsh. assert (is_finite sh = true) as Fsh by now apply in_unit_finite.
    apply in_unit_R in Hsh; auto.
    assert (bpow radix2 106 + 1 <= big) as Hb.
    { apply Rle_trans with (bpow radix2 107).
      - change (bpow radix2 107) with (bpow radix2 (106 + 1)). rewrite bpow_plus. change (bpow radix2 1) with 2.
        assert (1 <= bpow radix2 106) by (change 1 with (bpow radix2 0); apply bpow_le; lia). lra.
      - apply bpow_le. lia. }
    destruct (badd_correct h sh Fh Fsh) as [A B]; [rewrite Rabs_pos_eq by lra; lra|].
    destruct (frac_range (nadd h sh)) as (C & _ & D); [exact A|rewrite B; apply rnd_nonneg; lra|].
    now apply in_unit_R. }
  split; apply G; auto.
Qed.

(** ** Disk and hemisphere sampling (exact arithmetic) *)
Lemma uniformDisk_spec (u v : R) : 0 <= v ->
  let '(x, y) := uniformDisk u v in
  x = sqrt v * cos (2 * PI * u) /\ y = sqrt v * sin (2 * PI * u) /\ x * x + y * y = v.
Proof.
  intros Hv. unfold uniformDisk; rnum. repeat split.
  generalize (cs1 (2 * PI * u)) (sqrt_sqrt v Hv); intros A B.
  transitivity ((sqrt v * sqrt v) * (cos (2 * PI * u) * cos (2 * PI * u) + sin (2 * PI * u) * sin (2 * PI * u))); [ring|].
  rewrite A, B. ring.
Qed.

Lemma cross_nonzero_min (n : pt) : norm2 n = 1 -> vcross (vset n (minAxis n) 1) n <> zero3.
Proof.
  intros H. destruct n as [a b c]. unfold norm2, dot3 in H; cbn [vx vy vz] in H.
  assert (forall x y, Rabs x <= Rabs y -> x * x <= y * y) as Hsq.
  { intros x y Hxy. generalize (Rsqr_le_abs_1 _ _ Hxy). unfold Rsqr. auto. }
  assert (forall x y, x * x <= y * y -> x * x <= 1 / 3 -> y * (1 - x) = 0 -> y = 0) as Hz.
  { intros x y H1 H2 H3. assert (x < 1) by nra. destruct (Rmult_integral _ _ H3); lra. }
  assert (forall p q r, p * p <= q * q -> p * p <= r * r -> q * q + r * r + p * p = 1 ->
            q * (1 - p) = 0 -> r * (1 - p) = 0 -> False) as K.
  { intros p q r A B C D E.
    assert (q = 0) by (apply (Hz p q); auto; lra). assert (r = 0) by (apply (Hz p r); auto; lra). subst. nra. }
  unfold minAxis; rnum; cbn [vx vy vz].
  destruct (Rltb_spec (Rabs b) (Rabs a)) as [H1|H1];
  [ destruct (Rltb_spec (Rabs c) (Rabs b)) as [H2|H2] | destruct (Rltb_spec (Rabs c) (Rabs a)) as [H2|H2] ];
  unfold vset, vcross; cbn [vx vy vz]; rnum; intros E; injection E as E1 E2 E3.
  - apply (K c a b); try apply Hsq; lra.
  - apply (K b a c); try apply Hsq; lra.
  - apply (K c a b); try apply Hsq; lra.
  - apply (K a b c); try apply Hsq; lra.
Qed.

Lemma cross3_vcross (a b : pt) : vcross a b = cross3 a b.
Proof. geom_unfold. unfold cross3. reflexivity. Qed.

Lemma cosineFrame_orthonormal (n : pt) : norm2 n = 1 ->
  let m := cosineFrame n in
  m2 m = n /\ norm2 (m0 m) = 1 /\ norm2 (m1 m) = 1 /\ norm2 (m2 m) = 1 /\
  dot3 (m0 m) (m1 m) = 0 /\ dot3 (m0 m) (m2 m) = 0 /\ dot3 (m1 m) (m2 m) = 0.
Proof.
  intros Hn. cbv zeta. unfold cosineFrame. cbn [m0 m1 m2 nofZ NumR].
  set (t := vset n (minAxis n) (IZR 1)).
  generalize (cross_nonzero_min n Hn). fold t. intros Hc.
  generalize (vnormalized_norm2 _ Hc). intros H0.
  assert (dot3 (vnormalized (vcross t n)) n = 0) as Hd.
  { rewrite vnormalized_unit_of. rewrite cross3_vcross. unfold unit_of.
    generalize (/ norm (cross3 t n)); intros k. destruct t, n. spec_unfold. ring. }
  set (ex := vnormalized (vcross t n)) in *. clearbody ex. clear Hc.
  rewrite cross3_vcross. repeat split; auto.
  - destruct ex as [a b c], n as [x y z]. spec_unfold. nsatz.
  - destruct ex as [a b c], n as [x y z]. spec_unfold. ring.
  - destruct ex as [a b c], n as [x y z]. spec_unfold. ring.
Qed.

Lemma cosineSphere_spec (u v : R) (n : pt) : norm2 n = 1 -> 0 <= v <= 1 ->
  norm2 (cosineSphere u v n) = 1 /\ dot3 (cosineSphere u v n) n = sqrt (1 - v) /\ 0 <= dot3 (cosineSphere u v n) n.
Proof.
  intros Hn Hv. unfold cosineSphere.
  generalize (uniformDisk_spec u v (proj1 Hv)). destruct (uniformDisk u v) as [x y]. intros (_ & _ & Hxy).
  generalize (cosineFrame_orthonormal n Hn). cbv zeta.
  destruct (cosineFrame n) as [ex ey ez]. cbn [m0 m1 m2].
  intros (E & N0 & N1 & N2 & D01 & D02 & D12). subst ez.
  cbn [nsqrt nsub nadd nmul nofZ NumR]. rewrite Hxy.
  assert (0 <= 1 - v) as Hv' by lra. generalize (sqrt_sqrt (1 - v) Hv') (sqrt_pos (1 - v)).
  set (z := sqrt (1 - v)). clearbody z. intros Hz Hz0.
  assert (forall w, dot3 (mmulvec (Matrix ex ey n) (Vec x y z)) w = x * dot3 ex w + y * dot3 ey w + z * dot3 n w) as L.
  { intros w. destruct ex, ey, n, w. geom_unfold. spec_unfold. ring. }
  assert (forall a b : pt, dot3 a b = dot3 b a) as C by (intros; spec_unfold; ring).
  assert (dot3 (mmulvec (Matrix ex ey n) (Vec x y z)) n = z) as Ed.
  { rewrite L, D02, D12. fold (norm2 n). rewrite N2. ring. }
  split; [|split; [exact Ed|rewrite Ed; exact Hz0]].
  unfold norm2. rewrite L. rewrite (C ex), (C ey), !L. rewrite (C ey ex), (C n ex), (C n ey), D01, D02, D12.
  fold (norm2 ex) (norm2 ey). rewrite N0, N1.
  rewrite (C n), L, D02, D12. fold (norm2 n). rewrite N2.
  transitivity (x * x + y * y + z * z); [ring|]. rewrite Hxy, Hz. ring.
Qed.

(** the loop walks the digits and needs at most 53 rounds *)
Lemma halton_loop_53 (b n : Z) (fuel : nat) (f r : b64) : (2 <= b < 2 ^ 53)%Z -> (0 <= n < 2 ^ 53)%Z -> (53 < fuel)%nat ->
  exists ds, digits_value b ds = n /\ Forall (fun d => 0 <= d < b)%Z ds /\ (length ds <= 53)%nat /\
    halton_loop fuel b n (nofZ b) f r = Val (accum (nofZ b) ds f r).
Proof.
  intros Hb Hn Hf. exists (digits 53 b n).
  destruct (digits_spec b ltac:(lia) 53 n) as [A B]; [cbn; lia|].
  repeat split; auto. { apply digits_length. }
  apply halton_loop_digits; auto; cbn; lia.
Qed.
