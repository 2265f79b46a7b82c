(** * Halton numbers in exact arithmetic *)
From Coq Require Import ZArith Reals Bool List Lra Lia.
From Flocq Require Import Core.
From Verif Require Import Num NumLaws Outcome GeomModel SeqModel.
Local Open Scope Z_scope.
Ltac Zify.zify_post_hook ::= Z.div_mod_to_equations.

(** reversal of the k lowest base-b digits of n *)
Fixpoint revd (b : Z) (k : nat) (n : Z) : Z :=
  match k with
  | O => 0
  | S k => (n mod b) * b ^ Z.of_nat k + revd b k (n / b)
  end.

Lemma pow_succ b k : b ^ Z.of_nat (S k) = b * b ^ Z.of_nat k.
Proof. rewrite Nat2Z.inj_succ, Z.pow_succ_r; lia. Qed.
Lemma pow_pos b k : 2 <= b -> 0 < b ^ Z.of_nat k.
Proof. intros; apply Z.pow_pos_nonneg; lia. Qed.

Lemma revd_range b k : 2 <= b -> forall n, 0 <= revd b k n < b ^ Z.of_nat k.
Proof.
  intros Hb. induction k as [|k IH]; intros n; cbn [revd].
  - cbn. lia.
  - specialize (IH (n / b)). rewrite pow_succ. generalize (pow_pos b k Hb); intros Hp.
    generalize (Z.mod_pos_bound n b ltac:(lia)); intros Hm. nia.
Qed.

Lemma revd_inj b k : 2 <= b -> forall n m, 0 <= n < b ^ Z.of_nat k -> 0 <= m < b ^ Z.of_nat k ->
  revd b k n = revd b k m -> n = m.
Proof.
  intros Hb. induction k as [|k IH]; intros n m Hn Hm; cbn [revd]; intros E.
  - cbn in *; lia.
  - rewrite pow_succ in *. generalize (pow_pos b k Hb); intros Hp.
    generalize (revd_range b k Hb (n / b)) (revd_range b k Hb (m / b)); intros R1 R2.
    assert (n mod b = m mod b) as E1 by nia.
    assert (revd b k (n / b) = revd b k (m / b)) as E2 by nia.
    apply IH in E2.
    + rewrite (Z.div_mod n b), (Z.div_mod m b) by lia. congruence.
    + split; [apply Z.div_pos; lia|apply Z.div_lt_upper_bound; lia].
    + split; [apply Z.div_pos; lia|apply Z.div_lt_upper_bound; lia].
Qed.

(** every j below b^k is the reversal of some n below b^k: reverse its digits *)
Fixpoint unrev (b : Z) (k : nat) (j : Z) : Z :=
  match k with
  | O => 0
  | S k => j / b ^ Z.of_nat k + b * unrev b k (j mod b ^ Z.of_nat k)
  end.
Lemma unrev_range b k : 2 <= b -> forall j, 0 <= j < b ^ Z.of_nat k -> 0 <= unrev b k j < b ^ Z.of_nat k.
Proof.
  intros Hb. induction k as [|k IH]; intros j Hj; cbn [unrev].
  - cbn; lia.
  - rewrite pow_succ in *. generalize (pow_pos b k Hb); intros Hp.
    specialize (IH (j mod b ^ Z.of_nat k) ltac:(apply Z.mod_pos_bound; lia)).
    assert (0 <= j / b ^ Z.of_nat k < b) by (split; [apply Z.div_pos; lia|apply Z.div_lt_upper_bound; lia]).
    nia.
Qed.
Lemma revd_unrev b k : 2 <= b -> forall j, 0 <= j < b ^ Z.of_nat k -> revd b k (unrev b k j) = j.
Proof.
  intros Hb. induction k as [|k IH]; intros j Hj; cbn [unrev revd].
  - cbn in *; lia.
  - rewrite pow_succ in *. generalize (pow_pos b k Hb); intros Hp.
    assert (0 <= j / b ^ Z.of_nat k < b) as Hd by (split; [apply Z.div_pos; lia|apply Z.div_lt_upper_bound; lia]).
    set (U := unrev b k (j mod b ^ Z.of_nat k)).
    assert ((j / b ^ Z.of_nat k + b * U) mod b = j / b ^ Z.of_nat k) as ->.
    { rewrite (Z.mul_comm b U), Z.mod_add by lia. apply Z.mod_small; lia. }
    assert ((j / b ^ Z.of_nat k + b * U) / b = U) as ->.
    { rewrite (Z.mul_comm b U), Z.div_add by lia. rewrite Z.div_small; lia. }
    unfold U. rewrite IH by (apply Z.mod_pos_bound; lia).
    rewrite (Z.mul_comm _ (b ^ Z.of_nat k)). symmetry. apply Z.div_mod. lia.
Qed.

(** the reversal of k digits only depends on n mod b^k *)
Lemma revd_mod b k : 2 <= b -> forall n, 0 <= n -> revd b k (n mod b ^ Z.of_nat k) = revd b k n.
Proof.
  intros Hb. induction k as [|k IH]; intros n Hn; cbn [revd]; auto.
  rewrite pow_succ. generalize (pow_pos b k Hb); intros Hp.
  f_equal.
  - f_equal. rewrite Z.rem_mul_r by lia. rewrite Z.mul_comm, Z.mod_add by lia. apply Z.mod_mod; lia.
  - rewrite Z.rem_mul_r by lia. rewrite (Z.mul_comm b), Z.div_add by lia.
    rewrite (Z.div_small (n mod b) b) by (apply Z.mod_pos_bound; lia).
    rewrite Z.add_0_l. apply IH. apply Z.div_pos; lia.
Qed.

(** digit reversal of k+j digits *)
Lemma revd_split b k j : 2 <= b -> forall n, 0 <= n ->
  revd b (k + j) n = revd b k n * b ^ Z.of_nat j + revd b j (n / b ^ Z.of_nat k).
Proof.
  intros Hb. induction k as [|k IH]; intros n Hn; cbn [revd Nat.add].
  - cbn. rewrite Z.div_1_r. lia.
  - rewrite IH by (apply Z.div_pos; lia). rewrite pow_succ.
    generalize (pow_pos b k Hb); intros Hp.
    rewrite Z.div_div by lia. rewrite Nat2Z.inj_add, Z.pow_add_r by lia. ring.
Qed.

Lemma revd_0 b k : revd b k 0 = 0.
Proof.
  induction k as [|k IH]; cbn [revd]; [reflexivity|].
  rewrite Zmod_0_l, Zdiv_0_l, IH. reflexivity.
Qed.

(** ** The loop at the real instance *)
Lemma R_quotient (i b : Z) : 2 <= b -> ntrunc (F:=R) (nfloor (ndiv (nofZ i) (nofZ b))) = i / b.
Proof.
  intros Hb. cbn [ntrunc nfloor ndiv nofZ NumR]. rewrite Ztrunc_IZR.
  apply Zfloor_div. lia.
Qed.

Local Open Scope R_scope.

Lemma IZR_pow_succ b k : IZR (b ^ Z.of_nat (S k)) = IZR b * IZR (b ^ Z.of_nat k).
Proof. rewrite pow_succ, mult_IZR. reflexivity. Qed.

Lemma halton_loop_R b : (2 <= b)%Z -> forall fuel k i f r, (0 <= i < b ^ Z.of_nat k)%Z -> (k < fuel)%nat ->
  halton_loop (F:=R) fuel b i (IZR b) f r =
  Val (r + f * (IZR (revd b k i) / IZR (b ^ Z.of_nat k))).
Proof.
  intros Hb. induction fuel as [|fuel IH]; intros k i f r Hi Hk; [lia|].
  cbn [halton_loop].
  destruct (Z.ltb_spec 0 i) as [Hpos|Hz].
  - destruct (Z.eqb_spec b 0) as [Eb|_]; [lia|].
    destruct k as [|k]; [cbn in Hi; lia|].
    rewrite pow_succ in Hi. generalize (pow_pos b k Hb); intros Hp.
    replace (ntrunc (nfloor (ndiv (nofZ i) (IZR b)))) with (i / b)%Z
      by (symmetry; exact (R_quotient i b Hb)).
    rewrite (IH k).
    + f_equal. cbn [nadd nmul ndiv nofZ NumR revd].
      rewrite Z.rem_mod_nonneg by lia.
      rewrite IZR_pow_succ, plus_IZR, mult_IZR.
      assert (IZR b <> 0) by (apply IZR_neq; lia).
      assert (IZR (b ^ Z.of_nat k) <> 0) by (apply IZR_neq; lia).
      field. auto.
    + split; [apply Z.div_pos; lia | apply Z.div_lt_upper_bound; lia].
    + lia.
  - assert (i = 0)%Z as -> by lia. f_equal.
    rewrite revd_0. unfold Rdiv. ring.
Qed.

(** number of digits is enough for the fuel *)
Lemma log2_digits b i : (2 <= b)%Z -> (0 < i)%Z -> (i < b ^ Z.of_nat (S (Z.to_nat (Z.log2 i))))%Z.
Proof.
  intros Hb Hi. generalize (Z.log2_spec i Hi); intros [_ H].
  rewrite Nat2Z.inj_succ, Z2Nat.id by apply Z.log2_nonneg.
  eapply Z.lt_le_trans; [exact H|]. apply Z.pow_le_mono_l. lia.
Qed.

Lemma halton_R b i k : (2 <= b)%Z -> (0 <= i)%Z -> (i + 1 < b ^ Z.of_nat k)%Z ->
  halton (F:=R) b i = Val (IZR (revd b k (i + 1)) / IZR (b ^ Z.of_nat k)).
Proof.
  intros Hb Hi Hk. unfold halton. cbn [nofZ NumR].
  set (k0 := S (Z.to_nat (Z.log2 (i + 1)))).
  rewrite (halton_loop_R b Hb _ k0).
  - f_equal. rewrite Rplus_0_l, Rmult_1_l.
    (* both digit counts give the same value *)
    assert (forall k1 k2, (i + 1 < b ^ Z.of_nat k1)%Z -> (k1 <= k2)%nat ->
      IZR (revd b k1 (i + 1)) / IZR (b ^ Z.of_nat k1) = IZR (revd b k2 (i + 1)) / IZR (b ^ Z.of_nat k2)) as E.
    { intros k1 k2 H1 H12. replace k2 with (k1 + (k2 - k1))%nat by lia. set (j := (k2 - k1)%nat).
      rewrite revd_split by lia. rewrite (Z.div_small (i + 1)) by lia.
      rewrite revd_0, Z.add_0_r, mult_IZR, Nat2Z.inj_add, Z.pow_add_r, mult_IZR by lia.
      generalize (pow_pos b k1 Hb) (pow_pos b j Hb); intros P1 P2.
      assert (IZR (b ^ Z.of_nat k1) <> 0) by (apply IZR_neq; lia).
      assert (IZR (b ^ Z.of_nat j) <> 0) by (apply IZR_neq; lia).
      field. auto. }
    destruct (Nat.le_ge_cases k0 k).
    + apply E; auto. apply log2_digits; lia.
    + symmetry; apply E; auto.
  - split; [lia|]. apply log2_digits; lia.
  - unfold halton_fuel, k0. lia.
Qed.

(** any index has some sufficient number of digits, as large as we like *)
Lemma enough_digits b i k0 : (2 <= b)%Z -> (0 <= i)%Z -> exists k, (k0 <= k)%nat /\ (i + 1 < b ^ Z.of_nat k)%Z.
Proof.
  intros Hb Hi. exists (k0 + S (Z.to_nat (Z.log2 (i + 1))))%nat. split; [lia|].
  generalize (log2_digits b (i + 1) Hb ltac:(lia)); intros H.
  rewrite Nat2Z.inj_add, Z.pow_add_r by lia. generalize (pow_pos b k0 Hb). nia.
Qed.

Lemma revd_pos b k : (2 <= b)%Z -> forall n, (0 < n < b ^ Z.of_nat k)%Z -> (0 < revd b k n)%Z.
Proof.
  intros Hb n Hn. destruct (revd_range b k Hb n) as [H0 _].
  destruct (Z.eq_dec (revd b k n) 0) as [E|]; [|lia]. exfalso.
  generalize (revd_0 b k); intros E0.
  assert (n = 0)%Z; [|lia]. apply (revd_inj b k Hb); lia.
Qed.

Lemma halton_R_val b i : (2 <= b)%Z -> (0 <= i)%Z -> exists r, halton (F:=R) b i = Val r /\ 0 < r < 1.
Proof.
  intros Hb Hi. destruct (enough_digits b i 0 Hb Hi) as (k & _ & Hk).
  exists (IZR (revd b k (i + 1)) / IZR (b ^ Z.of_nat k)). split; [now apply halton_R|].
  generalize (revd_pos b k Hb (i + 1) ltac:(lia)) (revd_range b k Hb (i + 1)); intros H1 [_ H2].
  apply IZR_lt in H1, H2.
  assert (0 < IZR (b ^ Z.of_nat k)) by lra.
  split.
  - apply Rdiv_lt_0_compat; auto.
  - apply Rmult_lt_reg_r with (IZR (b ^ Z.of_nat k)); auto. unfold Rdiv.
    rewrite Rmult_assoc, Rinv_l by lra. lra.
Qed.

Lemma halton_R_inj b i j r : (2 <= b)%Z -> (0 <= i)%Z -> (0 <= j)%Z ->
  halton (F:=R) b i = Val r -> halton (F:=R) b j = Val r -> i = j.
Proof.
  intros Hb Hi Hj Ei Ej.
  destruct (enough_digits b i 0 Hb Hi) as (k1 & _ & Hk1).
  destruct (enough_digits b j k1 Hb Hj) as (k & Hk & Hkj).
  assert (i + 1 < b ^ Z.of_nat k)%Z as Hki.
  { eapply Z.lt_le_trans; [exact Hk1|]. apply Z.pow_le_mono_r; lia. }
  rewrite (halton_R b i k) in Ei by auto. rewrite (halton_R b j k) in Ej by auto.
  assert (IZR (revd b k (i + 1)) = IZR (revd b k (j + 1))) as E.
  { generalize (pow_pos b k Hb); intros P. apply IZR_lt in P.
    assert (IZR (revd b k (i + 1)) / IZR (b ^ Z.of_nat k) = IZR (revd b k (j + 1)) / IZR (b ^ Z.of_nat k)) as E by congruence.
    apply Rmult_eq_reg_r with (/ IZR (b ^ Z.of_nat k)); [exact E|]. apply Rinv_neq_0_compat. lra. }
  apply eq_IZR in E. apply (revd_inj b k Hb) in E; lia.
Qed.

(** the cell of width b^-k that contains the Halton number is given by the k lowest digits *)
Lemma halton_R_cell b i k r : (2 <= b)%Z -> (0 <= i)%Z -> halton (F:=R) b i = Val r ->
  IZR (revd b k (i + 1)) / IZR (b ^ Z.of_nat k) <= r < (IZR (revd b k (i + 1)) + 1) / IZR (b ^ Z.of_nat k).
Proof.
  intros Hb Hi Er. destruct (enough_digits b i k Hb Hi) as (n & Hn & Hd).
  rewrite (halton_R b i n) in Er by auto. injection Er as <-.
  replace n with (k + (n - k))%nat by lia. set (j := (n - k)%nat).
  rewrite revd_split by lia.
  generalize (revd_range b j Hb ((i + 1) / b ^ Z.of_nat k)); intros [L U].
  rewrite Nat2Z.inj_add, Z.pow_add_r by lia. rewrite plus_IZR, !mult_IZR.
  generalize (pow_pos b k Hb) (pow_pos b j Hb); intros P1 P2. apply IZR_lt in P1, P2.
  apply IZR_le in L. apply IZR_lt in U.
  set (A := IZR (revd b k (i + 1))) in *. set (B := IZR (b ^ Z.of_nat k)) in *.
  set (C := IZR (b ^ Z.of_nat j)) in *. set (D := IZR (revd b j ((i + 1) / b ^ Z.of_nat k))) in *.
  clearbody A B C D. replace ((A * C + D) / (B * C)) with (A / B + D / (B * C)) by (field; lra).
  replace ((A + 1) / B) with (A / B + C / (B * C)) by (field; lra).
  assert (0 < B * C) by nra. split.
  - assert (0 <= D / (B * C)); [|lra]. apply Rdiv_le_0_compat || (unfold Rdiv; apply Rmult_le_pos; [lra|]; apply Rlt_le, Rinv_0_lt_compat; lra). all: lra.
  - apply Rplus_lt_compat_l. unfold Rdiv. apply Rmult_lt_compat_r; [|lra]. now apply Rinv_0_lt_compat.
Qed.

Lemma cell_unique (a c : Z) (B r : R) : 0 < B -> IZR a / B <= r < (IZR a + 1) / B -> IZR c / B <= r < (IZR c + 1) / B -> a = c.
Proof.
  intros HB [H1 H2] [H3 H4].
  assert (forall x, x / B * B = x) as S by (intros; field; lra).
  apply (Rmult_le_compat_r B) in H1, H3; try lra. apply (Rmult_lt_compat_r B) in H2, H4; try lra.
  rewrite S in *. assert (IZR a < IZR (c + 1)) by (rewrite plus_IZR; lra).
  assert (IZR c < IZR (a + 1)) by (rewrite plus_IZR; lra).
  apply lt_IZR in H, H0. lia.
Qed.

Lemma halton_R_stratified b k i0 j : (2 <= b)%Z -> (0 <= i0)%Z -> (0 <= j < b ^ Z.of_nat k)%Z ->
  exists i, (i0 <= i < i0 + b ^ Z.of_nat k)%Z /\
    (exists r, halton (F:=R) b i = Val r /\ IZR j / IZR (b ^ Z.of_nat k) <= r < (IZR j + 1) / IZR (b ^ Z.of_nat k)) /\
    forall i' r', (i0 <= i' < i0 + b ^ Z.of_nat k)%Z -> halton (F:=R) b i' = Val r' ->
      IZR j / IZR (b ^ Z.of_nat k) <= r' < (IZR j + 1) / IZR (b ^ Z.of_nat k) -> i' = i.
Proof.
  intros Hb Hi0 Hj. generalize (pow_pos b k Hb); intros P.
  set (B := (b ^ Z.of_nat k)%Z) in *.
  set (m := unrev b k j).
  assert (0 <= m < B)%Z as Hm by (apply unrev_range; auto).
  (* the index i in the window with (i+1) mod B = m *)
  set (i := (i0 + (m - (i0 + 1)) mod B)%Z).
  assert (0 <= (m - (i0 + 1)) mod B < B)%Z as Hmod by (apply Z.mod_pos_bound; lia).
  assert ((i + 1) mod B = m) as Ei.
  { unfold i. replace (i0 + (m - (i0 + 1)) mod B + 1)%Z with ((i0 + 1) + (m - (i0 + 1)) mod B)%Z by lia.
    rewrite Zplus_mod_idemp_r. replace (i0 + 1 + (m - (i0 + 1)))%Z with m by lia. apply Z.mod_small; lia. }
  assert (revd b k (i + 1) = j) as Ej.
  { rewrite <- revd_mod by lia. fold B. rewrite Ei. apply revd_unrev; auto. }
  exists i. split; [lia|]. split.
  - destruct (halton_R_val b i Hb ltac:(lia)) as (r & Er & _). exists r. split; auto.
    generalize (halton_R_cell b i k r Hb ltac:(lia) Er). rewrite Ej. auto.
  - intros i' r' Hi' Er' Hr'.
    generalize (halton_R_cell b i' k r' Hb ltac:(lia) Er'). intros C.
    assert (revd b k (i' + 1) = j) as Ej'.
    { apply (cell_unique _ _ (IZR B) r'); auto. now apply IZR_lt. }
    assert ((i' + 1) mod B = (i + 1) mod B) as Em.
    { apply (revd_inj b k Hb); try (apply Z.mod_pos_bound; lia).
      fold B. unfold B. rewrite !revd_mod by lia. congruence. }
    clear - Em Hi' Hmod P i. assert (i0 <= i < i0 + B)%Z by (unfold i; lia). clearbody i. 
    assert (exists q, i' - i = B * q)%Z as [q Hq].
    { exists ((i' + 1) / B - (i + 1) / B)%Z.
      generalize (Z.div_mod (i' + 1) B ltac:(lia)) (Z.div_mod (i + 1) B ltac:(lia)). lia. }
    assert (q = 0)%Z by nia. lia.
Qed.
