(** * Halton points fill the unit cube evenly *)
From Coq Require Import ZArith Reals Bool List Lra Lia Permutation Znumtheory.
From Verif Require Import Num NumLaws Outcome GeomModel GeomSpec SeqModel HaltonProofs SamplerSpec EquiSpec.
Import ListNotations.
Local Open Scope Z_scope.
Ltac Zify.zify_post_hook ::= idtac.

(** ** counting *)
Definition range (m : Z) : list Z := map Z.of_nat (seq 0 (Z.to_nat m)).
Definition cntl {A} (P : A -> bool) (l : list A) : Z := Z.of_nat (length (filter P l)).
Definition cnt (P : Z -> bool) (m : Z) : Z := cntl P (range m).

Lemma in_range m x : In x (range m) <-> 0 <= x < m.
Proof.
  unfold range. rewrite in_map_iff. split.
  - intros (k & <- & Hk). apply in_seq in Hk. lia.
  - intros H. exists (Z.to_nat x). split; [lia|]. apply in_seq. lia.
Qed.
Lemma nodup_range m : NoDup (range m).
Proof. apply FinFun.Injective_map_NoDup; [intros x y; lia|apply seq_NoDup]. Qed.
Lemma length_range m : length (range m) = Z.to_nat m.
Proof. unfold range. now rewrite map_length, seq_length. Qed.

Lemma cntl_perm {A} (P : A -> bool) l l' : Permutation l l' -> cntl P l = cntl P l'.
Proof.
  intros H. unfold cntl. f_equal. induction H; cbn [filter]; try lia.
  - destruct (P x); cbn; lia.
  - destruct (P x), (P y); cbn; lia.
Qed.
Lemma cntl_map {A B} (g : A -> B) P l : cntl P (map g l) = cntl (fun a => P (g a)) l.
Proof. unfold cntl. f_equal. induction l as [|a l IH]; [reflexivity|]. cbn [map filter]. destruct (P (g a)); cbn; lia. Qed.
Lemma cntl_ext {A} (P Q : A -> bool) l : (forall x, In x l -> P x = Q x) -> cntl P l = cntl Q l.
Proof. intros H. unfold cntl. f_equal. f_equal. now apply filter_ext_in. Qed.
Lemma cntl_app {A} (P : A -> bool) l l' : cntl P (l ++ l') = cntl P l + cntl P l'.
Proof. unfold cntl. rewrite filter_app, app_length. lia. Qed.
Lemma cntl_prod {A B} (P : A -> bool) (Q : B -> bool) la lb :
  cntl (fun p => P (fst p) && Q (snd p)) (list_prod la lb) = cntl P la * cntl Q lb.
Proof.
  induction la as [|a la IH]; [reflexivity|]. cbn [list_prod]. rewrite cntl_app, IH, cntl_map. cbn [fst snd].
  assert (cntl P (a :: la) = (if P a then 1 else 0) + cntl P la) as -> by (unfold cntl; cbn [filter]; destruct (P a); cbn [length]; lia).
  assert (cntl (fun b => P a && Q b) lb = (if P a then 1 else 0) * cntl Q lb) as ->; [|ring].
  unfold cntl. destruct (P a); cbn [andb]; [rewrite Z.mul_1_l; reflexivity|].
  clear. induction lb as [|x lb IH]; [reflexivity|exact IH].
Qed.

Lemma range_perm m f : (forall x, 0 <= x < m -> 0 <= f x < m) ->
  (forall x y, 0 <= x < m -> 0 <= y < m -> f x = f y -> x = y) -> Permutation (map f (range m)) (range m).
Proof.
  intros Hr Hi. apply NoDup_Permutation_bis.
  - generalize (nodup_range m). assert (forall x, In x (range m) -> 0 <= x < m) as H by (intros; now apply in_range).
    revert H. generalize (range m). induction l as [|a l IH]; intros H ND; [constructor|]. inversion ND; subst. cbn. constructor.
    + intros (y & E & Hy)%in_map_iff. apply Hi in E; [|apply H; now right|apply H; now left]. subst. contradiction.
    + apply IH; auto. intros; apply H; now right.
  - rewrite map_length. reflexivity.
  - intros y (x & <- & Hx)%in_map_iff. apply in_range, Hr. now apply in_range.
Qed.
Lemma cnt_reindex P m f : (forall x, 0 <= x < m -> 0 <= f x < m) ->
  (forall x y, 0 <= x < m -> 0 <= y < m -> f x = f y -> x = y) -> cnt (fun i => P (f i)) m = cnt P m.
Proof. intros Hr Hi. unfold cnt. rewrite <- (cntl_perm P _ _ (range_perm m f Hr Hi)). now rewrite cntl_map. Qed.

(** ** periodic sets *)
Definition periodic (P : Z -> bool) (m : Z) : Prop := forall i, 0 <= i -> P (i mod m) = P i.

Lemma mod_add_inj m a x y : 0 <= x < m -> 0 <= y < m -> (a + x) mod m = (a + y) mod m -> x = y.
Proof.
  intros Hx Hy E. assert ((x - y) mod m = 0) as H.
  { replace (x - y) with ((a + x) - (a + y)) by ring. rewrite Zminus_mod, E, Z.sub_diag. apply Zmod_0_l. }
  apply Z.mod_divide in H; [|lia]. destruct H as (q & Hq). assert (q = 0) by nia. lia.
Qed.
Lemma cnt_window P m a : 0 < m -> periodic P m -> 0 <= a -> cnt (fun i => P (a + i)) m = cnt P m.
Proof.
  intros Hm HP Ha. transitivity (cnt (fun i => P ((a + i) mod m)) m).
  - apply cntl_ext. intros i Hi%in_range. symmetry. apply HP. lia.
  - apply (cnt_reindex P m (fun i => (a + i) mod m)).
    + intros x _. apply Z.mod_pos_bound. lia.
    + intros x y Hx Hy. now apply mod_add_inj.
Qed.

Lemma periodic_and P Q m n : 0 < m -> 0 < n -> periodic P m -> periodic Q n -> periodic (fun i => P i && Q i) (m * n).
Proof.
  intros Hm Hn HP HQ i Hi. generalize (Z.mod_pos_bound i (m * n) ltac:(nia)); intros Hb. cbn.
  rewrite <- (HP (i mod (m * n))), <- (HQ (i mod (m * n))) by lia.
  assert (forall k, 0 < k -> (k | m * n) -> (i mod (m * n)) mod k = i mod k) as E.
  { intros k Hk (q & Hq). rewrite (Z.mod_eq i (m * n)) by nia. rewrite Hq.
    replace (i - q * k * (i / (q * k))) with (i + (- (q * (i / (q * k)))) * k) by ring. apply Z.mod_add. lia. }
  rewrite (E m), (E n); try lia.
  - now rewrite HP, HQ.
  - exists m. ring.
  - exists n. ring.
Qed.
(** Chinese remainders *)
Lemma cnt_and P Q m n : 0 < m -> 0 < n -> Z.gcd m n = 1 -> periodic P m -> periodic Q n ->
  cnt (fun i => P i && Q i) (m * n) = cnt P m * cnt Q n.
Proof.
  intros Hm Hn Hg HP HQ. unfold cnt. rewrite <- cntl_prod.
  transitivity (cntl (fun p => P (fst p) && Q (snd p)) (map (fun i => (i mod m, i mod n)) (range (m * n)))).
  - rewrite cntl_map. cbn [fst snd]. apply cntl_ext. intros i Hi%in_range. now rewrite HP, HQ by lia.
  - apply cntl_perm. apply NoDup_Permutation_bis.
    + assert (forall x, In x (range (m * n)) -> 0 <= x < m * n) as H by (intros; now apply in_range).
      generalize (nodup_range (m * n)). revert H. generalize (range (m * n)). induction l as [|a l IH]; intros H ND; [constructor|].
      inversion ND; subst. cbn. constructor.
      * intros (y & E & Hy)%in_map_iff. assert (y = a); [|subst; contradiction].
        generalize (H a (or_introl eq_refl)) (H y (or_intror Hy)); intros Ha Hy'. injection E as E1 E2.
        assert ((m | y - a) /\ (n | y - a)) as [D1 D2].
        { split; apply Z.mod_divide; try lia; rewrite Zminus_mod.
          - rewrite E1, Z.sub_diag. apply Zmod_0_l.
          - rewrite E2, Z.sub_diag. apply Zmod_0_l. }
        assert (m * n | y - a) as D.
        { destruct D1 as (q & Hq). rewrite Hq in D2. assert (n | q) as (q' & Hq').
          { apply (Z.gauss _ m); [now rewrite Z.mul_comm|]. now rewrite Z.gcd_comm. }
          exists q'. rewrite Hq, Hq'. ring. }
        destruct D as (q & Hq). assert (q = 0) by nia. lia.
      * apply IH; auto. intros; apply H; now right.
    + rewrite map_length, prod_length, !length_range. nia.
    + intros p (i & <- & Hi)%in_map_iff. apply in_prod; apply in_range; apply Z.mod_pos_bound; lia.
Qed.

(** lower bound of the counts of a periodic set *)
Lemma range_app m n : 0 <= m -> 0 <= n -> range (m + n) = range m ++ map (fun i => m + i) (range n).
Proof.
  intros Hm Hn. unfold range. rewrite Z2Nat.inj_add by lia. rewrite seq_app, map_app. f_equal. rewrite Nat.add_0_l.
  rewrite map_map. replace (seq (Z.to_nat m) (Z.to_nat n)) with (map (fun i => (Z.to_nat m + i)%nat) (seq 0 (Z.to_nat n))).
  - rewrite map_map. apply map_ext. intros; lia.
  - generalize (Z.to_nat m), (Z.to_nat n). clear. intros a b. revert a. induction b as [|b IH]; intros a; [reflexivity|].
    cbn. f_equal; [lia|]. rewrite <- (IH (S a)), <- seq_shift, map_map. apply map_ext. intros; lia.
Qed.
Lemma cnt_app P m n : 0 <= m -> 0 <= n -> cnt P (m + n) = cnt P m + cnt (fun i => P (m + i)) n.
Proof. intros Hm Hn. unfold cnt. now rewrite range_app, cntl_app, cntl_map by lia. Qed.
Lemma cnt_nonneg P m : 0 <= cnt P m.
Proof. unfold cnt, cntl. lia. Qed.
Lemma cnt_le P m : 0 <= m -> cnt P m <= m.
Proof. intros H. unfold cnt, cntl. assert (forall l : list Z, (length (filter P l) <= length l)%nat) as L by (induction l as [|x l IH]; cbn [filter length]; [lia|destruct (P x); cbn [length]; lia]). generalize (L (range m)). rewrite length_range. lia. Qed.
Lemma cnt_mul P m q : 0 < m -> periodic P m -> cnt P (Z.of_nat q * m) = Z.of_nat q * cnt P m.
Proof.
  intros Hm HP. induction q as [|q IH]; [reflexivity|]. rewrite Nat2Z.inj_succ. unfold Z.succ.
  rewrite Z.mul_add_distr_r, Z.mul_1_l. rewrite cnt_app by nia. rewrite IH, (cnt_window P m); auto; nia.
Qed.
Lemma cnt_lower P m N : 0 < m -> periodic P m -> 0 <= N -> N * cnt P m - m * m <= m * cnt P N.
Proof.
  intros Hm HP HN. generalize (Z.div_mod N m ltac:(lia)) (Z.mod_pos_bound N m Hm); intros E Hr.
  set (q := N / m) in *. set (r := N mod m) in *. assert (0 <= q) as Hq by (apply Z.div_pos; lia).
  rewrite E. rewrite cnt_app by nia. replace (m * q) with (Z.of_nat (Z.to_nat q) * m) at 2 by lia.
  rewrite cnt_mul by auto. rewrite Z2Nat.id by lia.
  generalize (cnt_nonneg (fun i => P (m * q + i)) r) (cnt_le P m ltac:(lia)) (cnt_nonneg P m). intros H1 H2 H3.
  nia.
Qed.
Lemma cnt_ge P m k : 0 <= k <= m -> (forall i, 0 <= i < k -> P i = true) -> k <= cnt P m.
Proof.
  intros Hk H. replace m with (k + (m - k)) by ring. rewrite cnt_app by lia.
  assert (cnt P k = k) as ->; [|generalize (cnt_nonneg (fun i => P (k + i)) (m - k)); lia].
  transitivity (cnt (fun _ => true) k).
  - apply cntl_ext. intros x Hx%in_range. auto.
  - unfold cnt, cntl. assert (forall l : list Z, filter (fun _ => true) l = l) as -> by (induction l as [|x l IH]; cbn; congruence).
    rewrite length_range. lia.
Qed.
Lemma cnt_mono P Q m : (forall i, 0 <= i < m -> P i = true -> Q i = true) -> cnt P m <= cnt Q m.
Proof.
  intros H. unfold cnt, cntl. assert (forall i, In i (range m) -> P i = true -> Q i = true) as H' by (intros; apply H; auto; now apply in_range).
  clear H. revert H'. induction (range m) as [|a l IH]; intros H; [cbn; lia|]. cbn [filter].
  assert (Z.of_nat (length (filter P l)) <= Z.of_nat (length (filter Q l))) by (apply IH; intros; apply H; auto; now right).
  destruct (P a) eqn:E; [rewrite (H a (or_introl eq_refl) E); cbn [length]; lia|]. destruct (Q a); cbn [length]; lia.
Qed.

(** ** one dimension: strata of a shifted Halton sequence inside an interval *)
Section One.
  Variable b : Z.
  Hypothesis Hb : 2 <= b.
  Variable k : nat.
  Local Notation B := (b ^ Z.of_nat k).
  Variables s lo hi : R.
  Hypothesis Hlo : (0 <= lo)%R.
  Hypothesis Hhi : (hi <= 1)%R.
  Local Open Scope R_scope.

  Definition fpart (x : R) : R := x - IZR (Flocq.Core.Raux.Zfloor x).
  Lemma fpart_range x : 0 <= fpart x < 1.
  Proof. unfold fpart. generalize (Flocq.Core.Raux.Zfloor_lb x) (Flocq.Core.Raux.Zfloor_ub x). lra. Qed.
  Lemma fpart_eq x z y : x = IZR z + y -> 0 <= y < 1 -> fpart x = y.
  Proof.
    intros -> Hy. unfold fpart. rewrite (Flocq.Core.Raux.Zfloor_imp z); [lra|]. rewrite plus_IZR. lra.
  Qed.

  Definition inside (q : Z) : bool :=
    Rleb lo (fpart (IZR q / IZR B + s)) && Rltb (fpart (IZR q / IZR B + s)) (hi - / IZR B).
  Lemma B_pos : 0 < IZR B.
  Proof. apply IZR_lt. now apply HaltonProofs.pow_pos. Qed.

  Lemma inside_periodic : periodic inside B.
  Proof.
    intros i Hi. assert (fpart (IZR (i mod B) / IZR B + s) = fpart (IZR i / IZR B + s)) as E; [|unfold inside; now rewrite E].
    generalize B_pos; intros HB. symmetry. apply (fpart_eq _ (i / B + Flocq.Core.Raux.Zfloor (IZR (i mod B) / IZR B + s))); [|apply fpart_range].
    unfold fpart. rewrite plus_IZR. assert (IZR i = IZR B * IZR (i / B) + IZR (i mod B)) as ->.
    { rewrite <- mult_IZR, <- plus_IZR. f_equal. apply Z.div_mod. apply lt_IZR in HB. lia. }
    field. lra.
  Qed.

  Lemma inside_cnt : IZR B * (hi - lo) - 2 <= IZR (cnt inside B).
  Proof.
    generalize B_pos; intros HB. set (s' := fpart s). generalize (fpart_range s); fold s'; intros Hs.
    set (a := (Flocq.Core.Raux.Zceil (IZR B * (lo - s')) + B)%Z).
    generalize (Flocq.Core.Raux.Zceil_ub (IZR B * (lo - s'))) (Flocq.Core.Raux.Zceil_lb (IZR B * (lo - s'))); intros C1 C2.
    assert (0 <= a)%Z as Ha. { apply le_IZR. unfold a. rewrite plus_IZR. nra. }
    rewrite <- (cnt_window inside B a); [|apply lt_IZR in HB; lia|apply inside_periodic|exact Ha].
    set (n := Flocq.Core.Raux.Zceil (IZR B * (hi - lo) - 2)).
    generalize (Flocq.Core.Raux.Zceil_ub (IZR B * (hi - lo) - 2)) (Flocq.Core.Raux.Zceil_lb (IZR B * (hi - lo) - 2)); fold n; intros N1 N2.
    destruct (Z_le_gt_dec n 0) as [Hn|Hn].
    { apply IZR_le in Hn. generalize (IZR_le _ _ (cnt_nonneg (fun i => inside (a + i)) B)). lra. }
    apply Rle_trans with (IZR n); [exact N1|]. apply IZR_le. apply cnt_ge.
    - split; [lia|]. apply le_IZR. nra.
    - intros i Hi. assert (IZR i <= IZR n - 1) as Hi'. { rewrite <- minus_IZR. apply IZR_le. lia. }
      assert (0 <= IZR i) as Hi0 by (apply IZR_le; lia).
      set (y := IZR (a + i) / IZR B + s' - 1).
      assert (lo <= y) as Y1.
      { unfold y, a. rewrite !plus_IZR. apply Rmult_le_reg_r with (IZR B); [lra|].
        replace (((IZR (Flocq.Core.Raux.Zceil (IZR B * (lo - s'))) + IZR B + IZR i) / IZR B + s' - 1) * IZR B)
          with (IZR (Flocq.Core.Raux.Zceil (IZR B * (lo - s'))) + IZR i + s' * IZR B) by (field; lra). nra. }
      assert (y < hi - / IZR B) as Y2.
      { unfold y, a. rewrite !plus_IZR. apply Rmult_lt_reg_r with (IZR B); [lra|].
        replace (((IZR (Flocq.Core.Raux.Zceil (IZR B * (lo - s'))) + IZR B + IZR i) / IZR B + s' - 1) * IZR B)
          with (IZR (Flocq.Core.Raux.Zceil (IZR B * (lo - s'))) + IZR i + s' * IZR B) by (field; lra).
        replace ((hi - / IZR B) * IZR B) with (hi * IZR B - 1) by (field; lra). nra. }
      assert (0 < / IZR B) by (apply Rinv_0_lt_compat; lra).
      unfold inside. rewrite (fpart_eq _ (1 + Flocq.Core.Raux.Zfloor s) y); [|unfold y, s', fpart; rewrite (plus_IZR 1); lra|lra].
      apply andb_true_iff. split; [apply Rleb_true; lra|apply Rltb_true; lra].
  Qed.

  (** the positions whose whole stratum is inside *)
  Definition stratum (i : Z) : Z := revd b k (i + 1).
  Definition sure (i : Z) : bool := inside (stratum i).
  Lemma sure_periodic : periodic sure B.
  Proof.
    intros i Hi. unfold sure, stratum. f_equal. generalize B_pos; intros HB%lt_IZR.
    rewrite <- (revd_mod b k Hb (i mod B + 1)), <- (revd_mod b k Hb (i + 1)) by (generalize (Z.mod_pos_bound i B HB); lia).
    f_equal. now rewrite Zplus_mod_idemp_l.
  Qed.
  Lemma sure_cnt : cnt sure B = cnt inside B.
  Proof.
    generalize B_pos; intros HB%lt_IZR. unfold sure. apply (cnt_reindex inside B stratum).
    - intros; unfold stratum; now apply revd_range.
    - intros x y Hx Hy E. unfold stratum in E. rewrite <- (revd_mod b k Hb (x + 1)), <- (revd_mod b k Hb (y + 1)) in E by lia.
      apply revd_inj in E; auto; try (apply Z.mod_pos_bound; lia).
      rewrite !(Z.add_comm _ 1) in E. now apply mod_add_inj in E.
  Qed.
  Lemma sure_in i r : (0 <= i)%Z -> halton (F := R) b i = Val r -> sure i = true -> lo <= fpart (r + s) < hi.
  Proof.
    intros Hi Hr Hs. generalize (halton_R_cell b i k r Hb Hi Hr); intros [C1 C2]. generalize B_pos; intros HB.
    unfold sure, inside, stratum in Hs. apply andb_true_iff in Hs. destruct Hs as [L%Rleb_true U%Rltb_true].
    set (q := IZR (revd b k (i + 1)) / IZR B) in *. set (e := r - q).
    assert (0 <= e < / IZR B) as He. { unfold e. split; [lra|]. unfold q in *. rewrite Rdiv_plus_distr in C2. lra. }
    generalize (fpart_range (q + s)); intros Hf.
    rewrite (fpart_eq (r + s) (Flocq.Core.Raux.Zfloor (q + s)) (fpart (q + s) + e)).
    - lra.
    - unfold fpart, e. lra.
    - lra.
  Qed.
End One.

(** ** several dimensions *)
Local Open Scope R_scope.
(** base, shift and interval of a dimension *)
Record dim := Dim { dB : Z; dS : R; dLo : R; dHi : R }.
Definition allsure (k : nat) (ds : list dim) (i : Z) : bool := forallb (fun d => sure (dB d) k (dS d) (dLo d) (dHi d) i) ds.
Definition period (k : nat) (ds : list dim) : Z := fold_right (fun d m => (dB d ^ Z.of_nat k * m)%Z) 1%Z ds.
Definition good (d : dim) : Prop := (2 <= dB d)%Z /\ 0 <= dLo d /\ dHi d <= 1.

Lemma gcd_pow a b k : Z.gcd a b = 1%Z -> Z.gcd a (b ^ Z.of_nat k) = 1%Z.
Proof.
  intros H. induction k as [|k IH]; [apply Z.gcd_1_r|]. rewrite pow_succ.
  apply Zgcd_1_rel_prime. apply Zgcd_1_rel_prime in H, IH. now apply rel_prime_mult.
Qed.
Lemma period_pos k ds : Forall good ds -> (0 < period k ds)%Z.
Proof. induction 1 as [|d ds (Hb & _) _ IH]; cbn [period fold_right]; [lia|]. fold (period k ds). generalize (HaltonProofs.pow_pos (dB d) k Hb). nia. Qed.
Lemma period_gcd k a ds : (forall d, In d ds -> Z.gcd a (dB d) = 1%Z) -> Z.gcd a (period k ds) = 1%Z.
Proof.
  induction ds as [|d ds IH]; intros H; [apply Z.gcd_1_r|]. cbn [period fold_right]. fold (period k ds).
  apply Zgcd_1_rel_prime. apply rel_prime_mult; apply Zgcd_1_rel_prime.
  - apply gcd_pow, H. now left.
  - apply IH. intros; apply H. now right.
Qed.
Lemma allsure_periodic k ds : Forall good ds -> periodic (allsure k ds) (period k ds).
Proof.
  induction 1 as [|d ds Hd Hg IH]; [intros i Hi; reflexivity|]. cbn [period fold_right]. fold (period k ds).
  change (allsure k (d :: ds)) with (fun i => sure (dB d) k (dS d) (dLo d) (dHi d) i && allsure k ds i).
  destruct Hd as (H1 & H2 & H3). apply periodic_and; [now apply HaltonProofs.pow_pos|now apply period_pos|now apply sure_periodic|exact IH].
Qed.
Lemma allsure_cnt k ds w : Forall good ds -> pairwise_coprime (map dB ds) ->
  (forall d, In d ds -> w <= dHi d - dLo d - 2 / IZR (dB d ^ Z.of_nat k)) -> 0 <= w ->
  IZR (period k ds) * w ^ length ds <= IZR (cnt (allsure k ds) (period k ds)).
Proof.
  intros Hg Hc Hw H0. induction ds as [|d ds IH].
  - cbn. rewrite Rmult_1_r. apply IZR_le. reflexivity.
  - inversion_clear Hg as [|? ? (H1 & H2 & H3) Hg']. destruct Hc as [Hc1 Hc2]. specialize (IH Hg' Hc2 (fun d Hd => Hw d (or_intror Hd))).
    cbn [period fold_right]. fold (period k ds).
    change (allsure k (d :: ds)) with (fun i => sure (dB d) k (dS d) (dLo d) (dHi d) i && allsure k ds i).
    rewrite cnt_and; [|now apply HaltonProofs.pow_pos|now apply period_pos| |now apply sure_periodic|now apply allsure_periodic].
    + rewrite sure_cnt, !mult_IZR by auto. generalize (inside_cnt (dB d) H1 k (dS d) (dLo d) (dHi d) H2 H3); intros HI.
      specialize (Hw d (or_introl eq_refl)). generalize (B_pos (dB d) H1 k); intros HB.
      cbn [length pow]. replace (IZR (dB d ^ Z.of_nat k) * IZR (period k ds) * (w * w ^ length ds))
        with ((IZR (dB d ^ Z.of_nat k) * w) * (IZR (period k ds) * w ^ length ds)) by ring.
      apply Rmult_le_compat; [nra| |  |exact IH].
      * apply Rmult_le_pos; [|now apply pow_le]. apply IZR_le. generalize (period_pos k ds Hg'). lia.
      * apply Rle_trans with (2 := HI). apply Rle_trans with (IZR (dB d ^ Z.of_nat k) * (dHi d - dLo d - 2 / IZR (dB d ^ Z.of_nat k))); [nra|].
        right. field. lra.
    + rewrite Z.gcd_comm. apply gcd_pow. rewrite Z.gcd_comm. apply period_gcd.
      intros d' Hd'. apply Hc1. now apply in_map.
Qed.

(** the sample points *)
Definition point (bs : list Z) (ss : list R) (i : Z) (x : list R) : Prop :=
  exists hs, Forall2 (fun b h => halton (F := R) b i = Val h) bs hs /\ x = map (fun '(h, s) => fpart (h + s)) (combine hs ss).

Definition within_dims (ds : list dim) (x : list R) : Prop := Forall2 (fun d y => dLo d <= y < dHi d) ds x.
Lemma allsure_in k ds i x : Forall good ds -> (0 <= i)%Z -> point (map dB ds) (map dS ds) i x -> allsure k ds i = true -> within_dims ds x.
Proof.
  intros Hg Hi (hs & Hh & ->). revert hs Hh. induction ds as [|d ds IH]; intros hs Hh Hs; inversion Hh as [|? h ? hs' Hh1 Hh2]; subst; [constructor|].
  inversion_clear Hg as [|? ? (H1 & H2 & H3) Hg']. cbn [allsure forallb] in Hs. apply andb_true_iff in Hs. destruct Hs as [S1 S2].
  cbn [map combine]. constructor; [|apply IH; auto]. eapply sure_in; eauto.
Qed.

(** for large N the share of points in a box of sides at least w is nearly w^d *)
Lemma pow_2_le b k : (2 <= b)%Z -> 2 ^ k <= IZR (b ^ Z.of_nat k).
Proof.
  intros Hb. rewrite <- (pow_IZR b k). apply pow_incr. apply IZR_le in Hb. lra.
Qed.
Lemma box_share_eps n w eps : 0 < w -> 0 < eps -> exists k, 0 <= w - 2 / 2 ^ k /\ w ^ n - eps <= (w - 2 / 2 ^ k) ^ n.
Proof.
  intros Hw He. assert (continuity_pt (fun y => y ^ n) w) as Hc by (apply derivable_continuous_pt, derivable_pt_pow).
  destruct (Hc eps He) as (del & Hdel & Hd).
  assert (exists k, 2 / 2 ^ k < Rmin w del) as (k & Hk).
  { assert (0 < Rmin w del) as Hm by (apply Rmin_pos; lra).
    destruct (pow_lt_1_zero (/ 2) ltac:(rewrite Rabs_pos_eq; lra) (Rmin w del / 2) ltac:(lra)) as (K & HK).
    exists K. specialize (HK K (le_n _)). rewrite Rabs_pos_eq in HK by (apply pow_le; lra).
    rewrite pow_inv in HK by lra. lra. }
  assert (0 < 2 / 2 ^ k) as Hp by (apply Rdiv_lt_0_compat; [lra|apply pow_lt; lra]).
  generalize (Rmin_l w del) (Rmin_r w del); intros M1 M2.
  exists k. split; [lra|]. set (y := w - 2 / 2 ^ k) in *. specialize (Hd y). cbn in Hd. unfold R_dist in Hd.
  assert (Rabs (y ^ n - w ^ n) < eps) as HH.
  { apply Hd. split; [split; [exact I|unfold y; lra]|]. unfold y. rewrite Rabs_left; lra. }
  apply Rabs_def2 in HH. lra.
Qed.
Lemma box_share bs ss w eps : 0 < w -> 0 < eps -> Forall (fun b => 2 <= b)%Z bs -> pairwise_coprime bs ->
  exists k N0, (0 < N0)%Z /\ forall ds, map dB ds = bs -> map dS ds = ss -> Forall good ds -> (forall d, In d ds -> w <= dHi d - dLo d) ->
    forall N, (N0 <= N)%Z -> IZR N * (w ^ length bs - eps) <= IZR (cnt (allsure k ds) N).
Proof.
  intros Hw He Hb Hc. destruct (box_share_eps (length bs) w (eps / 2) Hw ltac:(lra)) as (k & Hk0 & Hk).
  set (v := w - 2 / 2 ^ k) in *.
  set (M := fold_right (fun b m => (b ^ Z.of_nat k * m)%Z) 1%Z bs).
  exists k, (Z.max 1 (Flocq.Core.Raux.Zceil (IZR M * 2 / eps))). split; [lia|].
  intros ds E1 E2 Hg Hd.
  - intros N HN. assert (period k ds = M) as EM by (unfold M; rewrite <- E1; clear; unfold period; induction ds as [|d ds IH]; [reflexivity|]; cbn [map fold_right]; now rewrite IH).
    assert (0 < M)%Z as HM by (rewrite <- EM; now apply period_pos).
    assert (IZR M * v ^ length bs <= IZR (cnt (allsure k ds) M)) as H1.
    { rewrite <- EM. replace (length bs) with (length ds) by (rewrite <- E1; now rewrite map_length).
      apply allsure_cnt; auto; [now rewrite E1|]. intros d Hin. specialize (Hd d Hin). unfold v.
      assert (2 / IZR (dB d ^ Z.of_nat k) <= 2 / 2 ^ k); [|lra].
      apply Rmult_le_compat_l; [lra|]. apply Rinv_le_contravar; [apply pow_lt; lra|]. apply pow_2_le.
      rewrite Forall_forall in Hg. apply Hg in Hin. apply Hin. }
    assert (0 <= N)%Z as HN0 by lia.
    generalize (cnt_lower (allsure k ds) M N HM ltac:(rewrite <- EM; now apply allsure_periodic) HN0); intros H2%IZR_le.
    rewrite minus_IZR, !mult_IZR in H2. apply IZR_lt in HM. apply IZR_le in HN0.
    assert (IZR M * 2 / eps <= IZR N) as H3.
    { apply Rle_trans with (1 := Flocq.Core.Raux.Zceil_ub _). apply IZR_le. lia. }
    assert (IZR M <= IZR N * (eps / 2)) as H4.
    { apply Rmult_le_reg_r with (2 / eps); [apply Rdiv_lt_0_compat; lra|]. replace (IZR N * (eps / 2) * (2 / eps)) with (IZR N) by (field; lra). lra. }
    apply Rmult_le_reg_l with (IZR M); [lra|]. apply Rle_trans with (2 := H2).
    assert (IZR N * (IZR M * v ^ length bs) <= IZR N * IZR (cnt (allsure k ds) M)) by (apply Rmult_le_compat_l; lra).
    assert (0 <= IZR M * IZR N * ((v ^ length bs - eps / 2) - (w ^ length bs - eps))) by (apply Rmult_le_pos; [apply Rmult_le_pos; lra|lra]).
    assert (0 <= IZR M * (IZR N * (eps / 2) - IZR M)) by (apply Rmult_le_pos; lra). nra.
Qed.
