(** * Means over Halton points tend to the integral *)
From Coq Require Import ZArith Reals Bool List Lra Lia Permutation.
From Verif Require Import Num NumLaws Outcome GeomModel GeomSpec SeqModel HaltonProofs SamplerSpec EquiSpec EquiProofs.
Import ListNotations.
Local Open Scope R_scope.

(** ** finite sums *)
Lemma Rsum_plus {A} (f g : A -> R) l : Rsum (map (fun a => f a + g a) l) = Rsum (map f l) + Rsum (map g l).
Proof. induction l as [|a l IH]; cbn [map Rsum]; [lra|]. rewrite IH. lra. Qed.
Lemma Rsum_scale {A} c (f : A -> R) l : Rsum (map (fun a => c * f a) l) = c * Rsum (map f l).
Proof. induction l as [|a l IH]; cbn [map Rsum]; [lra|]. rewrite IH. lra. Qed.
Lemma Rsum_const {A} c (l : list A) : Rsum (map (fun _ => c) l) = INR (length l) * c.
Proof. induction l as [|a l IH]; cbn [map Rsum length]; [cbn; lra|]. rewrite IH, S_INR. lra. Qed.
Lemma Rsum_le {A} (f g : A -> R) l : (forall a, In a l -> f a <= g a) -> Rsum (map f l) <= Rsum (map g l).
Proof.
  induction l as [|a l IH]; intros H; cbn [map Rsum]; [lra|]. generalize (H a (or_introl eq_refl)) (IH (fun a Ha => H a (or_intror Ha))). lra.
Qed.
Lemma Rsum_swap {A B} (f : A -> B -> R) la lb :
  Rsum (map (fun a => Rsum (map (f a) lb)) la) = Rsum (map (fun b => Rsum (map (fun a => f a b) la)) lb).
Proof.
  induction la as [|a la IH]; cbn [map Rsum].
  - symmetry. rewrite Rsum_const. lra.
  - rewrite IH, <- Rsum_plus. reflexivity.
Qed.
Lemma Rsum_cnt (P : Z -> bool) (g : R) N : Rsum (map (fun i : nat => if P (Z.of_nat i) then g else 0) (seq 0 N)) = g * IZR (cnt P (Z.of_nat N)).
Proof.
  unfold cnt, range. rewrite Nat2Z.id. generalize (seq 0 N). induction l as [|i l IH]; [cbn; lra|].
  cbn [map Rsum]. rewrite IH. unfold cntl. cbn [filter]. destruct (P (Z.of_nat i)); [|lra].
  cbn [length]. rewrite Nat2Z.inj_succ, succ_IZR. lra.
Qed.
Lemma Rsum_one {A} (P : A -> bool) (g : A -> R) l c0 : NoDup l -> (forall c, In c l -> P c = true -> c = c0) -> 0 <= g c0 ->
  Rsum (map (fun c => if P c then g c else 0) l) <= g c0.
Proof.
  intros ND H H0. induction l as [|a l IH]; cbn [map Rsum]; [exact H0|]. inversion_clear ND as [|? ? Ha ND'].
  destruct (P a) eqn:E.
  - assert (a = c0) by (apply H; [now left|exact E]). subst a.
    assert (Rsum (map (fun c => if P c then g c else 0) l) <= 0); [|lra].
    apply Rle_trans with (Rsum (map (fun _ => 0) l)); [|rewrite Rsum_const; lra]. apply Rsum_le. intros c Hc. destruct (P c) eqn:E'; [|lra].
    exfalso. apply Ha. rewrite <- (H c (or_intror Hc) E'). exact Hc.
  - assert (Rsum (map (fun c => if P c then g c else 0) l) <= g c0) by (apply IH; auto; intros; apply H; auto; now right). lra.
Qed.

(** ** cells *)
Lemma in_cells n d c : In c (cells n d) <-> length c = d /\ Forall (fun a => 0 <= a < n)%Z c.
Proof.
  revert c. induction d as [|d IH]; intros c; cbn [cells].
  - cbn [In]. split; [intros [<-|[]]; split; [reflexivity|constructor]|]. intros [E _]. left. destruct c; [reflexivity|discriminate].
  - fold (range n). rewrite in_flat_map. split.
    + intros (a & Ha & Hc). apply in_map_iff in Hc. destruct Hc as (c' & <- & Hc). apply IH in Hc. destruct Hc as [Hl Hf]. split; [cbn; lia|].
      constructor; [now apply in_range|exact Hf].
    + intros [Hl Hf]. destruct c as [|a c]; [discriminate|]. inversion_clear Hf as [|? ? Ha Hf'].
      exists a. split; [now apply in_range|]. apply in_map, IH. split; [now injection Hl|exact Hf'].
Qed.
Lemma nodup_cells n d : NoDup (cells n d).
Proof.
  induction d as [|d IH]; cbn [cells]; [repeat constructor; auto|]. fold (range n).
  generalize (nodup_range n). induction (range n) as [|a l IHl]; intros ND; [constructor|]. inversion_clear ND as [|? ? Ha ND'].
  cbn [flat_map]. specialize (IHl ND').
  assert (NoDup (map (cons a) (cells n d))) as N1 by (apply FinFun.Injective_map_NoDup; [intros x y; congruence|exact IH]).
  revert N1. assert (forall c, In c (map (cons a) (cells n d)) -> ~ In c (flat_map (fun a => map (cons a) (cells n d)) l)) as HD.
  { intros c Hc H2. apply in_map_iff in Hc. destruct Hc as (c' & <- & Hc). apply in_flat_map in H2. destruct H2 as (a' & Ha' & H2).
    apply in_map_iff in H2. destruct H2 as (c'' & E & _). injection E as E1 E2. subst. contradiction. }
  revert HD. generalize (map (cons a) (cells n d)). induction l0 as [|c l0 IH0]; intros HD N1; [exact IHl|].
  inversion_clear N1 as [|? ? Hc N1']. cbn. constructor.
  - rewrite in_app_iff. intros [H|H]; [contradiction|]. exact (HD c (or_introl eq_refl) H).
  - apply IH0; auto. intros c' H'. apply HD. now right.
Qed.
Lemma length_cells n d : (0 < n)%Z -> INR (length (cells n d)) = IZR n ^ d.
Proof.
  intros Hn. induction d as [|d IH]; [cbn; lra|]. cbn [cells pow]. fold (range n). rewrite <- IH.
  assert (forall l, length (flat_map (fun a : Z => map (cons a) (cells n d)) l) = (length l * length (cells n d))%nat) as E.
  { induction l as [|a l IHl]; [reflexivity|]. cbn [flat_map length]. rewrite app_length, map_length, IHl. lia. }
  rewrite E, mult_INR, length_range. f_equal. rewrite INR_IZR_INZ, Z2Nat.id by lia. reflexivity.
Qed.
Lemma cells_disjoint n c c' x : (0 < n)%Z -> in_cell n c x -> in_cell n c' x -> c = c'.
Proof.
  intros Hn H. revert c'. induction H as [|a y c x Ha Hx IH]; intros c' H'; inversion H' as [|a' ? c'' ? Ha' Hx']; subst; [reflexivity|].
  f_equal; [|now apply IH]. apply (cell_unique a a' (IZR n) y); auto. now apply IZR_lt.
Qed.
Lemma cell_exists n d x : (0 < n)%Z -> length x = d -> Forall (fun y => 0 <= y < 1) x -> exists c, In c (cells n d) /\ in_cell n c x.
Proof.
  intros Hn Hl Hx. exists (map (fun y => Flocq.Core.Raux.Zfloor (y * IZR n)) x). apply IZR_lt in Hn.
  split.
  - apply in_cells. split; [now rewrite map_length|]. apply Forall_map. revert Hx. apply Forall_impl. intros y Hy.
    generalize (Flocq.Core.Raux.Zfloor_lb (y * IZR n)) (Flocq.Core.Raux.Zfloor_ub (y * IZR n)); intros L U. split.
    + apply Flocq.Core.Raux.Zfloor_lub. nra.
    + apply lt_IZR. nra.
  - clear Hl. induction Hx as [|y x Hy Hx IH]; cbn; constructor; auto.
    generalize (Flocq.Core.Raux.Zfloor_lb (y * IZR n)) (Flocq.Core.Raux.Zfloor_ub (y * IZR n)); intros L U. split.
    + apply Rmult_le_reg_r with (IZR n); [lra|]. unfold Rdiv. rewrite Rmult_assoc, Rinv_l, Rmult_1_r; lra.
    + apply Rmult_lt_reg_r with (IZR n); [lra|]. unfold Rdiv. rewrite Rmult_assoc, Rinv_l, Rmult_1_r; lra.
Qed.

Lemma list_bound {A} (g : A -> R) l : exists K, 0 <= K /\ forall a, In a l -> - K <= g a.
Proof.
  induction l as [|a l (K & HK & H)]; [exists 0; split; [lra|intros a []]|].
  exists (Rmax K (- g a)). generalize (Rmax_l K (- g a)) (Rmax_r K (- g a)); intros M1 M2. split; [lra|].
  intros b [<-|Hb]; [lra|]. specialize (H b Hb). lra.
Qed.

Section Mean.
  Variables (bs : list Z) (ss : list R).
  Hypothesis Hbs : Forall (fun b => 2 <= b)%Z bs.
  Hypothesis Hco : pairwise_coprime bs.
  Hypothesis Hlen : length ss = length bs.
  Local Notation d := (length bs).
  Variable x : nat -> list R.
  Hypothesis Hx : forall i, point bs ss (Z.of_nat i) (x i).

  Lemma x_cube i : length (x i) = d /\ Forall (fun y => 0 <= y < 1) (x i).
  Proof.
    destruct (Hx i) as (hs & Hh & ->). split.
    - rewrite map_length, combine_length, Hlen. assert (length hs = length bs) by (clear -Hh; induction Hh; cbn; congruence). lia.
    - apply Forall_map. apply Forall_forall. intros [h s] _. apply fpart_range.
  Qed.

  Definition dims (n : Z) (c : list Z) : list dim :=
    map (fun '((b, s), a) => Dim b s (IZR a / IZR n) ((IZR a + 1) / IZR n)) (combine (combine bs ss) c).
  Lemma dims_ok n c : (0 < n)%Z -> In c (cells n d) ->
    map dB (dims n c) = bs /\ map dS (dims n c) = ss /\ Forall good (dims n c) /\ (forall e, In e (dims n c) -> / IZR n <= dHi e - dLo e) /\
    forall y, within_dims (dims n c) y -> in_cell n c y.
  Proof.
    intros Hn Hc. apply in_cells in Hc. destruct Hc as [Hl Hf]. apply IZR_lt in Hn.
    unfold dims. clear Hx x Hco. revert ss Hlen c Hl Hf. induction Hbs as [|b bs' Hb Hbs' IH]; intros [|s ss'] Hs [|a c] Hl Hf; try discriminate.
    - cbn. repeat split; auto; [intros e []|]. intros y Hy. inversion Hy. constructor.
    - inversion_clear Hf as [|? ? Ha Hf']. injection Hs as Hs. injection Hl as Hl.
      destruct (IH Hbs' ss' Hs c Hl Hf') as (E1 & E2 & E3 & E4 & E5). cbn [combine map dB dS].
      rewrite E1, E2. split; [reflexivity|]. split; [reflexivity|].
      assert (0 <= IZR a) by (apply IZR_le; lia). assert (IZR a + 1 <= IZR n) by (rewrite <- plus_IZR; apply IZR_le; lia).
      assert (0 < / IZR n) by (now apply Rinv_0_lt_compat).
      split; [|split].
      + constructor; [|exact E3]. split; [exact Hb|]. cbn [dLo dHi]. split; [unfold Rdiv; nra|].
        apply Rmult_le_reg_r with (IZR n); [lra|]. unfold Rdiv. rewrite Rmult_assoc, Rinv_l; lra.
      + intros e [<-|He]; [|now apply E4]. cbn [dLo dHi]. unfold Rdiv. lra.
      + intros y Hy. inversion Hy as [|? y0 ? y' Hy0 Hy']; subst. constructor; [exact Hy0|]. now apply E5.
  Qed.

  (** half of the convergence: the limit is not below the lower sums *)
  Lemma mean_lower f n lo eps : (0 < n)%Z -> (forall c y, In c (cells n d) -> in_cell n c y -> lo c <= f y) -> 0 < eps ->
    exists N0, (0 < N0)%nat /\ forall N, (N0 <= N)%nat -> mean (map lo (cells n d)) - eps <= running_mean (fun k => f (x k)) N.
  Proof.
    intros Hn Hlo He. destruct (list_bound lo (cells n d)) as (K & HK & Hb).
    assert (Hn' := IZR_lt _ _ Hn). set (T := Rsum (map (fun c => lo c + K) (cells n d))).
    assert (0 <= T) as HT.
    { unfold T. apply Rle_trans with (Rsum (map (fun _ => 0) (cells n d))); [rewrite Rsum_const; lra|]. apply Rsum_le. intros c Hc. specialize (Hb c Hc). lra. }
    set (e := eps / (T + 1)). assert (0 < e) as He' by (apply Rdiv_lt_0_compat; lra).
    destruct (box_share bs ss (/ IZR n) e (Rinv_0_lt_compat _ Hn') He' Hbs Hco) as (k & N0 & HN0 & Hshare).
    exists (Z.to_nat N0). split; [lia|]. intros N HN.
    assert (0 < INR N) as HNp by (apply lt_0_INR; lia).
    assert (Hsum : Rsum (map (fun c => (lo c + K) * (INR N * ((/ IZR n) ^ d - e))) (cells n d)) <= Rsum (map (fun i => f (x i) + K) (seq 0 N))).
    { apply Rle_trans with (Rsum (map (fun c => Rsum (map (fun i => if allsure k (dims n c) (Z.of_nat i) then lo c + K else 0) (seq 0 N))) (cells n d))).
      - apply Rsum_le. intros c Hc. rewrite Rsum_cnt. specialize (Hb c Hc). apply Rmult_le_compat_l; [lra|].
        destruct (dims_ok n c Hn Hc) as (E1 & E2 & E3 & E4 & _).
        rewrite INR_IZR_INZ. apply Hshare; auto. lia.
      - rewrite <- Rsum_swap. apply Rsum_le. intros i _.
        destruct (x_cube i) as [Hl Hf]. destruct (cell_exists n d (x i) Hn Hl Hf) as (c0 & Hc0 & Hin).
        apply Rle_trans with (lo c0 + K); [|specialize (Hlo c0 (x i) Hc0 Hin); lra].
        apply (Rsum_one (fun c => allsure k (dims n c) (Z.of_nat i)) (fun c => lo c + K)).
        + apply nodup_cells.
        + intros c Hc HP. destruct (dims_ok n c Hn Hc) as (E1 & E2 & E3 & _ & E5).
          apply (cells_disjoint n c c0 (x i) Hn); [|exact Hin]. apply E5. apply (allsure_in k (dims n c) (Z.of_nat i)); auto; [lia|]. rewrite E1, E2. apply Hx.
        + specialize (Hb c0 Hc0). lra. }
    rewrite (map_ext _ (fun c => (INR N * ((/ IZR n) ^ d - e)) * (lo c + K))) in Hsum by (intros; ring).
    rewrite Rsum_scale in Hsum. fold T in Hsum. rewrite Rsum_plus, Rsum_const, seq_length in Hsum.
    assert (T = Rsum (map lo (cells n d)) + IZR n ^ d * K) as ET.
    { unfold T. rewrite Rsum_plus, Rsum_const, length_cells by exact Hn. reflexivity. }
    unfold running_mean, mean. rewrite !map_length, seq_length, <- !INR_IZR_INZ, length_cells by exact Hn.
    apply Rmult_le_reg_r with (INR N); [exact HNp|]. unfold Rdiv at 2. rewrite Rmult_assoc, Rinv_l, Rmult_1_r by lra.
    assert (0 < IZR n ^ d) as Hp by (now apply pow_lt).
    assert (T * e <= eps) as HTe. { unfold e. apply Rmult_le_reg_r with (T + 1); [lra|]. replace (T * (eps / (T + 1)) * (T + 1)) with (T * eps) by (field; lra). nra. }
    rewrite pow_inv in Hsum by lra.
    assert (INR N * (/ IZR n ^ d - e) * T = INR N * (Rsum (map lo (cells n d)) / IZR n ^ d + K - T * e)) as EQ.
    { rewrite ET at 1. rewrite Rmult_minus_distr_l. rewrite ET. field. lra. }
    rewrite EQ in Hsum. nra.
  Qed.

  Theorem halton_equidistributed : equidistributed d x.
  Proof.
    intros f I HI eps He. destruct (HI (eps / 2) ltac:(lra)) as (n & lo & hi & Hn & Hb & H1 & H2).
    destruct (mean_lower f n lo (eps / 2) Hn (fun c y Hc Hy => proj1 (Hb c y Hc Hy)) ltac:(lra)) as (N1 & HN1 & L1).
    destruct (mean_lower (fun y => -1 * f y) n (fun c => -1 * hi c) (eps / 2) Hn) as (N2 & HN2 & L2); [|lra|].
    { intros c y Hc Hy. generalize (proj2 (Hb c y Hc Hy)). lra. }
    exists (N1 + N2)%nat. intros N HN. specialize (L1 N ltac:(lia)). specialize (L2 N ltac:(lia)).
    assert (running_mean (fun k => -1 * f (x k)) N = - running_mean (fun k => f (x k)) N) as E1.
    { unfold running_mean, mean. rewrite Rsum_scale, !map_length. unfold Rdiv. ring. }
    assert (mean (map (fun c => -1 * hi c) (cells n d)) = - mean (map hi (cells n d))) as E2.
    { unfold mean. rewrite Rsum_scale, !map_length. unfold Rdiv. ring. }
    rewrite E1, E2 in L2. unfold R_dist. apply Rabs_def1; lra.
  Qed.
End Mean.
