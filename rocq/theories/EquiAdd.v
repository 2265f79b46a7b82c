(** * Sums and multiples of integrals over the unit cube *)
From Coq Require Import ZArith Reals Bool List Lia Lra Psatz.
From Coquelicot Require Import Coquelicot.
From Verif Require Import Num NumLaws GeomSpec SamplerSpec EquiSpec EquiProofs EquiMean EquiIntSpec EquiInt LimitFacts.
Import ListNotations.
Local Open Scope R_scope.

Lemma Rsum_app l1 l2 : Rsum (l1 ++ l2) = Rsum l1 + Rsum l2.
Proof. induction l1; cbn [app Rsum]; [lra|rewrite IHl1; lra]. Qed.
Lemma blocks (g : Z -> R) (k : nat) : (0 < k)%nat -> forall n,
  Rsum (map (fun a : nat => g (Z.of_nat a / Z.of_nat k)%Z) (seq 0 (n * k))) = INR k * Rsum (map (fun a : nat => g (Z.of_nat a)) (seq 0 n)).
Proof.
  intros Hk. induction n as [|n IH]; [cbn; lra|].
  replace (S n * k)%nat with (n * k + k)%nat by lia. rewrite seq_app, map_app, Rsum_app, IH, Nat.add_0_l.
  rewrite (map_ext_in _ (fun _ => g (Z.of_nat n)) (seq (n * k) k)).
  - rewrite Rsum_const, seq_length. rewrite seq_S, map_app, Rsum_app. cbn [map Rsum]. rewrite Nat.add_0_l. lra.
  - intros a Ha. apply in_seq in Ha. f_equal. symmetry. apply (Z.div_unique _ _ _ (Z.of_nat a - Z.of_nat n * Z.of_nat k)); [left|lia].
    rewrite <- Nat2Z.inj_mul. lia.
Qed.
Lemma refine_mean n k d : (0 < n)%Z -> (0 < k)%Z -> forall lo : list Z -> R,
  mean (map (fun c => lo (map (fun a => a / k)%Z c)) (cells (n * k) d)) = mean (map lo (cells n d)).
Proof.
  intros Hn Hk. assert (0 < n * k)%Z as Hnk by lia. induction d as [|d IH]; intros lo; [reflexivity|].
  rewrite !mean_cells_S by assumption. cbn [map].
  rewrite (map_ext _ (fun a : nat => (fun z => mean (map (fun c => lo (z :: c)) (cells n d))) (Z.of_nat a / Z.of_nat (Z.to_nat k))%Z)).
  - rewrite Z2Nat.inj_mul by lia. rewrite (blocks (fun z => mean (map (fun c => lo (z :: c)) (cells n d))) (Z.to_nat k)) by lia. rewrite mult_IZR, INR_IZR_INZ, (Z2Nat.id k) by lia.
    apply IZR_lt in Hn, Hk. field. lra.
  - intros a. rewrite Z2Nat.id by lia. apply (IH (fun c => lo (Z.of_nat a / k :: c)%Z)).
Qed.
Lemma refine_cell n k c x : (0 < n)%Z -> (0 < k)%Z -> in_cell (n * k) c x -> in_cell n (map (fun a => a / k)%Z c) x.
Proof.
  intros Hn Hk. unfold in_cell. induction 1 as [|a y c x [A B] _ IH]; cbn [map]; constructor; [|exact IH].
  assert (E := Z.div_mod a k ltac:(lia)). assert (F := Z.mod_pos_bound a k Hk). set (q := (a / k)%Z) in *.
  assert (0 < IZR n) as N by (now apply IZR_lt). assert (0 < IZR k) as K by (now apply IZR_lt).
  rewrite mult_IZR in A, B.
  assert (q * k <= a)%Z as L1 by lia. assert (a + 1 <= (q + 1) * k)%Z as L2 by lia.
  apply IZR_le in L1, L2. rewrite mult_IZR in L1, L2. rewrite !plus_IZR in L2. clearbody q. clear E F.
  split.
  - eapply Rle_trans; [|exact A]. apply (Rmult_le_reg_r (IZR n * IZR k)); [nra|].
    replace (IZR q / IZR n * (IZR n * IZR k)) with (IZR q * IZR k) by (field; lra).
    replace (IZR a / (IZR n * IZR k) * (IZR n * IZR k)) with (IZR a) by (field; lra). exact L1.
  - eapply Rlt_le_trans; [exact B|]. apply (Rmult_le_reg_r (IZR n * IZR k)); [nra|].
    replace ((IZR q + 1) / IZR n * (IZR n * IZR k)) with ((IZR q + 1) * IZR k) by (field; lra).
    replace ((IZR a + 1) / (IZR n * IZR k) * (IZR n * IZR k)) with (IZR a + 1) by (field; lra). exact L2.
Qed.
Lemma refine_in n k d c : (0 < n)%Z -> (0 < k)%Z -> In c (cells (n * k) d) -> In (map (fun a => a / k)%Z c) (cells n d).
Proof.
  intros Hn Hk. rewrite !in_cells. intros [L F]. split; [now rewrite map_length|]. clear L.
  induction F as [|a c Ha _ IH]; cbn [map]; constructor; [|exact IH].
  split; [apply Z.div_pos; lia|apply Z.div_lt_upper_bound; lia].
Qed.

Lemma mean_plus {A} (f g : A -> R) l : mean (map (fun a => f a + g a) l) = mean (map f l) + mean (map g l).
Proof. unfold mean. rewrite !map_length, Rsum_plus. unfold Rdiv. lra. Qed.
Lemma mean_scale {A} k (f : A -> R) l : mean (map (fun a => k * f a) l) = k * mean (map f l).
Proof. unfold mean. rewrite !map_length, Rsum_scale. unfold Rdiv. lra. Qed.

Lemma cube_integral_plus d f g I J : cube_integral d f I -> cube_integral d g J -> cube_integral d (fun x => f x + g x) (I + J).
Proof.
  intros Hf Hg eps He. destruct (Hf (eps / 2) ltac:(lra)) as (n & lo & hi & Hn & Hc & H1 & H2).
  destruct (Hg (eps / 2) ltac:(lra)) as (k & lo' & hi' & Hk & Hc' & H1' & H2').
  exists (n * k)%Z, (fun c => lo (map (fun a => a / k)%Z c) + lo' (map (fun a => a / n)%Z c)), (fun c => hi (map (fun a => a / k)%Z c) + hi' (map (fun a => a / n)%Z c)).
  split; [lia|]. rewrite !mean_plus, !refine_mean by assumption. rewrite (Z.mul_comm n k), !refine_mean by assumption.
  split; [|lra]. intros c x Hin Hx.
  assert (In c (cells (n * k) d)) as Hin' by now rewrite Z.mul_comm. assert (in_cell (n * k) c x) as Hx' by now rewrite Z.mul_comm.
  assert (A := Hc _ x (refine_in _ _ _ _ Hn Hk Hin') (refine_cell _ _ _ _ Hn Hk Hx')).
  assert (B := Hc' _ x (refine_in _ _ _ _ Hk Hn Hin) (refine_cell _ _ _ _ Hk Hn Hx)). lra.
Qed.
Lemma cube_integral_scale d f I k : cube_integral d f I -> cube_integral d (fun x => k * f x) (k * I).
Proof.
  intros Hf eps He. assert (K : 0 < Rabs k + 1) by (generalize (Rabs_pos k); lra).
  destruct (Hf (eps / (Rabs k + 1))) as (n & lo & hi & Hn & Hc & H1 & H2); [now apply Rdiv_lt_0_compat|].
  set (e := eps / (Rabs k + 1)) in *. assert (E : (Rabs k + 1) * e = eps) by (unfold e; field; lra).
  assert (0 < e) as Pe by (unfold e; now apply Rdiv_lt_0_compat).
  destruct (Rle_lt_dec 0 k) as [P|P].
  - rewrite Rabs_pos_eq in E by exact P. exists n, (fun c => k * lo c), (fun c => k * hi c). rewrite !mean_scale. split; [exact Hn|].
    split; [intros c x Hin Hx; specialize (Hc c x Hin Hx); split; apply Rmult_le_compat_l; lra|].
    clearbody e. split; nra.
  - rewrite Rabs_left in E by exact P. exists n, (fun c => k * hi c), (fun c => k * lo c). rewrite !mean_scale. split; [exact Hn|].
    split; [intros c x Hin Hx; specialize (Hc c x Hin Hx); split; apply Rmult_le_compat_neg_l; lra|].
    clearbody e. split; nra.
Qed.
Lemma cube_integral_2_4 f I : cube_integral 2 f I -> cube_integral 4 (first_two f) I.
Proof.
  intros H eps He. destruct (H eps He) as (n & lo & hi & Hn & Hc & H1 & H2).
  set (ft := fun (g : list Z -> R) c => match c with [a; b; _; _] => g [a; b] | _ => 0 end).
  assert (forall g : list Z -> R, mean (map (ft g) (cells n 4)) = mean (map g (cells n 2))) as E.
  { intros g. assert (0 < IZR n) as N by (now apply IZR_lt).
    assert (forall a : R, Rsum (map (fun _ : nat => a) (seq 0 (Z.to_nat n))) / IZR n = a) as C.
    { intros a. rewrite Rsum_const, seq_length, INR_IZR_INZ, Z2Nat.id by lia. field. lra. }
    rewrite !(mean_cells_S n) by exact Hn. f_equal. f_equal. apply map_ext. intros a.
    rewrite !(mean_cells_S n) by exact Hn. f_equal. f_equal. apply map_ext. intros b.
    rewrite (mean_cells_S n) by exact Hn.
    rewrite (map_ext _ (fun _ => g [Z.of_nat a; Z.of_nat b])).
    - rewrite C. cbn [cells map]. unfold mean. cbn. field.
    - intros c. rewrite (mean_cells_S n) by exact Hn. rewrite <- (C (g [Z.of_nat a; Z.of_nat b])). f_equal. f_equal. apply map_ext. intros e. cbn. unfold mean; cbn. field. }
  exists n, (ft lo), (ft hi). rewrite !E. split; [exact Hn|]. split; [|auto].
  intros c x Hin Hx. apply in_cells in Hin. destruct Hin as [Lc Fc].
  destruct c as [|c1 [|c2 [|c3 [|c4 [|? ?]]]]]; try discriminate Lc. unfold in_cell in Hx.
  inversion Hx as [|? y1 ? x1 A1 X1]; subst. inversion X1 as [|? y2 ? x2 A2 X2]; subst. inversion X2 as [|? y3 ? x3 A3 X3]; subst. inversion X3 as [|? y4 ? x4 A4 X4]; subst.
  inversion X4; subst. cbn [ft first_two]. apply (Hc [c1; c2] [y1; y2]).
  - apply in_cells. split; [reflexivity|]. inversion Fc as [|? ? F1 G1]; subst. inversion G1; subst. repeat constructor; lia.
  - unfold in_cell. apply List.Forall2_cons; [exact A1|]. apply List.Forall2_cons; [exact A2|]. apply List.Forall2_nil.
Qed.
