(** * Continuous functions have an integral over the cube: the iterated one *)
From Coq Require Import ZArith Reals Bool List Lra Lia.
From Coquelicot Require Import Coquelicot.
From Verif Require Import SamplerSpec EquiSpec EquiIntSpec EquiProofs EquiMean.
Import ListNotations.
Local Open Scope R_scope.

Definition modulus (g : R -> R) : Prop :=
  forall eps, 0 < eps -> exists del, 0 < del /\ forall x y, 0 <= x <= 1 -> 0 <= y <= 1 -> Rabs (x - y) < del -> Rabs (g x - g y) < eps.
Definition clamp (y : R) : R := Rmax 0 (Rmin 1 y).
Lemma clamp_range y : 0 <= clamp y <= 1.
Proof. unfold clamp, Rmax, Rmin. repeat destruct Rle_dec; lra. Qed.
Lemma clamp_id y : 0 <= y <= 1 -> clamp y = y.
Proof. intros H. unfold clamp, Rmax, Rmin. repeat destruct Rle_dec; lra. Qed.
Lemma clamp_lip x y : Rabs (clamp x - clamp y) <= Rabs (x - y).
Proof. unfold clamp, Rmax, Rmin. repeat destruct Rle_dec; unfold Rabs; repeat destruct Rcase_abs; lra. Qed.

Lemma modulus_ex_RInt g a b : modulus g -> 0 <= a -> a <= b -> b <= 1 -> ex_RInt g a b.
Proof.
  intros Hg Ha Hab Hb. apply (ex_RInt_ext (fun y => g (clamp y))).
  - rewrite Rmin_left, Rmax_right by lra. intros y Hy. now rewrite clamp_id by lra.
  - apply (ex_RInt_continuous (V := R_CompleteNormedModule)). intros z _. apply continuity_pt_filterlim.
    intros eps He. destruct (Hg eps He) as (del & Hd & H). exists del. split; [exact Hd|].
    intros y [_ Hy]. apply (H (clamp y) (clamp z)); try apply clamp_range.
    apply Rle_lt_trans with (1 := clamp_lip y z). exact Hy.
Qed.
Lemma RInt_close g h eps : modulus g -> modulus h -> (forall y, 0 <= y <= 1 -> Rabs (g y - h y) <= eps) ->
  Rabs (RInt g 0 1 - RInt h 0 1) <= eps.
Proof.
  intros Hg Hh H. assert (ex_RInt g 0 1) as E1 by (apply modulus_ex_RInt; auto; lra). assert (ex_RInt h 0 1) as E2 by (apply modulus_ex_RInt; auto; lra).
  replace (RInt g 0 1 - RInt h 0 1) with (RInt (fun y => minus (g y) (h y)) 0 1) by (rewrite (RInt_minus (V := R_CompleteNormedModule)) by auto; reflexivity).
  replace eps with ((1 - 0) * eps) by lra. apply abs_RInt_le_const; [lra|apply (ex_RInt_minus (V := R_NormedModule)); auto|exact H].
Qed.

Lemma cube_cons d y l : 0 <= y <= 1 -> in_cube d l -> in_cube (S d) (y :: l).
Proof. intros Hy [Hl Hf]. split; [cbn; lia|now constructor]. Qed.
Lemma cont_slice d f y : continuous_on_cube (S d) f -> 0 <= y <= 1 -> continuous_on_cube d (fun l => f (y :: l)).
Proof.
  intros Hf Hy eps He. destruct (Hf eps He) as (del & Hd & H). exists del. split; [exact Hd|].
  intros l l' Hl Hl' HF. apply H; try (now apply cube_cons). constructor; [|exact HF]. rewrite Rminus_eq_0, Rabs_R0. exact Hd.
Qed.

Definition closeness (d : nat) : Prop := forall f g eps, continuous_on_cube d f -> continuous_on_cube d g ->
  (forall x, in_cube d x -> Rabs (f x - g x) <= eps) -> Rabs (iterated d f - iterated d g) <= eps.
Lemma close_modulus d f : closeness d -> continuous_on_cube (S d) f -> modulus (fun y => iterated d (fun l => f (y :: l))).
Proof.
  intros HC Hf eps He. destruct (Hf (eps / 2) ltac:(lra)) as (del & Hd & H). exists del. split; [exact Hd|].
  intros x y Hx Hy Hxy. apply Rle_lt_trans with (eps / 2); [|lra].
  apply HC; [now apply cont_slice|now apply cont_slice|].
  intros l Hl. left. apply H; try (now apply cube_cons). constructor; [exact Hxy|].
  clear -Hd. induction l; constructor; auto. now rewrite Rminus_eq_0, Rabs_R0.
Qed.
Lemma iterated_close d : closeness d.
Proof.
  induction d as [|d IH]; intros f g eps Hf Hg H.
  - apply H. split; [reflexivity|constructor].
  - cbn [iterated]. apply RInt_close; [now apply close_modulus|now apply close_modulus|].
    intros y Hy. apply IH; [now apply cont_slice|now apply cont_slice|]. intros x Hx. apply H. now apply cube_cons.
Qed.
Lemma iterated_modulus d f : continuous_on_cube (S d) f -> modulus (fun y => iterated d (fun l => f (y :: l))).
Proof. apply close_modulus, iterated_close. Qed.

(** ** lower sums *)
Lemma pieces g L n : (0 < n)%Z -> modulus g -> (forall (a : nat) y, INR a / IZR n < y < (INR a + 1) / IZR n -> y <= 1 -> L a <= g y) ->
  forall k : nat, INR k <= IZR n -> Rsum (map L (seq 0 k)) / IZR n <= RInt g 0 (INR k / IZR n).
Proof.
  intros Hn Hg HL. apply IZR_lt in Hn. induction k as [|k IH]; intros Hk.
  - cbn [INR seq map Rsum]. unfold Rdiv. rewrite !Rmult_0_l, RInt_point. apply Rle_refl.
  - rewrite S_INR in *. assert (0 <= INR k) as Hk0 by apply pos_INR. specialize (IH ltac:(lra)).
    assert (0 < / IZR n) as Hi by (now apply Rinv_0_lt_compat).
    assert ((INR k + 1) / IZR n <= 1) as H1. { apply Rmult_le_reg_r with (IZR n); [lra|]. unfold Rdiv. rewrite Rmult_assoc, Rinv_l; lra. }
    assert (0 <= INR k / IZR n) as H0 by (unfold Rdiv; nra).
    assert (INR k / IZR n <= (INR k + 1) / IZR n) as H2 by (unfold Rdiv; nra).
    rewrite <- (RInt_Chasles g 0 (INR k / IZR n)); [|apply modulus_ex_RInt; auto; lra|apply modulus_ex_RInt; auto; lra].
    rewrite seq_S, map_app. cbn [map]. assert (forall l1 l2, Rsum (l1 ++ l2) = Rsum l1 + Rsum l2) as -> by (induction l1; intros; cbn [app Rsum]; [lra|rewrite IHl1; lra]).
    cbn [Rsum]. rewrite Rplus_0_r. unfold Rdiv at 1. rewrite Rmult_plus_distr_r. apply (Rplus_le_compat (_) (RInt g 0 (INR k / IZR n))); [exact IH|].
    replace (L (0 + k)%nat * / IZR n) with (RInt (fun _ => L k) (INR k / IZR n) ((INR k + 1) / IZR n)).
    + apply RInt_le; [exact H2|apply ex_RInt_const|apply modulus_ex_RInt; auto; lra|]. intros y Hy. apply HL; [exact Hy|lra].
    + rewrite RInt_const. unfold scal; cbn. unfold mult; cbn. field. lra.
Qed.

Lemma mean_cells_S n d (lo : list Z -> R) : (0 < n)%Z ->
  mean (map lo (cells n (S d))) = Rsum (map (fun a : nat => mean (map (fun c => lo (Z.of_nat a :: c)) (cells n d))) (seq 0 (Z.to_nat n))) / IZR n.
Proof.
  intros Hn. unfold mean at 1. rewrite map_length, <- INR_IZR_INZ, length_cells by exact Hn. cbn [cells pow].
  assert (0 < IZR n) as Hn' by (now apply IZR_lt). assert (0 < IZR n ^ d) as Hp by (now apply pow_lt).
  assert (forall l : list nat, Rsum (map lo (flat_map (fun a => map (cons a) (cells n d)) (map Z.of_nat l))) =
    IZR n ^ d * Rsum (map (fun a : nat => mean (map (fun c => lo (Z.of_nat a :: c)) (cells n d))) l)) as ->.
  { induction l as [|a l IH]; [cbn; lra|]. cbn [map flat_map Rsum]. rewrite map_app.
    assert (forall l1 l2, Rsum (l1 ++ l2) = Rsum l1 + Rsum l2) as -> by (induction l1; intros; cbn [app Rsum]; [lra|rewrite IHl1; lra]).
    rewrite IH, map_map, Rmult_plus_distr_l. f_equal. unfold mean. rewrite map_length, <- INR_IZR_INZ, length_cells by exact Hn. field. lra. }
  field. lra.
Qed.

Lemma lower_sum n d : (0 < n)%Z -> forall f lo, continuous_on_cube d f ->
  (forall c x, In c (cells n d) -> in_cell n c x -> lo c <= f x) -> mean (map lo (cells n d)) <= iterated d f.
Proof.
  intros Hn. induction d as [|d IH]; intros f lo Hf H.
  - unfold mean. cbn. assert (lo nil <= f nil) by (apply H; [now left|constructor]). lra.
  - rewrite mean_cells_S by exact Hn. cbn [iterated]. assert (Hn' := IZR_lt _ _ Hn).
    assert (INR (Z.to_nat n) = IZR n) as EN by (rewrite INR_IZR_INZ, Z2Nat.id by lia; reflexivity).
    assert (Hm := iterated_modulus d f Hf).
    assert (forall k : nat, (k <= Z.to_nat n)%nat -> INR k <= IZR n) as HK by (intros k Hk; rewrite <- EN; now apply le_INR).
    set (g := fun y => iterated d (fun l => f (y :: l))) in *.
    generalize (pieces g (fun a => if (a <? Z.to_nat n)%nat then mean (map (fun c => lo (Z.of_nat a :: c)) (cells n d)) else g 1 - 1) n Hn Hm).
    intros HP.
    replace 1 with (INR (Z.to_nat n) / IZR n) at 1 by (rewrite EN; field; lra).
    rewrite (map_ext_in _ (fun a => if (a <? Z.to_nat n)%nat then mean (map (fun c => lo (Z.of_nat a :: c)) (cells n d)) else g 1 - 1)).
    + apply HP; [|rewrite EN; lra]. intros a y Hy Hy1. assert (0 <= INR a) as Ha0 by apply pos_INR.
      assert (0 < / IZR n) as Hi by (now apply Rinv_0_lt_compat).
      assert (0 <= INR a / IZR n) as Ha1 by (unfold Rdiv; nra).
      destruct (Nat.ltb_spec a (Z.to_nat n)) as [Ha|Ha].
      * apply IH; [apply cont_slice; auto; lra|]. intros c x Hc Hx. apply H.
        -- apply in_cells. apply in_cells in Hc. destruct Hc as [Hl Hc]. split; [cbn; lia|]. constructor; [lia|exact Hc].
        -- constructor; [|exact Hx]. rewrite <- INR_IZR_INZ. lra.
      * exfalso. apply le_INR in Ha. rewrite EN in Ha. assert (1 <= INR a / IZR n); [|lra].
        apply Rmult_le_reg_r with (IZR n); [lra|]. unfold Rdiv. rewrite Rmult_assoc, Rinv_l; lra.
    + intros a Ha%in_seq. destruct (Nat.ltb_spec a (Z.to_nat n)); [reflexivity|lia].
Qed.

Lemma cont_opp d f : continuous_on_cube d f -> continuous_on_cube d (fun x => - f x).
Proof.
  intros H eps He. destruct (H eps He) as (del & Hd & HH). exists del. split; [exact Hd|]. intros x y Hx Hy Hxy.
  replace (- f x - - f y) with (- (f x - f y)) by ring. rewrite Rabs_Ropp. auto.
Qed.
Lemma iterated_opp d : forall f, continuous_on_cube d f -> iterated d (fun x => - f x) = - iterated d f.
Proof.
  induction d as [|d IH]; intros f Hf; [reflexivity|]. cbn [iterated].
  transitivity (RInt (fun y => opp (iterated d (fun l => f (y :: l)))) 0 1).
  - apply RInt_ext. rewrite Rmin_left, Rmax_right by lra. intros y Hy. apply (IH (fun l => f (y :: l))). apply cont_slice; auto. lra.
  - apply (RInt_opp (V := R_CompleteNormedModule)). apply modulus_ex_RInt; try lra. now apply iterated_modulus.
Qed.

Theorem continuous_integral d f : continuous_on_cube d f -> cube_integral d f (iterated d f).
Proof.
  intros Hf eps He. destruct (Hf (eps / 3) ltac:(lra)) as (del & Hd & H).
  destruct (archimed_cor1 del Hd) as (n & Hn1 & Hn2).
  set (corner := fun c : list Z => map (fun a => IZR a / IZR (Z.of_nat n)) c).
  assert (0 < IZR (Z.of_nat n)) as Hn' by (apply IZR_lt; lia).
  assert (Hc : forall c x, In c (cells (Z.of_nat n) d) -> in_cell (Z.of_nat n) c x -> Rabs (f x - f (corner c)) < eps / 3).
  { intros c x Hc Hx. apply in_cells in Hc. destruct Hc as [Hl Hc].
    assert (HH : in_cube (length c) x /\ in_cube (length c) (corner c) /\ Forall2 (fun a b => Rabs (a - b) < del) x (corner c)).
    { clear Hl. revert x Hx Hc. induction c as [|a c IH]; intros x Hx Hc; inversion Hx as [|? y ? x' Hy Hx']; subst.
      - repeat split; constructor.
      - inversion_clear Hc as [|? ? Ha Hc']. destruct (IH x' Hx' Hc') as ((L1 & F1) & (L2 & F2) & F3).
        assert (0 <= IZR a) by (apply IZR_le; lia). assert (IZR a + 1 <= IZR (Z.of_nat n)) by (rewrite <- plus_IZR; apply IZR_le; lia).
        assert (0 < / IZR (Z.of_nat n)) by (now apply Rinv_0_lt_compat).
        assert (0 <= IZR a / IZR (Z.of_nat n)) by (unfold Rdiv; nra).
        assert ((IZR a + 1) / IZR (Z.of_nat n) <= 1). { apply Rmult_le_reg_r with (IZR (Z.of_nat n)); [lra|]. unfold Rdiv. rewrite Rmult_assoc, Rinv_l; lra. }
        assert ((IZR a + 1) / IZR (Z.of_nat n) = IZR a / IZR (Z.of_nat n) + / IZR (Z.of_nat n)) by (field; lra).
        cbn [corner map]. fold (corner c). repeat split.
        + cbn; lia. + constructor; [lra|exact F1]. + cbn; lia. + constructor; [lra|exact F2].
        + constructor; [|exact F3]. rewrite <- INR_IZR_INZ in *. rewrite Rabs_pos_eq; lra. }
    rewrite Hl in HH. destruct HH as (H1 & H2 & H3). auto. }
  assert (Hz : (0 < Z.of_nat n)%Z) by lia.
  exists (Z.of_nat n), (fun c => f (corner c) - eps / 3), (fun c => f (corner c) + eps / 3). split; [exact Hz|].
  split; [intros c x H1 H2; specialize (Hc c x H1 H2); apply Rabs_def2 in Hc; lra|].
  set (mid := mean (map (fun c => f (corner c)) (cells (Z.of_nat n) d))).
  assert (Hp : 0 < INR (length (cells (Z.of_nat n) d))) by (rewrite length_cells by exact Hz; now apply pow_lt).
  assert (Emean : forall k, mean (map (fun c => f (corner c) + k) (cells (Z.of_nat n) d)) = mid + k).
  { intros k. unfold mid, mean. rewrite !map_length, <- INR_IZR_INZ, Rsum_plus, Rsum_const. field. lra. }
  assert (L := lower_sum (Z.of_nat n) d Hz f (fun c => f (corner c) - eps / 3) Hf
    ltac:(intros c x H1 H2; specialize (Hc c x H1 H2); apply Rabs_def2 in Hc; lra)).
  assert (U := lower_sum (Z.of_nat n) d Hz (fun x => - f x) (fun c => - 1 * (f (corner c) + eps / 3)) (cont_opp d f Hf)
    ltac:(intros c x H1 H2; specialize (Hc c x H1 H2); apply Rabs_def2 in Hc; lra)).
  rewrite iterated_opp in U by exact Hf.
  assert (mean (map (fun c => -1 * (f (corner c) + eps / 3)) (cells (Z.of_nat n) d)) = - (mid + eps / 3)) as E3.
  { rewrite <- Emean. unfold mean. rewrite Rsum_scale, !map_length. unfold Rdiv. ring. }
  unfold Rminus in L |- *. rewrite Emean in L |- *. rewrite E3 in U. rewrite Emean. lra.
Qed.
