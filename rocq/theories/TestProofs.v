(** * Proofs about package test *)
From Coq Require Import ZArith Reals Bool List Lra Lia Psatz.
From Flocq Require Import Core.
From Flocq Require IEEE754.BinarySingleNaN.
Import IEEE754.BinarySingleNaN.
From Verif Require Import Num NumLaws Outcome B64 GeomModel GeomSpec ColorModel ObjModel ObjSpec ObjProofs PrimProofs ParamProofs FloatErr TestModel TestSpec.
Import ListNotations.
Local Open Scope R_scope.

(** ** Sums *)
Lemma upto_S n : upto (Z.of_nat (S n)) = upto (Z.of_nat n) ++ [Z.of_nat n].
Proof. unfold upto. rewrite !Nat2Z.id, seq_S, map_app. reflexivity. Qed.
Lemma fold_upto (f : Z -> Z) n : forall a, IZR (fold_left (fun acc x => acc + f x)%Z (upto (Z.of_nat n)) a) = IZR a + total n (fun x => IZR (f (Z.of_nat x))).
Proof.
  induction n as [|n IH]; intros a; [cbn; ring|]. rewrite upto_S, fold_left_app. cbn [fold_left total]. rewrite plus_IZR, IH. ring.
Qed.
Lemma fold_upto2 (f : Z -> Z -> Z) w n : forall a, IZR (fold_left (fun acc y => fold_left (fun acc x => acc + f y x)%Z (upto (Z.of_nat w)) acc) (upto (Z.of_nat n)) a) =
  IZR a + total n (fun y => total w (fun x => IZR (f (Z.of_nat y) (Z.of_nat x)))).
Proof.
  induction n as [|n IH]; intros a; [cbn; ring|]. rewrite upto_S, fold_left_app. cbn [fold_left total]. rewrite fold_upto, IH. ring.
Qed.
Lemma total_ext n f g : (forall i, (i < n)%nat -> f i = g i) -> total n f = total n g.
Proof. induction n as [|n IH]; intros H; [reflexivity|]. cbn [total]. rewrite IH, H; auto. Qed.
Lemma total_scal n f k : total n (fun i => k * f i) = k * total n f.
Proof. induction n as [|n IH]; [cbn; ring|]. cbn [total]. rewrite IH. ring. Qed.
Lemma total_pos n f : (forall i, (i < n)%nat -> 0 <= f i) -> 0 <= total n f.
Proof. induction n as [|n IH]; intros H; cbn [total]; [lra|]. assert (0 <= f n) by (apply H; lia). assert (0 <= total n f) by (apply IH; intros; apply H; lia). lra. Qed.
Lemma total_le n f i : (forall j, (j < n)%nat -> 0 <= f j) -> (i < n)%nat -> f i <= total n f.
Proof.
  induction n as [|n IH]; intros H Hi; [lia|]. cbn [total]. destruct (Nat.eq_dec i n) as [->|N].
  - assert (0 <= total n f) by (apply total_pos; intros; apply H; lia). lra.
  - assert (0 <= f n) by (apply H; lia). assert (f i <= total n f) by (apply IH; [intros; apply H; lia|lia]). lra.
Qed.
Lemma diffChan_abs a b : diffChan a b = Z.abs (a - b).
Proof. unfold diffChan. destruct (Z.ltb_spec (a - b) 0); lia. Qed.
Lemma diffPixel_apart p q : IZR (diffPixel p q) = 65535 * apart p q.
Proof.
  destruct p as [[r1 g1] b1], q as [[r2 g2] b2]. unfold diffPixel, apart. rewrite !diffChan_abs, !plus_IZR, !abs_IZR, !minus_IZR. field.
Qed.
Lemma apart_pos p q : 0 <= apart p q.
Proof. destruct p as [[r1 g1] b1], q as [[r2 g2] b2]. unfold apart. assert (A := Rabs_pos (IZR r1 - IZR r2)). assert (B := Rabs_pos (IZR g1 - IZR g2)). assert (C := Rabs_pos (IZR b1 - IZR b2)). lra. Qed.
Lemma apart_zero p q : apart p q = 0 <-> p = q.
Proof.
  destruct p as [[r1 g1] b1], q as [[r2 g2] b2]. unfold apart. split.
  - intros H. assert (A := Rabs_pos (IZR r1 - IZR r2)). assert (B := Rabs_pos (IZR g1 - IZR g2)). assert (C := Rabs_pos (IZR b1 - IZR b2)).
    assert (E : forall x y, Rabs (IZR x - IZR y) = 0 -> x = y).
    { intros x y E. apply eq_IZR. destruct (Req_dec (IZR x - IZR y) 0) as [Z|N]; [lra|]. apply Rabs_no_R0 in N. lra. }
    rewrite (E r1 r2), (E g1 g2), (E b1 b2) by lra. reflexivity.
  - intros E. injection E as -> -> ->. unfold Rminus. rewrite !Rplus_opp_r, Rabs_R0. lra.
Qed.
Definition sum_apart (w h : nat) (A B : shot) : R :=
  total h (fun y => total w (fun x => apart (shAt A (Z.of_nat x) (Z.of_nat y)) (shAt B (Z.of_nat x) (Z.of_nat y)))).
Lemma diffSum_apart w h A B : sized w h A -> IZR (diffSum A B) = 65535 * sum_apart w h A B.
Proof.
  intros (_ & _ & Ex & Ey). unfold diffSum. rewrite Ex, Ey, (fold_upto2 (fun y x => diffPixel (shAt A x y) (shAt B x y))).
  rewrite Rplus_0_l. unfold sum_apart. rewrite <- total_scal. apply total_ext. intros y _. rewrite <- total_scal. apply total_ext. intros x _. apply diffPixel_apart.
Qed.
Lemma sum_apart_pos w h A B : 0 <= sum_apart w h A B.
Proof. apply total_pos. intros y _. apply total_pos. intros x _. apply apart_pos. Qed.
Lemma sum_apart_le w h A B x y : (x < w)%nat -> (y < h)%nat -> apart (shAt A (Z.of_nat x) (Z.of_nat y)) (shAt B (Z.of_nat x) (Z.of_nat y)) <= sum_apart w h A B.
Proof.
  intros Hx Hy. unfold sum_apart.
  eapply Rle_trans; [|apply (total_le h (fun y => total w (fun x => apart (shAt A (Z.of_nat x) (Z.of_nat y)) (shAt B (Z.of_nat x) (Z.of_nat y)))) y); [|exact Hy]].
  - apply (total_le w (fun x => apart (shAt A (Z.of_nat x) (Z.of_nat y)) (shAt B (Z.of_nat x) (Z.of_nat y))) x); [|exact Hx]. intros; apply apart_pos.
  - intros; apply total_pos; intros; apply apart_pos.
Qed.
Lemma sum_apart_zero w h A B : sum_apart w h A B = 0 <-> forall x y, (x < w)%nat -> (y < h)%nat -> shAt A (Z.of_nat x) (Z.of_nat y) = shAt B (Z.of_nat x) (Z.of_nat y).
Proof.
  split.
  - intros H x y Hx Hy. apply apart_zero. assert (L := sum_apart_le w h A B x y Hx Hy). assert (P := apart_pos (shAt A (Z.of_nat x) (Z.of_nat y)) (shAt B (Z.of_nat x) (Z.of_nat y))). lra.
  - intros H. unfold sum_apart. transitivity (total h (fun _ => 0 * 0)); [|rewrite (total_scal h (fun _ => 0) 0); ring].
    apply total_ext. intros y Hy. transitivity (total w (fun _ => 0 * 0)); [|rewrite (total_scal w (fun _ => 0) 0); ring].
    apply total_ext. intros x Hx. rewrite Rmult_0_l. apply apart_zero, H; assumption.
Qed.

(** ** Diff *)
Theorem diff_mean (w h : nat) (A B : shot) : (0 < w)%nat -> (0 < h)%nat -> sized w h A ->
  diffShots A B = 257 * (INR w * INR h) / (INR w + 1)² * mean_deviation w h (shAt A) (shAt B).
Proof.
  intros Hw Hh S. unfold diffShots. destruct S as (Mx & My & Ex & Ey). assert (S : sized w h A) by (repeat split; assumption).
  rewrite Mx, Ex, Z.sub_0_r. rnum. change (3 * 255)%Z with 765%Z. rewrite (diffSum_apart w h A B S), mult_IZR, plus_IZR, <- INR_IZR_INZ.
  unfold mean_deviation. fold (sum_apart w h A B). assert (0 < INR w) by (apply lt_0_INR; lia). assert (0 < INR h) by (apply lt_0_INR; lia).
  unfold Rsqr. field. lra.
Qed.
Theorem passed_pixels (w h : nat) (A B : shot) (tol : R) (x y : nat) : sized w h A -> passes tol A B = true -> (x < w)%nat -> (y < h)%nat ->
  apart (shAt A (Z.of_nat x) (Z.of_nat y)) (shAt B (Z.of_nat x) (Z.of_nat y)) <= tol * (INR w + 1)² * 3 / 257.
Proof.
  intros S P Hx Hy. unfold passes, diffShots in P. destruct S as (Mx & My & Ex & Ey). assert (S : sized w h A) by (repeat split; assumption).
  apply negb_true_iff in P. revert P. rnum. intros P. apply Rltb_false in P. change (3 * 255)%Z with 765%Z in P. rewrite Mx, Ex, Z.sub_0_r, (diffSum_apart w h A B S), mult_IZR, plus_IZR, <- INR_IZR_INZ in P.
  assert (L := sum_apart_le w h A B x y Hx Hy). assert (0 <= INR w) by apply pos_INR.
  assert (K : 0 < (INR w + 1)²) by (unfold Rsqr; nra).
  assert (65535 * sum_apart w h A B <= tol * (765 * (INR w + 1)²)).
  { apply Rmult_le_compat_r with (r := 765 * (INR w + 1)²) in P; [|lra]. unfold Rsqr in *.
    replace (65535 * sum_apart w h A B / (765 * ((INR w + 1) * (INR w + 1))) * (765 * ((INR w + 1) * (INR w + 1)))) with (65535 * sum_apart w h A B) in P by (field; lra). exact P. }
  lra.
Qed.

(** in double precision: no tolerance *)
Theorem no_tolerance (w h : nat) (A B : shot) : sized w h A -> (Z.of_nat w < 2 ^ 20)%Z -> (diffSum A B <= 2 ^ 53)%Z ->
  passes (nofZ 0 : b64) A B = true <-> forall x y, (x < w)%nat -> (y < h)%nat -> shAt A (Z.of_nat x) (Z.of_nat y) = shAt B (Z.of_nat x) (Z.of_nat y).
Proof.
  intros S Hw HD. rewrite <- sum_apart_zero. assert (E := diffSum_apart w h A B S). assert (P := sum_apart_pos w h A B).
  assert (D0 : (0 <= diffSum A B)%Z) by (apply le_IZR; lra).
  unfold passes, diffShots. destruct S as (Mx & My & Ex & Ey). rewrite Mx, Ex, Z.sub_0_r. change (3 * 255)%Z with 765%Z.
  change (2 ^ 53)%Z with 9007199254740992%Z in HD. change (2 ^ 20)%Z with 1048576%Z in Hw.
  set (n := ((Z.of_nat w + 1) * (Z.of_nat w + 1))%Z). assert (Hn : (1 <= n <= 1099511627776)%Z) by (unfold n; nia). clearbody n.
  destruct (Z_b (diffSum A B)) as [Fd Ed]; [change (2 ^ 53)%Z with 9007199254740992%Z; lia|].
  destruct (Z_b n) as [Fn En]; [change (2 ^ 53)%Z with 9007199254740992%Z; lia|].
  destruct (Z_b 765) as [F7 E7]; [cbn; lia|]. destruct (Z_b 0) as [F0 E0]; [cbn; lia|].
  assert (Rn : 1 <= IZR n <= 1099511627776) by (split; apply IZR_le; lia).
  assert (Rd : 0 <= IZR (diffSum A B) <= 9007199254740992) by (split; apply IZR_le; lia).
  set (d := diffSum A B) in *. clearbody d.
  destruct (mul_u 50 (nofZ 765) (nofZ n) ltac:(lia) F7 Fn) as (Fm & Em & Mm).
  { rewrite E7, En. change (bpow radix2 50) with 1125899906842624. rewrite Rabs_pos_eq; lra. }
  rewrite E7, En in Em. apply Rabs_le_inv in Em. assert (U := u_small). assert (U0 := u_pos).
  set (m := nmul (nofZ 765) (nofZ n) : b64) in *. change (bpow radix2 50) with 1125899906842624 in *.
  assert (M1 : 764 <= B2R m) by lra. assert (M2 : B2R m <= 1125899906842624) by (apply Rabs_le_inv in Mm; lra).
  assert (I : 0 < / B2R m) by (apply Rinv_0_lt_compat; lra).
  assert (I2 : / B2R m <= 1) by (rewrite <- Rinv_1; apply Rinv_le; lra).
  assert (I3 : / 1125899906842624 <= / B2R m) by (apply Rinv_le; lra).
  destruct (bdiv_correct (nofZ d) m Fd ltac:(lra)) as [Fq Eq].
  { rewrite Ed. eapply Rle_trans; [|apply (bpow_big 53); lia]. change (bpow radix2 53) with 9007199254740992. unfold Rdiv. rewrite Rabs_pos_eq; nra. }
  rewrite Ed in Eq.
  set (q := ndiv (nofZ d) m : b64) in *. rewrite negb_true_iff, (bltb_eq (nofZ 0) q F0 Fq), E0.
  split.
  - intros H. apply Rltb_false in H. destruct (Rle_lt_or_eq_dec 0 (sum_apart w h A B) P) as [L|L]; [exfalso|now symmetry].
    assert (1 <= IZR d). { apply (IZR_le 1). assert (0 < d)%Z by (apply lt_IZR; lra). lia. }
    destruct (rnd_rel (IZR d / B2R m)) as (e & He & Er).
    { apply Rle_trans with (/ 1125899906842624). - cbn. lra. - unfold Rdiv. rewrite Rabs_pos_eq; nra. }
    rewrite Eq, Er in H. apply Rabs_le_inv in He. assert (0 < IZR d / B2R m) by (unfold Rdiv; nra). nra.
  - intros Z. apply Rltb_false. rewrite Eq. assert (D : IZR d = 0) by lra. rewrite D. unfold Rdiv. rewrite Rmult_0_l. unfold rnd. rewrite round_0; [lra|apply valid_rnd_N].
Qed.

(** witnesses: one pixel of black, one of white; a picture that is one pixel wider *)
Definition onePixel (v : Z) : shot := Shot 0 0 1 1 (fun x y => if ((x =? 0) && (y =? 0))%Z%bool then (v, v, v) else (0, 0, 0)%Z).
Definition blackAndWhite : shot := Shot 0 0 2 1 (fun x y => if ((x =? 1) && (y =? 0))%Z%bool then (65535, 65535, 65535)%Z else (0, 0, 0)%Z).
Lemma onePixel_ok v : (0 <= v <= 65535)%Z -> channels_ok (onePixel v).
Proof. intros H x y. cbn. destruct ((x =? 0)%Z && (y =? 0)%Z)%bool; lia. Qed.
Lemma onePixel_diff : diffSum (onePixel 0) (onePixel 65535) = 196605%Z.
Proof. vm_compute. reflexivity. Qed.
Theorem diff_above_one : exists A B, sized 1 1 A /\ sized 1 1 B /\ channels_ok A /\ channels_ok B /\ 64 < diffShots (F := R) A B.
Proof.
  exists (onePixel 0), (onePixel 65535). split; [repeat split; reflexivity|]. split; [repeat split; reflexivity|].
  split; [apply onePixel_ok; lia|]. split; [apply onePixel_ok; lia|]. unfold diffShots. rewrite onePixel_diff. cbn [onePixel shMaxX shMinX]. rnum.
  change (3 * 255)%Z with 765%Z. change ((1 - 0 + 1) * (1 - 0 + 1))%Z with 4%Z. lra.
Qed.
Theorem diff_one_sided : exists A B, sized 1 1 A /\ sized 2 1 B /\ channels_ok A /\ channels_ok B /\ diffShots (F := R) A B = 0 /\ 28 < diffShots (F := R) B A.
Proof.
  exists (onePixel 0), blackAndWhite. split; [repeat split; reflexivity|]. split; [repeat split; reflexivity|].
  split; [apply onePixel_ok; lia|]. split.
  { intros x y. cbn. destruct ((x =? 1)%Z && (y =? 0)%Z)%bool; lia. }
  unfold diffShots. assert (E1 : diffSum (onePixel 0) blackAndWhite = 0%Z) by (vm_compute; reflexivity).
  assert (E2 : diffSum blackAndWhite (onePixel 0) = 196605%Z) by (vm_compute; reflexivity). rewrite E1, E2. cbn [onePixel blackAndWhite shMaxX shMinX]. rnum.
  change (3 * 255)%Z with 765%Z. change ((1 - 0 + 1) * (1 - 0 + 1))%Z with 4%Z. change ((2 - 0 + 1) * (2 - 0 + 1))%Z with 9%Z. split; lra.
Qed.

(** ** The error of renderings *)
Lemma umin_Rmin x : umin 1 x = Rmin 1 x.
Proof. unfold umin. rnum. destruct (Rltb 1 x) eqn:E; [apply Rltb_true in E; rewrite Rmin_left; lra|apply Rltb_false in E; rewrite Rmin_right; lra]. Qed.
Lemma len2_below (c k : color R) : let a := clampColor c in let b := clampColor k in
  vlen2 (vsub (Vec (cR a) (cG a) (cB a)) (Vec (cR b) (cG b) (cB b))) = norm2 (minus3 (below1 c) (below1 k)).
Proof.
  cbv zeta. unfold clampColor. cbn [cR cG cB]. rnum. change (@nofZ R NumR 1) with 1. rewrite !umin_Rmin. reflexivity.
Qed.
Definition rowStep (gold : list (list (color R))) (iy : nat) (acc : outcome R) (p : nat * color R) : outcome R :=
  let '(ix, c) := p in obind acc (fun e =>
      match nth_error gold iy with
      | None => Panic
      | Some g => match nth_error g ix with
        | None => Panic
        | Some k => let a := clampColor c in let b := clampColor k in
          Val (nadd e (vlen2 (vsub (Vec (cR a) (cG a) (cB a)) (Vec (cR b) (cG b) (cB b)))))
        end
      end).
Lemma sum_squares_cons a b l : sum_squares ((a, b) :: l) = norm2 (minus3 (below1 a) (below1 b)) + sum_squares l.
Proof. reflexivity. Qed.
Lemma rowStep_eq gold iy g ix k e c : nth_error gold iy = Some g -> nth_error g ix = Some k ->
  rowStep gold iy (Val e) (ix, c) = Val (e + norm2 (minus3 (below1 c) (below1 k))).
Proof. intros H1 H2. unfold rowStep. cbn [obind]. rewrite H1, H2. cbv zeta. rewrite (len2_below c k). reflexivity. Qed.
Lemma row_sum : forall (row g pre : list (color R)) gold iy e, nth_error gold iy = Some (pre ++ g) -> length row = length g ->
  fold_left (rowStep gold iy) (combine (seq (length pre) (length row)) row) (Val e) = Val (e + sum_squares (combine row g)).
Proof.
  induction row as [|c row IH]; intros g pre gold iy e HN HL.
  - destruct g; [|discriminate]. cbn. f_equal. ring.
  - destruct g as [|k g]; [discriminate|]. injection HL as HL. cbn [length seq combine fold_left].
    rewrite (rowStep_eq gold iy (pre ++ k :: g) (length pre) k e c HN) by (rewrite nth_error_app2 by lia; now rewrite Nat.sub_diag).
    replace (S (length pre)) with (length (pre ++ [k])) by (rewrite app_length; cbn; lia).
    rewrite (IH g (pre ++ [k]) gold iy); [|rewrite <- app_assoc; exact HN|exact HL].
    f_equal. cbn [combine]. rewrite sum_squares_cons. ring.
Qed.
Lemma sum_squares_app a b : sum_squares (a ++ b) = sum_squares a + sum_squares b.
Proof. induction a as [|[x y] a IH]; [change (sum_squares b = 0 + sum_squares b); ring|]. rewrite <- app_comm_cons, !sum_squares_cons, IH. ring. Qed.
Lemma combine_app_eq {A B} : forall (a : list A) (b : list B) a' b', length a = length b -> combine (a ++ a') (b ++ b') = combine a b ++ combine a' b'.
Proof. induction a as [|x a IH]; intros [|y b] a' b' H; try discriminate; [reflexivity|]. injection H as H. cbn. now rewrite IH. Qed.
Lemma img_sum w : forall (img gold pre : list (list (color R))) e, length img = length gold ->
  Forall (fun row => length row = w) img -> Forall (fun row => length row = w) gold ->
  fold_left (fun acc '(iy, row) => obind acc (fun e => omap (fun ex => nadd e ex) (errSqRow row (pre ++ gold) iy)))
    (combine (seq (length pre) (length img)) img) (Val e) = Val (e + sum_squares (combine (concat img) (concat gold))).
Proof.
  induction img as [|row img IH]; intros gold pre e HL Fi Fg.
  - destruct gold; [|discriminate]. cbn. f_equal. ring.
  - destruct gold as [|g gold]; [discriminate|]. injection HL as HL. inversion Fi as [|? ? Ri Fi']; subst. inversion Fg as [|? ? Rg Fg']; subst.
    cbn [length seq combine fold_left obind].
    assert (E : errSqRow row (pre ++ g :: gold) (length pre) = Val (0 + sum_squares (combine row g))).
    { apply (row_sum row g nil); [|lia]. rewrite nth_error_app2 by lia. now rewrite Nat.sub_diag. }
    rewrite E. cbn [omap].
    replace (S (length pre)) with (length (pre ++ [g])) by (rewrite app_length; cbn; lia).
    replace (pre ++ g :: gold) with ((pre ++ [g]) ++ gold) by (rewrite <- app_assoc; reflexivity).
    rewrite IH by auto. f_equal. cbn [concat]. rewrite combine_app_eq by lia. rewrite sum_squares_app. rnum. ring.
Qed.
Lemma concat_length w (l : list (list (color R))) : Forall (fun row => length row = w) l -> length (concat l) = (w * length l)%nat.
Proof. induction 1 as [|r l H F IH]; [cbn; lia|]. cbn [concat length]. rewrite app_length, IH, H. lia. Qed.
Lemma sum_squares_pos l : 0 <= sum_squares l.
Proof.
  induction l as [|[a b] l IH]; [cbn; lra|]. rewrite sum_squares_cons.
  assert (0 <= norm2 (minus3 (below1 a) (below1 b))) by (unfold norm2, dot3; nra). lra.
Qed.
Theorem rmsError_eq (w : nat) (img gold : list (list (color R))) : (0 < w)%nat -> img <> nil -> same_shape w img gold ->
  rmsError img gold = Val (rms img gold / sqrt (INR (length (concat img)))).
Proof.
  intros Hw Hi (HL & Fi & Fg). unfold rmsError, errSq. rewrite (img_sum w img gold nil) by auto. cbn [omap]. f_equal.
  assert (EN : IZR (numPixels gold) = INR (length (concat img))).
  { rewrite (concat_length w img Fi), HL. destruct gold as [|g gold]; [destruct img; [congruence|discriminate]|].
    unfold numPixels. inversion Fg as [|? ? Rg Fg']; subst. rewrite mult_IZR, <- !INR_IZR_INZ, <- mult_INR. reflexivity. }
  rnum. rewrite EN. unfold rms. set (S := sum_squares _). assert (HS : 0 <= S) by apply sum_squares_pos.
  assert (N : 0 < INR (length (concat img))).
  { apply lt_0_INR. rewrite (concat_length w img Fi). destruct img; [congruence|]. cbn [length]. nia. }
  set (n := INR (length (concat img))) in *. clearbody n S. rewrite Rplus_0_l.
  assert (Q : sqrt n * sqrt n = n) by (apply sqrt_sqrt; lra). assert (0 < sqrt n) by (apply sqrt_lt_R0; exact N).
  rewrite sqrt_div_alt by exact N. unfold Rdiv. rewrite Rmult_assoc, <- Rinv_mult, Q. reflexivity.
Qed.
Theorem rmsError_small : exists img gold, same_shape 2 img gold /\ length (concat img) = 4%nat /\ rmsError (F := R) img gold <> Val (rms img gold).
Proof.
  exists [[black; black]; [black; black]], [[Color 1 1 1; Color 1 1 1]; [Color 1 1 1; Color 1 1 1]].
  assert (S : same_shape 2 [[black; black]; [black; black]] [[Color 1 1 1; Color 1 1 1]; [Color 1 1 1; Color 1 1 1]]) by (repeat constructor).
  split; [exact S|]. split; [reflexivity|]. rewrite (rmsError_eq 2) by (auto; discriminate).
  change (length (concat [[black; black]; [black; black]])) with 4%nat. replace (INR 4) with (2 * 2) by (cbn; lra). rewrite sqrt_square by lra.
  set (q := rms _ _). intros E. injection E as E. assert (P : 0 < q).
  { unfold q, rms. apply sqrt_lt_R0. apply Rdiv_lt_0_compat; [|apply lt_0_INR; cbn; lia].
    change (concat [[black; black]; [black; black]]) with [black (F := R); black; black; black]. change (concat [[Color 1 1 1; Color 1 1 1]; [Color 1 1 1; Color 1 1 1]]) with [Color 1 1 1; Color 1 1 1; Color 1 1 1; Color 1 1 1].
    cbn [combine]. rewrite !sum_squares_cons. change (sum_squares nil) with 0.
    assert (K : norm2 (minus3 (below1 black) (below1 (Color 1 1 1))) = 3).
    { unfold below1, black, norm2, minus3, dot3. cbn [cR cG cB vx vy vz]. change (@nofZ R NumR 0) with 0. rewrite (Rmin_right 1 0), (Rmin_left 1 1) by lra. ring. }
    rewrite K. lra. }
  lra.
Qed.
