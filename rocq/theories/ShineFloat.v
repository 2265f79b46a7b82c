(** * Places, offsets and lamps in double precision *)
From Coq Require Import ZArith Reals Bool List Lra Lia.
From Flocq Require Import Core.
From Flocq Require IEEE754.BinarySingleNaN.
Import IEEE754.BinarySingleNaN.
From Verif Require Import Num NumLaws Outcome B64 GeomModel ColorModel ObjModel SceneModel FloatErr FloatSpec RectFloat CamFloat SphereFloat BoxFloat MeshFloat MirrorSpec MirrorFloat DullSpec DullProofs ShineSpec.
Import ListNotations.
Local Open Scope R_scope.

Ltac bp := repeat match goal with
  | |- context [bpow radix2 ?k] => match k with Zneg _ => idtac | Zpos _ => idtac | Z0 => idtac end; let v := eval compute in (bpow radix2 k) in change (bpow radix2 k) with v
  | H : context [bpow radix2 ?k] |- _ => match k with Zneg _ => idtac | Zpos _ => idtac | Z0 => idtac end; let v := eval compute in (bpow radix2 k) in change (bpow radix2 k) with v in H
  end.
Lemma u_u : 0 < u <= / 9000000000000000.
Proof. exact (conj u_pos u_small). Qed.

(** ** Components of directions *)
Lemma comp2 (v : vec b64) : all3 (fun x => is_finite x = true) v -> rdot v v <= 2 -> all3 (at_most 1) v.
Proof.
  intros (F1 & F2 & F3) H. unfold rdot in H. unfold all3, at_most. generalize dependent (B2R (vx v)). generalize dependent (B2R (vy v)). generalize dependent (B2R (vz v)).
  intros c b a H. change (bpow radix2 1) with 2. repeat split; try assumption; apply Rabs_le; nra.
Qed.
Lemma some_half (v : vec b64) : 999 / 1000 <= rdot v v -> / 2 <= Rabs (B2R (vx v)) \/ / 2 <= Rabs (B2R (vy v)) \/ / 2 <= Rabs (B2R (vz v)).
Proof.
  unfold rdot. generalize (B2R (vx v)), (B2R (vy v)), (B2R (vz v)). intros a b c H.
  destruct (Rle_or_lt (/ 2) (Rabs a)) as [A|A]; [now left|]. destruct (Rle_or_lt (/ 2) (Rabs b)) as [B|B]; [now right; left|]. right; right.
  apply Rnot_lt_le. intros C. apply Rabs_def2 in A, B, C. nra.
Qed.
Lemma flip_am (n d : vec b64) : all3 (at_most 1) n -> all3 (at_most 1) (flipTowards n d).
Proof.
  unfold flipTowards. destruct (nltb _ _); [|exact (fun H => H)]. intros (A & B & C). unfold vmul, all3. cbn [vx vy vz].
  assert (M : at_most 0 (nofZ (-1))). { destruct (Z_b (-1) ltac:(lia)) as [F E]. split; [exact F|]. rewrite E. cbn. rewrite Rabs_left by lra. lra. }
  exact (conj (am_mul 0 1 _ _ ltac:(lia) M A) (conj (am_mul 0 1 _ _ ltac:(lia) M B) (am_mul 0 1 _ _ ltac:(lia) M C))).
Qed.
(** ... exactly *)
Lemma flip_R (n d : vec b64) : all3 (at_most 1) n -> all3 (fun x => is_finite x = true) (flipTowards n d) /\ rdot (flipTowards n d) (flipTowards n d) = rdot n n.
Proof.
  unfold flipTowards. destruct (nltb _ _); [|intros ((A & _) & (B & _) & C & _); exact (conj (conj A (conj B C)) eq_refl)]. intros (A & B & C). unfold vmul, all3, rdot. cbn [vx vy vz].
  destruct (Z_b (-1) ltac:(lia)) as [F E].
  assert (X : forall x : b64, at_most 1 x -> is_finite (nmul (nofZ (-1)) x) = true /\ B2R (nmul (nofZ (-1)) x) = - B2R x).
  { intros x [Fx Hx]. assert (P : B2R (nofZ (-1) : b64) * B2R x = - B2R x) by (rewrite E; ring).
    destruct (bmul_correct (nofZ (-1)) x F Fx) as [G1 G2]; [rewrite P, Rabs_Ropp; eapply Rle_trans; [exact Hx|now apply bpow_big]|]. split; [exact G1|]. rewrite G2, P. apply rnd_id. apply generic_format_opp, generic_format_B2R. }
  destruct (X _ A) as [A1 A2], (X _ B) as [B1 B2], (X _ C) as [C1 C2]. refine (conj (conj A1 (conj B1 C1)) _). rewrite A2, B2, C2. ring.
Qed.

(** ** A step of tracer.Tiny along a normal *)
Lemma step_u (x n : b64) B : is_finite x = true -> Rabs (B2R x) <= B -> B <= 1048577 -> at_most 1 n ->
  is_finite (nadd x (nmul tiny n)) = true /\ Rabs (B2R (nadd x (nmul tiny n)) - B2R x) <= bpow radix2 (-19) /\ Rabs (B2R (nadd x (nmul tiny n))) <= B + bpow radix2 (-19).
Proof.
  intros Fx Hx HB [Fn Hn]. destruct tiny_u as [Ft Ht]. pose proof u_u as U. change (bpow radix2 1) with 2 in Hn.
  assert (P : Rabs (B2R (tiny : b64) * B2R n) <= 164 / 100000000) by (rewrite Rabs_mult, (Rabs_pos_eq (B2R (tiny : b64))) by lra; pose proof (Rabs_pos (B2R n)); nra).
  destruct (mul_u (-19) (tiny : b64) n ltac:(lia) Ft Fn ltac:(bp; lra)) as (Fm & Em & _). bp.
  set (m := nmul (tiny : b64) n) in *. clearbody m. generalize dependent (B2R (tiny : b64) * B2R n). intros y P Em. apply Rabs_le_inv in P, Em, Hx.
  assert (M : Rabs (B2R m) <= 165 / 100000000) by (apply Rabs_le; lra). apply Rabs_le_inv in M.
  destruct (add_u 21 x m ltac:(lia) Fx Fm ltac:(bp; apply Rabs_le; lra)) as (Fa & Ea & _). bp. apply Rabs_le_inv in Ea. split; [exact Fa|].
  split; apply Rabs_le; lra.
Qed.
Lemma step3 (x n : vec b64) B : all3 (fun x => is_finite x = true /\ Rabs (B2R x) <= B) x -> B <= 1048577 -> all3 (at_most 1) n ->
  all3 (fun x => is_finite x = true /\ Rabs (B2R x) <= B + bpow radix2 (-19)) (vmadd x tiny n) /\
  Rabs (B2R (vx (vmadd x tiny n)) - B2R (vx x)) <= bpow radix2 (-19) /\ Rabs (B2R (vy (vmadd x tiny n)) - B2R (vy x)) <= bpow radix2 (-19) /\ Rabs (B2R (vz (vmadd x tiny n)) - B2R (vz x)) <= bpow radix2 (-19).
Proof.
  intros ((A & A') & (B' & B'') & C & C') HB (N1 & N2 & N3). unfold vmadd, all3. cbn [vx vy vz].
  destruct (step_u _ _ B A A' HB N1) as (X1 & X2 & X3). destruct (step_u _ _ B B' B'' HB N2) as (Y1 & Y2 & Y3). destruct (step_u _ _ B C C' HB N3) as (Z1 & Z2 & Z3).
  repeat split; assumption.
Qed.

(** ** The way to a lamp *)
Lemma sub_far (x y : b64) : at_most 20 x -> is_finite y = true -> Rabs (B2R y) <= 1048577 -> at_most 22 (nsub x y) /\ (bpow radix2 (-19) <= Rabs (B2R x - B2R y) -> at_least (-19) (nsub x y)).
Proof.
  intros [Fx Hx] Fy Hy. bp.
  assert (H : Rabs (B2R x - B2R y) <= 4194304) by (apply Rabs_le_inv in Hx, Hy; apply Rabs_le; lra).
  destruct (bsub_correct x y Fx Fy) as [F E]; [eapply Rle_trans; [exact H|]; change 4194304 with (bpow radix2 22); now apply bpow_big|].
  split; [split; [exact F|]|].
  - destruct (sub_u 22 x y ltac:(lia) Fx Fy ltac:(bp; lra)) as (_ & _ & M). exact M.
  - intros L. unfold at_least. rewrite E. change (/ 524288) with (bpow radix2 (-19)). assert (FB : fmt (bpow radix2 (-19))) by (apply fmt_bpow; lia). change (/ 524288) with (bpow radix2 (-19)) in L. pose proof (bpow_gt_0 radix2 (-19)) as P.
    destruct (Rle_or_lt 0 (B2R x - B2R y)) as [S|S].
    + rewrite Rabs_pos_eq in L by exact S. rewrite Rabs_pos_eq by (apply rnd_nonneg, S). now apply rnd_ge.
    + rewrite Rabs_left in L by exact S. assert (Q : rnd (B2R x - B2R y) <= - bpow radix2 (-19)).
      { apply rnd_le; [now apply generic_format_opp|]. assert (L' : bpow radix2 (-19) <= - (B2R x - B2R y)) by exact L. clear - L'. lra. }
      rewrite Rabs_left1; [clear - Q; lra|]. clear - Q P. lra.
Qed.

Lemma off_moved (lmp x p : vec b64) : off lmp x -> Rabs (B2R (vx p) - B2R (vx x)) <= bpow radix2 (-19) -> Rabs (B2R (vy p) - B2R (vy x)) <= bpow radix2 (-19) -> Rabs (B2R (vz p) - B2R (vz x)) <= bpow radix2 (-19) ->
  bpow radix2 (-19) <= Rabs (B2R (vx lmp) - B2R (vx p)) \/ bpow radix2 (-19) <= Rabs (B2R (vy lmp) - B2R (vy p)) \/ bpow radix2 (-19) <= Rabs (B2R (vz lmp) - B2R (vz p)).
Proof.
  assert (T : forall l x p, bpow radix2 (-18) <= Rabs (l - x) -> Rabs (p - x) <= bpow radix2 (-19) -> bpow radix2 (-19) <= Rabs (l - p)).
  { intros l a b. bp. intros A B. pose proof (Rabs_triang (l - b) (b - a)) as Q. replace (l - b + (b - a)) with (l - a) in Q by ring. lra. }
  intros [H|[H|H]] X Y Z; [left|right; left|right; right]; eapply T; eassumption.
Qed.

(** both differences of a lamp and a point of a surface *)
Definition way (v : vec b64) : Prop := all3 (at_most 22) v /\ some3 (at_least (-19)) v.
Definition near_place (B : R) (p : vec b64) : Prop := all3 (fun x => is_finite x = true /\ Rabs (B2R x) <= B) p.
Lemma ways (l x p : vec b64) : place 20 l -> near_place 1048577 p -> off l x ->
  Rabs (B2R (vx p) - B2R (vx x)) <= bpow radix2 (-19) -> Rabs (B2R (vy p) - B2R (vy x)) <= bpow radix2 (-19) -> Rabs (B2R (vz p) - B2R (vz x)) <= bpow radix2 (-19) ->
  way (vsub l p) /\ way (vsub p l).
Proof.
  intros (L1 & L2 & L3) ((A & A') & (B & B') & C & C') O X Y Z. pose proof (off_moved _ _ _ O X Y Z) as M.
  destruct (sub_far _ _ L1 A A') as [S1 T1], (sub_far _ _ L2 B B') as [S2 T2], (sub_far _ _ L3 C C') as [S3 T3].
  assert (W : way (vsub l p)).
  { unfold way, vsub, all3, some3. cbn [vx vy vz]. refine (conj (conj S1 (conj S2 S3)) _). destruct M as [M|[M|M]]; [left|right; left|right; right]; auto. }
  refine (conj W _). destruct W as [W1 W2]. unfold way, vsub, all3, some3 in *. cbn [vx vy vz] in *.
  assert (N : forall a b : b64, is_finite a = true -> is_finite b = true -> at_most 22 (nsub a b) -> Rabs (B2R a - B2R b) <= 4194304 -> at_most 22 (nsub b a) /\ Rabs (B2R (nsub b a)) = Rabs (B2R (nsub a b))).
  { intros a b Fa Fb _ H. assert (K : bpow radix2 22 <= big) by (now apply bpow_big). change (bpow radix2 22) with 4194304 in K.
    destruct (bsub_correct a b Fa Fb ltac:(lra)) as [F1 E1]. destruct (bsub_correct b a Fb Fa ltac:(rewrite Rabs_minus_sym; lra)) as [F2 E2].
    assert (Q : B2R (nsub b a) = - B2R (nsub a b)). { rewrite E1, E2. replace (B2R b - B2R a) with (- (B2R a - B2R b)) by ring. apply round_NE_opp. }
    destruct (sub_u 22 b a ltac:(lia) Fb Fa ltac:(rewrite Rabs_minus_sym; bp; lra)) as (_ & _ & M2). split; [split; [exact F2|exact M2]|]. rewrite Q. apply Rabs_Ropp. }
  assert (D : forall a b : b64, at_most 20 a -> Rabs (B2R b) <= 1048577 -> Rabs (B2R a - B2R b) <= 4194304).
  { intros a b [_ Ha] Hb. bp. apply Rabs_le_inv in Ha, Hb. apply Rabs_le. lra. }
  destruct W1 as (W1 & W1' & W1''). destruct (N _ _ (proj1 L1) A W1 (D _ _ L1 A')) as [P1 Q1], (N _ _ (proj1 L2) B W1' (D _ _ L2 B')) as [P2 Q2], (N _ _ (proj1 L3) C W1'' (D _ _ L3 C')) as [P3 Q3].
  refine (conj (conj P1 (conj P2 P3)) _). unfold at_least in *. rewrite Q1, Q2, Q3. exact W2.
Qed.

Lemma way_usable v : way v -> usable v.
Proof.
  intros [(A & B & C) S]. split.
  - exact (conj (am_mono 22 400 _ A ltac:(lia)) (conj (am_mono 22 400 _ B ltac:(lia)) (am_mono 22 400 _ C ltac:(lia)))).
  - unfold some3, at_least in *. pose proof (bpow_le radix2 (-400) (-19) ltac:(lia)). destruct S as [S|[S|S]]; [left|right; left|right; right]; lra.
Qed.
Lemma usable_am w : usable w -> all3 (at_most 1) (vnormalized w).
Proof. intros H. destruct (usable_norm w H) as [F E]. apply comp2; [exact F|]. pose proof u_u. apply Rabs_le_inv in E. lra. Qed.

Lemma square_am (x : b64) : at_most 22 x -> is_finite (nmul x x) = true /\ 0 <= B2R (nmul x x) <= bpow radix2 44 /\ (at_least (-19) x -> bpow radix2 (-38) <= B2R (nmul x x)).
Proof.
  intros [F H]. assert (P : 0 <= B2R x * B2R x) by apply Rle_0_sqr.
  assert (Q : B2R x * B2R x <= bpow radix2 44). { replace (bpow radix2 44) with (bpow radix2 22 * bpow radix2 22) by (rewrite <- bpow_plus; reflexivity). rewrite <- (Rabs_pos_eq (B2R x * B2R x)), Rabs_mult by exact P. apply Rmult_le_compat; try apply Rabs_pos; exact H. }
  destruct (bmul_correct x x F F) as [G E]; [rewrite Rabs_pos_eq by exact P; eapply Rle_trans; [exact Q|now apply bpow_big]|].
  split; [exact G|]. rewrite E. split; [split; [now apply rnd_nonneg|apply rnd_le; [apply fmt_bpow; lia|exact Q]]|].
  intros L. apply rnd_ge; [apply fmt_bpow; lia|]. replace (bpow radix2 (-38)) with (bpow radix2 (-19) * bpow radix2 (-19)) by (rewrite <- bpow_plus; reflexivity). rewrite <- (Rabs_pos_eq (B2R x * B2R x)), Rabs_mult by exact P.
  apply Rmult_le_compat; try apply bpow_ge_0; exact L.
Qed.
Lemma sum_up (x y : b64) k : (0 <= k <= 900)%Z -> is_finite x = true -> is_finite y = true -> 0 <= B2R x <= bpow radix2 k -> 0 <= B2R y <= bpow radix2 k ->
  is_finite (nadd x y) = true /\ 0 <= B2R (nadd x y) <= bpow radix2 (k + 1) /\ B2R x <= B2R (nadd x y) /\ B2R y <= B2R (nadd x y).
Proof.
  intros K Fx Fy Hx Hy. assert (T : bpow radix2 (k + 1) = 2 * bpow radix2 k) by (rewrite Z.add_comm, bpow_plus; reflexivity).
  destruct (badd_correct x y Fx Fy) as [F E]; [rewrite Rabs_pos_eq by lra; apply Rle_trans with (bpow radix2 (k + 1)); [lra|apply bpow_big; lia]|].
  split; [exact F|]. rewrite E. repeat split; [apply rnd_nonneg; lra|apply rnd_le; [apply fmt_bpow; lia|lra]| |]; apply rnd_ge; try apply generic_format_B2R; lra.
Qed.
Lemma way_len2 v : way v -> is_finite (vlen2 v) = true /\ bpow radix2 (-38) <= B2R (vlen2 v) <= bpow radix2 46.
Proof.
  intros [(A & B & C) S]. unfold vlen2. destruct (square_am _ A) as (F1 & R1 & L1), (square_am _ B) as (F2 & R2 & L2), (square_am _ C) as (F3 & R3 & L3).
  destruct (sum_up _ _ 44 ltac:(lia) F1 F2 R1 R2) as (F & R & X & Y). cbn [Z.add Pos.add Pos.succ] in R.
  assert (R3' : 0 <= B2R (nmul (vz v) (vz v)) <= bpow radix2 45) by (pose proof (bpow_le radix2 44 45 ltac:(lia)); lra).
  destruct (sum_up _ _ 45 ltac:(lia) F F3 R R3') as (F' & R' & X' & Y'). split; [exact F'|]. split; [|exact (proj2 R')].
  destruct S as [S|[S|S]]; [apply L1 in S|apply L2 in S|apply L3 in S]; lra.
Qed.

(** ** Brightness *)
Lemma from0_times j k (x y : b64) : (0 <= j + k <= 900)%Z -> from0 j x -> from0 k y -> from0 (j + k) (nmul x y).
Proof.
  intros K [Fx Hx] [Fy Hy]. assert (P : 0 <= B2R x * B2R y <= bpow radix2 (j + k)).
  { split; [apply Rmult_le_pos; lra|]. rewrite bpow_plus. apply Rmult_le_compat; lra. }
  destruct (bmul_correct x y Fx Fy) as [F E]; [rewrite Rabs_pos_eq by lra; eapply Rle_trans; [apply P|apply bpow_big; lia]|].
  split; [exact F|]. rewrite E. split; [now apply rnd_nonneg|apply rnd_le; [apply fmt_bpow; lia|apply P]].
Qed.
Lemma from0_sum k (x y : b64) : (0 <= k <= 900)%Z -> from0 k x -> from0 k y -> from0 (k + 1) (nadd x y).
Proof. intros K [Fx Hx] [Fy Hy]. destruct (sum_up x y k K Fx Fy Hx Hy) as (F & R & _). now split. Qed.

Lemma share {TF : Trig b64} : FloatSpec.between 3 4 npi -> from0 0 (ndiv (nofZ 1) (nmul (nofZ 4) npi) : b64).
Proof.
  intros [F H]. destruct (Z_b 1 ltac:(lia)) as [F1 E1]. destruct (Z_b 4 ltac:(lia)) as [F4 E4].
  assert (P : 12 <= B2R (nofZ 4 : b64) * B2R (npi : b64) <= 16) by (rewrite E4; lra).
  destruct (bmul_correct (nofZ 4) npi F4 F) as [Fm Em]; [rewrite Rabs_pos_eq by lra; apply Rle_trans with (bpow radix2 4); [change (bpow radix2 4) with 16; lra|now apply bpow_big]|].
  assert (Q : 12 <= B2R (nmul (nofZ 4) npi : b64) <= 16). { rewrite Em. split; [apply rnd_ge|apply rnd_le]; try (apply fmt_Z; lia); lra. }
  assert (D : 0 <= B2R (nofZ 1 : b64) / B2R (nmul (nofZ 4) npi : b64) <= 1). { rewrite E1. split; [apply Rle_mult_inv_pos; lra|]. apply Rmult_le_reg_r with (B2R (nmul (nofZ 4) npi : b64)); [lra|]. unfold Rdiv. rewrite Rmult_assoc, Rinv_l by lra. lra. }
  assert (N0 : B2R (nmul (nofZ 4) npi : b64) <> 0) by lra.
  destruct (bdiv_correct (nofZ 1) (nmul (nofZ 4) npi) F1 N0) as [Fd Ed]; [rewrite Rabs_pos_eq by lra; apply Rle_trans with (bpow radix2 0); [change (bpow radix2 0) with 1; lra|now apply bpow_big]|].
  split; [exact Fd|]. rewrite Ed. split; [now apply rnd_nonneg|]. change (bpow radix2 0) with 1. apply rnd_le; [apply (fmt_Z 1); lia|lra].
Qed.
Lemma intensity {TF : Trig b64} (pos p : vec b64) : FloatSpec.between 3 4 npi -> way (vsub p pos) -> from0 38 (pointIntensity pos p).
Proof.
  intros HP W. unfold pointIntensity. destruct (share HP) as [Fs Hs]. set (sh := ndiv (nofZ 1) (nmul (nofZ 4) npi) : b64) in *. clearbody sh.
  destruct (way_len2 _ W) as [Fl [L1 L2]]. set (l := vlen2 (vsub p pos)) in *. clearbody l. pose proof (bpow_gt_0 radix2 (-38)) as B.
  change (bpow radix2 0) with 1 in Hs.
  assert (D : 0 <= B2R sh / B2R l <= bpow radix2 38).
  { split; [apply Rle_mult_inv_pos; lra|]. apply Rmult_le_reg_r with (B2R l); [lra|]. unfold Rdiv. rewrite Rmult_assoc, Rinv_l by lra. rewrite Rmult_1_r.
    apply Rle_trans with (bpow radix2 38 * bpow radix2 (-38)); [rewrite <- bpow_plus; change (bpow radix2 (38 + -38)) with 1; lra|]. apply Rmult_le_compat_l; [apply bpow_ge_0|exact L1]. }
  assert (N0 : B2R l <> 0) by lra.
  destruct (bdiv_correct sh l Fs N0) as [Fd Ed]; [rewrite Rabs_pos_eq by lra; eapply Rle_trans; [apply D|now apply bpow_big]|].
  split; [exact Fd|]. rewrite Ed. split; [now apply rnd_nonneg|apply rnd_le; [apply fmt_bpow; lia|apply D]].
Qed.
Lemma cosine_am (a b : vec b64) : all3 (at_most 1) a -> all3 (at_most 1) b -> at_most 4 (vdot a b).
Proof.
  intros (A1 & A2 & A3) (B1 & B2 & B3). unfold vdot.
  exact (am_add 3 _ _ ltac:(lia) (am_add 2 _ _ ltac:(lia) (am_mul 1 1 _ _ ltac:(lia) A1 B1) (am_mul 1 1 _ _ ltac:(lia) A2 B2)) (am_mono 2 3 _ (am_mul 1 1 _ _ ltac:(lia) A3 B3) ltac:(lia))).
Qed.
Lemma cosine_from0 (x : b64) : at_most 4 x -> nleb x (nofZ 0) = false -> from0 4 x.
Proof.
  intros [F H] N. split; [exact F|]. destruct (Z_b 0 ltac:(lia)) as [F0 E0].
  assert (P : 0 < B2R x). { apply Rnot_le_lt. intros L. rewrite <- E0 in L. apply (bleb_R x (nofZ 0) F F0) in L. congruence. }
  rewrite Rabs_pos_eq in H by lra. lra.
Qed.

(** ** Rays leave where they arrive *)
Lemma sum_le (x y : b64) : at_most 20 (nadd x y) -> is_finite x = true /\ is_finite y = true /\ Rabs (B2R x + B2R y) <= bpow radix2 21.
Proof.
  intros [F H]. destruct (add_inv x y F) as (Fx & Fy & E). refine (conj Fx (conj Fy _)). apply Rnot_lt_le. intros L.
  assert (X : bpow radix2 21 <= Rabs (rnd (B2R x + B2R y))).
  { assert (FB : fmt (bpow radix2 21)) by (apply fmt_bpow; lia). pose proof (bpow_gt_0 radix2 21) as P. destruct (Rle_or_lt 0 (B2R x + B2R y)) as [S|S].
    - rewrite Rabs_pos_eq in L by exact S. rewrite Rabs_pos_eq by (apply rnd_nonneg, S). apply rnd_ge; [exact FB|lra].
    - rewrite Rabs_left in L by exact S. assert (Q : rnd (B2R x + B2R y) <= - bpow radix2 21) by (apply rnd_le; [now apply generic_format_opp|lra]). rewrite Rabs_left1 by lra. lra. }
  rewrite E in H. bp. lra.
Qed.
(** products of a bounded result and a factor that is not small *)
Lemma factor_le (t d : b64) : is_finite (nmul t d) = true -> Rabs (B2R (nmul t d)) <= bpow radix2 22 -> / 2 <= Rabs (B2R d) -> is_finite t = true /\ Rabs (B2R t) <= bpow radix2 24.
Proof.
  intros F H D. destruct (mul_inv t d F) as (Ft & Fd & E). split; [exact Ft|]. rewrite E in H. apply Rnot_lt_le. intros L.
  assert (X : bpow radix2 23 <= Rabs (B2R t * B2R d)). { rewrite Rabs_mult. bp. nra. }
  assert (Y : bpow radix2 23 <= Rabs (rnd (B2R t * B2R d))).
  { assert (FB : fmt (bpow radix2 23)) by (apply fmt_bpow; lia). pose proof (bpow_gt_0 radix2 23) as P. destruct (Rle_or_lt 0 (B2R t * B2R d)) as [S|S].
    - rewrite Rabs_pos_eq in X by exact S. rewrite Rabs_pos_eq by (apply rnd_nonneg, S). apply rnd_ge; [exact FB|lra].
    - rewrite Rabs_left in X by exact S. assert (Q : rnd (B2R t * B2R d) <= - bpow radix2 23) by (apply rnd_le; [now apply generic_format_opp|lra]). rewrite Rabs_left1 by lra. lra. }
  bp. lra.
Qed.
Lemma travel (s t d : b64) : at_most 21 s -> is_finite d = true -> at_most 20 (nadd s (nmul t d)) -> / 2 <= Rabs (B2R d) -> at_most 24 t.
Proof.
  intros [Fs Hs] Fd P D. destruct (sum_le _ _ P) as (_ & Fm & S).
  assert (M : Rabs (B2R (nmul t d)) <= bpow radix2 22). { bp. apply Rabs_le_inv in Hs, S. apply Rabs_le. lra. }
  destruct (factor_le t d Fm M D) as [Ft Ht]. now split.
Qed.
Lemma leave1 (s t t' d : b64) : at_most 21 s -> at_most 1 d -> at_most 20 (nadd s (nmul t d)) -> at_most 24 t -> is_finite t' = true -> Rabs (B2R t' - B2R t) <= / 1000000 ->
  is_finite (nadd s (nmul t' d)) = true /\ Rabs (B2R (nadd s (nmul t' d)) - B2R (nadd s (nmul t d))) <= / 1000.
Proof.
  intros [Fs Hs] [Fd Hd] P [Ft Ht] Ft' H. pose proof u_u as U. bp.
  assert (T : Rabs (B2R t') <= 16777217) by (apply Rabs_le_inv in Ht, H; apply Rabs_le; lra).
  assert (M : Rabs (B2R t * B2R d) <= 33554432) by (rewrite Rabs_mult; pose proof (Rabs_pos (B2R t)); pose proof (Rabs_pos (B2R d)); nra).
  assert (M' : Rabs (B2R t' * B2R d) <= 33554434) by (rewrite Rabs_mult; pose proof (Rabs_pos (B2R t')); pose proof (Rabs_pos (B2R d)); nra).
  destruct (mul_u 26 t d ltac:(lia) Ft Fd ltac:(bp; lra)) as (Fm & Em & _). destruct (mul_u 26 t' d ltac:(lia) Ft' Fd ltac:(bp; lra)) as (Fm' & Em' & _). bp.
  assert (D : Rabs (B2R t' * B2R d - B2R t * B2R d) <= 2 / 1000000).
  { replace (B2R t' * B2R d - B2R t * B2R d) with ((B2R t' - B2R t) * B2R d) by ring. rewrite Rabs_mult. pose proof (Rabs_pos (B2R t' - B2R t)); pose proof (Rabs_pos (B2R d)). nra. }
  destruct P as [Fp Hp]. generalize dependent (B2R t' * B2R d). generalize dependent (B2R t * B2R d). intros a A Ea b B Eb D.
  apply Rabs_le_inv in Hs, A, B, Ea, Eb, D.
  assert (X : Rabs (B2R s + B2R (nmul t d)) <= 67108864) by (apply Rabs_le; lra). assert (X' : Rabs (B2R s + B2R (nmul t' d)) <= 67108864) by (apply Rabs_le; lra).
  destruct (add_u 26 s (nmul t d) ltac:(lia) Fs Fm ltac:(bp; lra)) as (_ & Ea2 & _). destruct (add_u 26 s (nmul t' d) ltac:(lia) Fs Fm' ltac:(bp; lra)) as (Fa & Eb2 & _). bp.
  split; [exact Fa|]. apply Rabs_le_inv in Ea2, Eb2, Hp. apply Rabs_le. lra.
Qed.
Lemma aimed_am q : aimed 20 (/ 1000) q -> all3 (at_most 1) (rDir q).
Proof. intros (_ & F & H). apply comp2; [exact F|]. apply Rabs_le_inv in H. lra. Qed.
Lemma hit_distance q t : aimed 20 (/ 1000) q -> place 20 (rayAt q t) -> at_most 24 t.
Proof.
  intros ((S1 & S2 & S3) & (F1 & F2 & F3) & H) (P1 & P2 & P3). unfold rayAt in *. cbn [vx vy vz] in *. apply Rabs_le_inv in H.
  destruct (some_half (rDir q) ltac:(lra)) as [D|[D|D]]; [exact (travel _ _ _ S1 F1 P1 D)|exact (travel _ _ _ S2 F2 P2 D)|exact (travel _ _ _ S3 F3 P3 D)].
Qed.
Lemma place_20 P p : (P <= 20)%Z -> place P p -> place 20 p.
Proof. intros H (A & B & C). repeat split; try (eapply am_mono; eassumption); first [apply (am_mono P 20 _ A H)|apply (am_mono P 20 _ B H)|apply (am_mono P 20 _ C H)]. Qed.
Lemma aimed_20 P e q : (P <= 20)%Z -> aimed P e q -> aimed 20 e q.
Proof. intros H ((A & B & C) & D). split; [|exact D]. assert (H' : (P + 1 <= 20 + 1)%Z) by lia. exact (conj (am_mono _ _ _ A H') (conj (am_mono _ _ _ B H') (am_mono _ _ _ C H'))). Qed.
Lemma leaves P q t t' : (P <= 20)%Z -> aimed P (/ 1000) q -> place P (rayAt q t) -> is_finite t' = true -> Rabs (B2R t' - B2R t) <= / 1000000 -> near_place (bpow radix2 P + / 1000) (rayAt q t').
Proof.
  intros HP A' P' F H. pose proof (aimed_20 _ _ _ HP A') as A. pose proof (place_20 _ _ HP P') as Pl. pose proof (hit_distance q t A Pl) as T. pose proof (aimed_am q A) as (D1 & D2 & D3). destruct A as ((S1 & S2 & S3) & _). destruct Pl as (P1 & P2 & P3).
  destruct P' as ((_ & Q1) & (_ & Q2) & (_ & Q3)). unfold near_place, rayAt, all3 in *. cbn [vx vy vz] in *.
  destruct (leave1 _ _ _ _ S1 D1 P1 T F H) as [F1 E1]. destruct (leave1 _ _ _ _ S2 D2 P2 T F H) as [F2 E2]. destruct (leave1 _ _ _ _ S3 D3 P3 T F H) as [F3 E3].
  apply Rabs_le_inv in E1, E2, E3, Q1, Q2, Q3. repeat split; try assumption; apply Rabs_le; lra.
Qed.
Lemma back_off (t : b64) : at_most 24 t -> is_finite (nsub t tiny) = true /\ Rabs (B2R (nsub t tiny) - B2R t) <= / 1000000.
Proof.
  intros [F H]. destruct tiny_u as [Ft Ht]. pose proof u_u as U. bp. apply Rabs_le_inv in H. destruct (sub_u 25 t tiny ltac:(lia) F Ft ltac:(bp; apply Rabs_le; lra)) as (G & E & _).
  bp. split; [exact G|]. apply Rabs_le_inv in E. apply Rabs_le. lra.
Qed.
Lemma go_on (t : b64) : at_most 24 t -> is_finite (nadd t tiny) = true /\ Rabs (B2R (nadd t tiny) - B2R t) <= / 1000000.
Proof.
  intros [F H]. destruct tiny_u as [Ft Ht]. pose proof u_u as U. bp. apply Rabs_le_inv in H. destruct (add_u 25 t tiny ltac:(lia) F Ft ltac:(bp; apply Rabs_le; lra)) as (G & E & _).
  bp. split; [exact G|]. apply Rabs_le_inv in E. apply Rabs_le. lra.
Qed.
Lemma near_next P B p : (0 <= P)%Z -> near_place B p -> B <= bpow radix2 P + 1 -> all3 (at_most (P + 1)) p.
Proof.
  intros H ((A & A') & (C & C') & D & D') HB. assert (E : B <= bpow radix2 (P + 1)). { rewrite bpow_plus. change (bpow radix2 1) with 2. pose proof (bpow_le radix2 0 P H) as X. change (bpow radix2 0) with 1 in X. lra. }
  unfold all3, at_most. repeat split; try assumption; lra.
Qed.
Lemma place_near P p : place P p -> near_place (bpow radix2 P) p.
Proof. intros H. exact H. Qed.
