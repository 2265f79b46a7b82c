(** * Triangles in double precision: coordinates and distances of hits *)
From Coq Require Import ZArith Reals Bool List Lra Lia Psatz.
From Flocq Require Import Core.
From Flocq Require IEEE754.BinarySingleNaN.
Import IEEE754.BinarySingleNaN.
From Verif Require Import Num NumLaws Outcome B64 GeomModel GeomSpec ObjModel TreeModel ParamProofs FloatSpec BoxFloat FloatErr SphereFloat.
Local Open Scope R_scope.

(** ** Numbers that approximate others, in units of 2^g: error [e] half units in the last place of 1, magnitude up to 2^j *)
Definition at_scale (g : Z) (x : b64) : R := B2R x * bpow radix2 (- g).
Definition ap (g : Z) (x : b64) (r e : R) (j : Z) : Prop :=
  is_finite x = true /\ Rabs (at_scale g x - r) <= e * u /\ Rabs (at_scale g x) <= bpow radix2 j.
Definition fits (k : Z) : Prop := (-900 <= k <= 1000)%Z.

Lemma ap_le g x r e j e' : ap g x r e j -> e <= e' -> ap g x r e' j.
Proof. intros (F & A & B) H. split; [exact F|]. split; [|exact B]. assert (U := u_pos). nra. Qed.
Lemma ap_eq g x r r' e j : ap g x r e j -> r = r' -> ap g x r' e j.
Proof. now intros H <-. Qed.
Lemma scale_inv g : 0 < bpow radix2 (- g) /\ bpow radix2 (- g) * bpow radix2 g = 1.
Proof. split; [apply bpow_gt_0|]. rewrite <- bpow_plus. replace (- g + g)%Z with 0%Z by ring. reflexivity. Qed.
Lemma scale_in g x J : Rabs x * bpow radix2 (- g) <= bpow radix2 J -> Rabs x <= bpow radix2 (g + J).
Proof.
  intros H. destruct (scale_inv g) as [P E]. assert (Pg : 0 < bpow radix2 g) by apply bpow_gt_0.
  rewrite bpow_plus. replace (Rabs x) with (bpow radix2 g * (Rabs x * bpow radix2 (- g))).
  - apply Rmult_le_compat_l; [lra|exact H].
  - transitivity (Rabs x * (bpow radix2 (- g) * bpow radix2 g)); [ring|rewrite E; ring].
Qed.
(** a rounded operation *)
Lemma ap_round g z v r e J : app z v (bpow radix2 (g + J) * u) (bpow radix2 (g + J)) -> Rabs (v * bpow radix2 (- g) - r) <= e * u -> ap g z r (e + bpow radix2 J) J.
Proof.
  intros (F & A & B) H. destruct (scale_inv g) as [P E]. split; [exact F|]. unfold at_scale.
  assert (Q : bpow radix2 (g + J) * bpow radix2 (- g) = bpow radix2 J).
  { rewrite <- bpow_plus. f_equal. lia. }
  split.
  - replace (B2R z * bpow radix2 (- g) - r) with ((B2R z - v) * bpow radix2 (- g) + (v * bpow radix2 (- g) - r)) by ring.
    eapply Rle_trans; [apply Rabs_triang|]. rewrite Rabs_mult, (Rabs_pos_eq (bpow radix2 (- g))) by lra.
    assert (Rabs (B2R z - v) * bpow radix2 (- g) <= bpow radix2 (g + J) * u * bpow radix2 (- g)) by (apply Rmult_le_compat_r; lra).
    replace (bpow radix2 (g + J) * u * bpow radix2 (- g)) with (bpow radix2 J * u) in H0 by (rewrite <- Q; ring). lra.
  - rewrite Rabs_mult, (Rabs_pos_eq (bpow radix2 (- g))) by lra. rewrite <- Q. apply Rmult_le_compat_r; lra.
Qed.

Lemma ap_sub g x y r s e f j j' J : fits (g + J) -> ap g x r e j -> ap g y s f j' -> bpow radix2 j + bpow radix2 j' <= bpow radix2 J ->
  ap g (nsub x y) (r - s) (e + f + bpow radix2 J) J.
Proof.
  intros HJ (F & A & B) (F' & A' & B') H. unfold at_scale in *. destruct (scale_inv g) as [P E].
  apply (ap_round g _ (B2R x - B2R y)).
  - apply sub_u; auto. apply scale_in. rewrite <- (Rabs_pos_eq (bpow radix2 (- g))) by lra. rewrite <- Rabs_mult.
    replace ((B2R x - B2R y) * bpow radix2 (- g)) with (B2R x * bpow radix2 (- g) + - (B2R y * bpow radix2 (- g))) by ring.
    eapply Rle_trans; [apply Rabs_triang|]. rewrite Rabs_Ropp. lra.
  - replace ((B2R x - B2R y) * bpow radix2 (- g) - (r - s)) with ((B2R x * bpow radix2 (- g) - r) + - (B2R y * bpow radix2 (- g) - s)) by ring.
    eapply Rle_trans; [apply Rabs_triang|]. rewrite Rabs_Ropp. lra.
Qed.
Lemma ap_add g x y r s e f j j' J : fits (g + J) -> ap g x r e j -> ap g y s f j' -> bpow radix2 j + bpow radix2 j' <= bpow radix2 J ->
  ap g (nadd x y) (r + s) (e + f + bpow radix2 J) J.
Proof.
  intros HJ (F & A & B) (F' & A' & B') H. unfold at_scale in *. destruct (scale_inv g) as [P E].
  apply (ap_round g _ (B2R x + B2R y)).
  - apply add_u; auto. apply scale_in. rewrite <- (Rabs_pos_eq (bpow radix2 (- g))) by lra. rewrite <- Rabs_mult.
    replace ((B2R x + B2R y) * bpow radix2 (- g)) with (B2R x * bpow radix2 (- g) + (B2R y * bpow radix2 (- g))) by ring.
    eapply Rle_trans; [apply Rabs_triang|]. lra.
  - replace ((B2R x + B2R y) * bpow radix2 (- g) - (r + s)) with ((B2R x * bpow radix2 (- g) - r) + (B2R y * bpow radix2 (- g) - s)) by ring.
    eapply Rle_trans; [apply Rabs_triang|]. lra.
Qed.
Lemma ap_mul g g' x y r s e f j j' : fits (g + g' + (j + j')) -> ap g x r e j -> ap g' y s f j' -> 0 <= e -> 0 <= f -> e * f * u <= 1 ->
  ap (g + g') (nmul x y) (r * s) (bpow radix2 j * f + bpow radix2 j' * e + 1 + bpow radix2 j * bpow radix2 j') (j + j').
Proof.
  intros HJ (F & A & B) (F' & A' & B') He Hf Hs. unfold at_scale in *. destruct (scale_inv g) as [P E]. destruct (scale_inv g') as [P' E'].
  rewrite <- bpow_plus.
  assert (SS : bpow radix2 (- (g + g')) = bpow radix2 (- g) * bpow radix2 (- g')) by (rewrite <- bpow_plus; f_equal; lia).
  assert (U := u_pos). set (a := B2R x * bpow radix2 (- g)) in *. set (b := B2R y * bpow radix2 (- g')) in *.
  apply (ap_round (g + g') _ (B2R x * B2R y)).
  - apply mul_u; auto. apply scale_in. rewrite <- (Rabs_pos_eq (bpow radix2 (- (g + g')))) by (apply Rlt_le, bpow_gt_0). rewrite <- Rabs_mult.
    replace (B2R x * B2R y * bpow radix2 (- (g + g'))) with (a * b) by (rewrite SS; unfold a, b; ring).
    rewrite Rabs_mult, bpow_plus. apply Rmult_le_compat; auto using Rabs_pos.
  - replace (B2R x * B2R y * bpow radix2 (- (g + g')) - r * s) with (a * (b - s) + (b * (a - r) + - ((a - r) * (b - s)))) by (rewrite SS; unfold a, b; ring).
    eapply Rle_trans; [apply Rabs_triang|]. eapply Rle_trans; [apply Rplus_le_compat_l, Rabs_triang|].
    rewrite Rabs_Ropp, !Rabs_mult.
    assert (Rabs a * Rabs (b - s) <= bpow radix2 j * (f * u)) by (apply Rmult_le_compat; auto using Rabs_pos).
    assert (Rabs b * Rabs (a - r) <= bpow radix2 j' * (e * u)) by (apply Rmult_le_compat; auto using Rabs_pos).
    assert (Rabs (a - r) * Rabs (b - s) <= (e * u) * (f * u)) by (apply Rmult_le_compat; auto using Rabs_pos).
    assert ((e * u) * (f * u) <= 1 * u) by (replace ((e * u) * (f * u)) with ((e * f * u) * u) by ring; apply Rmult_le_compat_r; lra).
    lra.
Qed.
Lemma ap_div g g' x y r s e f j j' J d : fits (g - g' + J) -> ap g x r e j -> ap g' y s f j' -> 0 < d -> d <= Rabs s -> 0 <= e -> 0 <= f -> f * u <= d / 100 ->
  Rabs (r / s) + (e + Rabs (r / s) * f) * (102 / 100) / d * u <= bpow radix2 J ->
  ap (g - g') (ndiv x y) (r / s) ((e + Rabs (r / s) * f) * (102 / 100) / d + bpow radix2 J) J.
Proof.
  intros HJ (F & A & B) (F' & A' & B') Hd Hs He Hf Hfd HM. unfold at_scale in *. destruct (scale_inv g) as [P E]. destruct (scale_inv g') as [P' E'].
  assert (Pg' : 0 < bpow radix2 g') by apply bpow_gt_0.
  assert (SS : bpow radix2 (- (g - g')) = bpow radix2 (- g) * bpow radix2 g') by (rewrite <- bpow_plus; f_equal; lia).
  assert (U := u_pos). set (a := B2R x * bpow radix2 (- g)) in *. set (b := B2R y * bpow radix2 (- g')) in *.
  assert (Nb : d * (99 / 100) <= Rabs b).
  { replace b with (s - (s - b)) by ring. eapply Rle_trans; [|apply Rabs_triang_inv]. rewrite (Rabs_minus_sym s b). lra. }
  assert (b0 : b <> 0) by (intros Z; rewrite Z, Rabs_R0 in Nb; lra).
  assert (s0 : s <> 0) by (intros Z; rewrite Z, Rabs_R0 in Hs; lra).
  assert (y0 : B2R y <> 0) by (intros Z; apply b0; unfold b; rewrite Z; ring).
  assert (Eab : B2R x / B2R y * bpow radix2 (- (g - g')) = a / b).
  { rewrite SS. unfold a, b. rewrite <- (Rinv_inv (bpow radix2 g')) at 1. replace (/ bpow radix2 g') with (bpow radix2 (- g')) by (apply bpow_opp). field. split; [lra|exact y0]. }
  set (q := Rabs (r / s)) in *. assert (Hq : 0 <= q) by apply Rabs_pos.
  assert (Er : Rabs (a / b - r / s) <= (e + q * f) * (102 / 100) / d * u).
  { replace (a / b - r / s) with (((a - r) + - (r / s * (b - s))) / b) by (field; auto).
    unfold Rdiv at 1. rewrite Rabs_mult, Rabs_inv.
    assert (N : Rabs ((a - r) + - (r / s * (b - s))) <= e * u + q * (f * u)).
    { eapply Rle_trans; [apply Rabs_triang|]. rewrite Rabs_Ropp, Rabs_mult. fold q. apply Rplus_le_compat; [exact A|apply Rmult_le_compat_l; assumption]. }
    assert (I : / Rabs b <= (102 / 100) / d).
    { apply Rle_trans with (/ (d * (99 / 100))); [apply Rinv_le; lra|]. rewrite Rinv_mult. unfold Rdiv. assert (0 < / d) by (apply Rinv_0_lt_compat; lra). nra. }
    assert (0 < / Rabs b) by (apply Rinv_0_lt_compat; lra).
    eapply Rle_trans; [apply Rmult_le_compat; [apply Rabs_pos|lra|exact N|exact I]|]. right. field. lra. }
  apply (ap_round (g - g') _ (B2R x / B2R y)).
  - apply div_u; auto. apply scale_in. rewrite <- (Rabs_pos_eq (bpow radix2 (- (g - g')))) by (apply Rlt_le, bpow_gt_0). rewrite <- Rabs_mult, Eab.
    replace (a / b) with (r / s + (a / b - r / s)) by ring. eapply Rle_trans; [apply Rabs_triang|]. fold q. lra.
  - rewrite Eab. exact Er.
Qed.
Lemma ap_opp g x r e j : ap g x r e j -> ap g (nopp x) (- r) e j.
Proof.
  intros (F & A & B). destruct (opp_R x) as [F' E']. split; [now rewrite F'|]. unfold at_scale in *. rewrite E'.
  split; [|replace (- B2R x * bpow radix2 (- g)) with (- (B2R x * bpow radix2 (- g))) by ring; now rewrite Rabs_Ropp].
  replace (- B2R x * bpow radix2 (- g) - - r) with (- (B2R x * bpow radix2 (- g) - r)) by ring. now rewrite Rabs_Ropp.
Qed.

(** ** Vectors *)
Definition vap (g : Z) (v : vec b64) (w : vec R) (e : R) (j : Z) : Prop := ap g (vx v) (vx w) e j /\ ap g (vy v) (vy w) e j /\ ap g (vz v) (vz w) e j.
Lemma vap_le g x r e j e' : vap g x r e j -> e <= e' -> vap g x r e' j.
Proof. intros (A & B & C) H. repeat split; eapply ap_le; eauto. Qed.
Lemma vap_sub g x y r s e f j j' J : fits (g + J) -> bpow radix2 j + bpow radix2 j' <= bpow radix2 J -> vap g x r e j -> vap g y s f j' ->
  vap g (vsub x y) (vsub r s) (e + f + bpow radix2 J) J.
Proof. intros HJ H (A & B & C) (A' & B' & C'). split; [|split]; eapply ap_sub; eauto. Qed.
Definition mulerr (j j' : Z) (e f : R) : R := bpow radix2 j * f + bpow radix2 j' * e + 1 + bpow radix2 j * bpow radix2 j'.
Lemma vap_madd g g' G x t d r s w e f h j j' j2 J : G = (g' + g)%Z -> fits (G + (j' + j2)) -> fits (G + J) -> 0 <= f -> 0 <= h -> f * h * u <= 1 ->
  bpow radix2 j + bpow radix2 (j' + j2) <= bpow radix2 J ->
  vap G x r e j -> ap g' t s f j' -> vap g d w h j2 -> vap G (vmadd x t d) (vmadd r s w) (e + mulerr j' j2 f h + bpow radix2 J) J.
Proof.
  intros -> H0 HJ Hf Hh Hu H (A & B & C) T (A' & B' & C'). unfold mulerr.
  split; [|split]; (eapply ap_add; [assumption|eassumption| |exact H]; apply ap_mul; auto).
Qed.
Lemma dbl j : bpow radix2 j + bpow radix2 j <= bpow radix2 (j + 1).
Proof. rewrite bpow_plus. change (bpow radix2 1) with 2. lra. Qed.
Lemma vap_cross g g' G x y r s e f j j' : G = (g + g')%Z -> fits (G + (j + j')) -> fits (G + (j + j' + 1)) -> 0 <= e -> 0 <= f -> e * f * u <= 1 ->
  vap g x r e j -> vap g' y s f j' ->
  vap G (vcross x y) (vcross r s) (mulerr j j' e f + mulerr j j' e f + bpow radix2 (j + j' + 1)) (j + j' + 1).
Proof.
  intros -> H0 H1 He Hf Hu (A & B & C) (A' & B' & C'). unfold mulerr.
  split; [|split]; (eapply ap_sub; [assumption| | |apply dbl]; apply ap_mul; auto).
Qed.
Lemma vap_dot g g' G x y r s e f j j' : G = (g + g')%Z -> fits (G + (j + j')) -> fits (G + (j + j' + 1)) -> fits (G + (j + j' + 1 + 1)) -> 0 <= e -> 0 <= f -> e * f * u <= 1 ->
  vap g x r e j -> vap g' y s f j' ->
  ap G (vdot x y) (vdot r s) (mulerr j j' e f + mulerr j j' e f + bpow radix2 (j + j' + 1) + mulerr j j' e f + bpow radix2 (j + j' + 1 + 1)) (j + j' + 1 + 1).
Proof.
  intros -> H0 H1 H2 He Hf Hu (A & B & C) (A' & B' & C'). unfold mulerr.
  assert (M := bpow_gt_0 radix2 (j + j')).
  eapply ap_add; [exact H2| | |].
  - eapply ap_add; [exact H1| | |apply dbl]; apply ap_mul; auto.
  - apply ap_mul; auto.
  - eapply Rle_trans; [|apply dbl]. apply Rplus_le_compat_l. apply bpow_le. lia.
Qed.
Lemma efu e f E F : 0 <= e <= E -> 0 <= f <= F -> E * F <= 9000000000000000 -> e * f * u <= 1.
Proof.
  intros He Hf H. assert (U := u_pos). assert (V := u_small).
  assert (e * f <= E * F) by (apply Rmult_le_compat; lra).
  apply Rle_trans with (9000000000000000 * u); [apply Rmult_le_compat_r; lra|lra].
Qed.
Lemma pw (n : positive) : bpow radix2 (Zpos n) = IZR (2 ^ Zpos n).
Proof. cbn [bpow]. f_equal. Qed.

(** ** The coordinates of the point where a ray meets the plane of a triangle *)
Lemma coords_vec {F} `{Num F} (v0 v1 v2 : vec F) (r : ray F) :
  let a := vsub v1 v0 in let b := vsub v2 v0 in let n := vcross a b in let s := vsub (rStart r) v0 in
  let t := ndiv (nopp (vdot n s)) (vdot n (rDir r)) in let p := vmadd s t (rDir r) in
  let n2 := vdot n n in let l1 := ndiv (vdot n (vcross (vsub b a) (vsub p a))) n2 in let l3 := ndiv (vdot n (vcross a p)) n2 in
  faceCoords v0 v1 v2 r = FaceGeom t l1 (nsub (nsub (nofZ 1) l1) l3) l3.
Proof. reflexivity. Qed.

Ltac bp := repeat match goal with |- context [bpow radix2 (Zpos ?n)] => rewrite (pw n) end; repeat match goal with |- context [IZR (2 ^ Zpos ?n)] => let v := eval compute in (2 ^ Zpos n)%Z in change (2 ^ Zpos n)%Z with v end; change (bpow radix2 0) with 1.

Section Tri.
  Variables (k i : Z) (v0 v1 v2 s d : vec b64) (V0 V1 V2 S D : vec R) (t l1 l2 l3 : R).
  Hypothesis Hk : (-100 <= k <= 100)%Z.
  Hypothesis Hi : (0 <= i <= 8)%Z.
  Let q := bpow radix2 i.
  Hypothesis A0 : vap k v0 V0 0 0.
  Hypothesis A1 : vap k v1 V1 0 0.
  Hypothesis A2 : vap k v2 V2 0 0.
  Hypothesis AS : vap k s S 0 0.
  Hypothesis AD : vap 0 d D 0 1.
  Let small (w : vec R) := Rabs (vx w) <= 1 /\ Rabs (vy w) <= 1 /\ Rabs (vz w) <= 1.
  Hypothesis S0 : small V0.
  Hypothesis S1 : small V1.
  Hypothesis S2 : small V2.
  Hypothesis SS : small S.
  Hypothesis UD : vdot D D <= 1001 / 1000.
  Let A := vsub V1 V0.
  Let B := vsub V2 V0.
  Let N := vcross A B.
  Hypothesis Hn : / q <= Rabs (vdot N D).
  Hypothesis Ht : Rabs t <= 4.
  Hypothesis Hl : l1 + l2 + l3 = 1.
  Hypothesis Hp : vmadd S t D = vadd (vadd (vmul V0 l1) (vmul V1 l2)) (vmul V2 l3).

  Lemma q_range : 1 <= q <= 256.
  Proof. unfold q. split; [change 1 with (bpow radix2 0)|change 256 with (bpow radix2 8)]; apply bpow_le; lia. Qed.

  Let a := vsub v1 v0.
  Let b := vsub v2 v0.
  Let n := vcross a b.
  Let s0 := vsub s v0.
  Let f := vdot n d.
  Let tt := ndiv (nopp (vdot n s0)) f.
  Let p := vmadd s0 tt d.
  Let n2 := vdot n n.
  Let m1 := ndiv (vdot n (vcross (vsub b a) (vsub p a))) n2.
  Let m3 := ndiv (vdot n (vcross a p)) n2.
  Let P := vmadd (vsub S V0) t D.

  Lemma a_ap : vap k a A 2 1.
  Proof. eapply vap_le; [apply vap_sub with (1 := ltac:(unfold fits; lia) : fits (k + 1)) (3 := A1) (4 := A0); bp; lra|bp; lra]. Qed.
  Lemma b_ap : vap k b B 2 1.
  Proof. eapply vap_le; [apply vap_sub with (1 := ltac:(unfold fits; lia) : fits (k + 1)) (3 := A2) (4 := A0); bp; lra|bp; lra]. Qed.
  Lemma s_ap : vap k s0 (vsub S V0) 2 1.
  Proof. eapply vap_le; [apply vap_sub with (1 := ltac:(unfold fits; lia) : fits (k + 1)) (3 := AS) (4 := A0); bp; lra|bp; lra]. Qed.
  Lemma n_ap : vap (2 * k) n N 34 3.
  Proof.
    eapply vap_le; [apply (vap_cross k k (2 * k) a b A B 2 2 1 1); [lia|unfold fits; lia|unfold fits; lia|lra|lra|apply (efu 2 2 2 2); lra|exact a_ap|exact b_ap]|].
    unfold mulerr. cbn [Z.add Pos.add]. bp. lra.
  Qed.
  Lemma f_ap : ap (2 * k) f (vdot N D) 351 6.
  Proof.
    eapply ap_le; [apply (vap_dot (2 * k) 0 (2 * k) n d N D 34 0 3 1); [lia|unfold fits; lia|unfold fits; lia|unfold fits; lia|lra|lra|apply (efu 34 0 34 0); lra|exact n_ap|exact AD]|].
    unfold mulerr. cbn [Z.add Pos.add Pos.succ]. bp. lra.
  Qed.
  Lemma ns_ap : ap (3 * k) (vdot n s0) (vdot N (vsub S V0)) 399 6.
  Proof.
    eapply ap_le; [apply (vap_dot (2 * k) k (3 * k) n s0 N (vsub S V0) 34 2 3 1); [lia|unfold fits; lia|unfold fits; lia|unfold fits; lia|lra|lra|apply (efu 34 2 34 2); lra|exact n_ap|exact s_ap]|].
    unfold mulerr. cbn [Z.add Pos.add Pos.succ]. bp. lra.
  Qed.
  Lemma P_eq : P = vadd (vmul A l2) (vmul B l3).
  Proof.
    unfold P, A, B. revert Hp. destruct V0 as [x0 y0 z0], V1 as [x1 y1 z1], V2 as [x2 y2 z2], S as [xs ys zs], D as [dx dy dz].
    unfold vmadd, vsub, vadd, vmul; cbn [vx vy vz]. cbn -[Rplus Rmult Rminus Ropp]. intros H. injection H as H1 H2 H3.
    assert (E : l1 = 1 - l2 - l3) by lra. rewrite E in *. f_equal; lra.
  Qed.
  Lemma t_eq : vdot N (vsub S V0) = - (t * vdot N D).
  Proof.
    assert (E : vdot N P = 0).
    { rewrite P_eq. unfold N. destruct A as [x0 y0 z0], B as [x1 y1 z1]. unfold vcross, vdot, vadd, vmul; cbn [vx vy vz]. cbn -[Rplus Rmult Rminus Ropp]. ring. }
    unfold P in E. revert E. generalize (vsub S V0). intros w. destruct N as [x0 y0 z0], w as [x1 y1 z1], D as [dx dy dz].
    unfold vdot, vmadd; cbn [vx vy vz]. cbn -[Rplus Rmult Rminus Ropp]. lra.
  Qed.
  Lemma f_neq : vdot N D <> 0.
  Proof. intros E. rewrite E, Rabs_R0 in Hn. assert (Q := q_range). assert (0 < / q) by (apply Rinv_0_lt_compat; lra). lra. Qed.
  Lemma t_ap : ap k tt t (2048 * q) 3.
  Proof.
    assert (Q := q_range). assert (U := u_pos). assert (U' := u_small). assert (F := f_neq).
    assert (I : 0 < / q) by (apply Rinv_0_lt_compat; lra). assert (Iq : / q * q = 1) by (apply Rinv_l; lra).
    assert (T : - vdot N (vsub S V0) / vdot N D = t) by (rewrite t_eq; field; exact F).
    assert (Iq' : 1 / 256 <= / q) by (apply Rmult_le_reg_r with q; [lra|]; rewrite Iq; lra).
    assert (E : (399 + Rabs t * 351) * (102 / 100) / (/ q) <= 1840 * q).
    { unfold Rdiv. rewrite Rinv_inv. apply Rmult_le_compat_r; [lra|]. lra. }
    assert (H := ap_div (3 * k) (2 * k) (nopp (vdot n s0)) f (- vdot N (vsub S V0)) (vdot N D) 399 351 6 6 3 (/ q)).
    rewrite T in H. replace (3 * k - 2 * k)%Z with k in H by ring. eapply ap_le; [apply H|].
    - unfold fits; lia.
    - apply ap_opp, ns_ap.
    - exact f_ap.
    - exact I.
    - exact Hn.
    - lra.
    - lra.
    - lra.
    - bp. assert ((399 + Rabs t * 351) * (102 / 100) / / q * u <= 1840 * 256 * u) by (apply Rmult_le_compat_r; lra). lra.
    - bp. lra.
  Qed.
  Lemma p_ap : vap k p P (4200 * q) 5.
  Proof.
    assert (Q := q_range).
    eapply vap_le; [apply (vap_madd 0 k k s0 tt d (vsub S V0) t D 2 (2048 * q) 0 1 3 1 5); [lia|unfold fits; lia|unfold fits; lia|lra|lra|apply (efu _ _ 600000 0); lra| |exact s_ap|exact t_ap|exact AD]|].
    - cbn [Z.add Pos.add Pos.succ]. bp. lra.
    - unfold mulerr. cbn [Z.add Pos.add Pos.succ]. bp. lra.
  Qed.
  Lemma pa_ap : vap k (vsub p a) (vsub P A) (4300 * q) 6.
  Proof.
    assert (Q := q_range).
    eapply vap_le; [apply vap_sub with (1 := ltac:(unfold fits; lia) : fits (k + 6)) (3 := p_ap) (4 := a_ap); bp; lra|bp; lra].
  Qed.
  Lemma ba_ap : vap k (vsub b a) (vsub B A) 8 2.
  Proof. eapply vap_le; [apply vap_sub with (1 := ltac:(unfold fits; lia) : fits (k + 2)) (3 := b_ap) (4 := a_ap); bp; lra|bp; lra]. Qed.
  Lemma c1_ap : vap (2 * k) (vcross (vsub b a) (vsub p a)) (vcross (vsub B A) (vsub P A)) (37000 * q) 9.
  Proof.
    assert (Q := q_range).
    eapply vap_le; [apply (vap_cross k k (2 * k) _ _ _ _ 8 (4300 * q) 2 6); [lia|unfold fits; lia|unfold fits; lia|lra|lra|apply (efu _ _ 8 2000000); lra|exact ba_ap|exact pa_ap]|].
    unfold mulerr. cbn [Z.add Pos.add Pos.succ]. bp. lra.
  Qed.
  Lemma c3_ap : vap (2 * k) (vcross a p) (vcross A P) (37000 * q) 7.
  Proof.
    assert (Q := q_range).
    eapply vap_le; [apply (vap_cross k k (2 * k) _ _ _ _ 2 (4200 * q) 1 5); [lia|unfold fits; lia|unfold fits; lia|lra|lra|apply (efu _ _ 8 2000000); lra|exact a_ap|exact p_ap]|].
    unfold mulerr. cbn [Z.add Pos.add Pos.succ]. bp. lra.
  Qed.
  Lemma d1_ap : ap (4 * k) (vdot n (vcross (vsub b a) (vsub p a))) (vdot N (vcross (vsub B A) (vsub P A))) (1000000 * q) 14.
  Proof.
    assert (Q := q_range).
    eapply ap_le; [apply (vap_dot (2 * k) (2 * k) (4 * k) n _ N _ 34 (37000 * q) 3 9); [lia|unfold fits; lia|unfold fits; lia|unfold fits; lia|lra|lra|apply (efu _ _ 34 10000000); lra|exact n_ap|exact c1_ap]|].
    unfold mulerr. cbn [Z.add Pos.add Pos.succ]. bp. lra.
  Qed.
  Lemma d3_ap : ap (4 * k) (vdot n (vcross a p)) (vdot N (vcross A P)) (1000000 * q) 12.
  Proof.
    assert (Q := q_range).
    eapply ap_le; [apply (vap_dot (2 * k) (2 * k) (4 * k) n _ N _ 34 (37000 * q) 3 7); [lia|unfold fits; lia|unfold fits; lia|unfold fits; lia|lra|lra|apply (efu _ _ 34 10000000); lra|exact n_ap|exact c3_ap]|].
    unfold mulerr. cbn [Z.add Pos.add Pos.succ]. bp. lra.
  Qed.
  Lemma n2_ap : ap (4 * k) n2 (vdot N N) 2300 8.
  Proof.
    eapply ap_le; [apply (vap_dot (2 * k) (2 * k) (4 * k) n n N N 34 34 3 3); [lia|unfold fits; lia|unfold fits; lia|unfold fits; lia|lra|lra|apply (efu _ _ 34 34); lra|exact n_ap|exact n_ap]|].
    unfold mulerr. cbn [Z.add Pos.add Pos.succ]. bp. lra.
  Qed.
  Lemma cauchy (x y : vec R) : vdot x y * vdot x y <= vdot x x * vdot y y.
  Proof.
    destruct x as [x0 x1 x2], y as [y0 y1 y2]. unfold vdot; cbn [vx vy vz]. cbn -[Rplus Rmult Rminus Ropp].
    assert (H1 := Rle_0_sqr (x0 * y1 - x1 * y0)). assert (H2 := Rle_0_sqr (x0 * y2 - x2 * y0)). assert (H3 := Rle_0_sqr (x1 * y2 - x2 * y1)). unfold Rsqr in *. lra.
  Qed.
  Lemma n2_low : / (q * q) / (1001 / 1000) <= vdot N N.
  Proof.
    assert (Q := q_range). assert (C := cauchy N D).
    assert (I : 0 < / q) by (apply Rinv_0_lt_compat; lra).
    assert (E : / q * / q <= vdot N D * vdot N D).
    { replace (vdot N D * vdot N D) with (Rabs (vdot N D) * Rabs (vdot N D)) by (rewrite <- Rabs_mult; apply Rabs_pos_eq, Rle_0_sqr).
      apply Rmult_le_compat; lra. }
    assert (0 <= vdot N N).
    { destruct N as [x y z]. unfold vdot; cbn [vx vy vz]. cbn -[Rplus Rmult Rminus Ropp]. nra. }
    rewrite Rinv_mult. unfold Rdiv at 1. apply Rmult_le_reg_r with (1001 / 1000); [lra|].
    rewrite Rmult_assoc, Rinv_l, Rmult_1_r by lra.
    apply Rle_trans with (1 := E). eapply Rle_trans; [exact C|]. apply Rmult_le_compat_l; lra.
  Qed.
  Lemma l3_eq : vdot N (vcross A P) = l3 * vdot N N.
  Proof.
    rewrite P_eq. unfold N. destruct A as [x0 y0 z0], B as [x1 y1 z1]. unfold vcross, vdot, vadd, vmul; cbn [vx vy vz]. cbn -[Rplus Rmult Rminus Ropp]. ring.
  Qed.
  Lemma l1_eq : vdot N (vcross (vsub B A) (vsub P A)) = l1 * vdot N N.
  Proof.
    rewrite P_eq. replace l1 with (1 - l2 - l3) by lra. unfold N. destruct A as [x0 y0 z0], B as [x1 y1 z1]. unfold vcross, vdot, vadd, vmul, vsub; cbn [vx vy vz]. cbn -[Rplus Rmult Rminus Ropp]. ring.
  Qed.
  (** the sizes of the coordinates *)
  Lemma l_small l (c : vec R) : vdot N c = l * vdot N N -> vdot c c <= 1740 -> Rabs l <= 42 * q.
  Proof.
    intros E H. assert (Q := q_range). assert (L := n2_low). assert (C := cauchy N c). rewrite E in C.
    assert (Q2 : 1 <= q * q) by nra. assert (I : 0 < / (q * q)) by (apply Rinv_0_lt_compat; lra). assert (I' : / (q * q) * (q * q) = 1) by (apply Rinv_l; lra).
    assert (L' : / (q * q) <= 1001 / 1000 * vdot N N) by lra.
    set (w := vdot N N) in *. assert (W : 0 < w) by lra. clearbody w.
    assert (l * l * w <= 1740).
    { apply Rmult_le_reg_l with w; [exact W|]. apply Rle_trans with (w * vdot c c); [lra|]. apply Rmult_le_compat_l; lra. }
    assert (l * l * / (q * q) <= 1742).
    { assert (l * l * / (q * q) <= l * l * (1001 / 1000 * w)) by (apply Rmult_le_compat_l; [apply Rle_0_sqr|exact L']). lra. }
    assert (l * l <= 1742 * (q * q)).
    { apply Rmult_le_reg_r with (/ (q * q)); [exact I|]. replace (1742 * (q * q) * / (q * q)) with 1742 by (field; lra). exact H1. }
    assert (Rsqr l <= Rsqr (42 * q)) by (unfold Rsqr; lra).
    apply Rsqr_le_abs_0 in H3. rewrite (Rabs_pos_eq (42 * q)) in H3 by lra. exact H3.
  Qed.
  Lemma D_small : Rabs (vx D) <= 1001 / 1000 /\ Rabs (vy D) <= 1001 / 1000 /\ Rabs (vz D) <= 1001 / 1000.
  Proof.
    revert UD. destruct D as [x y z]. unfold vdot; cbn [vx vy vz]. cbn -[Rplus Rmult Rminus Ropp]. intros H.
    repeat split; apply Rabs_le; nra.
  Qed.

  Lemma cross_size (x y : vec R) : (Rabs (vx x) <= 2 /\ Rabs (vy x) <= 2 /\ Rabs (vz x) <= 2) ->
    (Rabs (vx y) <= 6004 / 1000 /\ Rabs (vy y) <= 6004 / 1000 /\ Rabs (vz y) <= 6004 / 1000) -> vdot (vcross x y) (vcross x y) <= 1740.
  Proof.
    destruct x as [x0 x1 x2], y as [y0 y1 y2]. unfold vdot, vcross; cbn [vx vy vz]. cbn -[Rplus Rmult Rminus Ropp Rabs]. intros (X0 & X1 & X2) (Y0 & Y1 & Y2).
    assert (M : forall p q r w, Rabs p <= 2 -> Rabs q <= 6004 / 1000 -> Rabs r <= 2 -> Rabs w <= 6004 / 1000 -> (p * q - r * w) * (p * q - r * w) <= 580).
    { clear. intros p q r w Hp Hq Hr Hw.
      assert (E : Rabs (p * q - r * w) <= 24016 / 1000).
      { unfold Rminus. eapply Rle_trans; [apply Rabs_triang|]. rewrite Rabs_Ropp, !Rabs_mult.
        assert (Rabs p * Rabs q <= 2 * (6004 / 1000)) by (apply Rmult_le_compat; auto using Rabs_pos).
        assert (Rabs r * Rabs w <= 2 * (6004 / 1000)) by (apply Rmult_le_compat; auto using Rabs_pos). lra. }
      replace ((p * q - r * w) * (p * q - r * w)) with (Rabs (p * q - r * w) * Rabs (p * q - r * w)) by (rewrite <- Rabs_mult; apply Rabs_pos_eq, Rle_0_sqr).
      assert (G := Rabs_pos (p * q - r * w)). generalize dependent (Rabs (p * q - r * w)). intros z Hz1 Hz2.
      apply Rle_trans with ((24016 / 1000) * (24016 / 1000)); [apply Rmult_le_compat; lra|lra]. }
    assert (G1 := M x1 y2 x2 y1 X1 Y2 X2 Y1). assert (G2 := M x2 y0 x0 y2 X2 Y0 X0 Y2). assert (G3 := M x0 y1 x1 y0 X0 Y1 X1 Y0). lra.
  Qed.
  Lemma tri2 x y : Rabs x <= 1 -> Rabs y <= 1 -> Rabs (x - y) <= 2.
  Proof. intros Hx Hy. apply Rabs_def2b in Hx || apply Rabs_le_inv in Hx. apply Rabs_le_inv in Hy. apply Rabs_le. lra. Qed.
  Lemma tri6 x y e : Rabs x <= 1 -> Rabs y <= 1 -> Rabs e <= 1001 / 1000 -> Rabs (x - y + t * e) <= 6004 / 1000.
  Proof.
    intros Hx Hy He. eapply Rle_trans; [apply Rabs_triang|]. assert (G := tri2 x y Hx Hy). rewrite Rabs_mult.
    assert (Rabs t * Rabs e <= 4 * (1001 / 1000)) by (apply Rmult_le_compat; auto using Rabs_pos). lra.
  Qed.
  Lemma l3_small : Rabs l3 <= 42 * q.
  Proof.
    apply (l_small l3 (vcross A P)); [exact l3_eq|]. destruct D_small as (DX & DY & DZ). destruct S0 as (X0 & Y0 & Z0), S1 as (X1 & Y1 & Z1), SS as (XS & YS & ZS).
    apply cross_size.
    - unfold A, vsub; cbn [vx vy vz]. repeat split; apply tri2; assumption.
    - unfold P, vmadd, vsub; cbn [vx vy vz]. repeat split; apply tri6; assumption.
  Qed.
  Lemma l1_small : Rabs l1 <= 42 * q.
  Proof.
    apply (l_small l1 (vcross (vsub B A) (vsub P A))); [exact l1_eq|]. destruct D_small as (DX & DY & DZ). destruct S0 as (X0 & Y0 & Z0), S1 as (X1 & Y1 & Z1), S2 as (X2 & Y2 & Z2), SS as (XS & YS & ZS).
    apply cross_size.
    - unfold A, B, vsub; cbn [vx vy vz]. cbn -[Rplus Rmult Rminus Ropp Rabs].
      assert (E : forall x y z : R, x - y - (z - y) = x - z) by (intros; ring). rewrite !E. repeat split; apply tri2; assumption.
    - unfold P, A, vmadd, vsub; cbn [vx vy vz]. cbn -[Rplus Rmult Rminus Ropp Rabs].
      assert (E : forall x y z w : R, x - y + w - (z - y) = x - z + w) by (intros; ring). rewrite !E. repeat split; apply tri6; assumption.
  Qed.
  Lemma m_ap x X l j : ap (4 * k) x X (1000000 * q) j -> X = l * vdot N N -> Rabs l <= 42 * q -> ap 0 (ndiv x n2) l (1200000 * (q * q * q)) (i + 6).
  Proof.
    intros Hx E Hs. assert (Q := q_range). assert (L := n2_low). assert (U := u_pos). assert (U' := u_small).
    set (w := / (q * q) / (1001 / 1000)) in *.
    assert (Q2 : 1 <= q * q <= 65536) by nra. assert (Q3 : q <= q * q * q) by nra.
    assert (W : w * (q * q * (1001 / 1000)) = 1) by (unfold w; field; lra).
    assert (W0 : 0 < w) by (unfold w; apply Rdiv_lt_0_compat; [apply Rinv_0_lt_compat; lra|lra]).
    assert (W1 : / w = q * q * (1001 / 1000)) by (unfold w; field; lra).
    assert (W2 : / 65602 <= w).
    { assert (G : / w <= 65602) by (rewrite W1; lra). apply Rinv_le in G; [|apply Rinv_0_lt_compat; exact W0]. now rewrite Rinv_inv in G. }
    assert (NN : vdot N N <> 0) by lra.
    assert (T : X / vdot N N = l) by (rewrite E; field; exact NN).
    assert (Er : (1000000 * q + Rabs l * 2300) * (102 / 100) / w <= 1130000 * (q * q * q)).
    { unfold Rdiv. rewrite W1.
      replace (1130000 * (q * q * q)) with ((1130000 * q * / (1001 / 1000)) * (q * q * (1001 / 1000))) by (field).
      apply Rmult_le_compat_r; lra. }
    assert (B6 : bpow radix2 (i + 6) = q * 64) by (rewrite bpow_plus; reflexivity).
    assert (H := ap_div (4 * k) (4 * k) x n2 X (vdot N N) (1000000 * q) 2300 j 8 (i + 6) w).
    rewrite T in H. replace (4 * k - 4 * k)%Z with 0%Z in H by ring. eapply ap_le; [apply H|].
    - unfold fits; lia.
    - exact Hx.
    - exact n2_ap.
    - exact W0.
    - rewrite Rabs_pos_eq; lra.
    - lra.
    - lra.
    - lra.
    - rewrite B6.
      assert (Q3' : q * q * q <= 65536 * 256) by (apply Rmult_le_compat; lra).
      assert ((1000000 * q + Rabs l * 2300) * (102 / 100) / w * u <= 1130000 * (65536 * 256) * u) by (apply Rmult_le_compat_r; lra). lra.
    - rewrite B6. lra.
  Qed.
  Lemma m1_ap : ap 0 m1 l1 (1200000 * (q * q * q)) (i + 6).
  Proof. eapply m_ap; [exact d1_ap|exact l1_eq|exact l1_small]. Qed.
  Lemma m3_ap : ap 0 m3 l3 (1200000 * (q * q * q)) (i + 6).
  Proof. eapply m_ap; [exact d3_ap|exact l3_eq|exact l3_small]. Qed.
  Lemma one_ap : ap 0 (nofZ 1) 1 0 0.
  Proof.
    destruct (Z_b 1 ltac:(cbn; lia)) as [F E]. split; [exact F|]. unfold at_scale. rewrite E. change (bpow radix2 (- 0)) with 1. change (bpow radix2 0) with 1.
    rewrite Rmult_1_r. split; [|rewrite Rabs_R1; lra]. replace (1 - 1) with 0 by ring. rewrite Rabs_R0. lra.
  Qed.
  Lemma m2_ap : ap 0 (nsub (nsub (nofZ 1) m1) m3) l2 (2 ^ 22 * (q * q * q)) (i + 8).
  Proof.
    assert (Q := q_range). assert (Q3 : q <= q * q * q) by nra.
    assert (B6 : bpow radix2 (i + 6) = q * 64) by (rewrite bpow_plus; reflexivity).
    assert (B7 : bpow radix2 (i + 7) = q * 128) by (rewrite bpow_plus; reflexivity).
    assert (B8 : bpow radix2 (i + 8) = q * 256) by (rewrite bpow_plus; reflexivity).
    assert (X : ap 0 (nsub (nofZ 1) m1) (1 - l1) (0 + 1200000 * (q * q * q) + bpow radix2 (i + 7)) (i + 7)).
    { eapply ap_sub; [unfold fits; lia|exact one_ap|exact m1_ap|]. rewrite B6, B7. change (bpow radix2 0) with 1. lra. }
    assert (Y : ap 0 (nsub (nsub (nofZ 1) m1) m3) (1 - l1 - l3) (0 + 1200000 * (q * q * q) + bpow radix2 (i + 7) + 1200000 * (q * q * q) + bpow radix2 (i + 8)) (i + 8)).
    { eapply ap_sub; [unfold fits; lia|exact X|exact m3_ap|]. rewrite B6, B7, B8. lra. }
    replace (1 - l1 - l3) with l2 in Y by lra. eapply ap_le; [exact Y|]. rewrite B7, B8. lra.
  Qed.
  Definition margin : R := bpow radix2 (3 * i - 31).
  Lemma margin_eq : margin = 2 ^ 22 * (q * q * q) * u.
  Proof.
    unfold margin, q. replace u with (bpow radix2 (-53)) by (rewrite u_val; reflexivity). replace (2 ^ 22) with (bpow radix2 22) by (cbn; lra). rewrite <- !bpow_plus. f_equal. lia.
  Qed.
  Lemma coords_near (r : ray b64) : rStart r = s -> rDir r = d -> forall g, faceCoords v0 v1 v2 r = g ->
    ap k (fgT g) t (2048 * q) 3 /\ ap 0 (fg1 g) l1 (2 ^ 22 * (q * q * q)) (i + 6) /\ ap 0 (fg2 g) l2 (2 ^ 22 * (q * q * q)) (i + 8) /\ ap 0 (fg3 g) l3 (2 ^ 22 * (q * q * q)) (i + 6).
  Proof.
    intros Es Ed g <-. rewrite coords_vec, Es, Ed. cbv zeta. cbn [fgT fg1 fg2 fg3].
    assert (Q := q_range). assert (Q3 : q <= q * q * q) by nra.
    split; [exact t_ap|]. split; [eapply ap_le; [exact m1_ap|lra]|]. split; [exact m2_ap|]. eapply ap_le; [exact m3_ap|lra].
  Qed.
End Tri.
