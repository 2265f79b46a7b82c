(** * Normals of meshes in double precision: triangles without a proper normal are left out *)
From Coq Require Import ZArith Reals Bool List Lra Lia.
From Flocq Require Import Core.
From Flocq Require IEEE754.BinarySingleNaN.
Import IEEE754.BinarySingleNaN.
From Verif Require Import Num NumLaws Outcome B64 GeomModel ObjModel TreeModel FloatSpec FloatErr BoxFloat.
Import ListNotations.
Local Open Scope R_scope.

Lemma add_inv (x y : b64) : is_finite (nadd x y) = true -> is_finite x = true /\ is_finite y = true /\ B2R (nadd x y) = rnd (B2R x + B2R y).
Proof.
  intros F. assert (FF : is_finite x = true /\ is_finite y = true).
  { destruct x as [s|s| |s m e p], y as [s'|s'| |s' m' e' p']; try (split; reflexivity); exfalso; revert F; cbn; try discriminate; try (destruct s; discriminate); try (destruct s'; discriminate); destruct s, s'; discriminate. }
  destruct FF as [Fx Fy]. split; [exact Fx|]. split; [exact Fy|].
  generalize (Bplus_correct 53 1024 Hprec64 Hmax64 mode_NE x y Fx Fy). destruct (Rlt_bool _ _); [intros (E & _); exact E|].
  intros [O _]. exfalso. change (nadd x y) with (Bplus mode_NE x y) in F. destruct (Bplus mode_NE x y) as [s|s| |s m e p]; try discriminate F; cbn in O.
  - discriminate O.
  - unfold binary_overflow in O. cbn in O. discriminate O.
Qed.

Lemma not_bad (x : b64) : isBad x = false -> is_finite x = true.
Proof.
  unfold isBad. destruct x as [s|s| |s m e p]; intros H; try reflexivity.
  - destruct s; discriminate H.
  - discriminate H.
Qed.

(** components of a normalised vector, if it is finite *)
Definition small (x : b64) : Prop := is_finite x = true /\ Rabs (B2R x) <= 2.

Lemma fmt_2 : fmt 2. Proof. apply (fmt_Z 2). lia. Qed.

Lemma scaled_small (x q : b64) : is_finite q = true -> rnd (B2R x * B2R x) <= B2R q -> 0 <= B2R q ->
  is_finite (nmul x (ndiv (nofZ 1) (nsqrt q))) = true -> small (nmul x (ndiv (nofZ 1) (nsqrt q))).
Proof.
  intros Fq Q P F. destruct (mul_inv _ _ F) as (Fx & Fs & E). destruct (sqrt_R q Fq P) as [Fr Er].
  destruct (div_inv _ Fs Fr) as [N Es]. split; [exact F|]. rewrite E. apply rnd_abs_le; [exact fmt_2|].
  set (r := B2R (nsqrt q)) in *. set (X := B2R x) in *. set (w := B2R (ndiv (nofZ 1) (nsqrt q))) in *. clearbody w.
  assert (Q0 : B2R q <> 0). { intros Z. apply N. rewrite Er, Z, sqrt_0. apply rnd_0. }
  assert (QP : bpow radix2 (2 * -537) <= B2R q).
  { change (2 * -537)%Z with (-1074)%Z. apply (generic_format_ge_bpow radix2 fexp64 (-1074)); [|lra|apply fmt_B2R].
    intros e. unfold SpecFloat.fexp, SpecFloat.emin. lia. }
  assert (key : forall k, (-537 <= k)%Z -> bpow radix2 (2 * k) <= B2R q -> Rabs X <= bpow radix2 (k + 1) -> Rabs (X * w) <= 2).
  { intros k K B XB. assert (K' : (2 * k < 1024)%Z).
    { apply (lt_bpow radix2). eapply Rle_lt_trans; [exact B|]. eapply Rle_lt_trans; [apply Rle_abs|]. apply abs_B2R_lt_emax. }
    assert (R1 : bpow radix2 k <= r).
    { rewrite Er. apply rnd_ge; [apply fmt_bpow; lia|]. rewrite <- (sqrt_Rsqr (bpow radix2 k)) by apply bpow_ge_0. apply sqrt_le_1_alt.
      unfold Rsqr. rewrite <- bpow_plus. replace (k + k)%Z with (2 * k)%Z by ring. exact B. }
    assert (K0 := bpow_gt_0 radix2 k). assert (R2 : 0 <= 1 / r <= bpow radix2 (- k)).
    { rewrite bpow_opp. split; [apply Rmult_le_pos; [lra|]; left; apply Rinv_0_lt_compat; lra|]. unfold Rdiv. rewrite Rmult_1_l. apply Rinv_le; lra. }
    assert (S1 : 0 <= w <= bpow radix2 (- k)).
    { rewrite Es. split; [apply rnd_nonneg; lra|]. apply rnd_le; [apply fmt_bpow; lia|lra]. }
    rewrite Rabs_mult, (Rabs_pos_eq w) by lra.
    replace 2 with (bpow radix2 (k + 1) * bpow radix2 (- k)).
    - apply Rmult_le_compat; try lra. apply Rabs_pos.
    - rewrite <- bpow_plus. replace (k + 1 + - k)%Z with 1%Z by ring. reflexivity. }
  destruct (Rle_or_lt (Rabs X) (bpow radix2 (-537))) as [L|L].
  - apply (key (-537)%Z); [lia|exact QP|]. eapply Rle_trans; [exact L|]. apply bpow_le. lia.
  - assert (X0 : X <> 0). { intros Z. rewrite Z, Rabs_R0 in L. pose proof (bpow_gt_0 radix2 (-537)). lra. }
    destruct (mag radix2 X) as [e He]. specialize (He X0). cbn in He.
    assert (-537 < e)%Z by (apply (lt_bpow radix2); lra).
    apply (key (e - 1)%Z); [lia| |replace (e - 1 + 1)%Z with e by ring; lra].
    eapply Rle_trans; [|exact Q]. apply rnd_ge; [apply fmt_bpow; lia|]. replace (2 * (e - 1))%Z with ((e - 1) + (e - 1))%Z by ring. rewrite bpow_plus.
    replace (X * X) with (Rabs X * Rabs X) by (rewrite <- Rabs_mult; apply Rabs_pos_eq; nra).
    apply Rmult_le_compat; try apply bpow_ge_0; lra.
Qed.

Lemma zero_small (x : b64) s : is_finite (nmul x (B754_zero s)) = true -> small (nmul x (B754_zero s : b64)).
Proof. intros F. split; [exact F|]. destruct (mul_inv _ _ F) as (_ & _ & ->). cbn [B2R]. rewrite Rmult_0_r, rnd_0, Rabs_R0. lra. Qed.

Theorem normalized_small (v : vec b64) : isBadVec (vnormalized v) = false -> all3 small (vnormalized v).
Proof.
  unfold isBadVec. rewrite !orb_false_iff. intros [[X Y] Z]. apply not_bad in X, Y, Z. unfold vnormalized in *. cbv zeta in *. cbn [vx vy vz] in *.
  set (q := nadd (nadd (nmul (vx v) (vx v)) (nmul (vy v) (vy v))) (nmul (vz v) (vz v))) in *.
  destruct (is_finite q) eqn:Fq.
  - destruct (add_inv _ _ Fq) as (Fa & Fz & Eq). destruct (add_inv _ _ Fa) as (Fx & Fy & Ea).
    destruct (mul_inv _ _ Fx) as (_ & _ & Ex). destruct (mul_inv _ _ Fy) as (_ & _ & Ey). destruct (mul_inv _ _ Fz) as (_ & _ & Ez). fold q in Eq.
    assert (P : forall x : R, 0 <= rnd (x * x)) by (intros x; apply rnd_nonneg; nra).
    assert (Px := P (B2R (vx v))). assert (Py := P (B2R (vy v))). assert (Pz := P (B2R (vz v))). rewrite <- Ex in Px. rewrite <- Ey in Py. rewrite <- Ez in Pz.
    assert (A1 : B2R (nmul (vx v) (vx v)) <= B2R (nadd (nmul (vx v) (vx v)) (nmul (vy v) (vy v)))) by (rewrite Ea; apply rnd_ge; [apply fmt_B2R|lra]).
    assert (A2 : B2R (nmul (vy v) (vy v)) <= B2R (nadd (nmul (vx v) (vx v)) (nmul (vy v) (vy v)))) by (rewrite Ea; apply rnd_ge; [apply fmt_B2R|lra]).
    assert (A3 : B2R (nmul (vz v) (vz v)) <= B2R q) by (rewrite Eq; apply rnd_ge; [apply fmt_B2R|lra]).
    assert (A4 : B2R (nadd (nmul (vx v) (vx v)) (nmul (vy v) (vy v))) <= B2R q) by (rewrite Eq; apply rnd_ge; [apply fmt_B2R|lra]).
    rewrite Ex in A1. rewrite Ey in A2. rewrite Ez in A3.
    assert (P0 : 0 <= B2R q) by lra.
    exact (conj (scaled_small _ q Fq (Rle_trans _ _ _ A1 A4) P0 X) (conj (scaled_small _ q Fq (Rle_trans _ _ _ A2 A4) P0 Y) (scaled_small _ q Fq A3 P0 Z))).
  - assert (S : is_finite (ndiv (nofZ 1) (nsqrt q)) = true -> exists s, ndiv (nofZ 1) (nsqrt q) = B754_zero s).
    { intros G. destruct q as [s|s| |s m e p]; try discriminate Fq.
      - destruct s; [discriminate G|]. now exists false.
      - discriminate G. }
    destruct (mul_inv _ _ X) as (_ & G & _). destruct (S G) as [s E]. rewrite E in X, Y, Z |- *.
    exact (conj (zero_small _ s X) (conj (zero_small _ s Y) (zero_small _ s Z))).
Qed.

(** the sums stay finite: after [n] additions of such vectors every component is at most [2 n] *)
Definition bounded (n : nat) (v : vec b64) : Prop := all3 (fun x => is_finite x = true /\ Rabs (B2R x) <= 2 * INR n) v.

Lemma bounded_add1 n (x y : b64) : (Z.of_nat n < 2 ^ 50)%Z -> is_finite x = true -> Rabs (B2R x) <= 2 * INR n -> small y ->
  is_finite (nadd x y) = true /\ Rabs (B2R (nadd x y)) <= 2 * INR (S n).
Proof.
  intros N Fx X [Fy Y]. assert (B : Rabs (B2R x + B2R y) <= 2 * INR (S n)) by (rewrite S_INR; pose proof (Rabs_triang (B2R x) (B2R y)); lra).
  assert (I : 2 * INR (S n) = IZR (2 * Z.of_nat (S n))) by (rewrite mult_IZR, <- INR_IZR_INZ; reflexivity).
  destruct (badd_correct x y Fx Fy) as [F E].
  - eapply Rle_trans; [exact B|]. rewrite I. eapply Rle_trans; [apply (IZR_le _ (2 ^ 53)); lia|]. change (IZR (2 ^ 53)) with (bpow radix2 53). apply bpow_big. lia.
  - split; [exact F|]. rewrite E. apply rnd_abs_le; [|exact B]. rewrite I. apply fmt_Z. lia.
Qed.
Lemma bounded_add n v w : (Z.of_nat n < 2 ^ 50)%Z -> bounded n v -> all3 small w -> bounded (S n) (vadd v w).
Proof.
  intros N ((F1 & B1) & (F2 & B2) & (F3 & B3)) (S1 & S2 & S3).
  exact (conj (bounded_add1 n _ _ N F1 B1 S1) (conj (bounded_add1 n _ _ N F2 B2 S2) (bounded_add1 n _ _ N F3 B3 S3))).
Qed.
Lemma bounded_le n n' v : (n <= n')%nat -> bounded n v -> bounded n' v.
Proof.
  intros L ((F1 & B1) & (F2 & B2) & (F3 & B3)). apply le_INR in L. unfold bounded, all3. repeat split; try assumption; lra.
Qed.

Notation ok n vs := (Forall (fun v : vertex b64 => bounded n (vtNormal v)) vs).

Lemma setNth_Forall {A} (P : A -> Prop) (l : list A) i a : Forall P l -> P a -> Forall P (setNth l i a).
Proof. intros L Pa. revert i. induction L as [|x l Px L IH]; intros [|i]; cbn [setNth]; constructor; auto. Qed.

Lemma addNormal_ok n vs i w vs' : (Z.of_nat n < 2 ^ 50)%Z -> ok n vs -> all3 small w -> addNormal vs i w = Val vs' -> ok (S n) vs'.
Proof.
  intros N O W H. unfold addNormal in H. unfold getZ in H. destruct (i <? 0)%Z; [discriminate H|].
  destruct (nth_error vs (Z.to_nat i)) as [v|] eqn:E; [|discriminate H]. cbn [obind] in H. unfold setZ in H. destruct (_ || _)%bool; [discriminate H|].
  apply (f_equal (fun o => match o with Val l => l | _ => nil end)) in H. cbv beta iota in H. subst vs'.
  apply setNth_Forall.
  - eapply Forall_impl; [|exact O]. intros a. apply bounded_le. lia.
  - cbn [vtNormal]. apply bounded_add; [exact N| |exact W]. apply nth_error_In in E. rewrite Forall_forall in O. now apply O.
Qed.

Theorem sums_finite : forall fs vs n vs', ok n vs -> (Z.of_nat n + 3 * Z.of_nat (length fs) < 2 ^ 50)%Z -> sumNormals fs vs = Val vs' -> ok (n + 3 * length fs) vs'.
Proof.
  induction fs as [|f fs IH]; intros vs n vs' O N H; cbn [sumNormals length] in H, N.
  - apply (f_equal (fun o => match o with Val l => l | _ => nil end)) in H. cbv beta iota in H. subst vs'. cbn [length]. now rewrite Nat.mul_0_r, Nat.add_0_r.
  - destruct (faceNormal vs f) as [w| |] eqn:E; [|discriminate H|discriminate H]. cbn [obind] in H.
    destruct (isBadVec w) eqn:B.
    + apply (IH _ n) in H; [|exact O|lia]. eapply Forall_impl; [|exact H]. intros a. apply bounded_le. cbn [length]. lia.
    + destruct f as [[i j] k].
      assert (W : all3 small w).
      { unfold faceNormal in E. destruct (getZ vs i) as [a| |]; [|discriminate E|discriminate E]. destruct (getZ vs j) as [b| |]; [|discriminate E|discriminate E].
        destruct (getZ vs k) as [c| |]; [|discriminate E|discriminate E]. cbn [obind omap] in E.
        apply (f_equal (fun o => match o with Val l => l | _ => w end)) in E. cbv beta iota in E. subst w. apply normalized_small. exact B. }
      destruct (addNormal vs i w) as [vs1| |] eqn:E1; [|discriminate H|discriminate H]. cbn [obind] in H.
      destruct (addNormal vs1 j w) as [vs2| |] eqn:E2; [|discriminate H|discriminate H]. cbn [obind] in H.
      destruct (addNormal vs2 k w) as [vs3| |] eqn:E3; [|discriminate H|discriminate H]. cbn [obind] in H.
      apply (addNormal_ok n) in E1; [|lia|exact O|exact W]. apply (addNormal_ok (S n)) in E2; [|lia|exact E1|exact W]. apply (addNormal_ok (S (S n))) in E3; [|lia|exact E2|exact W].
      apply (IH _ (S (S (S n)))) in H; [|exact E3|lia]. assert (EN : (S (S (S n)) + 3 * length fs = n + 3 * S (length fs))%nat) by lia. rewrite EN in H. exact H.
Qed.

Lemma start_ok : forall (ps : list (vec b64)) uv vs, meshVertices ps uv = Val vs -> ok 0 vs.
Proof.
  assert (Z : bounded 0 vO). { unfold bounded, all3, vO. cbn [vx vy vz]. assert (E : is_finite (nofZ 0 : b64) = true /\ Rabs (B2R (nofZ 0 : b64)) <= 2 * INR 0) by (split; [reflexivity|]; cbn; rewrite Rabs_R0; lra). exact (conj E (conj E E)). }
  induction ps as [|p ps IH]; intros uv vs H; cbn [meshVertices] in H.
  - apply (f_equal (fun o => match o with Val l => l | _ => nil end)) in H. cbv beta iota in H. subst vs. constructor.
  - destruct uv as [[|[a b] uv]|]; [discriminate H| |].
    + destruct (meshVertices ps (Some uv)) as [l| |] eqn:E; [|discriminate H|discriminate H]. cbn [omap obind] in H.
      apply (f_equal (fun o => match o with Val l => l | _ => nil end)) in H. cbv beta iota in H. subst vs. constructor; [exact Z|]. exact (IH _ _ E).
    + destruct (meshVertices ps None) as [l| |] eqn:E; [|discriminate H|discriminate H]. cbn [omap obind] in H.
      apply (f_equal (fun o => match o with Val l => l | _ => nil end)) in H. cbv beta iota in H. subst vs. constructor; [exact Z|]. exact (IH _ _ E).
Qed.

Theorem mesh_sums_finite (ps : list (vec b64)) uv fs vs : (Z.of_nat (length fs) <= 2 ^ 40)%Z ->
  obind (meshVertices ps uv) (sumNormals fs) = Val vs -> forall v, In v vs -> all3 (fun x => is_finite x = true) (vtNormal v).
Proof.
  intros N H v I. destruct (meshVertices ps uv) as [vs0| |] eqn:E; [|discriminate H|discriminate H]. cbn [obind] in H.
  apply start_ok in E. apply (sums_finite _ _ 0) in H; [|exact E|lia]. rewrite Forall_forall in H. destruct (H v I) as ((A & _) & (B & _) & (C & _)). exact (conj A (conj B C)).
Qed.
