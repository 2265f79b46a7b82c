(** * Rays that leave a box do not meet it again, in double precision *)
From Coq Require Import ZArith Reals Bool List Lra Lia.
From Flocq Require Import Core.
From Flocq Require IEEE754.BinarySingleNaN.
Import IEEE754.BinarySingleNaN.
From Verif Require Import Num NumLaws Outcome B64 FloatErr FloatSpec GeomModel ObjModel SceneModel TextureProofs.
Local Open Scope R_scope.

(** ** Boxes behind the ray, for any numbers *)
Section Order.
  Implicit Types x y z p q : b64.
  Notation le0 x := (nleb x (nofZ 0) = true).

  Lemma key0 : b64_key (nofZ 0 : b64) = XF 0.
  Proof. destruct (Z_b 0 ltac:(lia)) as [F E]. rewrite b64_key_finite by exact F. now rewrite E. Qed.
  Lemma ltb_key x y : nltb x y = xltb (b64_key x) (b64_key y). Proof. apply b64_key_ltb. Qed.
  Lemma leb_key x y : nleb x y = xleb (b64_key x) (b64_key y). Proof. apply b64_key_leb. Qed.

  Lemma xleb_F a b : xleb (XF a) (XF b) = Rleb a b. Proof. symmetry. apply Rleb_ltb_eqb. Qed.
  Ltac keys := rewrite ?ltb_key, ?leb_key, ?key0 in *;
    repeat match goal with |- context [b64_key ?x] => destruct (b64_key x); cbn in * | H : context [b64_key ?x] |- _ => destruct (b64_key x); cbn in * end;
    rewrite ?xleb_F in *; repeat match goal with H : Rltb _ _ = true |- _ => apply Rltb_true in H | H : Rltb _ _ = false |- _ => apply Rltb_false in H
      | H : Rleb _ _ = true |- _ => apply Rleb_true in H | |- Rltb _ _ = true => apply Rltb_true | |- Rltb _ _ = false => apply Rltb_false | |- Rleb _ _ = true => apply Rleb_true end;
    try discriminate; try reflexivity; try lra; auto.

  Lemma min_le x y : le0 x -> nltb y x = true -> le0 y.
  Proof. intros. keys. Qed.
  Lemma min_le2 x y : le0 y -> nltb y x = false -> b64_key x = XNaN \/ le0 x.
  Proof. intros. rewrite ltb_key, leb_key, key0 in *. destruct (b64_key x) eqn:E, (b64_key y); cbn in *; auto; try discriminate; right.
    rewrite xleb_F in *. apply Rltb_false in H0. apply Rleb_true in H. apply Rleb_true. lra. Qed.
  Lemma min_nan x y : b64_key x = XNaN -> nltb y x = false.
  Proof. intros E. rewrite ltb_key, E. destruct (b64_key y); reflexivity. Qed.

  Lemma min3_le x y z : le0 x \/ le0 y \/ le0 z -> le0 (min3 x y z) \/ (b64_key x = XNaN /\ b64_key (min3 x y z) = XNaN).
  Proof.
    intros H. unfold min3. cbv zeta.
    assert (S : forall m w, le0 m \/ le0 w \/ b64_key m = XNaN -> le0 (if nltb w m then w else m) \/ b64_key m = XNaN /\ (if nltb w m then w else m) = m).
    { intros m w A. destruct (nltb w m) eqn:L.
      - left. destruct A as [A|[A|A]]; [exact (min_le m w A L)|exact A|]. rewrite min_nan in L by exact A. discriminate L.
      - destruct A as [A|[A|A]]; [now left| |now right]. destruct (min_le2 m w A L); [now right|now left]. }
    destruct H as [H|[H|H]].
    - destruct (S x y (or_introl H)) as [A|[A B]].
      + destruct (S _ z (or_introl A)) as [C|[C D]]; [now left|]. rewrite leb_key, C in A. discriminate A.
      + rewrite leb_key, A in H. discriminate H.
    - destruct (S x y (or_intror (or_introl H))) as [A|[A B]].
      + destruct (S _ z (or_introl A)) as [C|[C D]]; [now left|]. rewrite leb_key, C in A. discriminate A.
      + rewrite B. right. split; [exact A|]. rewrite min_nan by exact A. exact A.
    - set (m := if nltb y x then y else x). destruct (S m z (or_intror (or_introl H))) as [A|[A B]]; [now left|]. rewrite B. right. split; [|exact A].
      unfold m in *. destruct (nltb y x) eqn:L; [|exact A]. rewrite ltb_key, A in L. discriminate L.
  Qed.
  Lemma max3_nan x y z : b64_key x = XNaN -> b64_key (max3 x y z) = XNaN.
  Proof.
    intros E. unfold max3. cbv zeta. assert (S : forall m w, b64_key m = XNaN -> (if nltb m w then w else m) = m).
    { intros m w A. rewrite ltb_key, A. reflexivity. }
    rewrite (S x y E), (S x z E). exact E.
  Qed.
  Lemma minmax_nan p q : b64_key (umax p q) = XNaN -> b64_key (umin p q) = XNaN.
  Proof.
    unfold umax, umin. rewrite !ltb_key. destruct (b64_key p) eqn:P, (b64_key q) eqn:Q; cbn; rewrite ?P, ?Q; auto; try discriminate.
    all: destruct (Rltb _ _), (Rltb _ _); rewrite ?P, ?Q; discriminate.
  Qed.
  Lemma max_le p q : le0 p -> le0 q -> le0 (umax p q).
  Proof. intros. unfold umax. destruct (nltb q p); assumption. Qed.

  Definition slab (a b s d : b64) : b64 * b64 := (nmul (nsub a s) (ndiv (nofZ 1) d), nmul (nsub b s) (ndiv (nofZ 1) d)).
  Definition behind (a b s d : b64) : Prop := le0 (fst (slab a b s d)) /\ le0 (snd (slab a b s d)).

  Lemma behind_no_hit (lo hi : vec b64) (r : ray b64) :
    behind (vx lo) (vx hi) (vx (rStart r)) (vx (rDir r)) \/ behind (vy lo) (vy hi) (vy (rStart r)) (vy (rDir r)) \/ behind (vz lo) (vz hi) (vz (rStart r)) (vz (rDir r)) ->
    nltb (nofZ 0) (bbIntersect (BBox lo hi) r) = false.
  Proof.
    intros H. unfold bbIntersect, bbEnterExit. cbn [bMin bMax]. unfold behind, slab in H. cbn [fst snd] in H.
    set (ax := nmul (nsub (vx lo) _) _) in *. set (bx := nmul (nsub (vx hi) _) _) in *.
    set (ay := nmul (nsub (vy lo) _) _) in *. set (by_ := nmul (nsub (vy hi) _) _) in *.
    set (az := nmul (nsub (vz lo) _) _) in *. set (bz := nmul (nsub (vz hi) _) _) in *. clearbody ax bx ay by_ az bz.
    assert (E : le0 (umax ax bx) \/ le0 (umax ay by_) \/ le0 (umax az bz)) by (destruct H as [[A B]|[[A B]|[A B]]]; auto using max_le).
    pose proof (max3_nan (umin ax bx) (umin ay by_) (umin az bz)) as N.
    destruct (min3_le _ _ _ E) as [L|[L1 L2]].
    - set (ten := max3 _ _ _) in *. set (tex := min3 _ _ _) in *. clearbody ten tex. clear N E H.
      destruct (nltb tex ten) eqn:A; [apply nltb_irrefl|]. destruct (nltb ten (nofZ 0)) eqn:B; keys.
    - specialize (N (minmax_nan _ _ L1)). set (ten := max3 _ _ _) in *. set (tex := min3 _ _ _) in *. clearbody ten tex.
      assert (A : nltb tex ten = false) by (rewrite ltb_key, N, L2; reflexivity). assert (B : nltb ten (nofZ 0) = false) by (rewrite ltb_key, N; reflexivity).
      rewrite A, B, ltb_key, N, key0. reflexivity.
  Qed.
End Order.

(** ** Signs *)
Lemma neg_mul (x y : b64) : is_finite x = true -> B2R x < 0 -> Bsign y = false -> is_nan y = false -> nleb (nmul x y) (nofZ 0) = true.
Proof.
  intros Fx Nx Sy Ny. destruct (Z_b 0 ltac:(lia)) as [F0 E0].
  destruct (is_finite y) eqn:Fy.
  - assert (Py : 0 <= B2R y). { destruct y as [s|s| |s m e p]; try discriminate; cbn; [lra|]. cbn in Sy. subst s. apply F2R_ge_0. cbn. lia. }
    generalize (Bmult_correct 53 1024 Hprec64 Hmax64 mode_NE x y). destruct (Rlt_bool _ _).
    + intros (A & B & _). rewrite Fx, Fy in B. change (is_finite (nmul x y) = true) in B. apply (proj2 (bleb_R (nmul x y) (nofZ 0) B F0)). rewrite E0.
      change (B2R (nmul x y) = rnd (B2R x * B2R y)) in A. rewrite A. apply (rnd_le (B2R x * B2R y) 0 fmt_0).
      assert (0 <= (- B2R x) * B2R y) by (apply Rmult_le_pos; lra). lra.
    + intros A. assert (Sx : Bsign x = true). { destruct x as [s|s| |s m e p]; try discriminate; cbn in Nx |- *; [lra|]. destruct s; [reflexivity|]. exfalso. assert (0 <= F2R (Float radix2 (Z.pos m) e)) by (apply F2R_ge_0; cbn; lia). cbn in Nx. lra. }
      rewrite Sx, Sy in A. cbn in A. change (nmul x y) with (Bmult mode_NE x y). destruct (Bmult mode_NE x y) as [s|s| |s m e p]; try discriminate A. cbn in A. destruct s; [reflexivity|discriminate A].
  - destruct y as [s|s| |s m e p]; try discriminate. cbn in Sy. subst s.
    assert (Sx : Bsign x = true /\ is_finite_strict x = true). { destruct x as [s|s| |s m e p]; try discriminate; cbn in Nx |- *; [lra|]. destruct s; [auto|]. exfalso. assert (0 <= F2R (Float radix2 (Z.pos m) e)) by (apply F2R_ge_0; cbn; lia). cbn in Nx. lra. }
    destruct Sx as [Sx Fs]. destruct x as [s|s| |s m e p]; try discriminate. cbn in Sx. subst s. reflexivity.
Qed.
Lemma inv_sign (d : b64) : is_finite d = true -> B2R d <> 0 -> Bsign (ndiv (nofZ 1) d) = Bsign d /\ is_nan (ndiv (nofZ 1 : b64) d) = false.
Proof.
  intros Fd Nd. destruct (Z_b 1 ltac:(lia)) as [F1 E1]. change (ndiv (nofZ 1) d) with (Bdiv mode_NE (nofZ 1 : b64) d).
  assert (S1 : Bsign (nofZ 1 : b64) = false) by (vm_compute; reflexivity).
  generalize (Bdiv_correct 53 1024 Hprec64 Hmax64 mode_NE (nofZ 1 : b64) d Nd). destruct (Rlt_bool _ _).
  - intros (_ & B & C). assert (N : is_nan (Bdiv mode_NE (nofZ 1 : b64) d) = false). { rewrite F1 in B. destruct (Bdiv mode_NE (nofZ 1 : b64) d); try discriminate; reflexivity. }
    rewrite C by exact N. rewrite S1. destruct (Bsign d); split; (reflexivity || exact N).
  - rewrite S1. generalize (Bdiv mode_NE (nofZ 1 : b64) d). intros q A. destruct q as [s|s| |s m e p], (Bsign d); try discriminate A; cbn in A; destruct s; try discriminate A; split; reflexivity.
Qed.
Lemma sign_pos (d : b64) : is_finite d = true -> 0 < B2R d -> Bsign d = false.
Proof. intros F P. destruct d as [s|s| |s m e p]; try discriminate; cbn in *; [lra|]. destruct s; [|reflexivity]. exfalso. assert (F2R (Float radix2 (Z.neg m) e) <= 0) by (apply F2R_le_0; cbn; lia). cbn in P. lra. Qed.
Lemma sign_neg (d : b64) : is_finite d = true -> B2R d < 0 -> Bsign d = true.
Proof. intros F P. destruct d as [s|s| |s m e p]; try discriminate; cbn in *; [lra|]. destruct s; [reflexivity|]. exfalso. assert (0 <= F2R (Float radix2 (Z.pos m) e)) by (apply F2R_ge_0; cbn; lia). cbn in P. lra. Qed.
Lemma pos_mul (x y : b64) : is_finite x = true -> 0 < B2R x -> Bsign y = true -> is_nan y = false -> nleb (nmul x y) (nofZ 0) = true.
Proof.
  intros Fx Nx Sy Ny. destruct (Z_b 0 ltac:(lia)) as [F0 E0].
  assert (Sx := sign_pos x Fx Nx).
  destruct (is_finite y) eqn:Fy.
  - assert (Py : B2R y <= 0). { destruct y as [s|s| |s m e p]; try discriminate; cbn; [lra|]. cbn in Sy. subst s. apply F2R_le_0. cbn. lia. }
    generalize (Bmult_correct 53 1024 Hprec64 Hmax64 mode_NE x y). destruct (Rlt_bool _ _).
    + intros (A & B & _). rewrite Fx, Fy in B. change (is_finite (nmul x y) = true) in B. apply (proj2 (bleb_R (nmul x y) (nofZ 0) B F0)). rewrite E0.
      change (B2R (nmul x y) = rnd (B2R x * B2R y)) in A. rewrite A. apply (rnd_le (B2R x * B2R y) 0 fmt_0).
      assert (0 <= B2R x * (- B2R y)) by (apply Rmult_le_pos; lra). lra.
    + intros A. rewrite Sx, Sy in A. cbn in A. change (nmul x y) with (Bmult mode_NE x y). destruct (Bmult mode_NE x y) as [s|s| |s m e p]; try discriminate A. cbn in A. destruct s; [reflexivity|discriminate A].
  - destruct y as [s|s| |s m e p]; try discriminate. cbn in Sy. subst s.
    destruct x as [s|s| |s m e p]; try discriminate; cbn in Nx; [lra|]. cbn in Sx. subst s. reflexivity.
Qed.

(** ** A start beyond the face and a direction that leads away *)
Lemma beyond_behind k (a b s d : b64) : (0 <= k <= 900)%Z -> at_most k a -> at_most k b -> at_most k s -> is_finite d = true ->
  (B2R a <= B2R b /\ B2R b + bpow radix2 (-30) <= B2R s /\ 0 < B2R d) \/ (B2R a <= B2R b /\ B2R s + bpow radix2 (-30) <= B2R a /\ B2R d < 0) -> behind a b s d.
Proof.
  intros Hk [Fa Ba] [Fb Bb] [Fs Bs] Fd H. apply Rabs_le_inv in Ba, Bb, Bs. pose proof (bpow_gt_0 radix2 (-30)) as P30.
  assert (SUB : forall x : b64, is_finite x = true -> - bpow radix2 k <= B2R x <= bpow radix2 k -> is_finite (nsub x s) = true /\ B2R (nsub x s) = rnd (B2R x - B2R s)).
  { intros x Fx Bx. apply bsub_correct; try assumption. apply Rle_trans with (bpow radix2 (k + 1)); [|apply bpow_big; lia]. rewrite bpow_plus. change (bpow radix2 1) with 2. apply Rabs_le; lra. }
  destruct (SUB a Fa Ba) as [F1 E1]. destruct (SUB b Fb Bb) as [F2 E2]. clear SUB.
  assert (F30 : fmt (- bpow radix2 (-30))) by (apply fmt_opp, fmt_bpow; lia). assert (G30 : fmt (bpow radix2 (-30))) by (apply fmt_bpow; lia).
  unfold behind, slab. cbn [fst snd]. destruct H as [(O & S & D)|(O & S & D)].
  - destruct (inv_sign d Fd ltac:(lra)) as [I N]. rewrite (sign_pos d Fd D) in I.
    split; apply neg_mul; try assumption; rewrite ?E1, ?E2; match goal with |- rnd ?x < 0 => assert (rnd x <= - bpow radix2 (-30)) by (apply rnd_le; [exact F30|lra]); lra end.
  - destruct (inv_sign d Fd ltac:(lra)) as [I N]. rewrite (sign_neg d Fd D) in I.
    split; apply pos_mul; try assumption; rewrite ?E1, ?E2; match goal with |- 0 < rnd ?x => assert (bpow radix2 (-30) <= rnd x) by (apply rnd_ge; [exact G30|lra]); lra end.
Qed.

(** ** What box.normal knows about the point *)
Lemma sub_inv (x y : b64) : is_finite (nsub x y) = true -> is_finite y = true -> is_finite x = true /\ B2R (nsub x y) = rnd (B2R x - B2R y).
Proof.
  intros H Fy. assert (Fx : is_finite x = true).
  { destruct x as [s|s| |s m e p], y as [s'|s'| |s' m' e' p']; try reflexivity; try discriminate Fy; cbn in H; try discriminate H; destruct s; discriminate H. }
  split; [exact Fx|]. generalize (Bminus_correct 53 1024 Hprec64 Hmax64 mode_NE x y Fx Fy). destruct (Rlt_bool _ _).
  - intros (A & _). exact A.
  - intros (A & _). exfalso. assert (is_finite_SF (B2SF (nsub x y)) = false) as E.
    { change (nsub x y) with (Bminus mode_NE x y). rewrite A. destruct (Bsign x); reflexivity. }
    rewrite is_finite_SF_B2SF in E. congruence.
Qed.
Lemma approx_near (x f : b64) : is_finite f = true -> approx x f = true -> is_finite x = true /\ Rabs (B2R x - B2R f) <= bpow radix2 (-26).
Proof.
  intros Ff A. unfold approx in A.
  assert (C : is_finite (nQ 1 (10 ^ 8) : b64) = true) by (vm_compute; reflexivity).
  assert (L : nltb (nQ 1 (10 ^ 8) : b64) (nQ 1 (2 ^ 26)) = true) by (vm_compute; reflexivity).
  assert (C2 : is_finite (nQ 1 (2 ^ 26) : b64) = true) by (vm_compute; reflexivity).
  assert (E2 : B2R (nQ 1 (2 ^ 26) : b64) = bpow radix2 (-26)).
  { unfold nQ. destruct (Z_b 1 ltac:(lia)) as [F1 E1]. destruct (Z_b (2 ^ 26) ltac:(lia)) as [F3 E3].
    destruct (bdiv_correct (nofZ 1) (nofZ (2 ^ 26)) F1) as [_ ->]; rewrite ?E1, ?E3; [apply not_0_IZR; lia| |].
    - apply Rle_trans with 1; [apply Rabs_le; lra|apply (bpow_le radix2 0 1023); lia].
    - replace (1 / IZR (2 ^ 26)) with (bpow radix2 (-26)); [apply rnd_id, fmt_bpow; lia|]. change (bpow radix2 (-26)) with (/ IZR (2 ^ 26)). lra. }
  apply (bltb_R _ _ C C2) in L. rewrite E2 in L.
  assert (FS : is_finite (nsub x f) = true).
  { destruct (nsub x f) as [s|s| |s m e p]; try reflexivity; exfalso; cbn in A; [|discriminate A].
    change (nltb (B754_infinity false : b64) (nQ 1 (10 ^ 8)) = true) in A. vm_compute in A. discriminate A. }
  destruct (sub_inv x f FS Ff) as [Fx E]. split; [exact Fx|].
  assert (FA : is_finite (nabs (nsub x f)) = true) by (destruct (nsub x f); (reflexivity || discriminate FS)).
  assert (EA : B2R (nabs (nsub x f)) = Rabs (B2R (nsub x f))) by apply B2R_Babs.
  apply (bltb_R _ _ FA C) in A. rewrite EA, E in A.
  destruct (Rle_lt_dec (Rabs (B2R x - B2R f)) (bpow radix2 (-26))) as [H|H]; [exact H|exfalso].
  assert (G : fmt (bpow radix2 (-26))) by (apply fmt_bpow; lia). pose proof (bpow_gt_0 radix2 (-26)).
  destruct (Rle_lt_dec 0 (B2R x - B2R f)) as [S|S].
  - rewrite (Rabs_pos_eq _ S) in H. pose proof (rnd_ge (B2R x - B2R f) _ G ltac:(lra)). rewrite Rabs_pos_eq in A by lra. lra.
  - rewrite (Rabs_left _ S) in H. pose proof (rnd_le (B2R x - B2R f) _ (fmt_opp _ G) ltac:(lra)). rewrite Rabs_left in A by lra. lra.
Qed.

(** ** Lifting a point off a face *)
Lemma tiny_b : is_finite (tiny : b64) = true /\ bpow radix2 (-21) <= B2R (tiny : b64) <= bpow radix2 (-20).
Proof.
  assert (F : is_finite (tiny : b64) = true) by (vm_compute; reflexivity). split; [exact F|].
  assert (P : forall k, (0 <= k <= 50)%Z -> is_finite (nQ 1 (2 ^ k) : b64) = true /\ B2R (nQ 1 (2 ^ k) : b64) = bpow radix2 (- k)).
  { intros k Hk. assert (0 < 2 ^ k <= 2 ^ 50)%Z by (split; [lia|apply Z.pow_le_mono_r; lia]). unfold nQ. destruct (Z_b 1 ltac:(lia)) as [F1 E1]. destruct (Z_b (2 ^ k) ltac:(lia)) as [F3 E3].
    assert (1 <= IZR (2 ^ k)) by (apply IZR_le; lia). assert (I : / IZR (2 ^ k) = bpow radix2 (- k)) by (rewrite bpow_opp; rewrite <- (IZR_Zpower radix2) by lia; reflexivity).
    destruct (bdiv_correct (nofZ 1) (nofZ (2 ^ k)) F1) as [A B]; rewrite ?E1, ?E3 in *; [lra| |].
    - unfold Rdiv. rewrite Rmult_1_l, I, Rabs_pos_eq by apply bpow_ge_0. apply bpow_big. lia.
    - split; [exact A|]. rewrite B. unfold Rdiv. rewrite Rmult_1_l, I. apply rnd_id, fmt_bpow. lia. }
  destruct (P 21%Z ltac:(lia)) as [A1 B1]. destruct (P 20%Z ltac:(lia)) as [A2 B2]. change (- (21))%Z with (-21)%Z in B1. change (- (20))%Z with (-20)%Z in B2. rewrite <- B1, <- B2.
  split; apply bleb_R; try assumption; vm_compute; reflexivity.
Qed.

Lemma one_step (p f v : b64) (sg : R) : at_most 20 f -> is_finite p = true -> (sg = 1 \/ sg = -1) -> is_finite v = true -> B2R v = sg ->
  - bpow radix2 (-25) <= sg * (B2R p - B2R f) <= bpow radix2 (-17) ->
  is_finite (nadd p (nmul (tiny : b64) v)) = true /\ sg * (B2R p - B2R f) + bpow radix2 (-22) <= sg * (B2R (nadd p (nmul (tiny : b64) v)) - B2R f) <= sg * (B2R p - B2R f) + bpow radix2 (-19).
Proof.
  intros [Ff Bf] Fp HS Fv Ev H. destruct tiny_b as [Ft Bt]. pose proof u_val as UV. pose proof u_pos as UP.
  change (bpow radix2 (-25)) with (/ IZR (2 ^ 25)) in *. change (bpow radix2 (-17)) with (/ IZR (2 ^ 17)) in *. change (bpow radix2 (-22)) with (/ IZR (2 ^ 22)) in *. change (bpow radix2 (-19)) with (/ IZR (2 ^ 19)) in *.
  change (bpow radix2 (-21)) with (/ IZR (2 ^ 21)) in *. change (bpow radix2 (-20)) with (/ IZR (2 ^ 20)) in *. change (bpow radix2 20) with (IZR (2 ^ 20)) in *. cbn [Z.pow Z.pow_pos Pos.iter Z.mul Pos.mul] in *. apply Rabs_le_inv in Bf.
  assert (AB : forall x, Rabs (B2R (tiny : b64) * x) <= 4 -> Rabs (B2R (tiny : b64) * x) <= big) by (intros x Hx; apply Rle_trans with (1 := Hx); apply (bpow_le radix2 2 1023); lia).
  destruct (bmul_correct (tiny : b64) v Ft Fv) as [Fm Em]; [rewrite Ev; apply AB; destruct HS as [-> | ->]; apply Rabs_le; clear - Bt; lra|].
  assert (EM : B2R (nmul (tiny : b64) v) = sg * B2R (tiny : b64)). { rewrite Em, Ev. rewrite Rmult_comm. apply rnd_id. destruct HS as [-> | ->]; [rewrite Rmult_1_l; apply fmt_B2R|]. replace (-1 * B2R (tiny : b64)) with (- B2R (tiny : b64)) by ring. apply fmt_opp, fmt_B2R. }
  destruct (add_u 21 p (nmul (tiny : b64) v) ltac:(lia) Fp Fm) as (A & B & _); [rewrite EM; change (bpow radix2 21) with (IZR (2 ^ 21)); simpl Z.pow; destruct HS as [-> | ->]; apply Rabs_le; lra|].
  split; [exact A|]. rewrite EM in B. change (bpow radix2 21) with (IZR (2 ^ 21)) in B. simpl Z.pow in B. apply Rabs_le_inv in B. rewrite UV in B. destruct HS as [-> | ->]; lra.
Qed.

Lemma two_steps (p f v : b64) (sg : R) : at_most 20 f -> approx p f = true -> (sg = 1 \/ sg = -1) -> is_finite v = true -> B2R v = sg ->
  forall q, q = nadd p (nmul tiny v) \/ q = nadd (nadd p (nmul tiny v)) (nmul tiny v) -> at_most 21 q /\ bpow radix2 (-30) <= sg * (B2R q - B2R f).
Proof.
  intros Bf A HS Fv Ev q Hq. destruct (approx_near p f (proj1 Bf) A) as [Fp N]. apply Rabs_le_inv in N.
  assert (N1 : - bpow radix2 (-25) <= sg * (B2R p - B2R f) <= bpow radix2 (-25)).
  { assert (DD : bpow radix2 (-25) = 2 * bpow radix2 (-26)) by exact (bpow_plus_1 radix2 (-26)). pose proof (bpow_gt_0 radix2 (-26)). destruct HS as [-> | ->]; lra. }
  assert (L1 : bpow radix2 (-25) <= bpow radix2 (-18)) by (apply bpow_le; lia). assert (L2 : bpow radix2 (-18) + bpow radix2 (-18) = bpow radix2 (-17)) by (rewrite (bpow_plus_1 radix2 (-18) : bpow radix2 (-17) = 2 * bpow radix2 (-18)); ring).
  assert (L3 : bpow radix2 (-19) <= bpow radix2 (-18)) by (apply bpow_le; lia). pose proof (bpow_gt_0 radix2 (-18)).
  assert (L4 : bpow radix2 (-25) + bpow radix2 (-30) <= bpow radix2 (-22)). { apply Rle_trans with (bpow radix2 (-23) + bpow radix2 (-23)); [apply Rplus_le_compat; apply bpow_le; lia|]. rewrite (bpow_plus_1 radix2 (-23) : bpow radix2 (-22) = 2 * bpow radix2 (-23)). lra. }
  pose proof (bpow_gt_0 radix2 (-22)). pose proof (bpow_gt_0 radix2 (-25)).
  destruct (one_step p f v sg Bf Fp HS Fv Ev ltac:(lra)) as (F1 & B1).
  destruct (one_step (nadd p (nmul tiny v)) f v sg Bf F1 HS Fv Ev) as (F2 & B2).
  { split; [lra|]. apply Rle_trans with (1 := proj2 B1). lra. }
  assert (G : forall z, is_finite z = true -> - 1 <= sg * (B2R z - B2R f) <= 1 -> at_most 21 z).
  { intros z Fz Bz. split; [exact Fz|]. destruct Bf as [_ Bf]. apply Rabs_le_inv in Bf. rewrite (bpow_plus_1 radix2 20 : bpow radix2 21 = 2 * bpow radix2 20). pose proof (bpow_le radix2 0 20 ltac:(lia)) as X. change (bpow radix2 0) with 1 in X. apply Rabs_le. destruct HS as [-> | ->]; lra. }
  assert (S19 : bpow radix2 (-19) <= / 4) by (apply (bpow_le radix2 (-19) (-2)); lia). assert (S25 : bpow radix2 (-25) <= / 4) by (apply (bpow_le radix2 (-25) (-2)); lia).
  assert (S22 : bpow radix2 (-22) <= / 4) by (apply (bpow_le radix2 (-22) (-2)); lia).
  destruct Hq as [-> | ->]; (split; [apply G; [assumption|lra]|lra]).
Qed.

(** ** The six normals *)
Definition axial (v : vec b64) (a b c : Z) : Prop :=
  (is_finite (vx v) = true /\ B2R (vx v) = IZR a) /\ (is_finite (vy v) = true /\ B2R (vy v) = IZR b) /\ (is_finite (vz v) = true /\ B2R (vz v) = IZR c).
Lemma is_Z (x : b64) (k : Z) : (Z.abs k <= 1)%Z -> is_finite x = true -> neqb x (nofZ k) = true -> is_finite x = true /\ B2R x = IZR k.
Proof. intros Hk F E. destruct (Z_b k ltac:(lia)) as [F1 E1]. split; [exact F|]. rewrite <- E1. now apply beqb_R. Qed.
Ltac axial_tac := split; [|split]; (apply is_Z; [lia|vm_compute; reflexivity|vm_compute; reflexivity]).
Lemma ax_xm : axial (vnormalized (vmul vEx (nofZ (-1)))) (-1) 0 0. Proof. axial_tac. Qed.
Lemma ax_xp : axial (vnormalized vEx) 1 0 0. Proof. axial_tac. Qed.
Lemma ax_ym : axial (vnormalized (vmul vEy (nofZ (-1)))) 0 (-1) 0. Proof. axial_tac. Qed.
Lemma ax_yp : axial (vnormalized vEy) 0 1 0. Proof. axial_tac. Qed.
Lemma ax_zm : axial (vnormalized (vmul vEz (nofZ (-1)))) 0 0 (-1). Proof. axial_tac. Qed.
Lemma ax_zp : axial (vnormalized vEz) 0 0 1. Proof. axial_tac. Qed.

Lemma normal_cases (lo hi p n : vec b64) : boxNormal (BBox lo hi) p = Val n -> let w := vnormalized n in
  (approx (vx p) (vx lo) = true /\ axial w (-1) 0 0) \/ (approx (vx p) (vx hi) = true /\ axial w 1 0 0) \/
  (approx (vy p) (vy lo) = true /\ axial w 0 (-1) 0) \/ (approx (vy p) (vy hi) = true /\ axial w 0 1 0) \/
  (approx (vz p) (vz lo) = true /\ axial w 0 0 (-1)) \/ (approx (vz p) (vz hi) = true /\ axial w 0 0 1).
Proof.
  unfold boxNormal. cbn [bMin bMax]. intros H. cbv zeta.
  destruct (approx (vx p) (vx lo)); [left; split; [reflexivity|]; assert (n = vmul vEx (nofZ (-1))) as -> by congruence; exact ax_xm|right].
  destruct (approx (vx p) (vx hi)); [left; split; [reflexivity|]; assert (n = vEx) as -> by congruence; exact ax_xp|right].
  destruct (approx (vy p) (vy lo)); [left; split; [reflexivity|]; assert (n = vmul vEy (nofZ (-1))) as -> by congruence; exact ax_ym|right].
  destruct (approx (vy p) (vy hi)); [left; split; [reflexivity|]; assert (n = vEy) as -> by congruence; exact ax_yp|right].
  destruct (approx (vz p) (vz lo)); [left; split; [reflexivity|]; assert (n = vmul vEz (nofZ (-1))) as -> by congruence; exact ax_zm|right].
  destruct (approx (vz p) (vz hi)); [split; [reflexivity|]; assert (n = vEz) as -> by congruence; exact ax_zp|discriminate H].
Qed.

Lemma at_most_mono j k x : (j <= k)%Z -> at_most j x -> at_most k x.
Proof. intros L [F B]. split; [exact F|]. apply Rle_trans with (1 := B). now apply bpow_le. Qed.

(** one axis: the lifted point is beyond the face, and the ray goes away from it *)
Lemma leave_axis (a b p v d q : b64) (sg : R) : at_most 20 a -> at_most 20 b -> B2R a <= B2R b -> is_finite v = true -> B2R v = sg -> is_finite d = true -> 0 < B2R d * sg ->
  (sg = 1 /\ approx p b = true) \/ (sg = -1 /\ approx p a = true) ->
  q = nadd p (nmul tiny v) \/ q = nadd (nadd p (nmul tiny v)) (nmul tiny v) -> behind a b q d.
Proof.
  intros Ba Bb L Fv Ev Fd Pd HS Hq. destruct HS as [[-> A]|[-> A]].
  - destruct (two_steps p b v 1 Bb A (or_introl eq_refl) Fv Ev q Hq) as [Bq G].
    apply (beyond_behind 21); [lia|apply (at_most_mono 20); [lia|exact Ba]|apply (at_most_mono 20); [lia|exact Bb]|exact Bq|exact Fd|]. left. split; [exact L|split; lra].
  - destruct (two_steps p a v (-1) Ba A (or_intror eq_refl) Fv Ev q Hq) as [Bq G].
    apply (beyond_behind 21); [lia|apply (at_most_mono 20); [lia|exact Ba]|apply (at_most_mono 20); [lia|exact Bb]|exact Bq|exact Fd|]. right. split; [exact L|split; lra].
Qed.

(** smaller coordinate by coordinate *)
Definition below (lo hi : vec b64) : Prop := B2R (vx lo) <= B2R (vx hi) /\ B2R (vy lo) <= B2R (vy hi) /\ B2R (vz lo) <= B2R (vz hi).

Lemma box_hit_inv {M} (m : option M) lo hi (r : ray b64) (h : hit b64 M) r' :
  oIntersect (boxWithBounds m lo hi) r = Val (h, r') -> nltb (nofZ 0) (hT h) = true -> boxNormal (BBox lo hi) (rayAt r (hT h)) = Val (hNormal h).
Proof.
  unfold boxWithBounds, simpleObj. cbn [oIntersect]. unfold boxIntersect. intros E P.
  destruct (nltb (nofZ 0) (bbIntersect (BBox lo hi) r)) eqn:Q; cbn [negb omap] in E.
  - destruct (boxNormal (BBox lo hi) (rayAt r (bbIntersect (BBox lo hi) r))) as [n| |] eqn:N; cbn [omap obind] in E; try discriminate E.
    assert (EH : h = Hit (bbIntersect (BBox lo hi) r) n (vsub (rayAt r (bbIntersect (BBox lo hi) r)) (bMin (BBox lo hi))) m) by congruence.
    rewrite EH. cbn [hT hNormal]. exact N.
  - assert (EH : h = noHit) by congruence. rewrite EH in P. exfalso. revert P. cbn [hT noHit]. vm_compute. discriminate.
Qed.
Lemma box_miss {M} (m : option M) lo hi (r : ray b64) : nltb (nofZ 0) (bbIntersect (BBox lo hi) r) = false -> oIntersect (boxWithBounds m lo hi) r = Val (noHit, r).
Proof. intros E. unfold boxWithBounds, simpleObj. cbn [oIntersect]. unfold boxIntersect. now rewrite E. Qed.

Theorem box_no_acne {M} (m : option M) (lo hi s d : vec b64) (h : hit b64 M) (r' : ray b64) :
  all3 (at_most 20) lo -> all3 (at_most 20) hi -> below lo hi ->
  oIntersect (boxWithBounds m lo hi) (Ray s d) = Val (h, r') -> nltb (nofZ 0) (hT h) = true ->
  let n := vnormalized (hNormal h) in
  let p := vmadd (rayAt (Ray s d) (hT h)) tiny n in
  forall d', all3 (fun x => is_finite x = true) d' -> 0 < rdot d' n ->
    oIntersect (boxWithBounds m lo hi) (Ray p d') = Val (noHit, Ray p d') /\
    oIntersect (boxWithBounds m lo hi) (Ray (vmadd p tiny n) d') = Val (noHit, Ray (vmadd p tiny n) d').
Proof.
  intros (Lx & Ly & Lz) (Hx & Hy & Hz) (Ox & Oy & Oz) E P n p d' (Dx & Dy & Dz) D.
  pose proof (normal_cases _ _ _ _ (box_hit_inv m lo hi _ h r' E P)) as C. cbv zeta in C. fold n in C.
  set (p0 := rayAt (Ray s d) (hT h)) in *.
  assert (Q : forall q, q = p \/ q = vmadd p tiny n -> oIntersect (boxWithBounds m lo hi) (Ray q d') = Val (noHit, Ray q d')).
  { intros q Hq. apply box_miss, behind_no_hit. cbn [rStart rDir].
    assert (X : vx q = nadd (vx p0) (nmul tiny (vx n)) \/ vx q = nadd (nadd (vx p0) (nmul tiny (vx n))) (nmul tiny (vx n))) by (destruct Hq as [-> | ->]; [now left|now right]).
    assert (Y : vy q = nadd (vy p0) (nmul tiny (vy n)) \/ vy q = nadd (nadd (vy p0) (nmul tiny (vy n))) (nmul tiny (vy n))) by (destruct Hq as [-> | ->]; [now left|now right]).
    assert (Z : vz q = nadd (vz p0) (nmul tiny (vz n)) \/ vz q = nadd (nadd (vz p0) (nmul tiny (vz n))) (nmul tiny (vz n))) by (destruct Hq as [-> | ->]; [now left|now right]).
    unfold rdot in D.
    destruct C as [C|[C|[C|[C|[C|C]]]]]; destruct C as (A & (F1 & E1) & (F2 & E2) & (F3 & E3)); rewrite E1, E2, E3 in D.
    - left. apply (leave_axis _ _ (vx p0) (vx n) _ _ (-1) Lx Hx Ox F1 E1 Dx); [lra|right; split; [reflexivity|exact A]|exact X].
    - left. apply (leave_axis _ _ (vx p0) (vx n) _ _ 1 Lx Hx Ox F1 E1 Dx); [lra|left; split; [reflexivity|exact A]|exact X].
    - right; left. apply (leave_axis _ _ (vy p0) (vy n) _ _ (-1) Ly Hy Oy F2 E2 Dy); [lra|right; split; [reflexivity|exact A]|exact Y].
    - right; left. apply (leave_axis _ _ (vy p0) (vy n) _ _ 1 Ly Hy Oy F2 E2 Dy); [lra|left; split; [reflexivity|exact A]|exact Y].
    - right; right. apply (leave_axis _ _ (vz p0) (vz n) _ _ (-1) Lz Hz Oz F3 E3 Dz); [lra|right; split; [reflexivity|exact A]|exact Z].
    - right; right. apply (leave_axis _ _ (vz p0) (vz n) _ _ 1 Lz Hz Oz F3 E3 Dz); [lra|left; split; [reflexivity|exact A]|exact Z]. }
  split; apply Q; [now left|now right].
Qed.

(** ** The scalar product with a normal, as computed *)
Lemma mul_unit (x v : b64) (a : Z) : at_most 900 x -> (Z.abs a <= 1)%Z -> is_finite v = true -> B2R v = IZR a -> at_most 900 (nmul x v) /\ B2R (nmul x v) = B2R x * IZR a.
Proof.
  intros [F B] Ha Fv Ev. assert (C : a = 0%Z \/ a = 1%Z \/ a = (-1)%Z) by lia.
  assert (AB : Rabs (B2R x * IZR a) <= bpow radix2 900).
  { rewrite Rabs_mult. assert (Rabs (IZR a) <= 1) by (destruct C as [-> |[-> | ->]]; apply Rabs_le; lra). pose proof (Rabs_pos (B2R x)). apply Rle_trans with (Rabs (B2R x) * 1); [apply Rmult_le_compat_l; lra|lra]. }
  destruct (bmul_correct x v F Fv) as [Fm Em]; [rewrite Ev; apply Rle_trans with (1 := AB); apply bpow_big; lia|].
  assert (E : B2R (nmul x v) = B2R x * IZR a).
  { rewrite Em, Ev. apply rnd_id. destruct C as [-> |[-> | ->]]; [rewrite Rmult_0_r; apply fmt_0|rewrite Rmult_1_r; apply fmt_B2R|]. replace (B2R x * -1) with (- B2R x) by ring. apply fmt_opp, fmt_B2R. }
  split; [split; [exact Fm|now rewrite E]|exact E].
Qed.
Lemma add_zero (x y : b64) : at_most 900 x -> at_most 900 y -> B2R x = 0 \/ B2R y = 0 -> at_most 900 (nadd x y) /\ B2R (nadd x y) = B2R x + B2R y.
Proof.
  intros [Fx Bx] [Fy By] H. assert (S : Rabs (B2R x + B2R y) <= bpow radix2 900) by (destruct H as [-> | ->]; rewrite ?Rplus_0_l, ?Rplus_0_r; assumption).
  destruct (badd_correct x y Fx Fy) as [F E]; [apply Rle_trans with (1 := S); apply bpow_big; lia|].
  assert (E' : B2R (nadd x y) = B2R x + B2R y) by (rewrite E; apply rnd_id; destruct H as [-> | ->]; rewrite ?Rplus_0_l, ?Rplus_0_r; apply fmt_B2R).
  split; [split; [exact F|now rewrite E']|exact E'].
Qed.
Lemma dot_axial (l n : vec b64) a b c : all3 (at_most 900) l -> axial n a b c -> (Z.abs a + Z.abs b + Z.abs c = 1)%Z -> nltb (nofZ 0) (vdot l n) = true -> 0 < rdot l n.
Proof.
  intros (Lx & Ly & Lz) ((F1 & E1) & (F2 & E2) & (F3 & E3)) H P. unfold vdot in P. unfold rdot. rewrite E1, E2, E3.
  destruct (mul_unit (vx l) (vx n) a Lx ltac:(lia) F1 E1) as [M1 V1]. destruct (mul_unit (vy l) (vy n) b Ly ltac:(lia) F2 E2) as [M2 V2]. destruct (mul_unit (vz l) (vz n) c Lz ltac:(lia) F3 E3) as [M3 V3].
  assert (T : (a = 0 /\ b = 0 \/ a = 0 /\ c = 0 \/ b = 0 /\ c = 0)%Z) by lia.
  destruct (add_zero _ _ M1 M2) as [N1 W1]; [rewrite V1, V2; destruct T as [[-> ->]|[[-> ->]|[-> ->]]]; rewrite ?Rmult_0_r; auto|].
  destruct (add_zero _ _ N1 M3) as [N2 W2]; [rewrite W1, V1, V2, V3; destruct T as [[-> ->]|[[-> ->]|[-> ->]]]; rewrite ?Rmult_0_r; (left; lra) || auto|].
  destruct (Z_b 0 ltac:(lia)) as [F0 E0]. apply (bltb_R _ _ F0 (proj1 N2)) in P. rewrite E0, W2, W1, V1, V2, V3 in P. exact P.
Qed.

Theorem box_no_self_shadow {M} (m : option M) (lo hi s d : vec b64) (h : hit b64 M) (r' : ray b64) :
  all3 (at_most 20) lo -> all3 (at_most 20) hi -> below lo hi ->
  oIntersect (boxWithBounds m lo hi) (Ray s d) = Val (h, r') -> nltb (nofZ 0) (hT h) = true ->
  let n := vnormalized (hNormal h) in
  let p := vmadd (rayAt (Ray s d) (hT h)) tiny n in
  forall l, all3 (at_most 900) l -> nltb (nofZ 0) (vdot l n) = true ->
    oIntersect (boxWithBounds m lo hi) (Ray p l) = Val (noHit, Ray p l) /\
    oIntersect (boxWithBounds m lo hi) (Ray (vmadd p tiny n) l) = Val (noHit, Ray (vmadd p tiny n) l).
Proof.
  intros Hl Hh O E P n p l Bl D. apply (box_no_acne m lo hi s d h r' Hl Hh O E P).
  - destruct Bl as ((? & _) & (? & _) & (? & _)). split; [assumption|split; assumption].
  - pose proof (normal_cases _ _ _ _ (box_hit_inv m lo hi _ h r' E P)) as C. cbv zeta in C. fold n in C. fold n.
    destruct C as [(_ & C)|[(_ & C)|[(_ & C)|[(_ & C)|[(_ & C)|(_ & C)]]]]]; exact (dot_axial l n _ _ _ Bl C ltac:(lia) D).
Qed.

(** ** A die on a table, seen from above *)
Definition die {M} (m : option M) : object b64 M := boxWithBounds m (Vec (nofZ (-1)) (nofZ 0) (nofZ (-1))) (Vec (nofZ 1) (nofZ 2) (nofZ 1)).
Definition dieRay : ray b64 := Ray (Vec (nQ 1 4) (nofZ 5) (nQ 1 8)) (Vec (nofZ 0) (nofZ (-1)) (nofZ 0)).
Definition dieHit : hit b64 unit := Hit (bbIntersect (BBox (Vec (nofZ (-1)) (nofZ 0) (nofZ (-1))) (Vec (nofZ 1) (nofZ 2) (nofZ 1))) dieRay) vEy
  (vsub (rayAt dieRay (bbIntersect (BBox (Vec (nofZ (-1)) (nofZ 0) (nofZ (-1))) (Vec (nofZ 1) (nofZ 2) (nofZ 1))) dieRay)) (Vec (nofZ (-1)) (nofZ 0) (nofZ (-1)))) None.
Lemma die_hit : nltb (nofZ 0) (hT dieHit) = true. Proof. vm_compute. reflexivity. Qed.
Lemma die_val : oIntersect (die None) dieRay = Val (dieHit, dieRay).
Proof.
  unfold die, boxWithBounds, simpleObj. cbn [oIntersect]. unfold boxIntersect. pose proof die_hit as H. unfold dieHit in H |- *. cbn [hT] in H. cbv zeta.
  rewrite H. cbn [negb]. unfold boxNormal. cbn [bMin bMax].
  set (p := rayAt dieRay _).
  assert (A1 : approx (vx p) (vx (Vec (nofZ (-1)) (nofZ 0) (nofZ (-1)) : vec b64)) = false) by (vm_compute; reflexivity).
  assert (A2 : approx (vx p) (vx (Vec (nofZ 1) (nofZ 2) (nofZ 1) : vec b64)) = false) by (vm_compute; reflexivity).
  assert (A3 : approx (vy p) (vy (Vec (nofZ (-1)) (nofZ 0) (nofZ (-1)) : vec b64)) = false) by (vm_compute; reflexivity).
  assert (A4 : approx (vy p) (vy (Vec (nofZ 1) (nofZ 2) (nofZ 1) : vec b64)) = true) by (vm_compute; reflexivity).
  rewrite A1, A2, A3, A4. reflexivity.
Qed.
(** the lamp is anywhere above the table; from just below the upper face the die is in the way *)
Lemma die_example (l : vec b64) : all3 (at_most 900) l -> 0 < B2R (vy l) ->
  let p := vmadd (rayAt dieRay (hT dieHit)) tiny (vnormalized (hNormal dieHit)) in
  oIntersect (die None) dieRay = Val (dieHit, dieRay) /\ nltb (nofZ 0) (hT dieHit) = true /\
  oIntersect (die None) (Ray p l) = Val (noHit (M := unit), Ray p l).
Proof.
  intros Bl Pl p. split; [exact die_val|]. split; [exact die_hit|].
  assert (K : forall k, (Z.abs k <= 4)%Z -> at_most 20 (nofZ k)) by (intros k Hk; destruct (Z_b k ltac:(lia)) as [F E]; split; [exact F|]; rewrite E, <- abs_IZR; apply Rle_trans with 4; [apply IZR_le; lia|apply (bpow_le radix2 2 20); lia]).
  assert (V : forall k, (Z.abs k <= 4)%Z -> B2R (nofZ k : b64) = IZR k) by (intros k Hk; exact (proj2 (Z_b k ltac:(lia)))).
  refine (proj1 (box_no_acne None _ _ (rStart dieRay) (rDir dieRay) dieHit dieRay _ _ _ die_val die_hit l _ _)).
  - split; [|split]; apply K; lia.
  - split; [|split]; apply K; lia.
  - unfold below. cbn [vx vy vz]. rewrite !V by lia. lra.
  - destruct Bl as ((? & _) & (? & _) & (? & _)). split; [assumption|split; assumption].
  - destruct ax_yp as ((_ & E1) & (_ & E2) & (_ & E3)). unfold rdot. change (hNormal dieHit) with (vEy : vec b64). rewrite E1, E2, E3. lra.
Qed.
Lemma die_inside : match oIntersect (die (M := unit) None) (Ray (vmadd (rayAt dieRay (hT dieHit)) (nopp tiny) (vnormalized (hNormal dieHit))) (Vec (nofZ 0) (nofZ 1) (nofZ 0))) with
  | Val (h, _) => nltb (nofZ 0) (hT h) | _ => false end = true.
Proof. vm_compute. reflexivity. Qed.
