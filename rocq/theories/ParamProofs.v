(** * Parametric surfaces and height fields *)
From Coq Require Import ZArith Reals Bool List Permutation Lra Lia Psatz.
From Flocq Require Import Core.
From Flocq Require IEEE754.BinarySingleNaN.
Import IEEE754.BinarySingleNaN.
From Verif Require Import Num NumLaws Outcome B64 GeomModel GeomSpec GeomProofs ObjModel TreeModel ObjSpec ObjProofs.
Import ListNotations.

(** ** C42 *)
Lemma setNth_length {A} (l : list A) i a : length (setNth l i a) = length l.
Proof. revert i. induction l; intros [|i]; cbn; auto. Qed.
Lemma nth_setNth_eq {A} (l : list A) i a : (i < length l)%nat -> nth_error (setNth l i a) i = Some a.
Proof. revert i. induction l; intros [|i] H; cbn in *; try lia; auto. apply IHl. lia. Qed.
Lemma nth_setNth_ne {A} (l : list A) i j a : i <> j -> nth_error (setNth l i a) j = nth_error l j.
Proof. revert i j. induction l; intros [|i] [|j] H; cbn in *; try congruence; auto. Qed.

Definition nthZ {A} (l : list A) (i : Z) : option A := nth_error l (Z.to_nat i).
Lemma setZ_ok {A} (l : list A) i a : (0 <= i < Z.of_nat (length l))%Z -> exists l', setZ l i a = Val l' /\ length l' = length l /\
  nthZ l' i = Some a /\ forall j, (0 <= j)%Z -> j <> i -> nthZ l' j = nthZ l j.
Proof.
  intros H. unfold setZ. destruct (Z.ltb_spec i 0); [lia|]. destruct (Z.leb_spec (Z.of_nat (length l)) i); [lia|]. cbn.
  eexists. split; [reflexivity|]. split; [apply setNth_length|]. split; [apply nth_setNth_eq; lia|].
  intros j Hj Hne. apply nth_setNth_ne. lia.
Qed.
Lemma getZ_ok {A} (l : list A) i : (0 <= i < Z.of_nat (length l))%Z -> exists a, getZ l i = Val a.
Proof.
  intros H. unfold getZ. destruct (Z.ltb_spec i 0); [lia|]. destruct (nth_error l (Z.to_nat i)) eqn:E; eauto.
  apply nth_error_None in E. lia.
Qed.

Section Param.
  Context {F : Type} `{NF : Num F}.
  Variables (nu nv : Z) (f : F -> F -> vec F).
  Hypothesis Hu : (2 <= nu)%Z.
  Hypothesis Hv : (2 <= nv)%Z.

  Definition gridVertex (iu iv : Z) : vertex F :=
    let u := ndiv (nofZ iu) (nofZ (nu - 1)) in let v := ndiv (nofZ iv) (nofZ (nv - 1)) in Vertex (f u v) vO u v.
  Definition at_ (iu iv : Z) : Z := (iu * nv + iv)%Z.

  Definition pmInv (k : Z) (st : pmState F) : Prop :=
    Z.of_nat (length (fst st)) = (nu * nv)%Z /\ Z.of_nat (length (snd st)) = (2 * (nu - 1) * (nv - 1))%Z /\
    (forall i j, 0 <= i < nu -> 0 <= j < nv -> at_ i j < k -> nthZ (fst st) (at_ i j) = Some (gridVertex i j))%Z /\
    (forall i j, 0 <= i < nu - 1 -> 0 <= j < nv - 1 -> at_ i j < k ->
       nthZ (snd st) (2 * (i * (nv - 1) + j)) = Some (Some (at_ i j, at_ (i + 1) j, at_ (i + 1) (j + 1))) /\
       nthZ (snd st) (2 * (i * (nv - 1) + j) + 1) = Some (Some (at_ i j, at_ (i + 1) (j + 1), at_ i (j + 1))))%Z.

  Lemma at_range i j : (0 <= i < nu -> 0 <= j < nv -> 0 <= at_ i j < nu * nv)%Z.
  Proof. unfold at_. nia. Qed.
  Lemma cell_inj w i j i' j' : (0 <= j < w -> 0 <= j' < w -> i * w + j = i' * w + j' -> i = i' /\ j = j')%Z.
  Proof.
    intros H H' E. assert (i = i') as ->; [|lia].
    assert (i * w + j < (i + 1) * w)%Z by lia. assert (i' * w + j' < (i' + 1) * w)%Z by lia. nia.
  Qed.

  Lemma pmBody_ok iu iv st : (0 <= iu < nu)%Z -> (0 <= iv < nv)%Z -> pmInv (at_ iu iv) st ->
    exists st', pmBody nu nv f (ndiv (nofZ iu) (nofZ (nu - 1))) iu iv st = Val st' /\ pmInv (at_ iu iv + 1) st'.
  Proof.
    intros Iu Iv. destruct st as [vs fs]. intros (L1 & L2 & V & T). cbn [fst snd] in *. unfold pmBody. cbv zeta.
    destruct (setZ_ok vs (at_ iu iv) (gridVertex iu iv)) as (vs' & E1 & L1' & N1 & O1).
    { rewrite L1. now apply at_range. }
    change (pmVertexIndex nv iu iv) with (at_ iu iv). unfold gridVertex in E1 at 1. cbv zeta in E1. rewrite E1. cbn [obind].
    assert (forall i j, 0 <= i < nu -> 0 <= j < nv -> at_ i j < at_ iu iv + 1 -> nthZ vs' (at_ i j) = Some (gridVertex i j))%Z as V'.
    { intros i j Hi Hj Hlt. destruct (Z.eq_dec (at_ i j) (at_ iu iv)) as [E|E].
      - rewrite E. destruct (cell_inj nv i j iu iv) as [-> ->]; auto.
      - rewrite O1; auto; [apply V; auto; lia|apply at_range; auto]. }
    destruct (Z.ltb_spec iu (nu - 1)) as [Lu|Lu]; destruct (Z.ltb_spec iv (nv - 1)) as [Lv|Lv]; cbn [andb].
    2,3,4: eexists; split; [reflexivity|]; split; [cbn [fst]; lia|split; [auto|split; [exact V'|]]];
      cbn [snd]; intros i j Hi Hj Hlt; apply T; auto;
      destruct (Z.eq_dec (at_ i j) (at_ iu iv)) as [E|E]; [destruct (cell_inj nv i j iu iv) as [-> ->]; auto; lia|lia].
    assert (forall i j, (0 <= i < nu -> 0 <= j < nv -> pmPtr nv vs' i j = Val (at_ i j))%Z) as PT.
    { intros i j Hi Hj. unfold pmPtr. change (pmVertexIndex nv i j) with (at_ i j).
      destruct (getZ_ok vs' (at_ i j)) as [a ->]; [rewrite L1', L1; now apply at_range|reflexivity]. }
    rewrite !PT by lia. cbn [obind].
    set (c := (2 * (iu * (nv - 1) + iv))%Z).
    assert (0 <= c /\ c + 1 < 2 * (nu - 1) * (nv - 1))%Z as Cr by (unfold c; nia).
    destruct (setZ_ok fs (c + 0) (Some (at_ iu iv, at_ (iu + 1) iv, at_ (iu + 1) (iv + 1)))) as (fs1 & E2 & L21 & N2 & O2); [lia|].
    rewrite E2. cbn [obind].
    destruct (setZ_ok fs1 (c + 1) (Some (at_ iu iv, at_ (iu + 1) (iv + 1), at_ iu (iv + 1)))) as (fs2 & E3 & L22 & N3 & O3); [lia|].
    rewrite E3. cbn [omap]. eexists. split; [reflexivity|]. split; [cbn [fst]; lia|split; [cbn [snd]; lia|split; [exact V'|]]].
    cbn [snd]. intros i j Hi Hj Hlt. destruct (Z.eq_dec (at_ i j) (at_ iu iv)) as [E|E].
    - destruct (cell_inj nv i j iu iv) as [-> ->]; auto; try lia. fold c. split; auto.
      rewrite O3 by lia. etransitivity; [|exact N2]. f_equal. lia.
    - assert (i * (nv - 1) + j <> iu * (nv - 1) + iv)%Z as NE.
      { intros X. apply E. destruct (cell_inj (nv - 1) i j iu iv) as [-> ->]; auto; lia. }
      destruct (T i j Hi Hj) as [T1 T2]; [lia|]. assert (0 <= i * (nv - 1) + j)%Z by nia. unfold c in *.
      split; rewrite O3, O2; auto; lia.
  Qed.

  Lemma forLoop_inv (P : Z -> pmState F -> Prop) body : forall n i st,
    (forall j st, (i <= j < i + Z.of_nat n)%Z -> P j st -> exists st', body j st = Val st' /\ P (j + 1)%Z st') ->
    P i st -> exists st', forLoop n i body st = Val st' /\ P (i + Z.of_nat n)%Z st'.
  Proof.
    induction n as [|n IH]; intros i st H P0; cbn [forLoop].
    - exists st. split; auto. now rewrite Z.add_0_r.
    - destruct (H i st) as (st1 & E & P1); [lia|auto|]. rewrite E. cbn [obind].
      destruct (IH (i + 1)%Z st1) as (st2 & E2 & P2); auto.
      { intros j st' Hj. apply H. lia. }
      exists st2. split; auto. now replace (i + Z.of_nat (S n))%Z with (i + 1 + Z.of_nat n)%Z by lia.
  Qed.

  Theorem pmBuild_ok : exists vs fs, pmBuild nu nv f = Val (vs, map Some fs) /\
    Z.of_nat (length vs) = (nu * nv)%Z /\ Z.of_nat (length fs) = (2 * (nu - 1) * (nv - 1))%Z /\
    (forall i j, 0 <= i < nu -> 0 <= j < nv -> nthZ vs (i * nv + j) = Some (gridVertex i j))%Z /\
    (forall i j, 0 <= i < nu - 1 -> 0 <= j < nv - 1 ->
       nthZ fs (2 * (i * (nv - 1) + j)) = Some (at_ i j, at_ (i + 1) j, at_ (i + 1) (j + 1)) /\
       nthZ fs (2 * (i * (nv - 1) + j) + 1) = Some (at_ i j, at_ (i + 1) (j + 1), at_ i (j + 1)))%Z.
  Proof.
    unfold pmBuild. destruct (Z.ltb_spec (nu * nv) 0); [nia|]. destruct (Z.ltb_spec (2 * (nu - 1) * (nv - 1)) 0); [nia|]. cbn [orb].
    destruct (forLoop_inv (fun i st => pmInv (i * nv) st)
      (fun iu st => forLoop (Z.to_nat nv) 0 (fun iv st => pmBody nu nv f (ndiv (nofZ iu) (nofZ (nu - 1))) iu iv st) st)
      (Z.to_nat nu) 0 (repeat (Vertex vO vO (nofZ 0) (nofZ 0)) (Z.to_nat (nu * nv)), repeat None (Z.to_nat (2 * (nu - 1) * (nv - 1)))))
      as ((vs & fo) & E & (L1 & L2 & V & T)).
    - intros iu st Iu P0. 
      destruct (forLoop_inv (fun j st => pmInv (at_ iu j) st) (fun iv st => pmBody nu nv f (ndiv (nofZ iu) (nofZ (nu - 1))) iu iv st)
         (Z.to_nat nv) 0 st) as (st' & E & P').
      + intros iv st0 Iv Pi. destruct (pmBody_ok iu iv st0) as (st' & E & P'); auto; try lia.
        exists st'. split; auto. now replace (at_ iu (iv + 1)) with (at_ iu iv + 1)%Z by (unfold at_; lia).
      + unfold at_. now rewrite Z.add_0_r.
      + exists st'. split; auto. rewrite Z2Nat.id in P' by lia. now replace ((iu + 1) * nv)%Z with (at_ iu (0 + nv)) by (unfold at_; lia).
    - split; [cbn [fst]; rewrite repeat_length; lia|]. split; [cbn [snd]; rewrite repeat_length; lia|].
      split; intros i j Hi Hj Hlt; exfalso; unfold at_ in Hlt; nia.
    - rewrite E. rewrite Z2Nat.id in V, T by lia. cbn [fst snd] in *.
      assert (forall k, (k < length fo)%nat -> exists t, nth_error fo k = Some (Some t)) as AF.
      { intros k Hk. set (z := Z.of_nat k). set (c := (z / 2)%Z). set (i := (c / (nv - 1))%Z). set (j := (c mod (nv - 1))%Z).
        assert (z = 2 * c + z mod 2)%Z as Ez by (apply Z.div_mod; lia). assert (0 <= z mod 2 < 2)%Z by (apply Z.mod_pos_bound; lia).
        assert (c = (nv - 1) * i + j)%Z as Ec by (apply Z.div_mod; lia). assert (0 <= j < nv - 1)%Z by (apply Z.mod_pos_bound; lia).
        assert (0 <= c < (nu - 1) * (nv - 1))%Z by lia.
        assert (0 <= i)%Z by (apply Z.div_pos; lia). assert (i < nu - 1)%Z by nia.
        destruct (T i j) as [T0 T1]; try lia; [unfold at_; nia|].
        unfold nthZ in T0, T1. replace (i * (nv - 1) + j)%Z with c in T0, T1 by lia.
        assert (z mod 2 = 0 \/ z mod 2 = 1)%Z as [Z0|Z0] by lia.
        - replace (Z.to_nat (2 * c)) with k in T0 by lia. eauto.
        - replace (Z.to_nat (2 * c + 1)) with k in T1 by lia. eauto. }
      assert (exists fs, fo = map Some fs) as (fs & ->).
      { clear -AF. induction fo as [|o fo IH]; [now exists nil|].
        destruct IH as (fs & ->). { intros k Hk. destruct (AF (S k)); [cbn; lia|]. eauto. }
        destruct (AF 0%nat) as [t Et]; [cbn; lia|]. cbn in Et. injection Et as ->. now exists (t :: fs). }
      exists vs, fs. rewrite map_length in L2. split; auto. split; auto. split; auto. split.
      + intros i j Hi Hj. apply V; auto. unfold at_. nia.
      + intros i j Hi Hj. destruct (T i j Hi Hj) as [T0 T1]; [unfold at_; nia|].
        unfold nthZ in *. rewrite nth_error_map in T0, T1.
        destruct (nth_error fs (Z.to_nat (2 * (i * (nv - 1) + j)))); [|discriminate].
        destruct (nth_error fs (Z.to_nat (2 * (i * (nv - 1) + j) + 1))); [|discriminate].
        cbn in T0, T1. split; congruence.
  Qed.

  Lemma allFilled_map (fs : list tri) : allFilled (map Some fs) = Val fs.
  Proof. induction fs; cbn; auto. now rewrite IHfs. Qed.

  Lemma parametric_mesh {M} `{NI : NumInf F} to32 sortSlice (m : option M) : exists vs fs,
    parametric to32 sortSlice nu nv f m = mesh to32 sortSlice m fs vs /\ pmBuild nu nv f = Val (vs, map Some fs).
  Proof.
    destruct pmBuild_ok as (vs & fs & E & _). exists vs, fs. split; auto. unfold parametric. rewrite E. cbn [obind].
    now rewrite allFilled_map.
  Qed.
End Param.

(** ** C43 *)
Section Bisect.
  Local Open Scope R_scope.
  Variable g : R -> outcome R.
  Variable v : R -> R.
  Hypothesis Hg : forall t, g t = Val (v t).

  Lemma isoTol_R : (isoTol : R) = 1 / 1048576.
  Proof. unfold isoTol, nQ; rnum. change (1024 * 1024)%Z with 1048576%Z. reflexivity. Qed.

  Lemma bisectLoop_R : forall fuel a b, a <= b -> 0 < v a -> v b <= 0 -> b - a <= 1 / 1048576 * 2 ^ fuel ->
    exists t t', bisectLoop (S fuel) g a b = Val t /\ a <= t' <= t /\ t <= b /\ t - t' <= 1 / 1048576 /\ 0 < v t' /\ v t <= 0.
  Proof.
    induction fuel as [|n IH]; intros a b Hab Ha Hb Hw; cbn [bisectLoop]; rnum; rewrite isoTol_R.
    - cbn in Hw. rewrite (proj2 (Rltb_false _ _)) by lra. exists b, a. repeat split; auto; lra.
    - destruct (Rltb_spec (1 / 1048576) (b - a)) as [L|L].
      + rewrite Hg. cbn [obind]. cbn [pow] in Hw.
        destruct (Rltb_spec 0 (v ((a + b) / 2))) as [P|P].
        * destruct (IH ((a + b) / 2) b) as (t & t' & E & ? & ? & ? & ? & ?); try lra.
          exists t, t'. split; [exact E|]. repeat split; auto; lra.
        * destruct (IH a ((a + b) / 2)) as (t & t' & E & ? & ? & ? & ? & ?); try lra.
          exists t, t'. split; [exact E|]. repeat split; auto; lra.
      + exists b, a. split; auto. repeat split; auto; lra.
  Qed.

  Theorem bisect_R fuel a b : a <= b -> 0 < v a -> v b <= 0 -> b - a <= 1 / 1048576 * 2 ^ fuel ->
    exists t t', bisect (S fuel) g a b = Val t /\ a <= t' <= t /\ t <= b /\ t - t' <= 1 / 1048576 /\ 0 < v t' /\ v t <= 0.
  Proof.
    intros Hab Ha Hb Hw. unfold bisect. rewrite !Hg. cbn [obind]. rnum.
    destruct (Rltb_spec 0 (v a * v b)); [nra|].
    destruct (Rltb_spec 0 (v a)); [|lra]. apply bisectLoop_R; auto.
  Qed.

  Theorem bisect_same_sign fuel a b : 0 < v a * v b -> bisect fuel g a b = Val 0.
  Proof.
    intros H. unfold bisect. rewrite !Hg. cbn [obind]. rnum. destruct (Rltb_spec 0 (v a * v b)); [reflexivity|lra].
  Qed.
  Theorem bisect_below fuel a b : a <= b -> v a <= 0 -> 0 <= v b -> bisect (S fuel) g a b = Val a.
  Proof.
    intros Hab Ha Hb. unfold bisect. rewrite !Hg. cbn [obind]. rnum.
    destruct (Rltb_spec 0 (v a * v b)); [nra|].
    destruct (Rltb_spec 0 (v a)); [lra|]. cbn [bisectLoop]. rnum. rewrite isoTol_R.
    destruct (Rltb_spec (1 / 1048576) (a - b)); [lra|reflexivity].
  Qed.
End Bisect.

(** *** double precision: terminates for moderate parameters *)
Section BisectB.
  Local Open Scope R_scope.
  Variable g : b64 -> outcome b64.
  Variable v : b64 -> b64.
  Hypothesis Hg : forall t, is_finite t = true -> g t = Val (v t).
  Notation pos x := (nltb (nofZ 0) x = true).

  Lemma bltb_eq (x y : b64) : is_finite x = true -> is_finite y = true -> nltb x y = Rltb (B2R x) (B2R y).
  Proof. exact (Bltb_finite x y). Qed.

  Lemma isoTol_b : is_finite (isoTol : b64) = true /\ B2R (isoTol : b64) = bpow radix2 (-20).
  Proof.
    split; [vm_compute; reflexivity|].
    assert (B2SF (isoTol : b64) = SpecFloat.S754_finite false 4503599627370496 (-72)) as E by (vm_compute; reflexivity).
    rewrite <- SF2R_B2SF with (x := isoTol : b64). rewrite E. cbn [SF2R]. unfold F2R. cbn [Fnum Fexp cond_Zopp].
    change 4503599627370496%Z with (2 ^ 52)%Z. rewrite (IZR_Zpower radix2) by lia. rewrite <- bpow_plus. reflexivity.
  Qed.

  Lemma rnd_err_small x e : (-1000 <= e <= 1000)%Z -> Rabs x <= bpow radix2 e -> Rabs (rnd x - x) <= bpow radix2 (e - 53).
  Proof.
    intros He H. unfold rnd. eapply Rle_trans; [apply error_le_half_ulp; typeclasses eauto|].
    assert (ulp radix2 fexp64 x <= ulp radix2 fexp64 (bpow radix2 e)) as U.
    { apply ulp_le; try typeclasses eauto. rewrite (Rabs_pos_eq (bpow radix2 e)); auto. apply bpow_ge_0. }
    rewrite ulp_bpow in U. replace (fexp64 (e + 1)) with (e - 52)%Z in U.
    2:{ unfold SpecFloat.fexp, SpecFloat.emin. lia. }
    replace (bpow radix2 (e - 53)) with (/ 2 * bpow radix2 (e - 52)); [lra|].
    replace (e - 52)%Z with (1 + (e - 53))%Z by ring. rewrite bpow_plus. change (bpow radix2 1) with 2. lra.
  Qed.

  Lemma fmt_double x : fmt x -> fmt (2 * x).
  Proof.
    intros H. destruct (FLT_format_generic radix2 (-1074) 53 x H) as [f E1 E2 E3]. rewrite E1. unfold F2R.
    replace (2 * (IZR (Fnum f) * bpow radix2 (Fexp f))) with (IZR (Fnum f) * bpow radix2 (Fexp f + 1)).
    - apply fmt_F2R; [exact E2|lia].
    - rewrite bpow_plus. change (bpow radix2 1) with 2. ring.
  Qed.

  Lemma b2 : is_finite (nofZ 2 : b64) = true /\ B2R (nofZ 2 : b64) = 2.
  Proof. apply bofZ_correct. lia. Qed.

  Lemma midpoint (a b : b64) : is_finite a = true -> is_finite b = true ->
    Rabs (B2R a) <= bpow radix2 30 -> Rabs (B2R b) <= bpow radix2 30 -> B2R a <= B2R b ->
    let m := ndiv (nadd a b) (nofZ 2) in
    is_finite m = true /\ B2R a <= B2R m <= B2R b /\ Rabs (B2R m - (B2R a + B2R b) / 2) <= bpow radix2 (-22).
  Proof.
    intros Fa Fb Ha Hb Hab. cbv zeta.
    assert (bpow radix2 31 <= big) as B31 by (apply bpow_le; lia).
    assert (bpow radix2 31 = 2 * bpow radix2 30) as E31 by (change 31%Z with (1 + 30)%Z; rewrite bpow_plus; reflexivity).
    assert (Rabs (B2R a + B2R b) <= bpow radix2 31) as Hs by (eapply Rle_trans; [apply Rabs_triang|lra]).
    destruct (badd_correct a b Fa Fb) as [Fs Es]; [lra|].
    set (s := nadd a b) in *. destruct b2 as [F2 E2].
    assert (Rabs (B2R s) <= bpow radix2 31) as Hs' by (rewrite Es; apply rnd_abs_le; auto; apply fmt_bpow; lia).
    assert (Rabs (B2R s / 2) <= bpow radix2 30) as Hh by (unfold Rdiv; rewrite Rabs_mult, (Rabs_pos_eq (/ 2)) by lra; lra).
    destruct (bdiv_correct s (nofZ 2) Fs) as [Fm Em]; [rewrite E2; lra|rewrite E2; assert (bpow radix2 30 <= big) by (apply bpow_le; lia); lra|].
    rewrite E2 in Em. split; auto.
    assert (2 * B2R a <= B2R s) as L1 by (rewrite Es; apply rnd_ge; [apply fmt_double, fmt_B2R|lra]).
    assert (B2R s <= 2 * B2R b) as L2 by (rewrite Es; apply rnd_le; [apply fmt_double, fmt_B2R|lra]).
    split; [rewrite Em; split; [apply rnd_ge; [apply fmt_B2R|lra]|apply rnd_le; [apply fmt_B2R|lra]]|].
    generalize (rnd_err_small (B2R a + B2R b) 31 ltac:(lia) Hs) (rnd_err_small (B2R s / 2) 30 ltac:(lia) Hh).
    rewrite <- Es, <- Em. change (31 - 53)%Z with (-22)%Z. change (30 - 53)%Z with (-23)%Z.
    replace (bpow radix2 (-22)) with (2 * bpow radix2 (-23)) by (change (-22)%Z with (1 + -23)%Z; rewrite bpow_plus; reflexivity).
    intros X Y. replace (B2R (ndiv s (nofZ 2)) - (B2R a + B2R b) / 2) with
      ((B2R (ndiv s (nofZ 2)) - B2R s / 2) + (B2R s - (B2R a + B2R b)) / 2) by field.
    eapply Rle_trans; [apply Rabs_triang|]. unfold Rdiv at 2. rewrite Rabs_mult, (Rabs_pos_eq (/ 2)) by lra. lra.
  Qed.

  Definition tolR : R := bpow radix2 (-20).

  Lemma bisectLoop_b : forall fuel (a b : b64), is_finite a = true -> is_finite b = true ->
    Rabs (B2R a) <= bpow radix2 30 -> Rabs (B2R b) <= bpow radix2 30 -> B2R a <= B2R b ->
    pos (v a) -> ~ pos (v b) -> B2R b - B2R a <= tolR * (4 / 3) ^ fuel ->
    exists t t' : b64, bisectLoop (S fuel) g a b = Val t /\ is_finite t = true /\ is_finite t' = true /\
      B2R a <= B2R t' <= B2R t /\ B2R t <= B2R b /\ B2R t - B2R t' <= tolR + bpow radix2 (-72) /\ pos (v t') /\ ~ pos (v t).
  Proof.
    destruct isoTol_b as [FT ET]. fold tolR in ET.
    assert (0 < tolR) as PT by apply bpow_gt_0.
    induction fuel as [|n IH]; intros a b Fa Fb Ha Hb Hab Pa Pb Hw.
    - cbn [pow] in Hw. cbn [bisectLoop].
      destruct (bsub_correct b a Fb Fa) as [Fd Ed].
      { eapply Rle_trans; [|apply (bpow_le radix2 31 1023); lia].
        replace (bpow radix2 31) with (2 * bpow radix2 30) by (change 31%Z with (1 + 30)%Z; rewrite bpow_plus; reflexivity).
        unfold Rminus. eapply Rle_trans; [apply Rabs_triang|]. rewrite Rabs_Ropp. lra. }
      assert (nltb isoTol (nsub b a) = false) as ->.
      { rewrite bltb_eq by auto. apply Rltb_false. rewrite Ed, ET. apply rnd_le; [apply fmt_bpow; lia|unfold tolR in *; lra]. }
      exists b, a. generalize (bpow_gt_0 radix2 (-72)). intros. repeat split; auto; lra.
    - set (fu := S n) in *. cbn [bisectLoop].
      destruct (bsub_correct b a Fb Fa) as [Fd Ed].
      { eapply Rle_trans; [|apply (bpow_le radix2 31 1023); lia].
        replace (bpow radix2 31) with (2 * bpow radix2 30) by (change 31%Z with (1 + 30)%Z; rewrite bpow_plus; reflexivity).
        unfold Rminus. eapply Rle_trans; [apply Rabs_triang|]. rewrite Rabs_Ropp. lra. }
      destruct (nltb isoTol (nsub b a)) eqn:E.
      + rewrite bltb_eq in E by auto. apply Rltb_true in E. rewrite Ed, ET in E.
        assert (tolR < B2R b - B2R a) as L.
        { destruct (Rlt_or_le tolR (B2R b - B2R a)); auto. exfalso.
          assert (rnd (B2R b - B2R a) <= tolR) by (apply rnd_le; auto; apply fmt_bpow; lia). lra. }
        destruct (midpoint a b Fa Fb Ha Hb Hab) as (Fm & (M1 & M2) & Me).
        set (m := ndiv (nadd a b) (nofZ 2)) in *. rewrite Hg by auto. cbn [obind].
        assert (Rabs (B2R m) <= bpow radix2 30) as Hm.
        { apply Rabs_le. apply Rabs_le_inv in Ha. apply Rabs_le_inv in Hb. lra. }
        apply Rabs_le_inv in Me.
        assert (4 * bpow radix2 (-22) = tolR) as T4 by (unfold tolR; change (-20)%Z with (2 + -22)%Z; rewrite bpow_plus; reflexivity).
        unfold fu in Hw. cbn [pow] in Hw. fold fu in Hw.
        destruct (nltb (nofZ 0) (v m)) eqn:Vm.
        * destruct (IH m b) as (t & t' & Et & ? & ? & ? & ? & ? & ? & ?); auto; [lra|].
          exists t, t'. split; [exact Et|]. repeat split; auto; lra.
        * destruct (IH a m) as (t & t' & Et & ? & ? & ? & ? & ? & ? & ?); auto; [congruence|lra|].
          exists t, t'. split; [exact Et|]. repeat split; auto; lra.
      + exists b, a. split; auto. split; auto. split; auto. split; [lra|]. split; [lra|]. split; auto.
        rewrite bltb_eq in E by auto. apply Rltb_false in E. rewrite Ed, ET in E.
        destruct (Rle_or_lt (B2R b - B2R a) (tolR + bpow radix2 (-72))); auto. exfalso.
        assert (tolR + bpow radix2 (-72) <= rnd (B2R b - B2R a)) as X.
        { apply rnd_ge; [|lra]. replace (tolR + bpow radix2 (-72)) with (IZR (2 ^ 52 + 1) * bpow radix2 (-72)).
          - apply fmt_F2R; [reflexivity|lia].
          - rewrite plus_IZR. rewrite (IZR_Zpower radix2) by lia. rewrite Rmult_plus_distr_r, <- bpow_plus, Rmult_1_l. reflexivity. }
        generalize (bpow_gt_0 radix2 (-72)). lra.
  Qed.

  Lemma fuel_enough : bpow radix2 31 <= tolR * (4 / 3) ^ 130.
  Proof.
    assert (4 ^ 26 <= (4 / 3) ^ 130).
    { change 130%nat with (5 * 26)%nat. rewrite pow_mult. apply pow_incr. split; [lra|]. simpl. lra. }
    assert (4 ^ 26 = bpow radix2 52) as E.
    { change 4 with (IZR 4). rewrite pow_IZR. change (4 ^ Z.of_nat 26)%Z with (2 ^ 52)%Z. apply (IZR_Zpower radix2). lia. }
    assert (tolR * bpow radix2 52 = bpow radix2 32) as E2 by (unfold tolR; rewrite <- bpow_plus; reflexivity).
    assert (0 < tolR) as PT by apply bpow_gt_0.
    assert (bpow radix2 31 <= bpow radix2 32) by (apply bpow_le; lia). nra.
  Qed.

  Lemma product_not_pos (x y : b64) : is_finite x = true -> is_finite y = true -> pos x -> ~ pos y -> ~ pos (nmul x y).
  Proof.
    intros Fx Fy Px Py P. assert (is_finite (nofZ 0 : b64) = true /\ B2R (nofZ 0 : b64) = 0) as [F0 E0] by (apply bofZ_correct; lia).
    rewrite bltb_eq in Px by auto. apply Rltb_true in Px. rewrite E0 in Px.
    destruct (nltb (nofZ 0) y) eqn:Ey; [congruence|]. rewrite bltb_eq in Ey by auto. apply Rltb_false in Ey. rewrite E0 in Ey.
    generalize (Bmult_correct 53 1024 Hprec64 Hmax64 mode_NE x y).
    destruct (Rlt_bool _ _).
    - intros (A & B & _). rewrite Fx, Fy in B. cbn [andb] in B.
      change (is_finite (nmul x y) = true) in B. rewrite bltb_eq in P by auto. apply Rltb_true in P. rewrite E0 in P.
      change (B2R (nmul x y) = rnd (B2R x * B2R y)) in A. rewrite A in P.
      assert (rnd (B2R x * B2R y) <= 0); [apply rnd_le; [apply fmt_0|nra]|lra].
    - intros A. change (B2SF (nmul x y) = binary_overflow 53 1024 mode_NE (xorb (Bsign x) (Bsign y))) in A.
      unfold binary_overflow in A. cbn in A. unfold overflow_to_inf in A. 
      assert (Bsign x = false) as S1. { destruct x as [[]|[]| |[] mm ee pp]; cbn in *; auto; try lra; try discriminate. exfalso.
         generalize (F2R_lt_0 radix2 (Float radix2 (Zneg mm) ee)). cbn. intros X. specialize (X ltac:(reflexivity)). unfold F2R in *; cbn in *. lra. }
      assert (Bsign y = true \/ B2R y = 0) as [S2|S2].
      { destruct y as [[]|[]| |[] mm ee pp]; cbn in *; auto; try discriminate. exfalso.
         generalize (F2R_gt_0 radix2 (Float radix2 (Zpos mm) ee)). cbn. intros X. specialize (X ltac:(reflexivity)). unfold F2R in *; cbn in *. lra. }
      + rewrite S1, S2 in A. cbn in A. change (B2SF (nmul x y) = SpecFloat.S754_infinity true) in A. remember (nmul x y) as z eqn:Ez. clear Ez. destruct z as [sz|sz| |sz mz ez pz]; cbn in A; try discriminate A; destruct sz; try discriminate A; discriminate P.
      + exfalso. destruct y as [ys|[]| |ys mm ee pp]; cbn in S2; try discriminate.
        * destruct x; cbn in A; discriminate.
        * assert (IZR (cond_Zopp ys (Zpos mm)) * bpow radix2 ee <> 0).
          { apply Rmult_integral_contrapositive_currified; [|apply Rgt_not_eq, bpow_gt_0].
            apply IZR_neq. destruct ys; cbn; lia. }
          unfold F2R in S2. cbn in S2. congruence.
  Qed.

  Theorem bisect_b (a b : b64) : is_finite a = true -> is_finite b = true ->
    Rabs (B2R a) <= bpow radix2 30 -> Rabs (B2R b) <= bpow radix2 30 -> B2R a <= B2R b ->
    is_finite (v a) = true -> is_finite (v b) = true -> pos (v a) -> ~ pos (v b) ->
    exists t t' : b64, bisect 131 g a b = Val t /\ is_finite t = true /\ is_finite t' = true /\
      B2R a <= B2R t' <= B2R t /\ B2R t <= B2R b /\ B2R t - B2R t' <= bpow radix2 (-20) + bpow radix2 (-72) /\
      pos (v t') /\ ~ pos (v t).
  Proof.
    intros Fa Fb Ha Hb Hab Va Vb Pa Pb. unfold bisect. rewrite !Hg by auto. cbn [obind].
    destruct (nltb (nofZ 0) (nmul (v a) (v b))) eqn:E; [exfalso; eapply product_not_pos; [exact Va|exact Vb|..]; eauto|].
    rewrite Pa. apply bisectLoop_b; auto.
    eapply Rle_trans; [|apply fuel_enough].
    replace (bpow radix2 31) with (2 * bpow radix2 30) by (change 31%Z with (1 + 30)%Z; rewrite bpow_plus; reflexivity).
    apply Rabs_le_inv in Ha. apply Rabs_le_inv in Hb. lra.
  Qed.

  Theorem bisect_in_double_precision (a b : b64) : is_finite a = true -> is_finite b = true ->
    Rabs (B2R a) <= 1073741824 -> Rabs (B2R b) <= 1073741824 -> B2R a <= B2R b ->
    is_finite (v a) = true -> is_finite (v b) = true -> pos (v a) -> ~ pos (v b) ->
    exists t t' : b64, bisect 131 g a b = Val t /\ is_finite t = true /\ is_finite t' = true /\
      B2R a <= B2R t' <= B2R t /\ B2R t <= B2R b /\ B2R t - B2R t' <= 1 / 1048576 + bpow radix2 (-72) /\
      pos (v t') /\ ~ pos (v t).
  Proof.
    intros Fa Fb Ha Hb Hab Va Vb Pa Pb.
    replace 1073741824 with (bpow radix2 30) in * by (cbn; lra).
    replace (1 / 1048576) with (bpow radix2 (-20)) by (cbn; lra).
    apply bisect_b; auto.
  Qed.
End BisectB.
