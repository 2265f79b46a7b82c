(** * The viewer in float64: the pitch, and when the viewer cannot crash *)
From Coq Require Import ZArith Reals Bool List Lia Lra.
From Flocq Require Import Core.
From Flocq Require Import IEEE754.BinarySingleNaN.
From Verif Require Import Num NumLaws B64 Outcome GeomModel TreeModel SceneModel ApiModel ViewerModel ViewerSpec ViewerProofs.
Import ListNotations.
Local Open Scope R_scope.

Notation run64 := (run (F := b64) to32b is_finite).
Notation handleEvent64 := (handleEvent (F := b64) to32b).

(** ** Numbers that are not NaN *)
Lemma overflow_not_nan (z : b64) (s : bool) : B2SF z = binary_overflow 53 1024 mode_NE s -> is_nan z = false.
Proof. intros E. rewrite <- is_nan_SF_B2SF, E. reflexivity. Qed.
Lemma badd_not_nan (x y : b64) : is_finite x = true -> is_nan y = false -> is_nan (nadd x y) = false.
Proof.
  intros Fx Ny. destruct (is_finite y) eqn:Fy.
  - generalize (Bplus_correct 53 1024 Hprec64 Hmax64 mode_NE x y Fx Fy). destruct (Rlt_bool _ _).
    + intros (_ & A & _). change (Bplus mode_NE x y) with (nadd x y) in A. destruct (nadd x y); try discriminate; reflexivity.
    + intros [A _]. exact (overflow_not_nan _ _ A).
  - destruct y as [s|s| |]; try discriminate. destruct x as [s0|s0| |]; try discriminate; reflexivity.
Qed.
Lemma bsub_not_nan (x y : b64) : is_finite x = true -> is_finite y = true -> is_nan (nsub x y) = false.
Proof.
  intros Fx Fy. generalize (Bminus_correct 53 1024 Hprec64 Hmax64 mode_NE x y Fx Fy). destruct (Rlt_bool _ _).
  - intros (_ & A & _). change (Bminus mode_NE x y) with (nsub x y) in A. destruct (nsub x y); try discriminate; reflexivity.
  - intros [A _]. exact (overflow_not_nan _ _ A).
Qed.
Lemma bmul_not_nan (x y : b64) : is_nan x = false -> is_finite_strict y = true -> is_nan (nmul x y) = false.
Proof.
  intros Nx Fy. destruct y as [s|s| |s m e p]; try discriminate. destruct (is_finite x) eqn:Fx.
  - generalize (Bmult_correct 53 1024 Hprec64 Hmax64 mode_NE x (B754_finite s m e p)). destruct (Rlt_bool _ _).
    + intros (_ & A & _). rewrite Fx in A. change (Bmult mode_NE x (B754_finite s m e p)) with (nmul x (B754_finite s m e p)) in A.
      destruct (nmul x _); try discriminate; reflexivity.
    + intros A. exact (overflow_not_nan _ _ A).
  - destruct x as [s0|s0| |]; try discriminate; reflexivity.
Qed.
Lemma to32b_not_nan (x : b64) : is_nan x = false -> is_nan (to32b x) = false.
Proof.
  destruct x as [s|s| |s m e p]; intros H; try exact H. unfold to32b.
  pose proof (is_nan_binary_normalize 24 128 eq_refl eq_refl mode_NE (SpecFloat.cond_Zopp s (Z.pos m)) e s) as A.
  destruct (binary_normalize _ _ _ _ _ _ _ _); try reflexivity; [discriminate|].
  apply is_nan_binary_normalize.
Qed.

(** ** What the other phases leave alone *)
Section Core.
  Context {F : Type} `{NF : Num F} `{TF : Trig F}.
  Variable to32 : F -> F.
  Variable jsonOk : F -> bool.
  Lemma xy_repaint r (s s' : state F) : repaintIfNeeded jsonOk r s = Val s' -> stX s' = stX s /\ stY s' = stY s.
  Proof.
    unfold repaintIfNeeded. destruct (stRenderDirty s).
    - destruct (encodable _ _); cbn [obind]; [|discriminate]. intros [= <-]. destruct r; cbn; destruct (stWindowDirty s); split; reflexivity.
    - cbn [obind]. intros [= <-]. destruct (stWindowDirty s); split; reflexivity.
  Qed.
  Lemma xy_bake (s s' : state F) : goBakeAndSend jsonOk s = Val s' -> stX s' = stX s /\ stY s' = stY s.
  Proof. unfold goBakeAndSend. destruct (encodable _ _); [|discriminate]. intros [= <-]. split; reflexivity. Qed.
  Lemma xy_bakery k v r (s : state F) : stX (handleBakery v r (received k s)) = stX s /\ stY (handleBakery v r (received k s)) = stY s.
  Proof. unfold handleBakery. destruct r; try (split; reflexivity). destruct (_ && _ && _ && _); split; reflexivity. Qed.
  Lemma xy_return (s s' : state F) : return_ s = Val s' -> stX s' = stX s /\ stY s' = stY s.
  Proof. unfold return_. destruct (stAborted s); [|discriminate]. intros [= <-]. split; reflexivity. Qed.
  Lemma xy_inv (P : view F -> F -> F -> Prop) (okE : event F -> Prop) :
    (forall e s s', okE e -> P (stView s) (stX s) (stY s) -> handleEvent to32 e s = Val s' -> P (stView s') (stX s') (stY s')) ->
    forall is s s', (forall e, In e (all_events is) -> okE e) -> P (stView s) (stX s) (stY s) -> run to32 jsonOk is s = Val s' ->
    P (stView s') (stX s') (stY s').
  Proof.
    intros HE is s s' He. apply (run_inv to32 jsonOk (fun s => P (stView s) (stX s) (stY s)) okE (fun _ => True)).
    - exact HE.
    - intros r t t' _ Hp E. destruct (xy_repaint _ _ _ E) as [-> ->]. now rewrite (proj1 (view_repaint jsonOk _ _ _ E)).
    - intros t t' Hp _ E. destruct (xy_bake _ _ E) as [-> ->]. now rewrite (proj1 (view_bake jsonOk _ _ E)).
    - intros k v r t Hp _. destruct (xy_bakery k v r t) as [-> ->]. now rewrite (proj1 (view_bakery k v r t)).
    - intros t t' Hp E. destruct (xy_return _ _ E) as [-> ->]. now rewrite (proj1 (view_return _ _ E)).
    - exact He.
    - auto.
  Qed.
End Core.

(** ** The pitch *)
Section Pitch.
  Context {TF : Trig b64}.
  Hypothesis piFinite : is_finite (npi (F := b64)) = true.
  Hypothesis piPos : 0 <= B2R (npi (F := b64)).
  Notation halfPi := (ndiv (F := b64) npi (nofZ 2)).
  Lemma halfPi_ok : is_finite halfPi = true /\ 0 <= B2R halfPi /\ B2R halfPi = rnd (B2R (npi (F := b64)) / 2).
  Proof.
    destruct (bofZ_correct 2 ltac:(lia)) as [_ V2]. change (b64_of_Z 2) with (nofZ 2 : b64) in V2.
    assert (B2R (npi (F := b64)) < bpow radix2 1024) as Hb.
    { apply Rle_lt_trans with (Rabs (B2R (npi (F := b64)))); [apply Rle_abs|apply abs_B2R_lt_emax]. }
    destruct (bdiv_correct npi (nofZ 2) piFinite) as [A B].
    - rewrite V2. lra.
    - rewrite V2, Rabs_right by lra. unfold big. change (bpow radix2 1024) with (bpow radix2 (1023 + 1)) in Hb. rewrite bpow_plus in Hb. change (bpow radix2 1) with 2 in Hb. lra.
    - rewrite V2 in B. split; [exact A|]. rewrite B. split; [apply rnd_nonneg; lra|reflexivity].
  Qed.
  Definition pitchOk (p : b64) : Prop := is_finite p = true /\ nleb (nopp halfPi) p = true /\ nleb p halfPi = true.
  Lemma negHalfPi : is_finite (nopp halfPi) = true /\ B2R (nopp halfPi) = - B2R halfPi.
  Proof. destruct halfPi_ok as (A & _). split; [cbn [nopp NumB]; now rewrite is_finite_Bopp|apply B2R_Bopp]. Qed.
  Lemma pitchOk_R p : is_finite p = true -> (pitchOk p <-> - B2R halfPi <= B2R p <= B2R halfPi).
  Proof.
    intros Fp. destruct halfPi_ok as (A & B & _), negHalfPi as (C & D). unfold pitchOk.
    rewrite (bleb_R _ _ C Fp), (bleb_R _ _ Fp A), D. tauto.
  Qed.
  Lemma clamp_ok (p : b64) : is_nan p = false ->
    pitchOk (let p := if nltb p (nopp halfPi) then nopp halfPi else p in if nltb halfPi p then halfPi else p).
  Proof.
    intros Np. destruct halfPi_ok as (A & B & _), negHalfPi as (C & D).
    assert (pitchOk halfPi) as Hu by (apply pitchOk_R; [exact A|lra]).
    assert (pitchOk (nopp halfPi)) as Hl by (apply pitchOk_R; [exact C|rewrite D; lra]).
    cbv zeta. destruct (nltb p (nopp halfPi)) eqn:L.
    - destruct (nltb halfPi (nopp halfPi)); [exact Hu|exact Hl].
    - destruct (nltb halfPi p) eqn:U; [exact Hu|].
      destruct (is_finite p) eqn:Fp.
      + apply pitchOk_R; [exact Fp|]. 
        split; apply Rnot_lt_le; intros Hlt.
        * rewrite <- D in Hlt. apply (bltb_R p (nopp halfPi) Fp C) in Hlt. congruence.
        * apply (bltb_R halfPi p A Fp) in Hlt. congruence.
      + exfalso. destruct p as [s|s| |]; try discriminate. destruct s.
        * destruct (nopp halfPi) as [s|s| |]; try discriminate.
        * destruct halfPi as [s|s| |]; try discriminate.
  Qed.
  Lemma rotate_pitch dx dy (s : state b64) : pitchOk (vwCamPitch (stView s)) -> is_nan dy = false -> pitchOk (vwCamPitch (stView (rotateCamera dx dy s))).
  Proof.
    intros Hp Nd. unfold rotateCamera. cbn [stView setView withAngles vwCamPitch]. apply clamp_ok.
    apply badd_not_nan; [apply Hp|]. apply bmul_not_nan; [exact Nd|]. vm_compute. reflexivity.
  Qed.
  Lemma pitch_event e (s s' : state b64) : coords_ok (fun x => is_finite x = true) e ->
    pitchOk (vwCamPitch (stView s)) /\ is_finite (stX s) = true /\ is_finite (stY s) = true -> handleEvent64 e s = Val s' ->
    pitchOk (vwCamPitch (stView s')) /\ is_finite (stX s') = true /\ is_finite (stY s') = true.
  Proof.
    intros He (Hp & Hx & Hy). unfold handleEvent. destruct e as [press code sh|d b x y sh|w h| |dead].
    - intros [= <-]. unfold handleKeyEvent. destruct press; [|auto]. destruct code; try destruct sh; repeat apply conj; auto; apply Hp.
    - intros [= <-]. destruct He as [Fx Fy]. unfold handleMouseEvent.
      destruct (match d with DPress => (b, isLeft b) | DRelease => (BNone, if isLeft b then false else stPreview s) | DNone => (stMouse s, stPreview s) end) as [m p].
      set (s1 := setMouse (F := b64) m p (stX s) (stY s) s). set (s2 := if isLeft m then _ else s1).
      assert (pitchOk (vwCamPitch (stView s2))) as H2.
      { unfold s2. destruct (isLeft m); [|exact Hp]. apply rotate_pitch; [exact Hp|]. apply to32b_not_nan, bsub_not_nan; assumption. }
      set (s3 := setMouse (F := b64) m p x y s2).
      assert (pitchOk (vwCamPitch (stView s3)) /\ is_finite (stX s3) = true /\ is_finite (stY s3) = true) as H3 by (split; [exact H2|split; [exact Fx|exact Fy]]).
      clearbody s3. destruct (negb (vwIsometric (stView s3))); destruct b; try exact H3; try destruct sh; exact H3.
    - intros [= <-]. auto.
    - intros [= <-]. auto.
    - unfold handleLifecycleEvent. destruct dead; [destruct (stAborted s); [discriminate|]|]; intros [= <-]; auto.
  Qed.
  Lemma pitch_run jsonOk is (s : state b64) : (forall e, In e (all_events is) -> coords_ok (fun x => is_finite x = true) e) ->
    run to32b jsonOk is start = Val s -> pitchOk (vwCamPitch (stView s)).
  Proof.
    intros He E.
    apply (xy_inv to32b jsonOk (fun v x y => pitchOk (vwCamPitch v) /\ is_finite x = true /\ is_finite y = true) _ pitch_event is start s He); [|exact E].
    split; [|split; reflexivity]. cbn [start stView startView vwCamPitch]. apply pitchOk_R; [reflexivity|].
    change (B2R (nofZ 0 : b64)) with 0. destruct halfPi_ok as (_ & B & _). lra.
  Qed.
End Pitch.

(** ** Bounded numbers *)
Definition bd (x : b64) (r : R) : Prop := is_finite x = true /\ Rabs (B2R x) <= r.
Lemma bd_weaken x r r' : bd x r -> r <= r' -> bd x r'.
Proof. intros [A B] H. split; [exact A|lra]. Qed.
Lemma bd_add x y r r' : bd x r -> bd y r' -> fmt (r + r') -> r + r' <= big -> bd (nadd x y) (r + r').
Proof.
  intros [A B] [C D] Hf Hb. pose proof (Rabs_triang (B2R x) (B2R y)) as T.
  destruct (badd_correct x y A C) as [E G]; [lra|]. split; [exact E|]. rewrite G. apply rnd_abs_le; [exact Hf|lra].
Qed.
Lemma bd_sub x y r r' : bd x r -> bd y r' -> fmt (r + r') -> r + r' <= big -> bd (nsub x y) (r + r').
Proof.
  intros [A B] [C D] Hf Hb. pose proof (Rabs_triang (B2R x) (- B2R y)) as T. rewrite Rabs_Ropp in T.
  destruct (bsub_correct x y A C) as [E G]; [unfold Rminus; lra|]. split; [exact E|]. rewrite G. apply rnd_abs_le; [exact Hf|unfold Rminus; lra].
Qed.
Lemma bd_mul x y r r' : bd x r -> bd y r' -> fmt (r * r') -> r * r' <= big -> bd (nmul x y) (r * r').
Proof.
  intros [A B] [C D] Hf Hb. assert (Rabs (B2R x * B2R y) <= r * r') as T.
  { rewrite Rabs_mult. apply Rmult_le_compat; auto using Rabs_pos. }
  destruct (bmul_correct x y A C) as [E G]; [lra|]. split; [exact E|]. rewrite G. now apply rnd_abs_le.
Qed.
(** integer bounds *)
Record bz (x : b64) (m : Z) : Prop := Bz { bz_bd : bd x (IZR m); bz_pos : (0 <= m)%Z }.
Arguments bz_bd {x m}.
Lemma IZR_big m : (Z.abs m <= 2 ^ 53)%Z -> IZR m <= big.
Proof.
  intros H. apply Rle_trans with (IZR (2 ^ 53)); [apply IZR_le; lia|]. change (IZR (2 ^ 53)) with (bpow radix2 53). apply bpow_le. lia.
Qed.
Lemma bz_weaken x m m' : bz x m -> (m <= m')%Z -> bz x m'.
Proof. intros [A B] H. split; [|lia]. apply (bd_weaken x (IZR m)); [exact A|now apply IZR_le]. Qed.
Lemma bz_add x y m n : bz x m -> bz y n -> (m + n <= 2 ^ 53)%Z -> bz (nadd x y) (m + n).
Proof.
  intros [A Hm] [B Hn] H. split; [|lia]. rewrite plus_IZR. apply bd_add; auto; rewrite <- plus_IZR; [apply fmt_Z|apply IZR_big]; lia.
Qed.
Lemma bz_sub x y m n : bz x m -> bz y n -> (m + n <= 2 ^ 53)%Z -> bz (nsub x y) (m + n).
Proof.
  intros [A Hm] [B Hn] H. split; [|lia]. rewrite plus_IZR. apply bd_sub; auto; rewrite <- plus_IZR; [apply fmt_Z|apply IZR_big]; lia.
Qed.
Lemma bz_mul x y m n : bz x m -> bz y n -> (m * n <= 2 ^ 53)%Z -> bz (nmul x y) (m * n).
Proof.
  intros [A Hm] [B Hn] H. split; [|nia]. rewrite mult_IZR. apply bd_mul; auto; rewrite <- mult_IZR; [apply fmt_Z|apply IZR_big]; nia.
Qed.
Lemma bz_const x m : (0 <= m <= 2 ^ 53)%Z -> is_finite x = true -> nleb (F := b64) (nabs x) (nofZ m) = true -> bz x m.
Proof.
  intros Hm Fx H. split; [|lia]. split; [exact Fx|]. destruct (bofZ_correct m ltac:(lia)) as [A B]. change (b64_of_Z m) with (nofZ (F := b64) m) in *.
  apply bleb_R in H; [|cbn [nabs NumB]; now rewrite is_finite_Babs|exact A]. rewrite B in H. cbn [nabs NumB] in H. now rewrite B2R_Babs in H.
Qed.
Lemma bz_0 m : (0 <= m)%Z -> bz (nofZ 0 : b64) m.
Proof. intros H. split; [|exact H]. split; [reflexivity|]. change (B2R (nofZ 0 : b64)) with 0. rewrite Rabs_R0. now apply IZR_le. Qed.

(** rounding to float32 keeps a bound that is a power of two *)
Lemma to32b_bd (x : b64) (k : Z) : (-126 <= k <= 127)%Z -> bd x (bpow radix2 k) -> bd (to32b x) (bpow radix2 k).
Proof.
  intros Hk [Fx Hx]. destruct x as [s|s| |s m e p]; try discriminate; [now split|]. unfold to32b.
  assert (Valid_exp (SpecFloat.fexp 24 128)) as Vx by (apply (fexp_correct 24 128); reflexivity).
  pose proof (binary_normalize_correct 24 128 eq_refl eq_refl mode_NE (SpecFloat.cond_Zopp s (Z.pos m)) e s) as A. cbv zeta in A.
  change (F2R {| Fnum := SpecFloat.cond_Zopp s (Z.pos m); Fexp := e |}) with (B2R (B754_finite s m e p)) in A.
  set (v := B2R (B754_finite s m e p)) in *.
  assert (Rabs (round radix2 (SpecFloat.fexp 24 128) (round_mode mode_NE) v) <= bpow radix2 k) as R1.
  { apply abs_round_le_generic; [exact Vx|apply valid_rnd_round_mode| |exact Hx].
    apply generic_format_bpow. unfold SpecFloat.fexp, SpecFloat.emin. lia. }
  rewrite Rlt_bool_true in A; [|apply Rle_lt_trans with (1 := R1); apply bpow_lt; lia].
  destruct A as (A & B & _). set (z := binary_normalize 24 128 _ _ _ _ _ _) in *. rewrite <- A in R1. clearbody z.
  destruct z as [s'|s'| |s' m' e' p']; try discriminate.
  - split; [reflexivity|]. cbn [B2R]. rewrite Rabs_R0. apply bpow_ge_0.
  - pose proof (binary_normalize_correct 53 1024 Hprec64 Hmax64 mode_NE (SpecFloat.cond_Zopp s' (Z.pos m')) e' s') as C. cbv zeta in C.
    change (F2R {| Fnum := SpecFloat.cond_Zopp s' (Z.pos m'); Fexp := e' |}) with (B2R (B754_finite s' m' e' p')) in C.
    assert (Rabs (rnd (B2R (B754_finite s' m' e' p'))) <= bpow radix2 k) as R2 by (apply rnd_abs_le; [apply fmt_bpow; lia|exact R1]).
    rewrite Rlt_bool_true in C; [|apply Rle_lt_trans with (1 := R2); apply bpow_lt; lia].
    destruct C as (C & D & _). split; [exact D|]. rewrite C. exact R2.
Qed.
Lemma to32b_bz (x : b64) (k : Z) : (0 <= k <= 52)%Z -> bz x (2 ^ k) -> bz (to32b x) (2 ^ k).
Proof.
  intros Hk [A B]. split; [|exact B].
  assert (IZR (2 ^ k) = bpow radix2 k) as E by (change 2%Z with (radix_val radix2); apply IZR_Zpower; lia).
  rewrite E in *. apply to32b_bd; [lia|exact A].
Qed.

(** ** Rotations *)
Section Safe.
  Context {TF : Trig b64}.
  (** what is assumed of math.Sin, math.Cos and Pi *)
  Definition sane_trig : Prop :=
    (forall x : b64, is_finite x = true -> bz (nsin x) 1 /\ bz (ncos x) 1) /\ is_finite (npi (F := b64)) = true /\ 0 <= B2R (npi (F := b64)) <= 4.
  Hypothesis Sane : sane_trig.
  Lemma uCos_bz (x : b64) : is_finite x = true -> bz (uCos (F := b64) x) 1.
  Proof. intros H. unfold uCos. destruct (_ || _); [apply bz_0; lia|now apply Sane]. Qed.
  Lemma uSin_bz (x : b64) : is_finite x = true -> bz (uSin (F := b64) x) 1.
  Proof. intros H. unfold uSin. destruct (_ || _); [apply bz_0; lia|now apply Sane]. Qed.

  Definition vbz (v : vec b64) (m : Z) : Prop := bz (vx v) m /\ bz (vy v) m /\ bz (vz v) m.
  Definition mbz (a : matrix b64) (m : Z) : Prop := vbz (m0 a) m /\ vbz (m1 a) m /\ vbz (m2 a) m.
  Lemma vget_bz v m j : vbz v m -> bz (vget v j) m.
  Proof. intros (A & B & C). destruct j; assumption. Qed.
  Lemma mmul_bz a b m n : mbz a m -> mbz b n -> (3 * (m * n) <= 2 ^ 53)%Z -> mbz (mmul a b) (3 * (m * n)).
  Proof.
    intros (A0 & A1 & A2) (B0 & B1 & B2) H.
    assert (0 <= m /\ 0 <= n)%Z as [Pm Pn] by (split; [apply A0|apply B0]).
    assert (forall bi j, vbz bi n -> bz (mmul_elem a bi j) (3 * (m * n))) as E.
    { intros bi j (X & Y & Z0). unfold mmul_elem.
      apply (bz_weaken _ (0 + n * m + n * m + n * m)); [|lia].
      repeat apply bz_add; try lia; try (apply bz_mul; [assumption|now apply vget_bz|nia]). apply bz_0. lia. }
    repeat apply conj; apply E; assumption.
  Qed.
  Lemma unit_bz : mbz unitMatrix 1.
  Proof. repeat apply conj; first [now apply bz_0|apply bz_const; [lia|reflexivity|vm_compute; reflexivity]]. Qed.
  Lemma rotationMatrix_bz (ax : vec b64) (angle : b64) : vbz (vnormalized ax) 1 -> is_finite angle = true -> mbz (rotationMatrix ax angle) 3.
  Proof.
    intros (X & Y & Z0) Fa. unfold rotationMatrix. cbv zeta. pose proof (uCos_bz _ Fa) as C. pose proof (uSin_bz _ Fa) as S.
    set (ux := vx (vnormalized ax)) in *. set (uy := vy (vnormalized ax)) in *. set (uz := vz (vnormalized ax)) in *.
    set (c := uCos (F := b64) angle) in *. set (s := uSin (F := b64) angle) in *.
    assert (bz (nsub (F := b64) (nofZ 1) c) 2) as C1.
    { apply (bz_sub (nofZ 1) c 1 1); [|exact C|lia]. apply bz_const; [lia|reflexivity|vm_compute; reflexivity]. }
    set (c1 := nsub (F := b64) (nofZ 1) c) in *. clearbody ux uy uz c s c1.
    assert (forall p q, bz p 1 -> bz q 1 -> bz (nmul (nmul p q) c1) 2) as M.
    { intros p q Hp Hq. apply (bz_mul _ _ 1 2); [apply (bz_mul _ _ 1 1); auto; lia|exact C1|lia]. }
    assert (forall p, bz p 1 -> bz (nmul p s) 1) as N by (intros p Hp; apply (bz_mul _ _ 1 1); auto; lia).
    repeat apply conj; cbn [m0 m1 m2 vx vy vz]; 
      first [apply (bz_add _ _ 1 2); [exact C|apply M; assumption|lia]
            |apply (bz_add _ _ 2 1); [apply M; assumption|apply N; assumption|lia]
            |apply (bz_sub _ _ 2 1); [apply M; assumption|apply N; assumption|lia]].
  Qed.
  Lemma rotate_bz (ax : vec b64) (angle : b64) : vbz (vnormalized ax) 1 -> is_finite angle = true -> mbz (afA (rotate vO ax angle)) 81.
  Proof.
    intros Ha Fa. unfold rotate, withOrigin, composeLR. cbn [fold_left before afA].
    change (Matrix (Vec (nofZ 1) (nofZ 0) (nofZ 0)) (Vec (nofZ 0) (nofZ 1) (nofZ 0)) (Vec (nofZ 0) (nofZ 0) (nofZ 1))) with (unitMatrix : matrix b64).
    apply (mmul_bz _ _ 1 27); [exact unit_bz| |lia]. apply (mmul_bz _ _ 3 3); [now apply rotationMatrix_bz| |lia].
    apply (mmul_bz _ _ 1 1); [exact unit_bz|exact unit_bz|lia].
  Qed.
  Lemma yawPitchRoll_bz (y p : b64) : is_finite y = true -> is_finite p = true -> mbz (afA (yawPitchRoll (F := b64) y p (nofZ 0))) (3 * ((3 * (81 * 81)) * 81)).
  Proof.
    intros Fy Fp. unfold yawPitchRoll, after, before. cbn [afA].
    apply mmul_bz; [apply mmul_bz|..]; try lia; apply rotate_bz; auto;
      repeat apply conj; apply bz_const; try lia; vm_compute; reflexivity.
  Qed.
  Lemma step_bz (y p : b64) (d : vec b64) : is_finite y = true -> is_finite p = true -> vbz d 1 ->
    vbz (mmulvec (afA (yawPitchRoll (F := b64) y p (nofZ 0))) d) (2 ^ 24).
  Proof.
    intros Fy Fp (X & Y & Z0). destruct (yawPitchRoll_bz y p Fy Fp) as (A0 & A1 & A2). set (k := (3 * (3 * (81 * 81) * 81))%Z) in *.
    assert (forall a b c, bz a k -> bz b k -> bz c k -> bz (nadd (nadd (nmul a (vx d)) (nmul b (vy d))) (nmul c (vz d))) (2 ^ 24)) as E.
    { intros a b c Ha Hb Hc. apply (bz_weaken _ (k * 1 + k * 1 + k * 1)); [|unfold k; lia].
      repeat apply bz_add; try (apply bz_mul; try assumption; unfold k; lia); unfold k; lia. }
    unfold mmulvec. destruct A0 as (? & ? & ?), A1 as (? & ? & ?), A2 as (? & ? & ?). repeat apply conj; cbn [vx vy vz]; apply E; assumption.
  Qed.

  (** ** The budget: [n] events handled so far, [z] of them zooms *)
  Definition within (n z : Z) (s : state b64) : Prop :=
    vbz (vwCamPos (stView s)) (n * 2 ^ 24) /\ bz (vwCamYaw (stView s)) (n * 2 ^ 22) /\ pitchOk (vwCamPitch (stView s)) /\
    bd (vwIsometricFOV (stView s)) (bpow radix2 (4 + z)) /\ bz (stX s) (2 ^ 20) /\ bz (stY s) (2 ^ 20).
  Lemma within_encodable n z (s : state b64) : within n z s -> encodable (F := b64) is_finite (stView s) = true.
  Proof.
    intros (((A & _) & (B & _) & (C & _)) & (D & _) & (E & _) & (G & _) & _). unfold encodable.
    rewrite (proj1 A), (proj1 B), (proj1 C), (proj1 D), E, G. reflexivity.
  Qed.
  Lemma within_weaken n z n' z' (s : state b64) : (n <= n')%Z -> (z <= z')%Z -> within n z s -> within n' z' s.
  Proof.
    intros Hn Hz ((A & B & C) & D & E & G & X & Y). unfold within, vbz.
    split; [split; [|split]; eapply bz_weaken; try eassumption; lia|].
    split; [eapply bz_weaken; [exact D|lia]|]. split; [exact E|]. split; [|auto].
    eapply bd_weaken; [exact G|]. apply bpow_le. lia.
  Qed.
  Lemma moveCam_within n z (d : vec b64) (s : state b64) : (0 <= n <= 2 ^ 28)%Z -> vbz d 1 -> within n z s -> within (n + 1) z (moveCam d s).
  Proof.
    intros Hn Hd (A & D & E & G & X & Y).
    assert (within (n + 1) z s) as W by (apply (within_weaken n z); [lia|lia|]; unfold within; auto 10).
    destruct W as (_ & D' & E' & G' & _). unfold moveCam.
    pose proof (step_bz (vwCamYaw (stView s)) (vwCamPitch (stView s)) d (proj1 (bz_bd D)) (proj1 E) Hd) as (S1 & S2 & S3).
    set (w := mmulvec _ d) in *. clearbody w.
    assert (bz (nQ 5 100 : b64) 1) as K by (apply bz_const; [lia|vm_compute; reflexivity|vm_compute; reflexivity]).
    assert (forall a b, bz a (n * 2 ^ 24) -> bz b (2 ^ 24) -> bz (nadd a (nmul (nQ 5 100) b)) ((n + 1) * 2 ^ 24)) as P.
    { intros a b Ha Hb. replace ((n + 1) * 2 ^ 24)%Z with (n * 2 ^ 24 + 1 * 2 ^ 24)%Z by ring.
      apply bz_add; [exact Ha|apply bz_mul; [exact K|exact Hb|lia]|lia]. }
    destruct A as (A1 & A2 & A3). unfold within. cbn [stView setView withPos vwCamPos vwCamYaw vwCamPitch vwIsometricFOV stX stY vmadd vx vy vz].
    split; [repeat apply conj; apply P; assumption|]. auto 10.
  Qed.
  Lemma rotateCamera_within n z (dx dy : b64) (s : state b64) : (0 <= n <= 2 ^ 28)%Z -> bz dx (2 ^ 21) -> bz dy (2 ^ 21) -> within n z s -> within (n + 1) z (rotateCamera dx dy s).
  Proof.
    intros Hn Hx Hy (A & D & E & G & X & Y).
    assert (within (n + 1) z s) as W by (apply (within_weaken n z); [lia|lia|]; unfold within; auto 10).
    destruct W as (A' & _ & _ & G' & _).
    assert (bz (nQ 5 1000 : b64) 1) as K by (apply bz_const; [lia|vm_compute; reflexivity|vm_compute; reflexivity]).
    unfold within. split; [exact A'|]. split.
    - cbn [rotateCamera stView setView withAngles vwCamYaw].
      apply (bz_weaken _ (n * 2 ^ 22 + 2 ^ 21 * 1)); [|lia].
      apply bz_add; [exact D|apply bz_mul; [exact Hx|exact K|lia]|lia].
    - split; [|auto 10]. apply rotate_pitch; try apply Sane; [exact E|]. destruct dy; try reflexivity. destruct Hy as [[Hy _] _]. discriminate.
  Qed.
  Lemma fovOr8_bd (x : b64) z : (0 <= z)%Z -> bd x (bpow radix2 (4 + z)) -> bd (fovOr8 x) (bpow radix2 (4 + z)).
  Proof.
    intros Hz H. unfold fovOr8. destruct (neqb x (nofZ 0)); [|exact H].
    apply (bd_weaken _ (IZR 8)).
    - apply bz_bd, bz_const; [lia|reflexivity|vm_compute; reflexivity].
    - change (IZR 8) with (bpow radix2 3). apply bpow_le. lia.
  Qed.
  Lemma isometricZoom_within n z (f : b64) (s : state b64) : (0 <= n)%Z -> (0 <= z <= 1018)%Z -> bz f 2 -> within n z s -> within (n + 1) (z + 1) (isometricZoom f s).
  Proof.
    intros Hn Hz Hf (A & D & E & G & X & Y).
    assert (within (n + 1) z s) as W by (apply (within_weaken n z); [lia|lia|]; unfold within; auto 10).
    destruct W as (A' & D' & E' & _ & _). unfold within.
    cbn [isometricZoom stView setView withIsometric vwCamPos vwCamYaw vwCamPitch vwIsometricFOV stX stY].
    repeat (split; [first [exact A'|exact D'|exact E']|]). split; [|auto].
    replace (4 + (z + 1))%Z with (4 + z + 1)%Z by lia. rewrite bpow_plus.
    apply bd_mul; [apply fovOr8_bd; [lia|exact G]|change (bpow radix2 1) with (IZR 2); exact (bz_bd Hf)|..]; rewrite <- bpow_plus.
    - apply fmt_bpow. lia.
    - unfold big. apply bpow_le. lia.
  Qed.

  Definition calm (e : event b64) : Prop := coords_ok (fun x => bz x (2 ^ 20)) e.
  Definition zoomed (e : event b64) (z : Z) : Z := if is_wheel e then (z + 1)%Z else z.
  Lemma event_within n z (e : event b64) (s : state b64) : (0 <= n)%Z -> (2 * n < 2 ^ 28)%Z -> (0 <= z <= 1018)%Z -> calm e -> (is_dead e = true -> stAborted s = false) ->
    within (2 * n) z s ->
    exists s', handleEvent64 e s = Val s' /\ within (2 * (n + 1)) (zoomed e z) s' /\ stAborted s' = (stAborted s || is_dead e)%bool.
  Proof.
    intros Hn Hn' Hz He Hab W.
    assert (within (2 * (n + 1)) z s) as W' by (apply (within_weaken (2 * n) z); [lia|lia|exact W]).
    assert (forall t, within (2 * n + 1) z t -> within (2 * (n + 1)) z t) as Up by (intros t; apply within_weaken; lia).
    assert (forall a b c, bz a 1 -> bz b 1 -> bz c 1 -> vbz (Vec a b c) 1) as V by (intros a b c; unfold vbz; auto).
    assert (bz (nofZ 0 : b64) 1) as Z0 by (apply bz_0; lia).
    assert (bz (nofZ 1 : b64) 1) as Z1 by (apply bz_const; [lia|reflexivity|vm_compute; reflexivity]).
    assert (bz (nofZ (-1) : b64) 1) as Zm by (apply bz_const; [lia|reflexivity|vm_compute; reflexivity]).
    destruct e as [press code sh|d b x y sh|w h| |dead]; cbn [handleEvent is_dead zoomed is_wheel] in *.
    - exists (handleKeyEvent press code sh s). split; [reflexivity|]. rewrite orb_false_r.
      assert (forall dir, vbz dir 1 -> within (2 * (n + 1)) z (moveCam dir s) /\ stAborted (moveCam dir s) = stAborted s) as G1.
      { intros dir Hd. split; [|reflexivity]. apply Up, moveCam_within; [lia|exact Hd|exact W]. }
      assert (forall k, within (2 * (n + 1)) z (toggleIsometric k s) /\ stAborted (toggleIsometric k s) = stAborted s) as G2.
      { intros k. split; [|reflexivity]. destruct W' as (A & D & E & G & X & Y). unfold within.
        cbn [toggleIsometric stView setView withIsometric vwCamPos vwCamYaw vwCamPitch vwIsometricFOV stX stY].
        repeat (split; [first [exact A|exact D|exact E|apply fovOr8_bd; [lia|exact G]|exact X]|]). exact Y. }
      assert (within (2 * (n + 1)) z (toggleNormals s) /\ stAborted (toggleNormals s) = stAborted s) as G3 by (split; [exact W'|reflexivity]).
      unfold handleKeyEvent. destruct press; [|split; [exact W'|reflexivity]].
      destruct code; try destruct sh;
        match goal with
        | |- within _ _ (moveCam _ _) /\ _ => apply G1; apply V; assumption
        | |- within _ _ (toggleIsometric _ _) /\ _ => apply G2
        | |- within _ _ (toggleNormals _) /\ _ => exact G3
        | |- _ => split; [exact W'|reflexivity]
        end.
    - exists (handleMouseEvent to32b d b x y sh s). split; [reflexivity|]. rewrite orb_false_r. destruct He as [Hx Hy]. unfold handleMouseEvent.
      destruct (match d with DPress => (b, isLeft b) | DRelease => (BNone, if isLeft b then false else stPreview s) | DNone => (stMouse s, stPreview s) end) as [m p].
      set (s1 := setMouse (F := b64) m p (stX s) (stY s) s). set (s2 := if isLeft m then _ else s1).
      assert (within (2 * n + 1) z s2 /\ stAborted s2 = stAborted s) as (W2 & Ab2).
      { unfold s2. assert (within (2 * n + 1) z s1) by (apply (within_weaken (2 * n) z); [lia|lia|exact W]).
        destruct (isLeft m); [|split; [assumption|reflexivity]]. split; [|reflexivity].
        assert (forall a b, bz a (2 ^ 20) -> bz b (2 ^ 20) -> bz (to32b (nsub a b)) (2 ^ 21)) as T.
        { intros a b' Ha Hb. apply to32b_bz; [lia|]. apply (bz_sub a b' (2 ^ 20) (2 ^ 20)); auto; lia. }
        destruct W as (A & D & E & G & X & Y). apply rotateCamera_within; [lia|now apply T|now apply T|]. unfold within. auto 10. }
      set (s3 := setMouse (F := b64) m p x y s2).
      assert (within (2 * n + 1) z s3 /\ stAborted s3 = stAborted s) as (W3 & Ab3).
      { split; [|exact Ab2]. destruct W2 as (A & D & E & G & _). unfold within. auto 10. }
      clearbody s3. clear s1 s2 W2 Ab2.
      assert (within (2 * (n + 1)) z s3) as W4 by now apply Up.
      assert (forall dir, vbz dir 1 -> within (2 * (n + 1)) z (moveCam dir s3)) as Mv.
      { intros dir Hd. replace (2 * (n + 1))%Z with (2 * n + 1 + 1)%Z by lia. apply moveCam_within; [lia|exact Hd|exact W3]. }
      assert (within (2 * (n + 1)) (z + 1) s3) as W5 by (apply (within_weaken (2 * (n + 1)) z); [lia|lia|exact W4]).
      assert (forall t, within (2 * (n + 1)) z t -> within (2 * (n + 1)) (z + 1) t) as Up1 by (intros t; apply within_weaken; lia).
      assert (forall f, bz f 2 -> within (2 * (n + 1)) (z + 1) (isometricZoom f s3)) as Zm'.
      { intros f Hf. replace (2 * (n + 1))%Z with (2 * n + 1 + 1)%Z by lia. apply isometricZoom_within; [lia|exact Hz|exact Hf|exact W3]. }
      unfold zoomed. destruct (negb (vwIsometric (stView s3))); destruct b; cbn [is_wheel]; try (split; [assumption|exact Ab3]); try destruct sh;
        (split; [|exact Ab3]);
        match goal with
        | |- within _ z (moveCam _ _) => apply Mv; apply V; assumption
        | |- within _ _ (moveCam _ _) => apply Up1, Mv; apply V; assumption
        | |- within _ _ (isometricZoom _ _) => apply Zm', bz_const; [lia|vm_compute; reflexivity|vm_compute; reflexivity]
        end.
    - exists (handleSizeEvent w h s). split; [reflexivity|]. rewrite orb_false_r. split; [exact W'|reflexivity].
    - exists (windowDirty s). split; [reflexivity|]. rewrite orb_false_r. split; [exact W'|reflexivity].
    - unfold handleLifecycleEvent. destruct dead.
      + rewrite (Hab eq_refl). eexists. split; [reflexivity|]. split; [exact W'|reflexivity].
      + eexists. split; [reflexivity|]. rewrite orb_false_r. split; [exact W'|reflexivity].
  Qed.

  Definition aborts (s : state b64) : nat := if stAborted s then 1 else 0.
  Definition len (es : list (event b64)) : Z := Z.of_nat (length es).
  Definition wheels (es : list (event b64)) : Z := Z.of_nat (count is_wheel es).
  Lemma backlog_within es : forall n z (s : state b64), (0 <= n)%Z -> (0 <= z)%Z -> (2 * (n + len es) <= 2 ^ 28)%Z -> (z + wheels es <= 1018)%Z ->
    (forall e, In e es -> calm e) -> (aborts s + count is_dead es <= 1)%nat -> within (2 * n) z s ->
    exists s', handleEventBacklog (F := b64) to32b es s = Val s' /\ within (2 * (n + len es)) (z + wheels es) s' /\ aborts s' = (aborts s + count is_dead es)%nat.
  Proof.
    induction es as [|e es IH]; intros n z s Hn Hz Hl Hw Hc Hd W.
    - exists s. split; [reflexivity|]. change (len []) with 0%Z in *. change (wheels []) with 0%Z in *. change (count is_dead (F := b64) []) with 0%nat in *.
      split; [|lia]. apply (within_weaken (2 * n) z); [lia|lia|exact W].
    - assert (len (e :: es) = len es + 1)%Z as El by (unfold len; cbn [length]; lia).
      assert (0 <= len es)%Z by (unfold len; lia). assert (0 <= wheels es)%Z by (unfold wheels; lia).
      assert (wheels (e :: es) = wheels es + (if is_wheel e then 1 else 0))%Z as Ew.
      { unfold wheels, count. cbn [filter]. destruct (is_wheel e); cbn [length]; lia. }
      assert (count is_dead (e :: es) = (if is_dead e then 1 else 0) + count is_dead es)%nat as Ed.
      { unfold count. cbn [filter]. destruct (is_dead e); reflexivity. }
      assert ((z + (if is_wheel e then 1 else 0) <= 1018)%Z) as Hz1 by lia. assert (z <= 1018)%Z by (destruct (is_wheel e); lia).
      destruct (event_within n z e s) as (s1 & E1 & W1 & A1); auto; try lia.
        { apply Hc. now left. }
        { intros Hde. rewrite Ed, Hde in Hd. unfold aborts in Hd. destruct (stAborted s); [lia|reflexivity]. }
        assert (aborts s1 = aborts s + (if is_dead e then 1 else 0))%nat as Ha.
        { unfold aborts. rewrite A1. rewrite Ed in Hd. unfold aborts in Hd. destruct (stAborted s), (is_dead e); cbn; lia. }
        destruct (IH (n + 1)%Z (zoomed e z) s1) as (s2 & E2 & W2 & A2); unfold zoomed; auto; try (destruct (is_wheel e); lia); try lia.
        { intros e' He'. apply Hc. now right. }
        exists s2. cbn [handleEventBacklog]. rewrite E1. cbn [obind]. split; [exact E2|]. split; [|lia].
        eapply within_weaken; [| |exact W2]; [lia|]. unfold zoomed. destruct (is_wheel e); lia.
  Qed.

  Lemma repaint_within r n z (s : state b64) : within n z s -> exists s', repaintIfNeeded (F := b64) is_finite r s = Val s' /\ within n z s' /\ aborts s' = aborts s.
  Proof.
    intros W. assert (exists s', repaintIfNeeded (F := b64) is_finite r s = Val s') as [s' E].
    { unfold repaintIfNeeded. destruct (stRenderDirty s); [|eexists; reflexivity].
      change (encodable (F := b64) is_finite (withSize (stView (cancelBaking s)) (Z.quot (vwWidth (stView (cancelBaking s))) 8) (Z.quot (vwHeight (stView (cancelBaking s))) 8)
        (vwAntiAlias (stView (cancelBaking s))))) with (encodable (F := b64) is_finite (stView s)).
      rewrite (within_encodable n z s W). eexists. reflexivity. }
    exists s'. split; [exact E|]. destruct (view_repaint _ _ _ _ E) as [V A]. destruct (xy_repaint _ _ _ _ E) as [X Y].
    unfold within, aborts. rewrite V, A, X, Y. split; [exact W|reflexivity].
  Qed.
  Lemma bake_within n z (s : state b64) : within n z s -> exists s', goBakeAndSend (F := b64) is_finite s = Val s' /\ within n z s' /\ aborts s' = aborts s.
  Proof.
    intros W. assert (exists s', goBakeAndSend (F := b64) is_finite s = Val s') as [s' E].
    { unfold goBakeAndSend. cbv zeta. set (v := withSize _ _ _ _).
      change (encodable (F := b64) is_finite v) with (encodable (F := b64) is_finite (stView s)).
      rewrite (within_encodable n z s W). eexists. reflexivity. }
    exists s'. split; [exact E|]. destruct (view_bake _ _ _ E) as [V A]. destruct (xy_bake _ _ _ E) as [X Y].
    unfold within, aborts. rewrite V, A, X, Y. split; [exact W|reflexivity].
  Qed.
  Lemma return_returned (s s' : state b64) : return_ s = Val s' -> stReturned s' = true.
  Proof. unfold return_. destruct (stAborted s); [|discriminate]. intros [= <-]. reflexivity. Qed.
  Lemma return_no_panic (s : state b64) : return_ s <> Panic.
  Proof. unfold return_. destruct (stAborted s); discriminate. Qed.
  Lemma len_app a b : (len (a ++ b) = len a + len b)%Z.
  Proof. unfold len. rewrite app_length. lia. Qed.
  Lemma count_app f (a b : list (event b64)) : count f (a ++ b) = (count f a + count f b)%nat.
  Proof. unfold count. rewrite filter_app, app_length. reflexivity. Qed.
  Lemma wheels_app a b : (wheels (a ++ b) = wheels a + wheels b)%Z.
  Proof. unfold wheels. rewrite count_app. lia. Qed.
  Lemma len_nonneg a : (0 <= len a)%Z.
  Proof. unfold len. lia. Qed.
  Lemma wheels_nonneg a : (0 <= wheels a)%Z.
  Proof. unfold wheels. lia. Qed.

  Lemma iterate_within i n z (s : state b64) : (0 <= n)%Z -> (0 <= z)%Z -> (2 * (n + len (events_of i)) <= 2 ^ 28)%Z -> (z + wheels (events_of i) <= 1018)%Z ->
    (forall e, In e (events_of i) -> calm e) -> (aborts s + count is_dead (events_of i) <= 1)%nat -> within (2 * n) z s ->
    iterate (F := b64) to32b is_finite i s <> Panic /\
    (forall s', iterate (F := b64) to32b is_finite i s = Val s' -> stReturned s' = true \/
      within (2 * (n + len (events_of i))) (z + wheels (events_of i)) s' /\ aborts s' = (aborts s + count is_dead (events_of i))%nat).
  Proof.
    unfold events_of. rewrite len_app, wheels_app, count_app. intros Hn Hz Hl Hw Hc Hd W.
    pose proof (len_nonneg (events1 (in1 i))) as P1. pose proof (len_nonneg (events3 (in3 i))) as P2.
    pose proof (wheels_nonneg (events1 (in1 i))) as P3. pose proof (wheels_nonneg (events3 (in3 i))) as P4.
    unfold iterate. destruct (stReturned s); [split; discriminate|].
    destruct (in1 i) as [|e es|] eqn:I1; [| |split; [apply return_no_panic|intros s' E; left; now apply (return_returned s)]].
    all: (match goal with |- context [obind ?o _] =>
        assert (o = NoFuel \/ exists s1, o = Val s1 /\ within (2 * (n + len (events1 (in1 i)))) (z + wheels (events1 (in1 i))) s1 /\
          aborts s1 = (aborts s + count is_dead (events1 (in1 i)))%nat) as [-> |(s1 & -> & W1 & A1)] end).
    1: { destruct (stAborted s); [now left|]. right. exists s. split; [reflexivity|]. rewrite I1. split; [|cbn; lia].
         apply (within_weaken (2 * n) z); [cbn [events1]; unfold len; cbn [length]; lia|unfold wheels; lia|exact W]. }
    1: split; discriminate.
    2: { right. rewrite I1. apply (backlog_within (e :: es) n z s); auto; cbn [events1] in *; try lia. intros e' He'. apply Hc. apply in_or_app. now left. }
    2: split; discriminate.
    all: rewrite I1 in W1, A1; cbn [obind].
    all: destruct (repaint_within (inR1 i) _ _ _ W1) as (s2 & E2 & W2 & A2); rewrite E2; cbn [obind].
    all: (match goal with |- context [obind ?o _] =>
        assert (exists s3, o = Val s3 /\ within (2 * (n + len (events1 (in1 i)))) (z + wheels (events1 (in1 i))) s3 /\ aborts s3 = aborts s2) as (s3 & -> & W3 & A3) end).
    1, 3: rewrite I1; destruct (_ && _ && _ && _); [now apply bake_within|exists s2; auto].
    all: rewrite I1 in W3; cbn [obind]; rewrite <- I1 in *.
    all: destruct (in3 i) as [e' es'|k resp|] eqn:I3; [| |split; [apply return_no_panic|intros s' E; left; now apply (return_returned s3)]].
    1, 3: (destruct (backlog_within (e' :: es') (n + len (events1 (in1 i))) (z + wheels (events1 (in1 i))) s3) as (s4 & E4 & W4 & A4); auto; cbn [events3] in *; try lia;
         [intros e0 He0; apply Hc; apply in_or_app; now right|];
         rewrite E4; cbn [obind];
         destruct (repaint_within (inR2 i) _ _ _ W4) as (s5 & E5 & W5 & A5); rewrite E5; split; [discriminate|]; intros s' [= <-]; right;
         split; [eapply within_weaken; [| |exact W5]; lia|lia]).
    all: destruct (nth_error (stFlight s3) k) as [v|]; [|split; discriminate].
    all: assert (within (2 * (n + len (events1 (in1 i)))) (z + wheels (events1 (in1 i))) (handleBakery v resp (received k s3)) /\ aborts (handleBakery v resp (received k s3)) = aborts s3) as (W4 & A4).
    1, 3: unfold within, aborts; destruct (view_bakery k v resp s3) as [-> ->]; destruct (xy_bakery k v resp s3) as [-> ->]; split; [exact W3|reflexivity].
    all: destruct (repaint_within (inR2 i) _ _ _ W4) as (s5 & E5 & W5 & A5); rewrite E5; split; [discriminate|]; intros s' [= <-]; right.
    all: cbn [events3]; change (len []) with 0%Z; change (wheels []) with 0%Z; change (count is_dead (F := b64) []) with 0%nat.
    all: split; [eapply within_weaken; [| |exact W5]; lia|lia].
  Qed.
  Lemma run_returned is (s : state b64) : stReturned s = true -> run64 is s <> Panic.
  Proof. intros H. destruct is as [|i is]; cbn [run]; [discriminate|]. unfold iterate. rewrite H. discriminate. Qed.
  Lemma run_safe is : forall n z (s : state b64), (0 <= n)%Z -> (0 <= z)%Z -> (2 * (n + len (all_events is)) <= 2 ^ 28)%Z -> (z + wheels (all_events is) <= 1018)%Z ->
    (forall e, In e (all_events is) -> calm e) -> (aborts s + count is_dead (all_events is) <= 1)%nat -> within (2 * n) z s -> run64 is s <> Panic.
  Proof.
    induction is as [|i is IH]; intros n z s Hn Hz Hl Hw Hc Hd W; cbn [run]; [discriminate|].
    change (all_events (i :: is)) with (events_of i ++ all_events is) in *. rewrite len_app in Hl. rewrite wheels_app in Hw. rewrite count_app in Hd.
    pose proof (len_nonneg (events_of i)). pose proof (len_nonneg (all_events is)). pose proof (wheels_nonneg (events_of i)). pose proof (wheels_nonneg (all_events is)).
    destruct (iterate_within i n z s) as [Np Nx]; auto; try lia; [intros e He; apply Hc, in_or_app; now left|].
    destruct (iterate (F := b64) to32b is_finite i s) as [s1| |]; [|congruence|discriminate]. cbn [obind].
    destruct (Nx s1 eq_refl) as [Rt|[W1 A1]]; [now apply run_returned|].
    apply (IH (n + len (events_of i))%Z (z + wheels (events_of i))%Z); auto; try lia. intros e He. apply Hc, in_or_app. now right.
  Qed.
  Lemma viewer_safe is : (len (all_events is) <= 2 ^ 27)%Z -> (wheels (all_events is) <= 1000)%Z -> (forall e, In e (all_events is) -> calm e) ->
    (count is_dead (all_events is) <= 1)%nat -> run64 is start <> Panic.
  Proof.
    intros Hl Hw Hc Hd. apply (run_safe is 0 0); auto; try lia.
    assert (bz (nofZ 0 : b64) 0) as B0 by (apply bz_0; lia). assert (bz (nofZ 0 : b64) (2 ^ 20)) as B1 by (apply bz_0; lia).
    unfold within, vbz. split; [split; [|split]; exact B0|]. split; [exact B0|]. split.
    - destruct Sane as (_ & P1 & P2). apply pitchOk_R; [exact P1|lra|reflexivity|]. cbn [start stView startView vwCamPitch].
      change (B2R (nofZ (F := b64) 0)) with 0. destruct (halfPi_ok P1 ltac:(lra)) as (_ & B & _). lra.
    - split; [|split; exact B1]. apply (bd_weaken _ (IZR 0)); [exact (bz_bd B0)|apply bpow_ge_0].
  Qed.
End Safe.
