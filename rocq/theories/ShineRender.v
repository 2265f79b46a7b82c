(** * Whole renderings of scenes under lamps *)
From Coq Require Import ZArith Reals Bool List Lra Lia.
From Flocq Require Import Core.
From Flocq Require IEEE754.BinarySingleNaN.
Import IEEE754.BinarySingleNaN.
From Verif Require Import Num NumLaws Outcome B64 GeomModel ColorModel SeqModel SeqSpec SeqProofs ObjModel TreeModel SceneModel SceneSpec CtxProofs SamplerModel SamplerSpec SamplerProofs SamplerNum
  RenderModel RenderSpec RenderProofs FloatErr FloatSpec RectFloat CosFloat TurnSpec RotFloat CamFloat ScatterSpec DullSpec DullProofs ShineSpec ShineFloat ShineProofs ShineScene ShineImage SamplerFacts.
Import ListNotations.
Local Open Scope R_scope.

Section Camera.
  Context {T : Trig b64}.
  Hypothesis HT : accurate_trig T.
  Lemma entry_am (x : b64) : is_finite x = true -> Rabs (B2R x) <= 101 / 100 -> at_most 1 x.
  Proof. intros F H. split; [exact F|]. change (bpow radix2 1) with 2. lra. Qed.
  Lemma row_am (a b c x y z : b64) : at_most 1 a -> at_most 1 b -> at_most 1 c -> at_most 4 x -> at_most 4 y -> null z ->
    at_most 7 (nadd (nadd (nmul a x) (nmul b y)) (nmul c z)).
  Proof.
    intros A B C X Y Z. apply (am_add 6); [lia| |].
    - apply (am_add 5); [lia| |]; apply (am_mul 1 4); assumption || lia.
    - apply null_am. apply null_mul_r; [apply C|exact Z].
  Qed.
  Lemma start_am e cam (s : b64 * b64) u0 v : ortho e (camMatrix cam) -> e <= / 1000 -> small_lens cam -> place 7 (camPos cam) -> FloatSpec.between 0 1 (fst s) -> FloatSpec.between 0 1 (snd s) ->
    all3 (at_most 8) (rStart (camRay cam (base (camOrig cam) s u0 v))).
  Proof.
    intros (F0 & F1 & F2 & U0 & U1 & U2 & _) He L (P1 & P2 & P3) S0 S1. unfold camRay. cbn [rStart].
    assert (X : exists st, rStart (base (camOrig cam) s u0 v) = st /\ at_most 4 (vx st) /\ at_most 4 (vy st) /\ null (vz st)).
    { eexists. split; [reflexivity|]. unfold small_lens in L. assert (Z := zero_null). destruct (camOrig cam) as [f fd a| |size]; cbn [base]; [|exact (conj (null_am 4 _ Z) (conj (null_am 4 _ Z) Z))|contradiction].
      unfold projectiveRay. cbv zeta. cbn [rStart]. destruct (nltb (nofZ 0) a); [|exact (conj (null_am 4 _ Z) (conj (null_am 4 _ Z) Z))].
      specialize (L eq_refl). assert (K := disk_am HT _ _ S0 S1). destruct (uniformDisk (fst s) (snd s)) as [x y]. destruct K as [KX KY]. cbn [vx vy vz].
      assert (Q : forall z : b64, at_most 0 z -> at_most 4 (nadd (nofZ 0) (nmul z a))).
      { intros z Hz. assert (M : at_most 4 (nmul z a)) by (apply (am_mul 0 4); [lia|exact Hz|exact L]). destruct (null_add_l 4 _ _ ltac:(lia) Z M) as [G E]. split; [exact G|]. rewrite E. apply M. }
      exact (conj (Q _ KX) (conj (Q _ KY) Z)). }
    destruct X as (st & -> & X & Y & Z). destruct (unit_small (m0 (camMatrix cam))) as (A1 & A2 & A3); [lra|]. destruct (unit_small (m1 (camMatrix cam))) as (B1 & B2 & B3); [lra|]. destruct (unit_small (m2 (camMatrix cam))) as (C1 & C2 & C3); [lra|].
    destruct F0 as (F01 & F02 & F03), F1 as (F11 & F12 & F13), F2 as (F21 & F22 & F23). unfold vadd, mmulvec, all3. cbn [vx vy vz].
    split; [|split]; (apply (am_add 7); [lia| |assumption]); apply row_am; try assumption; apply entry_am; assumption.
  Qed.

  Lemma camera_aimed cam ms (s : b64 * b64) (u0 v : b64) : made cam -> Forall finite_angles ms -> (rotations ms <= 1000)%nat -> small_lens cam -> place 7 (camPos (fold_left handle ms cam)) ->
    fair_pair s -> at_most 2 u0 -> at_most 2 v -> aimed 7 (slack 0) (camRay (fold_left handle ms cam) (base (camOrig (fold_left handle ms cam)) s u0 v)).
  Proof.
    intros Hc Fa L Hl Hp [S0 [S1f S1]] U V. destruct (made_ok HT cam Hc) as [Ho Hb]. assert (Pu := u_pos). apply le_INR in L. rewrite (INR_IZR_INZ 1000) in L. change (Z.of_nat 1000) with 1000%Z in L. assert (PI := pos_INR (rotations ms)).
    assert (S1' : FloatSpec.between 0 1 (snd s)) by (split; [exact S1f|lra]).
    set (n := INR (rotations ms)) in *. assert (Pn : 0 <= n * (2000 * u)) by (apply Rmult_le_pos; lra). pose proof u_val as Uv.
    destruct (handled_ortho HT ms cam (620 * u) Ho) as [Hm Ek]; [lra|fold n; rewrite Uv; lra|exact Fa|]. fold n in Hm. clearbody n.
    assert (He : 0 <= 620 * u + n * (2000 * u) <= / 1000) by (rewrite Uv; lra).
    unfold aimed. change (7 + 1)%Z with 8%Z. split.
    { apply (start_am _ _ s u0 v Hm); [lra| |exact Hp|exact S0|exact S1']. unfold small_lens. rewrite Ek. exact Hl. }
    unfold camRay. cbn [rDir]. rewrite Ek. destruct (Hb s u0 v S0 S1' U V) as [Fq Eq]. set (d := rDir _) in *. clearbody d.
    assert (Uq : unity d). { unfold unity. eapply Rle_trans; [exact Eq|]. rewrite Uv. lra. }
    assert (D := mulvec_dot _ _ He Hm d d Fq Fq Uq Uq). assert (F := mulvec_fin _ _ He Hm d Fq Uq). split; [exact F|]. apply Rabs_le_inv in D, Eq.
    unfold slack. rewrite Rmult_0_l, Rplus_0_r. change (bpow radix2 (-30)) with (/ 1073741824). rewrite Uv in *. apply Rabs_le. lra.
  Qed.
End Camera.

Section Gains.
  Lemma gains_within (S S' : Z -> color b64 -> Prop) B n a b : (forall k c, (0 <= k < B)%Z -> S k c -> S' k c) -> (0 <= aN a)%Z -> (aN a + Z.of_nat n <= B)%Z -> gains S n a b -> gains S' n a b.
  Proof.
    intros H A L G. induction G as [a|n a c b Hc G IH]; [constructor|]. econstructor.
    - apply H; [lia|exact Hc].
    - apply IH; unfold add_sample; cbn [aN]; lia.
  Qed.
End Gains.

Theorem shine_image {G} {NI : NumInf b64} {TF : Trig b64} (rand2 : G -> (b64 * b64) * G) (k : Z) (s : scene b64) fuel cam ms u0 v (c c' : ctx b64 G) col :
  (0 <= k)%Z -> (0 <= sRecursionDepth s)%Z -> (k + 60 + sRecursionDepth s <= 900)%Z -> lamplit 7 k s -> damping TF -> sharp_trig TF -> accurate_trig TF ->
  made cam -> Forall finite_angles ms -> (rotations ms <= 1000)%nat -> small_lens cam -> place 7 (camPos (fold_left handle ms cam)) ->
  fair_numbers rand2 (cSeq c) -> idle_ctx c -> at_most 2 u0 -> at_most 2 v ->
  imageFuncOf rand2 fuel s (fold_left handle ms cam) u0 v c = Val (col, c') -> lit (k + 60 + sRecursionDepth s) col.
Proof.
  intros K D0 D Hs HE Sh HT Hc Fa L Hl Hp Hf [Pc Dc] U V E. set (cam' := fold_left handle ms cam) in *.
  destruct (fires_run rand2 cam' u0 v c Pc) as (r & c1 & E1 & Q1). assert (I1 := rayFrom_inv rand2 cam' u0 v c Pc r c1 E1).
  unfold imageFuncOf in E. unfold mbind at 1 in E. rewrite E1 in E. cbn [obind] in E.
  unfold mbind at 1 in E. destruct (lightField rand2 fuel s All r c1) as [[b c2]| |] eqn:E2; try discriminate E. cbn [obind] in E.
  assert (b = col) as <-. { unfold mbind, putRay, mret in E. cbn in E. congruence. }
  assert (A := camera_aimed HT cam ms (fst (rand2 (cRng c))) u0 v Hc Fa L Hl Hp (proj1 Hf _) U V). fold cam' in A.
  assert (U1 : in_use c1 r) by (apply (inv_use _ _ _ I1); right; now left).
  assert (Sq : fair_numbers rand2 (cSeq c1)) by (rewrite (inv_seq _ _ _ I1); exact Hf).
  assert (Dq : cDepth c1 = 0%Z) by (rewrite (inv_depth _ _ _ I1); exact Dc).
  assert (X := shine rand2 7 k s ltac:(lia) K D Hs HE Sh (proj1 HT) fuel All r c1 c2 _ b Sq (inv_pool _ _ _ I1) U1 Q1). rewrite Dq, Z.sub_0_r in X.
  exact (proj1 (X ltac:(lia) A E2)).
Qed.

Theorem shine_images {G} {NI : NumInf b64} {TF : Trig b64} (rand2 : G -> (b64 * b64) * G) (k : Z) (s : scene b64) fuel cam ms aa shifts w h ns m :
  (0 <= k)%Z -> (0 <= sRecursionDepth s)%Z -> (k + 60 + sRecursionDepth s <= 900)%Z -> lamplit 7 k s -> damping TF -> sharp_trig TF -> accurate_trig TF ->
  made cam -> Forall finite_angles ms -> (rotations ms <= 1000)%nat -> small_lens cam -> place 7 (camPos (fold_left handle ms cam)) ->
  (forall g, fair_pair (fst (rand2 g))) -> Forall (fun x => in_unit (fst x) /\ in_unit (snd x)) shifts -> Z.of_nat (length shifts) = (w * h)%Z ->
  (0 <= w <= 2 ^ 30)%Z -> (0 <= h <= 2 ^ 30)%Z -> (h <= 3 * w)%Z -> Forall (fun n => 0 <= n)%Z ns -> (0 < total ns < 2 ^ 53)%Z ->
  renderCalls rand2 fuel s (fold_left handle ms cam) aa shifts w h ns newMem m ->
  forall p, in_image w h p -> lit (k + 60 + sRecursionDepth s) (imagef m p) /\ mN m p = total ns.
Proof.
  intros K D0 D Hs HE Sh HT Hc Fa L Hl Hpl Hr Hsh Hlen Hw Hh Ha Hn Ht H p Hp. set (cam' := fold_left handle ms cam) in *. set (k' := (k + 60 + sRecursionDepth s)%Z) in *.
  pose proof (renders_result rand2 fuel s cam' aa shifts w h (proj1 Hw) (proj1 Hh) (fun p k => sample_pos_b64 aa shifts w h p k ltac:(lia) ltac:(lia) Hlen) (fun _ j c => (0 <= j < 2 ^ 53 - 1)%Z -> lit k' c)) as X.
  specialize (fun HH => X HH ns newMem m Hn H p). rewrite (in_image_b w h p Hp) in X. rewrite <- (Z2Nat.id (total ns)) by lia. apply image_lit; [unfold k'; lia|lia|].
  eapply (gains_within (fun j c => (0 <= j < 2 ^ 53 - 1)%Z -> lit k' c) _ (2 ^ 53 - 1)).
  - intros j c Hj Hc'. exact (Hc' Hj).
  - cbn [acc_at newMem aN mN]. lia.
  - cbn [acc_at newMem aN mN]. lia.
  - apply X. intros p0 j q x y c Hp0 Ep Ic Hj. unfold sceneFunc. destruct (imageFuncOf rand2 fuel s cam' x y (withSeq c q)) as [[col c']| |] eqn:E; [|apply lit_black; unfold k'; lia|apply lit_black; unfold k'; lia]. cbn [fst].
    destruct (pos_small aa shifts w h p0 j q x y ltac:(lia) ltac:(lia) Ha Hp0 Ep) as [U V]. assert (F := fair_at rand2 aa shifts w h p0 j q (x, y) Hr Hsh Hj Ep).
    exact (shine_image rand2 k s fuel cam ms x y (withSeq c q) c' col K D0 D Hs HE Sh HT Hc Fa L Hl Hpl F Ic U V E).
Qed.

Theorem shine_start {G} {NI : NumInf b64} {TF : Trig b64} (rand2 : G -> (b64 * b64) * G) (P k : Z) (s : scene b64) :
  (0 <= P <= 20)%Z -> (0 <= k)%Z -> (k + 60 + sRecursionDepth s <= 900)%Z -> lamplit P k s -> damping TF -> sharp_trig TF -> FloatSpec.between 3 4 (npi : b64) ->
  forall fuel w r (c c' : ctx b64 G) q col, fair_numbers rand2 (cSeq c) -> pool_ok c -> in_use c r -> nth_error (cHeap c) r = Some q -> cDepth c = 0%Z -> (0 <= sRecursionDepth s)%Z ->
    aimed P (bpow radix2 (-30)) q -> lightField rand2 fuel s w r c = Val (col, c') -> lit (k + 60 + sRecursionDepth s) col.
Proof.
  intros HP K D Hs HE Sh Hpi fuel w r c c' q col Sq Pc U Q Dc D0 A E.
  assert (X := shine rand2 P k s HP K D Hs HE Sh Hpi fuel w r c c' q col Sq Pc U Q). rewrite Dc, Z.sub_0_r in X.
  refine (proj1 (X ltac:(lia) _ E)). unfold slack. rewrite Rmult_0_l, Rplus_0_r. exact A.
Qed.
