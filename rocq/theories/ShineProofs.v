(** * Colours of scenes under lamps stay within the range of double precision *)
From Coq Require Import ZArith Reals Bool List Lra Lia.
From Flocq Require Import Core.
From Flocq Require IEEE754.BinarySingleNaN.
Import IEEE754.BinarySingleNaN.
From Verif Require Import Num NumLaws Outcome B64 GeomModel ColorModel SeqModel ObjModel TreeModel SceneModel SceneSpec SceneProofs ParamProofs CtxProofs FloatErr FloatSpec RectFloat ScatterSpec CosFloat CosSharp
  MirrorSpec MirrorFloat DullSpec DullProofs ShineSpec ShineFloat.
Import ListNotations.
Local Open Scope R_scope.

Ltac skip := let z := fresh in intros z; cbv beta; clear z.

Section Shine.
  Context {G : Type} {NI : NumInf b64} {TF : Trig b64}.
  Variable rand2 : G -> (b64 * b64) * G.
  Notation ctx := (ctx b64 G).
  Notation act := (act b64 G).

  (** ** Triples *)
  Definition sat {A} (P : ctx -> Prop) (a : act A) (Q : A -> ctx -> Prop) : Prop := forall c x c', P c -> a c = Val (x, c') -> Q x c'.
  Lemma sat_ret {A} (P : ctx -> Prop) (x : A) (Q : A -> ctx -> Prop) : (forall c, P c -> Q x c) -> sat P (mret x) Q.
  Proof. intros H c y c' Hc E. unfold mret in E. assert (y = x /\ c' = c) as [-> ->] by (split; congruence). now apply H. Qed.
  Lemma sat_bind {A B} (P : ctx -> Prop) (a : act A) (Q : A -> ctx -> Prop) (f : A -> act B) R : sat P a Q -> (forall x, sat (Q x) (f x) R) -> sat P (mbind a f) R.
  Proof. intros Ha Hf c x c' Hc E. unfold mbind in E. destruct (a c) as [[y c1]| |] eqn:Ea; try discriminate E. cbn [obind] in E. exact (Hf y _ _ _ (Ha _ _ _ Hc Ea) E). Qed.
  Lemma sat_lift {A} (P : ctx -> Prop) (o : outcome A) (Q : A -> ctx -> Prop) : (forall x c, o = Val x -> P c -> Q x c) -> sat P (mlift o) Q.
  Proof. intros H c x c' Hc E. unfold mlift in E. destruct o as [y| |]; try discriminate E. cbn [omap] in E. assert (x = y /\ c' = c) as [-> ->] by (split; congruence). now apply H. Qed.
  Lemma sat_pre {A} (P P' : ctx -> Prop) (a : act A) Q : sat P a Q -> (forall c, P' c -> P c) -> sat P' a Q.
  Proof. intros H I c x c' Hc E. exact (H _ _ _ (I _ Hc) E). Qed.
  Lemma sat_post {A} (P : ctx -> Prop) (a : act A) (Q Q' : A -> ctx -> Prop) : sat P a Q -> (forall x c, Q x c -> Q' x c) -> sat P a Q'.
  Proof. intros H I c x c' Hc E. exact (I _ _ (H _ _ _ Hc E)). Qed.
  Lemma sat_fact {A} (F : Prop) (P : ctx -> Prop) (a : act A) Q : (F -> sat P a Q) -> sat (fun c => F /\ P c) a Q.
  Proof. intros H c x c' [Hf Hc] E. exact (H Hf _ _ _ Hc E). Qed.

  (** actions that leave all rays as they are *)
  Definition quiet {A} (a : act A) : Prop := forall c x c', pool_ok c -> a c = Val (x, c') -> inv c nil c'.
  Lemma quiet_rel {A} (a : act A) : (forall c, rel True (inv c nil) a a (fun _ => inv c nil)) -> quiet a.
  Proof. intros H c x c' Hp E. destruct (H c c (inv_refl c Hp)) as [_ X]. rewrite E in X. exact X. Qed.

  (** ** Inside an evaluation that started in [c0] *)
  Section In.
    Variable c0 : ctx.
    Definition J (c : ctx) : Prop := inv c0 nil c.
    Definition S (i : nat) (x : ray b64) (c : ctx) : Prop := inv c0 [i] c /\ nth_error (cHeap c) i = Some x.
    Variable r : nat.
    Variable q : ray b64.
    Hypothesis Hr : in_use c0 r.
    Hypothesis Hq : nth_error (cHeap c0) r = Some q.

    Lemma read_r held c : inv c0 held c -> readRay r c = Val (q, c).
    Proof. intros Hi. unfold readRay. rewrite (inv_heap _ _ _ Hi r Hr), Hq. reflexivity. Qed.
    Lemma sat_read_J : sat J (readRay r) (fun q' c => q' = q /\ J c).
    Proof. intros c x c' Hc E. rewrite (read_r nil c Hc) in E. assert (x = q /\ c' = c) as [-> ->] by (split; congruence). now split. Qed.
    Lemma sat_read_S i x : sat (S i x) (readRay r) (fun q' c => q' = q /\ S i x c).
    Proof. intros c y c' Hc E. rewrite (read_r [i] c (proj1 Hc)) in E. assert (y = q /\ c' = c) as [-> ->] by (split; congruence). now split. Qed.
    Lemma sat_new : sat J newRay (fun i c => S i zeroRay c).
    Proof. intros c i c' Hc E. destruct (inv_new c0 nil c Hc) as (j & c1 & E1 & Hi & Hz & _). rewrite E1 in E. assert (i = j /\ c' = c1) as [-> ->] by (split; congruence). now split. Qed.
    Lemma sat_start i x p : sat (S i x) (setStart i p) (fun _ => S i (Ray p (rDir x))).
    Proof.
      intros c y c' [Hi Hx] E. unfold setStart, mbind, readRay, writeRay in E. rewrite Hx in E. cbn [obind] in E. rewrite Hx in E.
      assert (c' = withPool c (cPool c) (setNth (cHeap c) i (Ray p (rDir x)))) as -> by congruence. split; [apply inv_write; [exact Hi|now left]|].
      cbn [cHeap withPool]. apply ParamProofs.nth_setNth_eq. apply nth_error_Some. now rewrite Hx.
    Qed.
    Lemma sat_dir i x p : sat (S i x) (setDir i p) (fun _ => S i (Ray (rStart x) p)).
    Proof.
      intros c y c' [Hi Hx] E. unfold setDir, mbind, readRay, writeRay in E. rewrite Hx in E. cbn [obind] in E. rewrite Hx in E.
      assert (c' = withPool c (cPool c) (setNth (cHeap c) i (Ray (rStart x) p))) as -> by congruence. split; [apply inv_write; [exact Hi|now left]|].
      cbn [cHeap withPool]. apply ParamProofs.nth_setNth_eq. apply nth_error_Some. now rewrite Hx.
    Qed.
    Lemma sat_put i x : sat (S i x) (putRay i) (fun _ => J).
    Proof. intros c y c' [Hi _] E. unfold putRay in E. assert (c' = withPool c (i :: cPool c) (cHeap c)) as -> by congruence. now apply inv_put. Qed.
    Lemma S_later i x c c' : S i x c -> inv c nil c' -> S i x c'.
    Proof.
      intros [Hi Hx] H. split; [exact (inv_trans _ _ _ _ Hi H)|]. rewrite (inv_heap _ _ _ H); [exact Hx|]. apply (inv_use _ _ _ Hi). right. now left.
    Qed.
    Lemma sat_quiet {A} (a : act A) i x (Q : A -> Prop) : quiet a -> yields a Q -> sat (S i x) a (fun y c => Q y /\ S i x c).
    Proof. intros H Y c y c' Hc E. split; [exact (Y _ _ _ E)|]. exact (S_later _ _ _ _ Hc (H _ _ _ (inv_pool _ _ _ (proj1 Hc)) E)). Qed.
    Lemma quiet_generate2 : quiet (generate2 rand2).
    Proof. apply quiet_rel. intros c. apply rel_generate2. intros; exact I. Qed.
    Lemma sat_generate2 i x : fair_numbers rand2 (cSeq c0) -> sat (S i x) (generate2 rand2) (fun uv c => fair_pair uv /\ S i x c).
    Proof.
      intros (N & N1 & N2) c uv c' Hc E. split; [|exact (S_later _ _ _ _ Hc (quiet_generate2 _ _ _ (inv_pool _ _ _ (proj1 Hc)) E))].
      unfold generate2 in E. rewrite (inv_seq _ _ _ (proj1 Hc)) in E. destruct (cDepth c =? 0)%Z; [discriminate E|].
      destruct (cDepth c =? 1)%Z. { destruct (hseq_generate2 (cs_1 (cSeq c0))) as [p| |] eqn:H; try discriminate E. cbn [omap] in E. apply N1. congruence. }
      destruct (cDepth c =? 2)%Z. { destruct (hseq_generate2 (cs_2 (cSeq c0))) as [p| |] eqn:H; try discriminate E. cbn [omap] in E. apply N2. congruence. }
      unfold pseudo2 in E. pose proof (N (cRng c)) as X. destruct (rand2 (cRng c)) as [p g]. cbn [fst] in X. replace uv with p by congruence. exact X.
    Qed.

    (** ** The light of the lamps *)
    Variables Sz k : Z.
    Variable s : scene b64.
    Hypothesis HP : (0 <= Sz <= 20)%Z.
    Hypothesis K : (0 <= k <= 840)%Z.
    Hypothesis Hs : lamplit Sz k s.

    Lemma goods : forall o, In o (all_objects s) -> good True o.
    Proof. intros o Ho. destruct Hs as (_ & _ & H & _). rewrite Forall_forall in H. split; [|intros; exact I]. intros x h x' E. exact (proj1 (H o Ho x h x' E)). Qed.
    Lemma shows : forall m, shown s m -> textures (tex_ok True) m.
    Proof. intros m _. induction m; cbn [textures]; repeat split; try assumption; intros ? ?; exact I. Qed.
    Lemma object_dull o : In o (all_objects s) -> dull_object k o.
    Proof. intros Ho x h x' m E M. destruct Hs as (_ & _ & H & _). rewrite Forall_forall in H. exact (proj1 (proj2 (H o Ho x h x' E) m M)). Qed.
    Lemma quiet_occlude i len orig : quiet (occlude s i len orig).
    Proof. apply quiet_rel. intros c. apply (rel_occlude True c s goods shows). Qed.

    Lemma occlude_lit j i len : (0 <= j <= 900)%Z -> forall objs, (forall o, In o objs -> In o (all_objects s)) -> forall orig, lit j orig -> yields (occludeLoop (G := G) objs i len orig) (lit j).
    Proof.
      intros Hj. induction objs as [|o objs IH]; intros Ho orig L; cbn [occludeLoop]; [now apply yields_ret|].
      apply (yields_bind _ (fun h => forall m, hMat h = Some m -> dull k m)).
      - unfold intersectRay. apply yields_any. intros x. apply (yields_bind _ (fun p => forall m, hMat (fst p) = Some m -> dull k m)).
        + apply yields_lift. intros [h x'] E m M. exact (object_dull o (Ho o (or_introl eq_refl)) x h x' m E M).
        + intros [h x'] P. apply yields_any. skip. apply yields_ret. exact P.
      - intros h Hh. assert (Ho' : forall o, In o objs -> In o (all_objects s)) by (intros o' X; apply Ho; now right).
        destruct (_ && _)%bool; [|now apply IH]. destruct (hMat h) as [m|] eqn:M; [|apply yields_ret, lit_black, Hj].
        specialize (Hh m eq_refl). destruct m as [|t|t|c|n m|n1 n2|t|a b|x a y b|t a b]; cbn [matFilter]; try (apply yields_ret, lit_black, Hj).
        apply (yields_bind _ (lit j)); [|intros c Hc; now apply IH]. apply yields_lift. intros c E. destruct (t (hLocal h)) as [f| |] eqn:Ef; try discriminate E.
        cbn [omap] in E. replace c with (clmul3 orig f) by congruence. apply lit_filter; [exact Hj|exact L|]. exact (Hh _ _ Ef).
    Qed.

    Definition heap (n : Z) (a : color b64) : Prop := upto (k + 42) n (cR a) /\ upto (k + 42) n (cG a) /\ upto (k + 42) n (cB a).
    Lemma heap_more n m a : (n <= m)%Z -> heap n a -> heap m a.
    Proof.
      intros H (A & B & C). assert (U : forall x, upto (k + 42) n x -> upto (k + 42) m x).
      { intros x [F X]. split; [exact F|]. split; [tauto|]. apply IZR_le in H. pose proof (bpow_gt_0 radix2 (k + 42)). nra. }
      (split; [|split]); apply U; assumption.
    Qed.
    Lemma heap_lit a n : (0 <= n <= 2 ^ 18)%Z -> heap n a -> lit (k + 60) a.
    Proof.
      intros Hn (A & B & C). assert (U : forall x, upto (k + 42) n x -> from0 (k + 60) x).
      { intros x [F X]. split; [exact F|]. split; [tauto|]. replace (k + 60)%Z with (18 + (k + 42))%Z by lia. rewrite bpow_plus. change (bpow radix2 18) with (IZR (2 ^ 18)).
        assert (IZR n <= IZR (2 ^ 18)) by (apply IZR_le; lia). pose proof (bpow_gt_0 radix2 (k + 42)). nra. }
      (split; [|split]); apply U; assumption.
    Qed.
    Lemma heap_add n a b : (0 <= n < 2 ^ 18)%Z -> heap n a -> lit (k + 42) b -> heap (n + 1) (cladd a b).
    Proof. intros Hn (A & B & C) (A' & B' & C'). (split; [|split]); apply upto_add; try assumption; lia. Qed.

    Section Lamps.
      Hypothesis Pi : FloatSpec.between 3 4 (npi : b64).
      Variable i : nat.
      Variables p n : vec b64.
      Hypothesis Hn : all3 (at_most 1) n.
      Lemma lamps_heap ls : Forall (lamp k) ls -> Forall (fun l => match l with LPoint pos _ => way (vsub pos p) /\ way (vsub p pos) | _ => True end) ls ->
        forall m a x, (0 <= m)%Z -> (m + Z.of_nat (length ls) <= 2 ^ 18)%Z -> heap m a -> rStart x = p ->
        sat (S i x) (matteLights rand2 s ls p n i a) (fun a' c => heap (m + Z.of_nat (length ls)) a' /\ exists x', rStart x' = p /\ S i x' c).
      Proof.
        induction ls as [|l ls IH]; intros L W m a x M0 M Ha Hx.
        - cbn [matteLights length]. apply sat_ret. intros c Hc. split; [now rewrite Z.add_0_r|]. exists x. now split.
        - inversion L as [|? ? L1 L2]; subst. inversion W as [|? ? W1 W2]; subst. destruct l as [pos power| |]; cbn [lamp] in L1; try contradiction.
          destruct L1 as [Lp Lpow]. destruct W1 as [W1 W1']. cbn [matteLights]. cbn [length] in M |- *.
          assert (Skip : forall x', rStart x' = rStart x -> sat (S i x') (matteLights rand2 s ls (rStart x) n i a) (fun a' c => heap (m + Z.of_nat (Datatypes.S (length ls))) a' /\ exists x', rStart x' = rStart x /\ S i x' c)).
          { intros x' E'. eapply sat_post; [apply (IH L2 W2 m a x' M0); [lia|exact Ha|exact E']|]. intros a' c [A B]. split; [|exact B]. revert A. apply heap_more. lia. }
          eapply sat_bind with (Q := fun y c => y = (pos, clmul power (pointIntensity pos (rStart x))) /\ S i x c).
          { cbn [lightSample]. apply sat_ret. intros c Hc. now split. }
          intros [lpos intens]. intros c y c' [E Hc]. assert (lpos = pos /\ intens = clmul power (pointIntensity pos (rStart x))) as [-> Ei] by (split; congruence). clear E. revert c y c' Hc.
          match goal with |- forall c y c', S i x c -> ?a c = _ -> @?Q y c' => change (sat (S i x) a Q) end.
          destruct (isBlack intens); [now apply Skip|]. cbv zeta. destruct (nleb _ _) eqn:Cos; [now apply Skip|].
          assert (Li : lit (k + 38) intens).
          { rewrite Ei. pose proof (intensity pos (rStart x) Pi W1') as X. destruct Lpow as (A & B & C). replace (k + 38)%Z with (38 + k)%Z by lia. (split; [|split]); apply from0_times; try assumption; lia. }
          pose proof (cosine_am _ n (usable_am _ (way_usable _ W1)) Hn) as Ca. pose proof (cosine_from0 _ Ca Cos) as C0.
          eapply sat_bind; [apply sat_dir|]. skip.
          eapply sat_bind; [apply (sat_quiet _ _ _ (lit (k + 38))); [apply quiet_occlude|apply occlude_lit; [lia| |exact Li]]|].
          { intros o Ho. now apply sObjects_all. }
          intros intens'. apply sat_fact. intros Li'. eapply sat_post; [apply (IH L2 W2 (m + 1)%Z); [lia|lia| |reflexivity]|].
          + apply heap_add; [lia|exact Ha|]. destruct Li' as (A & B & C). replace (k + 42)%Z with (4 + (k + 38))%Z by lia. (split; [|split]); apply from0_times; try assumption; lia.
          + intros a' c [A B]. split; [|exact B]. revert A. apply heap_more. lia.
      Qed.
    End Lamps.

    (** ** The colour of a surface *)
    Variable lf : who -> nat -> act (color b64).
    Variables e e' : R.
    Variable K' : Z.
    Hypothesis He : 0 <= e /\ e + bpow radix2 (-40) <= e' /\ bpow radix2 (-34) <= e' /\ e' <= / 1000.
    Hypothesis HK : (k + 60 <= K' < 900)%Z.
    Hypothesis Aq : aimed Sz e q.
    Hypothesis Pi : FloatSpec.between 3 4 (npi : b64).
    Hypothesis Sh : sharp_trig TF.
    Hypothesis Fair : fair_numbers rand2 (cSeq c0).
    Hypothesis HL : forall w i x c b c', pool_ok c -> in_use c i -> cDepth c = cDepth c0 -> cSeq c = cSeq c0 -> nth_error (cHeap c) i = Some x -> aimed Sz e' x ->
      lf w i c = Val (b, c') -> lit K' b /\ inv c nil c'.

    Lemma sat_lf w i x : aimed Sz e' x -> sat (S i x) (lf w i) (fun b c => lit K' b /\ S i x c).
    Proof.
      intros A c b c' Hc E. destruct Hc as [Hi Hx]. destruct (HL w i x c b c') as [B C]; try assumption.
      - exact (inv_pool _ _ _ Hi).
      - apply (inv_use _ _ _ Hi). right. now left.
      - exact (inv_depth _ _ _ Hi).
      - exact (inv_seq _ _ _ Hi).
      - split; [exact B|]. apply (S_later i x c c'); [now split|exact C].
    Qed.
    Lemma q_1000 : aimed Sz (/ 1000) q.
    Proof. destruct Aq as (A & B & C). repeat split; try apply A; try apply B. pose proof (bpow_gt_0 radix2 (-40)). lra. Qed.
    Lemma lit_up j c : (0 <= j <= K' + 1)%Z -> lit j c -> lit (K' + 1) c.
    Proof. intros H (A & B & C). (split; [|split]); apply (from0_le _ j); try lia; assumption. Qed.

    Definition placed (t : b64) (w : vec b64) : Prop := place Sz (rayAt q t) /\ usable w /\ Forall (off_light (rayAt q t)) (sLights s).
    Section Surface.
      Variable t : b64.
      Variable w : vec b64.
      Variable local : vec b64.
      Notation h := (HitCoords t (vnormalized w) local).
      Hypothesis KK : (0 <= K' + 1 <= 900)%Z.
      Hypothesis KK' : (0 <= K' <= 900)%Z.

      Lemma matte_sat tex : lit_texture 0 tex -> placed t w -> sat J (matteShade rand2 s lf tex r h) (fun b c => lit (K' + 1) b /\ J c).
      Proof.
        intros D (Pl & Us & Of). destruct (usable_norm w Us) as [Nf N1]. pose proof (usable_am w Us) as Na. unfold matteShade. cbn [hcNormal hcT hcLocal].
        eapply sat_bind; [apply sat_read_J|]. intros q1. apply sat_fact. intros ->.
        set (n := flipTowards (vnormalized w) (rDir q)). assert (Nam : all3 (at_most 1) n) by (apply flip_am; exact Na).
        destruct (flip_R (vnormalized w) (rDir q) Na) as [Fn Rn]. fold n in Fn, Rn.
        eapply sat_bind; [apply sat_new|]. intros i. eapply sat_bind; [apply sat_read_S|]. intros q1. apply sat_fact. intros ->.
        assert (B20 : bpow radix2 Sz <= 1048576) by (change 1048576 with (bpow radix2 20); apply bpow_le; lia).
        destruct (step3 (rayAt q t) n (bpow radix2 Sz) (place_near _ _ Pl) ltac:(lra) Nam) as (P1 & D1 & D2 & D3). set (p := vmadd (rayAt q t) tiny n) in *.
        assert (B19 : bpow radix2 (-19) <= / 10000) by (change (bpow radix2 (-19)) with (/ IZR (2 ^ 19)); apply Rinv_le; [lra|apply IZR_le; lia]).
        assert (P1' : near_place 1048577 p). { destruct P1 as (A & B & C). repeat split; try tauto; lra. }
        destruct (step3 p n (bpow radix2 Sz + bpow radix2 (-19)) P1 ltac:(lra) Nam) as (P2 & _).
        eapply sat_bind; [apply sat_start|]. skip. destruct Hs as (L1 & L2 & _).
        eapply sat_bind; [apply (lamps_heap Pi i p n Nam (sLights s) L1) with (m := 0%Z)|].
        - rewrite Forall_forall in L1, Of |- *. intros l Hl. specialize (L1 l Hl). specialize (Of l Hl). destruct l as [pos power| |]; cbn [lamp] in L1; try contradiction.
          cbn [off_light] in Of. exact (ways pos _ p (proj1 L1) P1' Of D1 D2 D3).
        - lia.
        - lia.
        - assert (Z0 : upto (k + 42) 0 (nofZ 0)) by (split; [reflexivity|cbn; lra]). exact (conj Z0 (conj Z0 Z0)).
        - reflexivity.
        - intros a. apply sat_fact. intros Ha. intros c b c' (x' & Ex & Hc). revert c b c' Hc.
          match goal with |- forall c y c', S i x' c -> ?a c = _ -> @?Q y c' => change (sat (S i x') a Q) end.
          eapply sat_bind; [apply sat_start|]. skip. eapply sat_bind; [apply (sat_generate2 i _ Fair)|]. intros [u v]. apply sat_fact. intros (F1 & F2 & F3). cbn [fst snd] in F1, F2, F3.
          eapply sat_bind; [apply sat_dir|]. skip. cbn [rStart].
          destruct (cosine_sharp u v n Sh F1 F2 F3 Fn) as (C1 & C2 & _).
          { rewrite Rn. eapply Rle_trans; [exact N1|]. pose proof u_u. change (bpow radix2 (-40)) with (/ IZR (2 ^ 40)). apply Rle_trans with (/ 2000000000000); [lra|]. apply Rinv_le; [lra|apply IZR_le; lia]. }
          eapply sat_bind; [apply sat_lf|].
          { repeat split; cbn [rStart rDir]; try apply C1; try (apply (near_next Sz _ _ ltac:(lia) P2); lra). lra. }
          intros ind. apply sat_fact. intros Hi. eapply sat_bind; [apply sat_put|]. skip.
          eapply sat_bind; [apply sat_lift; intros f cc Ef Hcc; exact (conj (D _ _ Ef) Hcc)|]. intros f. apply sat_fact. intros Hf. apply sat_ret. intros cc Hcc. split; [|exact Hcc].
          apply lit_filter; [exact KK| |exact Hf]. apply heap_lit in Ha; [|lia].
          assert (U : forall x, from0 (k + 60) x -> from0 K' x) by (intros x; apply from0_le; lia).
          destruct Ha as (A & B & C). destruct Hi as (A' & B' & C'). (split; [|split]); apply from0_sum; first [assumption|apply U; assumption|lia].
      Qed.

      Lemma mirror_sat f : lit 0 f -> placed t w -> sat J (reflectiveShade lf f r h) (fun b c => lit (K' + 1) b /\ J c).
      Proof.
        intros D (Pl & Us & _). unfold reflectiveShade. cbn [hcNormal hcT hcLocal].
        destruct (back_off t (hit_distance q t (aimed_20 _ _ _ (proj2 HP) q_1000) (place_20 _ _ (proj2 HP) Pl))) as [T1 T2]. pose proof (leaves Sz q t _ (proj2 HP) q_1000 Pl T1 T2) as St.
        destruct (mirror_once (rDir q) w) as (M1 & M2 & _). { destruct q_1000 as (_ & A & B). split; [exact A|exact B]. } { exact Us. }
        eapply sat_bind; [apply sat_read_J|]. intros q1. apply sat_fact. intros ->. eapply sat_bind; [apply sat_new|]. intros i.
        eapply sat_bind; [apply sat_start|]. skip. eapply sat_bind; [apply sat_read_S|]. intros q1. apply sat_fact. intros ->.
        eapply sat_bind; [apply sat_dir|]. skip. cbn [rStart]. eapply sat_bind; [apply sat_lf|].
        { repeat split; cbn [rStart rDir]; try apply M1; try (apply (near_next Sz _ _ ltac:(lia) St); lra). destruct Aq as (_ & _ & A).
          assert (2000 * bpow radix2 (-53) <= bpow radix2 (-40)) by (replace (bpow radix2 (-40)) with (bpow radix2 13 * bpow radix2 (-53)) by (rewrite <- bpow_plus; reflexivity); change (bpow radix2 13) with 8192; pose proof (bpow_gt_0 radix2 (-53)); lra).
          apply Rabs_le_inv in A. apply Rabs_le_inv in M2. apply Rabs_le. lra. }
        intros b. apply sat_fact. intros Hb. eapply sat_bind; [apply sat_put|]. skip. apply sat_ret. intros c Hc. split; [|exact Hc].
        apply (lit_up K'); [lia|]. now apply lit_filter.
      Qed.
      Lemma clear_sat tex : lit_texture 0 tex -> placed t w -> sat J (transparentShade lf tex r h) (fun b c => lit (K' + 1) b /\ J c).
      Proof.
        intros D (Pl & Us & _). unfold transparentShade. cbn [hcNormal hcT hcLocal].
        destruct (go_on t (hit_distance q t (aimed_20 _ _ _ (proj2 HP) q_1000) (place_20 _ _ (proj2 HP) Pl))) as [T1 T2]. pose proof (leaves Sz q t _ (proj2 HP) q_1000 Pl T1 T2) as St.
        eapply sat_bind; [apply sat_read_J|]. intros q1. apply sat_fact. intros ->. eapply sat_bind; [apply sat_new|]. intros i.
        eapply sat_bind; [apply sat_start|]. skip. eapply sat_bind; [apply sat_read_S|]. intros q1. apply sat_fact. intros ->.
        eapply sat_bind; [apply sat_dir|]. skip. cbn [rStart]. eapply sat_bind; [apply sat_lf|].
        { destruct Aq as (_ & A & B). repeat split; cbn [rStart rDir]; try apply A; try (apply (near_next Sz _ _ ltac:(lia) St); lra). pose proof (bpow_gt_0 radix2 (-40)). lra. }
        intros b. apply sat_fact. intros Hb. eapply sat_bind; [apply sat_lift; intros f cc Ef Hcc; exact (conj (D _ _ Ef) Hcc)|]. intros f. apply sat_fact. intros Hf.
        eapply sat_bind; [apply sat_put|]. skip. apply sat_ret. intros c Hc. split; [|exact Hc]. apply (lit_up K'); [lia|]. now apply lit_filter.
      Qed.

      Lemma shade_sat : forall m, dull k m -> (bare m = false -> placed t w) -> sat J (shade rand2 s lf m r h) (fun b c => lit (K' + 1) b /\ J c).
      Proof.
        induction m as [|tx|tx|c|n m IH|n1 n2|tx|a IHa b IHb|x a IHa y b IHb|tx a IHa b IHb]; intros D P; cbn [shade dull bare] in *; try contradiction.
        - apply sat_ret. intros c Hc. split; [apply lit_black; exact KK|exact Hc].
        - apply sat_lift. intros c cc E Hc. split; [|exact Hc]. apply (lit_up k); [lia|]. exact (D _ _ E).
        - apply matte_sat; auto.
        - apply mirror_sat; auto.
        - apply clear_sat; auto.
        - destruct D as [Da Db]. assert (Pa : bare a = false -> placed t w) by (intros X; apply P; now rewrite X). assert (Pb : bare b = false -> placed t w) by (intros X; apply P; rewrite X; apply andb_false_r).
          eapply sat_bind; [apply sat_read_J|]. intros q1. apply sat_fact. intros ->. destruct (nltb _ _); [apply IHa|apply IHb]; assumption.
        - destruct D as (X & Y & Sm & Da & Db). assert (Pa : bare a = false -> placed t w) by (intros Z; apply P; now rewrite Z). assert (Pb : bare b = false -> placed t w) by (intros Z; apply P; rewrite Z; apply andb_false_r).
          eapply sat_bind; [apply (IHa Da Pa)|]. intros ca. apply sat_fact. intros Ha. eapply sat_bind; [apply (IHb Db Pb)|]. intros cb. apply sat_fact. intros Hb.
          apply sat_ret. intros c Hc. split; [|exact Hc]. apply lit_mix; try assumption. pose proof (bpow_gt_0 radix2 (-54)). lra.
        - destruct D as (Dt & Da & Db). assert (Pa : bare a = false -> placed t w) by (intros Z; apply P; now rewrite Z). assert (Pb : bare b = false -> placed t w) by (intros Z; apply P; rewrite Z; apply andb_false_r).
          eapply sat_bind; [apply sat_lift; intros f cc Ef Hcc; exact (conj (Dt _ _ Ef) Hcc)|]. intros f. apply sat_fact. intros Hf.
          destruct (rest_weight (cR f) (proj1 Hf)) as [W1 W2].
          eapply sat_bind with (Q := fun b c => lit (K' + 1) b /\ J c). { destruct (nltb _ _); [now apply IHa|apply sat_ret; intros c Hc; split; [apply lit_black, KK|exact Hc]]. } intros ca. apply sat_fact. intros Ha.
          eapply sat_bind with (Q := fun b c => lit (K' + 1) b /\ J c). { destruct (nltb _ _); [now apply IHb|apply sat_ret; intros c Hc; split; [apply lit_black, KK|exact Hc]]. } intros cb. apply sat_fact. intros Hb.
          apply sat_ret. intros c Hc. split; [|exact Hc]. apply lit_mix; try assumption. exact (proj1 Hf).
      Qed.
    End Surface.

    (** ** The nearest surface *)
    Definition fine (h : hit b64 (material b64)) : Prop := forall m, hMat h = Some m -> dull k m /\ (bare m = false -> placed (hT h) (hNormal h)).
    Lemma front_sat objs : (forall o, In o objs -> In o (all_objects s)) -> forall f0, fine f0 -> sat J (frontLoop objs r f0) (fun h c => fine h /\ J c).
    Proof.
      induction objs as [|o objs IH]; intros Ho f0 H0; cbn [frontLoop]; [apply sat_ret; intros c Hc; now split|].
      eapply sat_bind with (Q := fun h c => (forall m, hMat h = Some m -> dull k m /\ (nltb (nofZ 0) (hT h) = true -> bare m = false -> placed (hT h) (hNormal h))) /\ J c).
      - unfold intersectRay. eapply sat_bind; [apply sat_read_J|]. intros q1. apply sat_fact. intros ->.
        eapply sat_bind; [apply sat_lift; intros y cc Ey Hcc; exact (conj Ey Hcc)|]. intros [h q']. apply sat_fact. intros Ey.
        pose proof Hs as (_ & _ & So & _). rewrite Forall_forall in So. destruct (So o (Ho o (or_introl eq_refl)) q h q' Ey) as [-> Hm].
        eapply sat_bind with (Q := fun _ => J).
        + intros c [] c' Hc E. unfold writeRay in E. pose proof (inv_heap _ _ _ Hc r Hr) as X. rewrite Hq in X. rewrite X in E.
          assert (c' = withPool c (cPool c) (setNth (cHeap c) r q)) as -> by congruence. now apply inv_rewrite.
        + skip. apply sat_ret. intros c Hc. split; [|exact Hc]. intros m M. destruct (Hm m M) as [D P]. split; [exact D|]. intros T B. exact (P q_1000 T B).
      - intros h. apply sat_fact. intros Hh. apply IH; [intros o' X; apply Ho; now right|]. destruct (nltb _ (hT h)) eqn:T; cbn [andb]; [|exact H0].
        destruct (nleb _ _); [|exact H0]. intros m M. destruct (Hh m M) as [D P]. split; [exact D|]. now apply P.
    Qed.
    Lemma quiet_media ms i tMax b : quiet (mediaLoop rand2 s ms i tMax b).
    Proof. apply quiet_rel. intros c. apply (rel_mediaLoop rand2 True c (fun _ _ _ => I) s goods shows). Qed.
  End In.

  (** ** All evaluations *)
  Definition slack (d : Z) : R := bpow radix2 (-30) + IZR d * bpow radix2 (-40).
  Theorem shine (Sz k : Z) (s : scene b64) : (0 <= Sz <= 20)%Z -> (0 <= k)%Z -> (k + 60 + sRecursionDepth s <= 900)%Z -> lamplit Sz k s -> damping TF -> sharp_trig TF -> FloatSpec.between 3 4 (npi : b64) ->
    forall fuel w r (c c' : ctx) q b, fair_numbers rand2 (cSeq c) -> pool_ok c -> in_use c r -> nth_error (cHeap c) r = Some q -> (0 <= cDepth c <= sRecursionDepth s)%Z -> aimed Sz (slack (cDepth c)) q ->
    lightField rand2 fuel s w r c = Val (b, c') -> lit (k + 60 + (sRecursionDepth s - cDepth c)) b /\ inv c nil c'.
  Proof.
    intros HP K0 K1 Hs HE Sh Pi. induction fuel as [|n IH]; intros w r c c' q b Fair Hp Hu Hq Hd Aq E; [discriminate E|]. cbn [lightField] in E.
    unfold getDepth at 1 in E. unfold mbind at 1 in E. cbn [obind] in E. destruct (sRecursionDepth s =? cDepth c)%Z eqn:Ed.
    - unfold mret in E. assert (b = black /\ c' = c) as [-> ->] by (split; congruence). split; [apply lit_black; lia|now apply inv_refl].
    - apply Z.eqb_neq in Ed. unfold mbind at 1 in E. unfold countRay in E. cbn [obind] in E. unfold mbind at 1 in E. unfold setDepth at 1 in E. cbn [obind cDepth withNumRays] in E.
      set (c1 := withDepth _ _) in E. assert (P1 : pool_ok c1) by exact Hp. assert (U1 : in_use c1 r) by exact Hu. assert (Q1 : nth_error (cHeap c1) r = Some q) by exact Hq.
      assert (D1 : cDepth c1 = (cDepth c + 1)%Z) by reflexivity.
      set (K' := (k + 60 + (sRecursionDepth s - (cDepth c + 1)))%Z).
      assert (B40 : 0 < bpow radix2 (-40) <= / 1000000000) by (split; [apply bpow_gt_0|change (bpow radix2 (-40)) with (/ IZR (2 ^ 40)); apply Rinv_le; [lra|apply IZR_le; lia]]).
      assert (B30 : bpow radix2 (-30) <= / 1000000) by (change (bpow radix2 (-30)) with (/ IZR (2 ^ 30)); apply Rinv_le; [lra|apply IZR_le; lia]).
      assert (B34 : bpow radix2 (-34) <= bpow radix2 (-30)) by (apply bpow_le; lia). pose proof (bpow_gt_0 radix2 (-30)) as B0.
      assert (Id : 0 <= IZR (cDepth c) <= 900) by (split; apply IZR_le; lia).
      assert (Ee : 0 <= slack (cDepth c) /\ slack (cDepth c) + bpow radix2 (-40) <= slack (cDepth c + 1) /\ bpow radix2 (-34) <= slack (cDepth c + 1) /\ slack (cDepth c + 1) <= / 1000).
      { unfold slack. rewrite plus_IZR. repeat split; nra. }
      assert (Kk : (k + 60 <= K' < 900)%Z) by (unfold K'; lia).
      match type of E with ?a c1 = _ => assert (L : sat (inv c1 nil) a (fun b c' => lit (K' + 1) b /\ inv c nil c')) end.
      { eapply sat_bind with (Q := fun h c => fine q Sz k s h /\ inv c1 nil c).
        - unfold intersectFrontmost. eapply sat_bind; [apply (sat_read_J c1 r q U1 Q1)|]. intros q1. apply sat_fact. intros ->.
          eapply (front_sat c1 r q U1 Q1 Sz k s Hs (slack (cDepth c)) (slack (cDepth c + 1)) Ee Aq).
          + intros o. apply who_all.
          + intros m M. cbn [hMat front0] in M. assert (m = MBlack) as -> by congruence. split; [exact I|]. intros X. discriminate X.
        - intros h. apply sat_fact. intros Hh. destruct (hMat h) as [m|] eqn:M; [|intros ? ? ? ? X; discriminate X]. cbn [shadeHit]. destruct (Hh m M) as [Dm Pm].
          eapply sat_bind.
          { apply (shade_sat c1 r q U1 Q1 Sz k s HP ltac:(lia) Hs (lightField rand2 n s) (slack (cDepth c)) (slack (cDepth c + 1)) K' Ee Kk Aq Pi Sh Fair) with (t := hT h); [|lia|lia|exact Dm|exact Pm].
            intros w' i x c2 b2 c2' A1 A2 A3 A4 A5 A6 A7. destruct (IH w' i c2 c2' x b2) as [B1 B2]; try assumption.
            - rewrite A4. exact Fair.
            - rewrite A3, D1. lia.
            - rewrite A3, D1. exact A6.
            - rewrite A3, D1 in B1. now split. }
          intros b1. apply sat_fact. intros Hb1.
          eapply sat_bind with (Q := fun b c => lit (K' + 1) b /\ inv c1 nil c).
          { intros c2 b2 c2' Hc2 E2. split.
            - refine (fog_lit rand2 (K' + 1) ltac:(lia) s HE (sMedia s) r (hT h) _ b1 Hb1 _ _ _ E2). destruct Hs as (_ & _ & _ & Fo). eapply Forall_impl; [|exact Fo].
              intros [d a y|]; cbn [dull_fog]; [|tauto]. intros (A & B & C & D & F). split; [exact A|split; [exact B|]].
              (split; [|split]); apply (from0_le _ k); first [assumption|lia].
            - exact (inv_trans _ _ _ _ Hc2 (quiet_media Sz k s Hs (sMedia s) r (hT h) b1 _ _ _ (inv_pool _ _ _ Hc2) E2)). }
          intros b2. apply sat_fact. intros Hb2. intros c2 b3 c3 [P D Sq U H N Fr] E3. unfold mbind, getDepth, setDepth, mret in E3. cbn [obind] in E3.
          assert (b3 = b2 /\ c3 = withDepth c2 (cDepth c2 - 1)) as [-> ->] by (split; congruence). split; [exact Hb2|]. constructor; auto. cbn. rewrite D. cbn. lia. }
      replace (k + 60 + (sRecursionDepth s - cDepth c))%Z with (K' + 1)%Z by (unfold K'; lia). exact (L _ _ _ (inv_refl _ P1) E).
  Qed.
End Shine.
