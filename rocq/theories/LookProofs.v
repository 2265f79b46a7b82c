(** * Shading computes what surfaces look like (C82, C83) *)
From Coq Require Import ZArith Reals Bool List Lra Lia Psatz.
From Verif Require Import Num NumLaws Outcome GeomModel GeomSpec GeomProofs ColorModel SeqModel SeqProofs ObjModel TreeModel ObjSpec ObjProofs ParamProofs SceneModel SceneSpec SceneProofs CtxProofs ShadeProofs LightProofs LookSpec.
Import ListNotations.
Local Open Scope R_scope.

Lemma rayAt_along (q : ray R) t : rayAt q t = along (rStart q) (rDir q) t.
Proof. reflexivity. Qed.
Lemma vmadd_plus (a b : pt) k : vmadd a k b = plus3 a (scal3 k b).
Proof. reflexivity. Qed.
Lemma vec_eta (a : pt) : Vec (vx a) (vy a) (vz a) = a.
Proof. now destruct a. Qed.

Section Look.
  Context {G : Type} {NI : NumInf R}.
  Variable rand2 : G -> (R * R) * G.
  Notation ctx := (ctx R G).

  (** what evaluations leave alone *)
  Definition keeps (c c' : ctx) : Prop := same_rays c c' /\ cDepth c' = cDepth c /\ cSeq c' = cSeq c.
  (** at depth [d] the evaluator returns something in [L] *)
  Definition answers (sq : ctxseq R) (d : Z) (lf : who -> nat -> act R G (color R)) (L : who -> ray R -> color R -> Prop) : Prop :=
    forall w i q (c : ctx), pool_ok c -> in_use c i -> cDepth c = d -> cSeq c = sq -> random_ok rand2 (cSeq c) ->
      nth_error (cHeap c) i = Some q -> norm2 (rDir q) = 1 ->
      exists b c', lf w i c = Val (b, c') /\ L w q b /\ keeps c c'.
  (** shadow rays have answers *)
  Definition castable (objs : list (object R (material R))) : Prop :=
    forall q, norm2 (rDir q) = 1 ->
      exists hits, hits_of objs q hits /\ forall h, In h hits -> positive h -> is_transparent h -> exists f, filters_by h f.

  Lemma inv_keeps (c c' : ctx) : inv c nil c' -> keeps c c'.
  Proof. intros H. split; [now apply inv_same|]. split; apply H. Qed.
  Lemma keeps_inv (c c' : ctx) : keeps c c' -> inv c nil c'.
  Proof.
    intros ((P & U & H) & D & S). constructor; auto using NoDup_nil.
    intros i. rewrite U. cbn; tauto.
  Qed.

  (** writing to a held ray *)
  Lemma held_setStart (c0 c : ctx) held i q p : inv c0 held c -> In i held -> nth_error (cHeap c) i = Some q ->
    exists c', setStart i p c = Val (tt, c') /\ inv c0 held c' /\ nth_error (cHeap c') i = Some (Ray p (rDir q)) /\
      (forall j, j <> i -> nth_error (cHeap c') j = nth_error (cHeap c) j).
  Proof.
    intros Hi Hin Hq. unfold setStart, mbind, readRay, writeRay. rewrite Hq. cbn [obind]. rewrite Hq.
    eexists. split; [reflexivity|]. split; [now apply inv_write|]. cbn [cHeap withPool]. split.
    - apply nth_setNth_eq. apply nth_error_Some. now rewrite Hq.
    - intros j Hj. apply nth_setNth_ne. auto.
  Qed.
  Lemma held_setDir (c0 c : ctx) held i q p : inv c0 held c -> In i held -> nth_error (cHeap c) i = Some q ->
    exists c', setDir i p c = Val (tt, c') /\ inv c0 held c' /\ nth_error (cHeap c') i = Some (Ray (rStart q) p) /\
      (forall j, j <> i -> nth_error (cHeap c') j = nth_error (cHeap c) j).
  Proof.
    intros Hi Hin Hq. unfold setDir, mbind, readRay, writeRay. rewrite Hq. cbn [obind]. rewrite Hq.
    eexists. split; [reflexivity|]. split; [now apply inv_write|]. cbn [cHeap withPool]. split.
    - apply nth_setNth_eq. apply nth_error_Some. now rewrite Hq.
    - intros j Hj. apply nth_setNth_ne. auto.
  Qed.
  Lemma held_read (c0 c : ctx) held r q : inv c0 held c -> in_use c0 r -> nth_error (cHeap c0) r = Some q -> readRay r c = Val (q, c).
  Proof. intros Hi Hu Hq. unfold readRay. rewrite (inv_heap _ _ _ Hi r Hu), Hq. reflexivity. Qed.

  (** ** Lights *)
  Lemma generate2_total (c : ctx) : cDepth c <> 0%Z -> random_ok rand2 (cSeq c) ->
    exists u v g, generate2 rand2 c = Val ((u, v), withRng c g) /\ 0 <= u <= 1 /\ 0 <= v <= 1.
  Proof.
    intros Hd (H0 & (u1 & v1 & E1 & U1 & V1) & (u2 & v2 & E2 & U2 & V2)). unfold generate2.
    apply Z.eqb_neq in Hd. rewrite Hd.
    assert (Same : withRng c (cRng c) = c) by (destruct c; reflexivity).
    destruct (cDepth c =? 1)%Z; [|destruct (cDepth c =? 2)%Z].
    - rewrite E1. exists u1, v1, (cRng c). rewrite Same. auto.
    - rewrite E2. exists u2, v2, (cRng c). rewrite Same. auto.
    - unfold pseudo2. specialize (H0 (cRng c)). destruct (rand2 (cRng c)) as [[u v] g]. exists u, v, g. cbn [fst snd] in H0. tauto.
  Qed.

  Lemma lightSample_total l : forall p (c : ctx), cDepth c <> 0%Z -> random_ok rand2 (cSeq c) ->
    exists lpos intens g, lightSample rand2 l p c = Val ((lpos, intens), withRng c g).
  Proof.
    induction l as [pos power|w h center tp k o|fw iv l IH o]; intros p c Hd Hr; cbn [lightSample].
    - exists pos. eexists. exists (cRng c). replace (withRng c (cRng c)) with c by (destruct c; reflexivity). reflexivity.
    - destruct (generate2_total c Hd Hr) as (u & v & g & E & _). unfold mbind. rewrite E. cbn [obind]. eexists. eexists. exists g. reflexivity.
    - destruct (IH (transformPoint iv p) c Hd Hr) as (lp & it & g & E). unfold mbind. rewrite E. cbn [obind]. eexists. eexists. exists g. reflexivity.
  Qed.

  Lemma isBlack_eq (c : color R) : isBlack c = true -> c = no_light.
  Proof.
    unfold isBlack, no_light. destruct c as [a b d]; cbn [cR cG cB]; rnum.
    destruct (Reqb_spec a 0), (Reqb_spec b 0), (Reqb_spec d 0); cbn; intros; try discriminate. congruence.
  Qed.

  (** occlusion: blocked or filtered *)
  Lemma transparent_dec (h : hit R (material R)) : is_transparent h \/ ~ is_transparent h.
  Proof.
    unfold is_transparent. destruct (hMat h) as [[]|]; eauto; right; intros [t' E]; discriminate.
  Qed.
  Lemma between_dec len (h : hit R (material R)) : between len h \/ ~ between len h.
  Proof.
    unfold between. destruct (nltb (nofZ 0) (hT h)), (nltb (hT h) len); auto; right; intros [A B]; discriminate.
  Qed.
  Lemma blocked_or_filtered (len : R) (hits : list (hit R (material R))) : (forall h, In h hits -> positive h -> is_transparent h -> exists f, filters_by h f) ->
    (exists h, In h hits /\ between len h /\ ~ is_transparent h) \/ exists fs, filtering len hits fs.
  Proof.
    induction hits as [|h hits IH]; intros Hf; [right; exists nil; constructor|].
    destruct (between_dec len h) as [B|B].
    - destruct (transparent_dec h) as [T|T]; [|left; exists h; cbn; auto].
      destruct IH as [(h' & Hin & X)|(fs & X)]; [intros h' Hin'; apply Hf; cbn; auto|left; exists h'; cbn; auto|].
      right. destruct (Hf h (or_introl eq_refl) (proj1 B) T) as (f & Hff). exists (f :: fs). apply Fhit; auto.
    - destruct IH as [(h' & Hin & X)|(fs & X)]; [intros h' Hin'; apply Hf; cbn; auto|left; exists h'; cbn; auto|].
      right. exists fs. apply Fskip; auto.
  Qed.

  Variable s : scene R.
  Hypothesis objs_castable : castable (sObjects s).
  Variable d : Z.
  Hypothesis d_pos : d <> 0%Z.
  Variable sq : ctxseq R.

  Lemma clmul_scaled (c : color R) k : clmul c k = scaled k c.
  Proof. reflexivity. Qed.
  Lemma add_assoc3 a b c : add_color (add_color a b) c = add_color a (add_color b c).
  Proof. unfold add_color; cbn [cR cG cB]. f_equal; ring. Qed.
  Lemma add_none_l a : add_color no_light a = a.
  Proof. destruct a as [a1 a2 a3]. unfold add_color, no_light; cbn [cR cG cB]. f_equal; ring. Qed.
  Lemma add_none_r a : add_color a no_light = a.
  Proof. destruct a as [a1 a2 a3]. unfold add_color, no_light; cbn [cR cG cB]. f_equal; ring. Qed.

  Lemma unit_of_dot (a n : pt) : 0 < dot3 (unit_of a) n -> norm2 (unit_of a) = 1.
  Proof.
    intros H. apply unit_of_norm2. intros ->. revert H. unfold unit_of, dot3, scal3, zero3; cbn [vx vy vz]. intros H. lra.
  Qed.

  Lemma matteLights_direct (p n : pt) sec (c0 : ctx) : cDepth c0 = d -> cSeq c0 = sq -> random_ok rand2 (cSeq c0) ->
    forall ls acc (c : ctx), inv c0 [sec] c -> (exists q, nth_error (cHeap c) sec = Some q /\ rStart q = p) ->
    exists total c', direct rand2 (drawing sq d) (sObjects s) p n ls total /\
      matteLights rand2 s ls p n sec acc c = Val (add_color acc total, c') /\ inv c0 [sec] c' /\
      (exists q, nth_error (cHeap c') sec = Some q /\ rStart q = p).
  Proof.
    intros Hd Hsq Hr. induction ls as [|l ls IH]; intros acc c Hi Hq; cbn [matteLights].
    - exists no_light, c. split; [constructor|]. split; [now rewrite add_none_r|]. auto.
    - assert (Hdc : cDepth c <> 0%Z) by (rewrite (inv_depth _ _ _ Hi), Hd; exact d_pos).
      assert (Hhc : drawing sq d c) by (split; [rewrite (inv_seq _ _ _ Hi); exact Hsq|rewrite (inv_depth _ _ _ Hi); exact Hd]).
      assert (Hrc : random_ok rand2 (cSeq c)) by (rewrite (inv_seq _ _ _ Hi); exact Hr).
      destruct (lightSample_total l p c Hdc Hrc) as (lpos & intens & g & E).
      rewrite (mbind_run _ _ _ _ _ E).
      assert (Hi1 : inv c0 [sec] (withRng c g)) by now apply inv_rng.
      destruct (isBlack intens) eqn:Eb.
      { apply isBlack_eq in Eb. subst intens.
        destruct (IH acc (withRng c g) Hi1 Hq) as (total & c' & D & R & X). exists (add_color no_light total), c'.
        split; [constructor; [econstructor 1; [exact Hhc|exact E]|exact D]|]. rewrite add_none_l. auto. }
      rewrite vnormalized_unit_of. change (vsub lpos p) with (minus3 lpos p).
      change (vdot (unit_of (minus3 lpos p)) n) with (dot3 (unit_of (minus3 lpos p)) n).
      cbn [nleb NumR nofZ]. destruct (Rleb_spec (dot3 (unit_of (minus3 lpos p)) n) 0) as [Hc|Hc].
      { destruct (IH acc (withRng c g) Hi1 Hq) as (total & c' & D & R & X). exists (add_color no_light total), c'.
        split; [constructor; [econstructor 2; [exact Hhc|exact E|exact Hc]|exact D]|]. rewrite add_none_l. auto. }
      destruct Hq as (q & Hq & Hqs).
      destruct (held_setDir c0 (withRng c g) [sec] sec q (unit_of (minus3 lpos p)) Hi1 (or_introl eq_refl) Hq) as (c2 & E2 & Hi2 & Hq2 & _).
      rewrite (mbind_run _ _ _ _ _ E2). rewrite Hqs in Hq2.
      destruct (objs_castable (Ray p (unit_of (minus3 lpos p))) (unit_of_dot _ _ Hc)) as (hits & Hh & Hf).
      change (vlen (minus3 lpos p)) with (dist lpos p).
      unfold occlude.
      destruct (blocked_or_filtered (dist lpos p) hits Hf) as [B|(fs & B)].
      + rewrite (mbind_run _ _ _ _ _ (occlude_opaque (sObjects s) sec _ hits (dist lpos p) Hh (fun h Hin B' T => Hf h Hin (proj1 B') T) intens c2 Hq2 B)).
        destruct (IH (cladd acc (clmul black (dot3 (unit_of (minus3 lpos p)) n))) c2 Hi2 (ex_intro _ _ (conj Hq2 eq_refl))) as (total & c' & D & R & X).
        exists (add_color no_light total), c'.
        split; [constructor; [econstructor 3; eauto|exact D]|]. split; [|exact X]. rewrite R. f_equal. f_equal.
        unfold add_color, no_light, cladd, clmul, black; cbn [cR cG cB]; rnum. f_equal; ring.
      + rewrite (mbind_run _ _ _ _ _ (occlude_filters (sObjects s) sec _ hits (dist lpos p) Hh fs B intens c2 Hq2)).
        rewrite product3_app.
        destruct (IH (cladd acc (clmul (product3 intens fs) (dot3 (unit_of (minus3 lpos p)) n))) c2 Hi2 (ex_intro _ _ (conj Hq2 eq_refl))) as (total & c' & D & R & X).
        exists (add_color (scaled (dot3 (unit_of (minus3 lpos p)) n) (product3 intens fs)) total), c'.
        split; [constructor; [econstructor 4; eauto|exact D]|]. split; [|exact X]. rewrite R. f_equal. f_equal.
        rewrite clmul_scaled. rewrite <- add_assoc3. reflexivity.
  Qed.

  Variable lf : who -> nat -> act R G (color R).
  Variable L : who -> ray R -> color R -> Prop.
  Hypothesis lf_answers : answers sq d lf L.

  Lemma held_lf (c0 c : ctx) held w i q : inv c0 held c -> cDepth c0 = d -> cSeq c0 = sq -> random_ok rand2 (cSeq c0) -> In i held -> nth_error (cHeap c) i = Some q ->
    norm2 (rDir q) = 1 -> exists b c', lf w i c = Val (b, c') /\ L w q b /\ inv c0 held c' /\ (forall j, In j held -> nth_error (cHeap c') j = nth_error (cHeap c) j).
  Proof.
    intros Hi Hd Hsq Hr Hin Hq Hn.
    destruct (lf_answers w i q c (inv_pool _ _ _ Hi)) as (b & c' & E & HL & K); auto.
    - apply (inv_use _ _ _ Hi). auto.
    - rewrite (inv_depth _ _ _ Hi). exact Hd.
    - rewrite (inv_seq _ _ _ Hi). exact Hsq.
    - rewrite (inv_seq _ _ _ Hi). exact Hr.
    - exists b, c'. split; [exact E|]. split; [exact HL|]. apply keeps_inv in K. split; [eapply inv_trans; eauto|].
      intros j Hj. apply (inv_heap _ _ _ K). apply (inv_use _ _ _ Hi). auto.
  Qed.

  Lemma facing_flip (dir n : pt) : facing dir n (flipTowards n dir).
  Proof.
    unfold flipTowards, facing. change (vdot n dir) with (dot3 n dir). rnum. destruct (Rltb_spec 0 (dot3 n dir)) as [H|H].
    - right. split; [exact H|]. unfold vmul, scal3. f_equal; rnum; ring.
    - left. split; [lra|reflexivity].
  Qed.
  Lemma facing_unit dir n m : norm2 n = 1 -> facing dir n m -> norm2 m = 1.
  Proof. intros H [[_ ->]|[_ ->]]; [exact H|]. rewrite norm2_scal. lra. Qed.

  Lemma reflect_mirrored (v n : pt) : reflect v n = mirrored v n.
  Proof. apply reflect_eq. Qed.

  Section At.
    Variables (r : nat) (q : ray R) (T : R) (n local : pt).
    Hypothesis n_unit : norm2 n = 1.
    Hypothesis d_unit : norm2 (rDir q) = 1.
    Notation lk := (looks rand2 (drawing sq d) (sObjects s) (sLights s) L (rStart q) (rDir q) n T local).
    Definition ok (m : material R) : Prop := forall c0 : ctx,
      pool_ok c0 -> in_use c0 r -> nth_error (cHeap c0) r = Some q -> cDepth c0 = d -> cSeq c0 = sq -> random_ok rand2 (cSeq c0) ->
      exists col c', shade rand2 s lf m r (HitCoords T n local) c0 = Val (col, c') /\ lk m col /\ inv c0 nil c'.

    (** a fresh ray with given start and direction *)
    Lemma fresh (c0 c : ctx) held : inv c0 held c -> exists i c', newRay c = Val (i, c') /\ inv c0 (i :: held) c' /\
      nth_error (cHeap c') i = Some (Ray vO vO) /\ (forall j, In j held -> j <> i /\ nth_error (cHeap c') j = nth_error (cHeap c) j).
    Proof.
      intros Hi. destruct (inv_new c0 held c Hi) as (i & c' & E & Hi' & Hz & Hn). exists i, c'. split; [exact E|]. split; [exact Hi'|]. split; [exact Hz|].
      intros j Hj. assert (Hju : in_use c j) by (apply (inv_use _ _ _ Hi); auto). split; [intros ->; contradiction|].
      destruct (new_ray_zero c (inv_pool _ _ _ Hi)) as (i' & c'' & E' & _ & _ & _ & _ & K). rewrite E in E'. injection E' as <- <-.
      apply K. exact Hju.
    Qed.

    Ltac rd Hi Hu Hq := rewrite (mbind_run _ _ _ _ _ (held_read _ _ _ _ _ Hi Hu Hq)).

    Lemma ok_mirror col0 : ok (MReflective col0).
    Proof.
      intros c0 Hp Hu Hq Hd Hsq Hr. cbn [shade]. unfold reflectiveShade. cbn [hcT hcNormal].
      rd (inv_refl c0 Hp) Hu Hq. cbv zeta.
      destruct (fresh c0 c0 nil (inv_refl c0 Hp)) as (i & c1 & E1 & I1 & Z1 & _). rewrite (mbind_run _ _ _ _ _ E1).
      destruct (held_setStart c0 c1 [i] i _ (rayAt q (T - tiny)%num) I1 (or_introl eq_refl) Z1) as (c2 & E2 & I2 & Z2 & _). rewrite (mbind_run _ _ _ _ _ E2).
      rd I2 Hu Hq.
      destruct (held_setDir c0 c2 [i] i _ (reflect (rDir q) n) I2 (or_introl eq_refl) Z2) as (c3 & E3 & I3 & Z3 & _). rewrite (mbind_run _ _ _ _ _ E3).
      destruct (held_lf c0 c3 [i] All i _ I3 Hd Hsq Hr (or_introl eq_refl) Z3) as (bc4 & c4 & E4 & HLc4 & I4 & _); [cbn [rDir]; rewrite reflect_norm; [exact d_unit|exact n_unit]|]. rewrite (mbind_run _ _ _ _ _ E4).
      unfold mbind, putRay, mret. cbn [obind]. eexists. eexists. split; [reflexivity|]. split; [|now apply inv_put].
      cbn [rStart rDir] in HLc4. rewrite reflect_mirrored, tiny_eq in HLc4. now apply L_mirror.
    Qed.

    Lemma ok_flat t : definite local (MFlat t) -> ok (MFlat t).
    Proof.
      intros (col & Ht) c0 Hp Hu Hq Hd Hsq Hr. cbn [shade hcLocal]. unfold mlift. rewrite Ht. cbn [omap].
      exists col, c0. split; [reflexivity|]. split; [now constructor|now apply inv_refl].
    Qed.
    Lemma ok_black : ok MBlack.
    Proof.
      intros c0 Hp Hu Hq Hd Hsq Hr. cbn [shade]. exists no_light, c0. split; [reflexivity|]. split; [constructor|now apply inv_refl].
    Qed.

    Lemma ok_transparent t : definite local (MTransparent t) -> ok (MTransparent t).
    Proof.
      intros (f & Ht) c0 Hp Hu Hq Hd Hsq Hr. cbn [shade]. unfold transparentShade. cbn [hcT hcNormal hcLocal].
      rd (inv_refl c0 Hp) Hu Hq. cbv zeta.
      destruct (fresh c0 c0 nil (inv_refl c0 Hp)) as (i & c1 & E1 & I1 & Z1 & _). rewrite (mbind_run _ _ _ _ _ E1).
      destruct (held_setStart c0 c1 [i] i _ (rayAt q (T + tiny)%num) I1 (or_introl eq_refl) Z1) as (c2 & E2 & I2 & Z2 & _). rewrite (mbind_run _ _ _ _ _ E2).
      rd I2 Hu Hq.
      destruct (held_setDir c0 c2 [i] i _ (rDir q) I2 (or_introl eq_refl) Z2) as (c3 & E3 & I3 & Z3 & _). rewrite (mbind_run _ _ _ _ _ E3).
      destruct (held_lf c0 c3 [i] MinusLights i _ I3 Hd Hsq Hr (or_introl eq_refl) Z3) as (bc4 & c4 & E4 & HLc4 & I4 & _); [exact d_unit|]. rewrite (mbind_run _ _ _ _ _ E4).
      unfold mbind, putRay, mret, mlift. rewrite Ht. cbn [obind omap]. eexists. eexists. split; [reflexivity|]. split; [|now apply inv_put].
      cbn [rStart rDir] in HLc4. rewrite tiny_eq in HLc4. now apply L_transparent.
    Qed.

    Lemma ok_matte t : definite local (MMatte t) -> ok (MMatte t).
    Proof.
      intros (refl & Ht) c0 Hp Hu Hq Hd Hsq Hr. cbn [shade]. unfold matteShade. cbn [hcT hcNormal hcLocal].
      rd (inv_refl c0 Hp) Hu Hq. cbv zeta.
      generalize (facing_flip (rDir q) n). set (m := flipTowards n (rDir q)). clearbody m. intros Hm.
      destruct (fresh c0 c0 nil (inv_refl c0 Hp)) as (i & c1 & E1 & I1 & Z1 & _). rewrite (mbind_run _ _ _ _ _ E1).
      rd I1 Hu Hq.
      set (p := vmadd (rayAt q T) tiny m).
      destruct (held_setStart c0 c1 [i] i _ p I1 (or_introl eq_refl) Z1) as (c2 & E2 & I2 & Z2 & _). rewrite (mbind_run _ _ _ _ _ E2).
      destruct (matteLights_direct p m i c0 Hd Hsq Hr (sLights s) black c2 I2 (ex_intro _ _ (conj Z2 eq_refl))) as (total & c3 & D & E3 & I3 & q3 & Z3 & S3).
      rewrite (mbind_run _ _ _ _ _ E3).
      destruct (held_setStart c0 c3 [i] i _ (vmadd p tiny m) I3 (or_introl eq_refl) Z3) as (c4 & E4 & I4 & Z4 & _). rewrite (mbind_run _ _ _ _ _ E4).
      destruct (generate2_total c4) as (u & v & g & E5 & Hu5 & Hv5).
      { rewrite (inv_depth _ _ _ I4), Hd. exact d_pos. }
      { rewrite (inv_seq _ _ _ I4). exact Hr. }
      rewrite (mbind_run _ _ _ _ _ E5).
      destruct (held_setDir c0 (withRng c4 g) [i] i _ (cosineSphere u v m) (inv_rng _ _ _ g I4) (or_introl eq_refl) Z4) as (c6 & E6 & I6 & Z6 & _). rewrite (mbind_run _ _ _ _ _ E6).
      destruct (held_lf c0 c6 [i] MinusLights i _ I6 Hd Hsq Hr (or_introl eq_refl) Z6) as (bc7 & c7 & E7 & HLc7 & I7 & _); [apply (cosineSphere_spec u v m (facing_unit _ _ _ n_unit Hm) Hv5)|]. rewrite (mbind_run _ _ _ _ _ E7).
      unfold mbind, putRay, mret, mlift. rewrite Ht. cbn [obind omap]. eexists. eexists. split; [reflexivity|]. split; [|now apply inv_put].
      cbn [rStart rDir] in HLc7.
      destruct (cosineSphere_spec u v m (facing_unit _ _ _ n_unit Hm) Hv5) as (W1 & _ & W2).
      change (add_color black total) with (add_color no_light total). rewrite add_none_l.
      replace (vmadd p tiny m) with (plus3 (along (rStart q) (rDir q) T) (scal3 (2 * tinyR) m)) in HLc7.
      2: { unfold p. rewrite !vmadd_plus, tiny_eq, rayAt_along. unfold plus3, scal3; cbn [vx vy vz]. apply vec_eq; cbn [vx vy vz]; ring. }
      unfold p in D. rewrite vmadd_plus, tiny_eq, rayAt_along in D.
      change (lk (MMatte t) (mul_color (add_color total bc7) refl)).
      eapply (L_matte _ _ _ _ _ _ _ _ _ _ t refl m total c4); eauto.
      split; [rewrite (inv_seq _ _ _ I4); exact Hsq|rewrite (inv_depth _ _ _ I4); exact Hd].
    Qed.

    Lemma fresnel_snell k : 1 <= k -> exists ct, snell 1 k (Rabs (dot3 n (rDir q))) ct.
    Proof.
      intros Hk. set (ci := Rabs (dot3 n (rDir q))).
      assert (Hci : 0 <= ci <= 1).
      { unfold ci. split; [apply Rabs_pos|]. assert (X : dot3 n (rDir q) * dot3 n (rDir q) <= 1).
        { generalize n_unit d_unit. destruct n as [a b e], (rDir q) as [x y z]. unfold norm2, dot3; cbn [vx vy vz]. intros A B.
          assert (Y : (a * x + b * y + e * z) * (a * x + b * y + e * z) <= (a * a + b * b + e * e) * (x * x + y * y + z * z)); [|rewrite A, B in Y; lra].
          assert (0 <= (a * y - b * x) * (a * y - b * x) + (a * z - e * x) * (a * z - e * x) + (b * z - e * y) * (b * z - e * y)) as S
            by (repeat apply Rplus_le_le_0_compat; exact (Rle_0_sqr _)).
          replace ((a * a + b * b + e * e) * (x * x + y * y + z * z)) with
            ((a * x + b * y + e * z) * (a * x + b * y + e * z) + ((a * y - b * x) * (a * y - b * x) + (a * z - e * x) * (a * z - e * x) + (b * z - e * y) * (b * z - e * y))) by ring. lra. }
        apply Rabs_le. split; nra. }
      exists (sqrt (1 - (1 - ci * ci) / (k * k))).
      assert (P : 0 <= 1 - (1 - ci * ci) / (k * k)).
      { assert ((1 - ci * ci) / (k * k) <= 1); [|lra]. apply (Rmult_le_reg_r (k * k)); [nra|].
        unfold Rdiv. rewrite Rmult_assoc, Rinv_l, Rmult_1_r by nra. nra. }
      split; [apply sqrt_pos|]. rewrite sqrt_sqrt by exact P. field. lra.
    Qed.

    Lemma ok_fresnel k m : 1 <= k -> ok m -> ok (MFresnel k m).
    Proof.
      intros Hk IH c0 Hp Hu Hq Hd Hsq Hr. cbn [shade hcT hcNormal].
      rd (inv_refl c0 Hp) Hu Hq. cbv zeta.
      destruct (fresh c0 c0 nil (inv_refl c0 Hp)) as (i & c1 & E1 & I1 & Z1 & _). rewrite (mbind_run _ _ _ _ _ E1).
      destruct (held_setStart c0 c1 [i] i _ (rayAt q (T - tiny)%num) I1 (or_introl eq_refl) Z1) as (c2 & E2 & I2 & Z2 & _). rewrite (mbind_run _ _ _ _ _ E2).
      rd I2 Hu Hq.
      destruct (held_setDir c0 c2 [i] i _ (reflect (rDir q) n) I2 (or_introl eq_refl) Z2) as (c3 & E3 & I3 & Z3 & _). rewrite (mbind_run _ _ _ _ _ E3).
      assert (U3 : in_use c3 r) by (apply (inv_use _ _ _ I3); auto).
      destruct (IH c3 (inv_pool _ _ _ I3) U3) as (a & c4 & E4 & La & K4).
      { rewrite (inv_heap _ _ _ I3 r Hu). exact Hq. }
      { rewrite (inv_depth _ _ _ I3). exact Hd. }
      { rewrite (inv_seq _ _ _ I3). exact Hsq. }
      { rewrite (inv_seq _ _ _ I3). exact Hr. }
      rewrite (mbind_run _ _ _ _ _ E4).
      assert (I4 : inv c0 [i] c4) by (eapply inv_trans; eauto).
      assert (Z4 : nth_error (cHeap c4) i = Some (Ray (rayAt q (T - tiny)%num) (reflect (rDir q) n))).
      { rewrite (inv_heap _ _ _ K4 i); [exact Z3|]. apply (inv_use _ _ _ I3). cbn; auto. }
      destruct (held_lf c0 c4 [i] All i _ I4 Hd Hsq Hr (or_introl eq_refl) Z4) as (bc5 & c5 & E5 & HLc5 & I5 & _); [cbn [rDir]; rewrite reflect_norm; [exact d_unit|exact n_unit]|]. rewrite (mbind_run _ _ _ _ _ E5).
      unfold mbind, putRay, mret. cbn [obind]. eexists. eexists. split; [reflexivity|]. split; [|now apply inv_put].
      destruct (fresnel_snell k Hk) as (ct & Hs).
      change (nabs (vdot n (rDir q))) with (Rabs (dot3 n (rDir q))).
      rewrite (fresnel_formula (nofZ 1) k (Rabs (dot3 n (rDir q))) ct) by (auto; rnum; lra).
      cbn [rStart rDir] in HLc5. rewrite reflect_mirrored, tiny_eq in HLc5.
      change (((nofZ 1 * Rabs (dot3 n (rDir q)) - k * ct) / (nofZ 1 * Rabs (dot3 n (rDir q)) + k * ct)) ^ 2 +
         ((nofZ 1 * ct - k * Rabs (dot3 n (rDir q))) / (nofZ 1 * ct + k * Rabs (dot3 n (rDir q)))) ^ 2) with
        (((1 * Rabs (dot3 n (rDir q)) - k * ct) / (1 * Rabs (dot3 n (rDir q)) + k * ct)) ^ 2 +
         ((1 * ct - k * Rabs (dot3 n (rDir q))) / (1 * ct + k * Rabs (dot3 n (rDir q)))) ^ 2).
      apply L_fresnel; auto.
    Qed.

    Lemma unit_nonzero (a : pt) : norm2 a = 1 -> a <> zero3.
    Proof. intros H ->. unfold norm2, dot3, zero3 in H; cbn [vx vy vz] in H. lra. Qed.
    Lemma vnormalized_id (a : pt) : norm2 a = 1 -> vnormalized a = a.
    Proof. intros H. rewrite vnormalized_unit_of. now apply unit_of_unit. Qed.

    Lemma ok_refractive n1 n2 : 0 < n1 -> 0 < n2 -> ok (MRefractive n1 n2).
    Proof.
      intros H1 H2 c0 Hp Hu Hq Hd Hsq Hr. cbn [shade]. unfold refractiveShade. cbn [hcT hcNormal].
      rd (inv_refl c0 Hp) Hu Hq. cbv zeta.
      assert (Dn : rDir q <> zero3) by now apply unit_nonzero. assert (Nn : n <> zero3) by now apply unit_nonzero.
      generalize (refract_cases n1 n2 (rDir q) n) (refract_dir n1 n2 (rDir q) n) (refract_fields n1 n2 (rDir q) n)
        (total_iff n1 n2 (rDir q) n H1 H2 Dn Nn) (transmitted_snell n1 n2 (rDir q) n H1 H2) (transmitted_dot n1 n2 (rDir q) n Nn)
        (transmitted_unit n1 n2 (rDir q) n H1 H2 Dn Nn) (rf_sin2 n1 n2 (rDir q) n Dn Nn) (rf_cosi n1 n2 (rDir q) n) (rf_n_unit n1 n2 (rDir q) n Nn).
      cbv zeta. set (f := refract n1 n2 (rDir q) n). clearbody f.
      intros CC Hi (Hf1 & Hf2 & Hf3) TI TS TD TU S2 CI NU. rewrite (vnormalized_id _ n_unit), (vnormalized_id _ d_unit) in CC.
      rewrite (vnormalized_id _ d_unit) in Hi. rewrite Hi in *.
      assert (Comm : dot3 (rDir q) n = dot3 n (rDir q)) by (unfold dot3; ring). rewrite Comm in CC.
      assert (CC' : (dot3 n (rDir q) <= 0 /\ rfN f = n /\ rfN1 f = n1 /\ rfN2 f = n2) \/ (0 < dot3 n (rDir q) /\ rfN f = scal3 (-1) n /\ rfN1 f = n2 /\ rfN2 f = n1)) by tauto.
      destruct (totalReflection f) eqn:Et.
      - destruct (fresh c0 c0 nil (inv_refl c0 Hp)) as (i & c1 & E1 & I1 & Z1 & _). rewrite (mbind_run _ _ _ _ _ E1).
        rd I1 Hu Hq.
        destruct (held_setStart c0 c1 [i] i _ (rayAt q (T - tiny)%num) I1 (or_introl eq_refl) Z1) as (c2 & E2 & I2 & Z2 & _). rewrite (mbind_run _ _ _ _ _ E2).
        rd I2 Hu Hq.
        destruct (held_setDir c0 c2 [i] i _ (reflect (rDir q) n) I2 (or_introl eq_refl) Z2) as (c3 & E3 & I3 & Z3 & _). rewrite (mbind_run _ _ _ _ _ E3).
        destruct (held_lf c0 c3 [i] All i _ I3 Hd Hsq Hr (or_introl eq_refl) Z3) as (bc4 & c4 & E4 & HLc4 & I4 & _); [cbn [rDir]; rewrite reflect_norm; [exact d_unit|exact n_unit]|]. rewrite (mbind_run _ _ _ _ _ E4).
        unfold mbind, putRay, mret. cbn [obind]. eexists. eexists. split; [reflexivity|]. split; [|now apply inv_put].
        cbn [rStart rDir] in HLc4. rewrite reflect_mirrored, tiny_eq in HLc4. eapply L_total; [exact CC'| |exact HLc4]. apply TI. reflexivity.
      - assert (Hle : rfSin2T f <= 1).
        { revert Et. unfold totalReflection; rnum. destruct (Rltb_spec 1 (rfSin2T f)); [discriminate|]. intros _. lra. }
        destruct (fresh c0 c0 nil (inv_refl c0 Hp)) as (i & c1 & E1 & I1 & Z1 & _). rewrite (mbind_run _ _ _ _ _ E1).
        rd I1 Hu Hq.
        destruct (held_setStart c0 c1 [i] i _ (rayAt q (T + tiny)%num) I1 (or_introl eq_refl) Z1) as (c2 & E2 & I2 & Z2 & _). rewrite (mbind_run _ _ _ _ _ E2).
        destruct (held_setDir c0 c2 [i] i _ (transmitted f) I2 (or_introl eq_refl) Z2) as (c3 & E3 & I3 & Z3 & _). rewrite (mbind_run _ _ _ _ _ E3).
        destruct (held_lf c0 c3 [i] All i _ I3 Hd Hsq Hr (or_introl eq_refl) Z3) as (bc4 & c4 & E4 & HLc4 & I4 & _); [cbn [rDir]; apply TU, Hle|]. rewrite (mbind_run _ _ _ _ _ E4).
        destruct (fresh c0 c4 [i] I4) as (j & c5 & E5 & I5 & Z5 & _). rewrite (mbind_run _ _ _ _ _ E5).
        rd I5 Hu Hq.
        destruct (held_setStart c0 c5 [j; i] j _ (rayAt q (T - tiny)%num) I5 (or_introl eq_refl) Z5) as (c6 & E6 & I6 & Z6 & _). rewrite (mbind_run _ _ _ _ _ E6).
        destruct (held_setDir c0 c6 [j; i] j _ (reflect (rDir q) (rfN f)) I6 (or_introl eq_refl) Z6) as (c7 & E7 & I7 & Z7 & _). rewrite (mbind_run _ _ _ _ _ E7).
        destruct (held_lf c0 c7 [j; i] All j _ I7 Hd Hsq Hr (or_introl eq_refl) Z7) as (bc8 & c8 & E8 & HLc8 & I8 & _); [cbn [rDir]; rewrite reflect_norm; [exact d_unit|exact NU]|]. rewrite (mbind_run _ _ _ _ _ E8).
        unfold mbind, putRay, mret. cbn [obind]. eexists. eexists. split; [reflexivity|]. split.
        2: { apply inv_put in I8. apply inv_put in I8. exact I8. }
        cbn [rStart rDir] in HLc4, HLc8.
        assert (Hrm : reflect (rDir q) (rfN f) = mirrored (rDir q) n).
        { rewrite reflect_mirrored. destruct CC' as [(_ & -> & _)|(_ & -> & _)]; [reflexivity|].
          unfold mirrored, minus3, scal3, dot3; cbn [vx vy vz]. apply vec_eq; cbn [vx vy vz]; ring. }
        rewrite Hrm, tiny_eq in HLc8. rewrite tiny_eq in HLc4.
        assert (HR : refractR f = reflectance (rfN1 f) (rfN2 f) (- dot3 (rDir q) (rfN f)) (- dot3 (transmitted f) (rfN f))).
        { unfold refractR. rewrite TD, Hf2, Ropp_involutive. unfold fresnelR, reflectance, sqr; rnum. unfold nQ; rnum.
          unfold Rdiv. ring. }
        rewrite HR. rewrite !clmul_scaled. 
        change (cladd ?a ?b) with (add_color a b).
        eapply L_refract; [exact CC'|now apply TU| |exact TS|exact HLc8|exact HLc4].
        rewrite TD. generalize (sqrt_pos (1 - rfSin2T f)). lra.
    Qed.

    Lemma ok_twosided m1 m2 : ok m1 -> ok m2 -> ok (MTwoSided m1 m2).
    Proof.
      intros IH1 IH2 c0 Hp Hu Hq Hd Hsq Hr. cbn [shade hcNormal]. rd (inv_refl c0 Hp) Hu Hq.
      change (vdot (rDir q) n) with (dot3 (rDir q) n). rnum. destruct (Rltb_spec 0 (dot3 (rDir q) n)) as [H|H].
      - destruct (IH1 c0 Hp Hu Hq Hd Hsq Hr) as (a & c1 & E & La & K). exists a, c1. split; [exact E|]. split; [now apply L_front|exact K].
      - destruct (IH2 c0 Hp Hu Hq Hd Hsq Hr) as (a & c1 & E & La & K). exists a, c1. split; [exact E|]. split; [apply L_back; [lra|exact La]|exact K].
    Qed.
    Lemma ok_after (c0 c1 : ctx) m : inv c0 nil c1 -> in_use c0 r -> nth_error (cHeap c0) r = Some q -> cDepth c0 = d -> cSeq c0 = sq -> random_ok rand2 (cSeq c0) ->
      ok m -> exists col c', shade rand2 s lf m r (HitCoords T n local) c1 = Val (col, c') /\ lk m col /\ inv c0 nil c'.
    Proof.
      intros I1 Hu Hq Hd Hsq Hr Hm. destruct (Hm c1 (inv_pool _ _ _ I1)) as (a & c2 & E & La & K).
      - apply (inv_use _ _ _ I1). auto.
      - rewrite (inv_heap _ _ _ I1 r Hu). exact Hq.
      - rewrite (inv_depth _ _ _ I1). exact Hd.
      - rewrite (inv_seq _ _ _ I1). exact Hsq.
      - rewrite (inv_seq _ _ _ I1). exact Hr.
      - exists a, c2. split; [exact E|]. split; [exact La|]. eapply inv_trans; eauto.
    Qed.
    Lemma ok_blend x m1 y m2 : ok m1 -> ok m2 -> ok (MBlend x m1 y m2).
    Proof.
      intros IH1 IH2 c0 Hp Hu Hq Hd Hsq Hr. cbn [shade].
      destruct (IH1 c0 Hp Hu Hq Hd Hsq Hr) as (a & c1 & E & La & K). rewrite (mbind_run _ _ _ _ _ E).
      destruct (ok_after c0 c1 m2 K Hu Hq Hd Hsq Hr IH2) as (b & c2 & E2 & Lb & K2). rewrite (mbind_run _ _ _ _ _ E2).
      unfold mret. eexists. exists c2. split; [reflexivity|]. split; [|exact K2]. apply (L_blend _ _ _ _ _ _ _ _ _ _ x y m1 m2 a b La Lb).
    Qed.
    Lemma ok_blendMap t m1 m2 : (exists k, t local = Val k) -> ok m1 -> ok m2 -> ok (MBlendMap t m1 m2).
    Proof.
      intros (k & Ht) IH1 IH2 c0 Hp Hu Hq Hd Hsq Hr. cbn [shade hcLocal].
      unfold mbind at 1. unfold mlift at 1. rewrite Ht. cbn [omap obind]. cbv zeta. rnum.
      assert (X1 : exists a c1, (if Rltb 0 (cR k) then shade rand2 s lf m1 r (HitCoords T n local) else mret black) c0 = Val (a, c1) /\
        (0 < cR k -> lk m1 a) /\ (cR k <= 0 -> a = no_light) /\ inv c0 nil c1).
      { destruct (Rltb_spec 0 (cR k)) as [H|H].
        - destruct (IH1 c0 Hp Hu Hq Hd Hsq Hr) as (a & c1 & E & La & K). exists a, c1. split; [exact E|]. split; [auto|]. split; [intros; lra|exact K].
        - exists no_light, c0. split; [reflexivity|]. split; [intros; lra|]. split; [auto|now apply inv_refl]. }
      destruct X1 as (a & c1 & E1 & A1 & A2 & K1). rewrite (mbind_run _ _ _ _ _ E1).
      assert (X2 : exists b c2, (if Rltb 0 (1 - cR k) then shade rand2 s lf m2 r (HitCoords T n local) else mret black) c1 = Val (b, c2) /\
        (cR k < 1 -> lk m2 b) /\ (1 <= cR k -> b = no_light) /\ inv c0 nil c2).
      { destruct (Rltb_spec 0 (1 - cR k)) as [H|H].
        - destruct (ok_after c0 c1 m2 K1 Hu Hq Hd Hsq Hr IH2) as (b & c2 & E2 & Lb & K2). exists b, c2. split; [exact E2|]. split; [auto|]. split; [intros; lra|exact K2].
        - exists no_light, c1. split; [reflexivity|]. split; [intros; lra|]. split; [auto|exact K1]. }
      destruct X2 as (b & c2 & E2 & B1 & B2 & K2). rewrite (mbind_run _ _ _ _ _ E2).
      unfold mret. eexists. exists c2. split; [reflexivity|]. split; [|exact K2].
      apply (L_blendMap _ _ _ _ _ _ _ _ _ _ t k m1 m2 a b); auto.
    Qed.

    Lemma shade_looks m : definite local m -> ok m.
    Proof.
      induction m; cbn [definite]; intros H.
      - apply ok_black.
      - now apply ok_flat.
      - now apply ok_matte.
      - apply ok_mirror.
      - apply ok_fresnel; [apply H|apply IHm, H].
      - now apply ok_refractive.
      - now apply ok_transparent.
      - apply ok_twosided; [apply IHm1, H|apply IHm2, H].
      - apply ok_blend; [apply IHm1, H|apply IHm2, H].
      - apply ok_blendMap; [apply H|apply IHm1, H|apply IHm2, H].
    Qed.
  End At.
End Look.

(** ** The whole evaluation *)
Section Whole.
  Context {G : Type} {NI : NumInf R}.
  Variable rand2 : G -> (R * R) * G.
  Variable s : scene R.
  Hypothesis inf_pos : 0 < @ninf R NI.
  Hypothesis sound : forall o, In o (all_objects s) -> sound_object o.

  Lemma sound_hits objs q : (forall o, In o objs -> sound_object o) -> norm2 (rDir q) = 1 ->
    exists hits, hits_of objs q hits /\ forall h, In h hits -> positive h ->
      (hT h <= ninf -> hNormal h <> zero3) /\ exists m, hMat h = Some m /\ definite (hLocal h) m.
  Proof.
    intros Ho Hq. induction objs as [|o objs IH].
    - exists nil. split; [constructor|]. intros h [].
    - destruct IH as (hits & Hh & Hs); [intros o' Ho'; apply Ho; cbn; auto|].
      destruct (Ho o (or_introl eq_refl) q Hq) as (h & E & Hh').
      exists (h :: hits). split; [constructor; assumption|]. intros h' [<-|Hin] Hp; [|now apply Hs].
      unfold positive in Hp. rnum. apply Rltb_true in Hp. exact (Hh' Hp).
  Qed.

  Lemma scene_castable : castable (sObjects s).
  Proof.
    intros q Hq. destruct (sound_hits (sObjects s) q) as (hits & Hh & Hs); [|exact Hq|].
    - intros o Ho. apply sound. unfold all_objects. rewrite !in_app_iff. auto.
    - exists hits. split; [exact Hh|]. intros h Hin Hp (t & Ht). destruct (Hs h Hin Hp) as (_ & m & Hm & Hd).
      rewrite Ht in Hm. injection Hm as <-. destruct Hd as (f & Hf). exists f, t. auto.
  Qed.

  Lemma last_nearest_in (hits : list (hit R (material R))) h : last_nearest hits h -> In h hits /\ positive h.
  Proof. intros (b & a & -> & Hp & _). split; [apply in_or_app; cbn; auto|exact Hp]. Qed.

  Lemma surface_light_at sq k w q t col : surface_light rand2 s sq k w q t col -> light_at rand2 s sq (S k) w q col.
  Proof.
    intros (hits & Hh & [(A & _ & B)|(h & m & A & B & _ & C & D)]); exists hits; (split; [exact Hh|]); [left; auto|right].
    exists h, m. auto.
  Qed.

  Lemma surface_runs sq k fuel d w i q (c1 : ctx R G) : (0 <= d)%Z -> sRecursionDepth s = (d + Z.of_nat (S k))%Z ->
    answers rand2 sq (d + 1)%Z (lightField rand2 fuel s) (light_at rand2 s sq k) ->
    pool_ok c1 -> in_use c1 i -> cDepth c1 = (d + 1)%Z -> cSeq c1 = sq -> random_ok rand2 (cSeq c1) ->
    nth_error (cHeap c1) i = Some q -> norm2 (rDir q) = 1 ->
    exists front c1' col c2, intersectFrontmost (whoObjects s w) i c1 = Val (front, c1') /\
      shadeHit rand2 s (lightField rand2 fuel s) (hMat front) i (HitCoords (hT front) (vnormalized (hNormal front)) (hLocal front)) c1' = Val (col, c2) /\
      surface_light rand2 s sq k w q (hT front) col /\ inv c1 nil c2 /\ hT front <= ninf /\ 0 < hT front.
  Proof.
    intros Hd HR IH P1 U1 D1 S1 Hr Q1 Hn.
    destruct (sound_hits (whoObjects s w) q) as (hits & Hh & Hs).
    { intros o Ho. apply sound. unfold all_objects. rewrite !in_app_iff. destruct w; cbn in Ho; auto. }
    { exact Hn. }
    assert (Hfr := fun H => intersectFrontmost_reach (whoObjects s w) i q hits c1 H Q1 Hh).
    specialize (Hfr (proj2 (Rltb_true _ _) inf_pos)).
    destruct Hfr as [(h & Hl & Hle & FH)|(Hno & FN)].
    - destruct (last_nearest_in hits h Hl) as [Hin Hpos].
      destruct (Hs h Hin Hpos) as (HN & m & Hm & Hdef). apply Rleb_true in Hle. specialize (HN Hle).
      destruct (shade_looks rand2 s scene_castable (d + 1)%Z ltac:(lia) sq (lightField rand2 fuel s) (light_at rand2 s sq k)
        IH i q (hT h) (unit_of (hNormal h)) (hLocal h) (unit_of_norm2 _ HN) Hn m Hdef c1 P1 U1 Q1 D1 S1 Hr)
        as (col & c2 & E & HL & K).
      exists h, c1, col, c2. split; [exact FH|]. split; [rewrite Hm; cbn [shadeHit]; rewrite vnormalized_unit_of; exact E|].
      split; [|split; [exact K|split; [exact Hle|unfold positive in Hpos; rnum; now apply Rltb_true]]].
      exists hits. split; [exact Hh|]. right. exists h, m. split; [exact Hl|]. split; [exact Hle|]. split; [reflexivity|]. split; [exact Hm|].
      replace (sRecursionDepth s - Z.of_nat k)%Z with (d + 1)%Z by lia. exact HL.
    - exists (Hit ninf (rDir q) vO (Some MBlack)), c1, black, c1. split; [exact FN|]. cbn [hMat shadeHit shade hT].
      split; [reflexivity|]. split; [|split; [now apply inv_refl|split; [lra|exact inf_pos]]].
      exists hits. split; [exact Hh|]. left. split; [|split; reflexivity].
      intros h Hin Hpos. apply Rltb_true. apply (Hno h Hin). now apply Rltb_true.
  Qed.

  (** media do nothing to secondary rays *)
  Lemma media_inside ms i tMax b (c : ctx R G) : (2 <= cDepth c)%Z -> mediaLoop rand2 s ms i tMax b c = Val (b, c).
  Proof.
    intros Hd. induction ms as [|m ms IH]; cbn [mediaLoop]; [reflexivity|].
    assert (I : isInitial c = Val (false, c)).
    { unfold isInitial. destruct (Z.eqb_spec (cDepth c) 0); [lia|]. destruct (Z.eqb_spec (cDepth c) 1); [lia|reflexivity]. }
    assert (E : mediumFilter rand2 s m i tMax b c = Val (b, c)) by (destruct m; cbn [mediumFilter]; rewrite (mbind_run _ _ _ _ _ I); reflexivity).
    rewrite (mbind_run _ _ _ _ _ E). exact IH.
  Qed.

  Lemma lightField_within sq k : forall fuel d, (k < fuel)%nat -> (0 <= d)%Z -> sRecursionDepth s = (d + Z.of_nat k)%Z ->
    sMedia s = nil \/ (1 <= d)%Z ->
    answers rand2 sq d (lightField rand2 fuel s) (light_at rand2 s sq k).
  Proof.
    induction k as [|k IH]; intros fuel d Hf Hd HR HM w i q c Hp Hu Hc Hsq Hr Hq Hn; (destruct fuel as [|fuel]; [lia|]).
    - exists no_light, c. split; [|split; [reflexivity|]].
      + exact (eval_limit rand2 fuel s w i c (ltac:(lia) : cDepth c = sRecursionDepth s)).
      + split; [|auto]. split; [exact Hp|]. split; [tauto|auto].
    - cbn [lightField]. unfold mbind at 1, getDepth. cbn [obind]. rewrite Hc.
      destruct (Z.eqb_spec (sRecursionDepth s) d) as [X|_]; [lia|].
      unfold mbind at 1, countRay. cbn [obind]. unfold mbind at 1, setDepth. cbn [obind].
      set (c1 := withDepth _ _).
      destruct (surface_runs sq k fuel d w i q c1 Hd HR) as (front & c1' & col & c2 & E1 & E2 & HL & K & _); try assumption; try reflexivity.
      { apply IH; try lia; tauto. }
      rewrite (mbind_run _ _ _ _ _ E1). rewrite (mbind_run _ _ _ _ _ E2).
      assert (E3 : mediaLoop rand2 s (sMedia s) i (hT front) col c2 = Val (col, c2)).
      { destruct HM as [-> |HM]; [reflexivity|]. apply media_inside. rewrite (inv_depth _ _ _ K). cbn. lia. }
      rewrite (mbind_run _ _ _ _ _ E3).
      unfold mbind, mret, getDepth, setDepth. cbn [obind].
      exists col. eexists. split; [reflexivity|]. split; [exact (surface_light_at _ _ _ _ _ _ HL)|].
      split; [|split].
      + destruct (inv_same _ _ K) as (A & B & C). split; [exact A|]. split; [exact B|exact C].
      + cbn [cDepth withDepth]. rewrite (inv_depth _ _ _ K). cbn. lia.
      + cbn [cSeq withDepth]. rewrite (inv_seq _ _ _ K). reflexivity.
  Qed.
  Lemma lightField_light (no_media : sMedia s = nil) sq k : forall fuel d, (k < fuel)%nat -> (0 <= d)%Z -> sRecursionDepth s = (d + Z.of_nat k)%Z ->
    answers rand2 sq d (lightField rand2 fuel s) (light_at rand2 s sq k).
  Proof. intros. apply lightField_within; auto. Qed.
End Whole.
