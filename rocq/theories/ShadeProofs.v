(** * Reflection, refraction and energy (C48-C51, exact real arithmetic) *)
From Coq Require Import ZArith Reals Bool List Lra Lia Psatz Nsatz.
From Verif Require Import Num NumLaws Outcome GeomModel GeomSpec GeomProofs ColorModel SeqModel ObjModel TreeModel ObjSpec ObjProofs SceneModel SceneSpec SceneProofs.
Import ListNotations.
Local Open Scope R_scope.

Ltac opt_unfold := unfold reflect, vmadd, vdot, vmul, vsub, vadd in *; cbn [vx vy vz] in *; rnum.

(** ** Mirrors *)
Lemma reflect_eq (v n : pt) : reflect v n = minus3 v (scal3 (2 * dot3 v n) n).
Proof. destruct v, n. opt_unfold. spec_unfold. vec_ring. Qed.
Lemma reflect_norm (v n : pt) : norm2 n = 1 -> norm2 (reflect v n) = norm2 v.
Proof. rewrite reflect_eq. destruct v as [a b c], n as [x y z]. spec_unfold. intros H. nsatz. Qed.
Lemma reflect_dot (v n : pt) : norm2 n = 1 -> dot3 (reflect v n) n = - dot3 v n.
Proof. rewrite reflect_eq. destruct v as [a b c], n as [x y z]. spec_unfold. intros H. nsatz. Qed.
Lemma reflect_tangential (v n : pt) : norm2 n = 1 -> tangential (reflect v n) n = tangential v n.
Proof.
  intros H. unfold tangential. rewrite (reflect_dot v n H), reflect_eq.
  destruct v as [a b c], n as [x y z]. spec_unfold. vec_ring.
Qed.
Lemma reflect_twice (v n : pt) : norm2 n = 1 -> reflect (reflect v n) n = v.
Proof.
  intros H. rewrite (reflect_eq (reflect v n) n), (reflect_dot v n H), reflect_eq.
  destruct v as [a b c], n as [x y z]. spec_unfold. vec_ring.
Qed.

(** ** Fresnel *)
Lemma ratio_sqr_le1 x y : 0 <= x -> 0 <= y -> 0 <= sqr (F:=R) ((x - y) / (x + y)) <= 1.
Proof.
  intros Hx Hy. unfold sqr; rnum. split; [apply Rle_0_sqr|].
  destruct (Req_dec (x + y) 0) as [H|H].
  - assert (x = 0) by lra. assert (y = 0) by lra. subst. unfold Rdiv. rewrite Rminus_0_r, Rmult_0_l. lra.
  - replace ((x - y) / (x + y) * ((x - y) / (x + y))) with (1 - (4 * x * y) / ((x + y) * (x + y))) by (field; exact H).
    assert (0 <= 4 * x * y / ((x + y) * (x + y))); [|lra].
    apply Rmult_le_pos; [nra|left; apply Rinv_0_lt_compat; nra].
Qed.
Lemma fresnelR_range n1 n2 ci ct : 0 <= n1 -> 0 <= n2 -> 0 <= ci -> 0 <= ct -> 0 <= fresnelR (F:=R) n1 n2 ci ct <= 1.
Proof.
  intros. unfold fresnelR, nQ; rnum.
  generalize (ratio_sqr_le1 (n1 * ci) (n2 * ct)) (ratio_sqr_le1 (n1 * ct) (n2 * ci)). unfold sqr; rnum.
  intros A B. destruct A; [nra|nra|]. destruct B; [nra|nra|]. lra.
Qed.
Lemma fresnelReflection_range n1 n2 ci : 0 <= n1 -> 0 <= n2 -> 0 <= ci -> 0 <= fresnelReflection (F:=R) n1 n2 ci <= 1.
Proof. intros. unfold fresnelReflection; rnum. apply fresnelR_range; auto. apply sqrt_pos. Qed.

(** cosine of the refracted ray *)
Lemma snell_cost n1 n2 ci ct : 0 < n1 -> 0 < n2 -> snell n1 n2 ci ct ->
  sqrt (1 - n1 / n2 * (n1 / n2) * (1 - ci * ci)) = ct.
Proof.
  intros H1 H2 [Hc Hs]. replace (1 - n1 / n2 * (n1 / n2) * (1 - ci * ci)) with (ct * ct); [now apply sqrt_square|].
  assert (X : n1 / n2 * (n1 / n2) * (1 - ci * ci) = n1 * n1 * (1 - ci * ci) / (n2 * n2)) by (field; lra).
  rewrite X, Hs. field. lra.
Qed.
Lemma fresnel_formula n1 n2 ci ct : 0 < n1 -> 0 < n2 -> snell n1 n2 ci ct ->
  fresnelReflection n1 n2 ci =
    (((n1 * ci - n2 * ct) / (n1 * ci + n2 * ct)) ^ 2 + ((n1 * ct - n2 * ci) / (n1 * ct + n2 * ci)) ^ 2) / 2.
Proof.
  intros H1 H2 H. unfold fresnelReflection; rnum. rewrite (snell_cost _ _ _ _ H1 H2 H).
  unfold fresnelR, sqr, nQ; rnum. lra.
Qed.
Lemma fresnel_symmetric n1 n2 ci ct : 0 < n1 -> 0 < n2 -> 0 <= ci -> snell n1 n2 ci ct ->
  fresnelReflection n1 n2 ci = fresnelReflection n2 n1 ct.
Proof.
  intros H1 H2 Hi [Hc Hs]. rewrite (fresnel_formula n1 n2 ci ct H1 H2 (conj Hc Hs)).
  rewrite (fresnel_formula n2 n1 ct ci H2 H1 (conj Hi (eq_sym Hs))).
  replace (n2 * ct - n1 * ci) with (- (n1 * ci - n2 * ct)) by ring.
  replace (n2 * ct + n1 * ci) with (n1 * ci + n2 * ct) by ring.
  replace (n2 * ci - n1 * ct) with (- (n1 * ct - n2 * ci)) by ring.
  replace (n2 * ci + n1 * ct) with (n1 * ct + n2 * ci) by ring.
  unfold Rdiv. ring.
Qed.

(** ** Refraction *)
(** incidence angle, and indices in the order of travel *)
Lemma refract_dir n1 n2 (d nn : pt) : rfI (refract n1 n2 d nn) = vnormalized d.
Proof. unfold refract. destruct (_ >? _)%num; reflexivity. Qed.
Lemma refract_cases n1 n2 (d nn : pt) :
  let f := refract n1 n2 d nn in
  (0 < dot3 (vnormalized d) (vnormalized nn) /\ rfN f = scal3 (-1) (vnormalized nn) /\ rfN1 f = n2 /\ rfN2 f = n1) \/
  (dot3 (vnormalized d) (vnormalized nn) <= 0 /\ rfN f = vnormalized nn /\ rfN1 f = n1 /\ rfN2 f = n2).
Proof.
  unfold refract. change (vdot (vnormalized d) (vnormalized nn)) with (dot3 (vnormalized d) (vnormalized nn)).
  rnum. destruct (Rltb_spec 0 (dot3 (vnormalized d) (vnormalized nn))) as [H|H]; cbn; [left|right]; repeat split; auto.
Qed.
Lemma refract_fields n1 n2 (d nn : pt) :
  let f := refract n1 n2 d nn in
  rfN12 f = rfN1 f / rfN2 f /\ rfCosI f = - dot3 (rfI f) (rfN f) /\ rfSin2T f = rfN12 f * rfN12 f * (1 - rfCosI f * rfCosI f).
Proof. unfold refract. destruct (_ >? _)%num; cbn; auto. Qed.

Section Refract.
  Variables n1 n2 : R.
  Variables d nn : pt.
  Hypothesis H1 : 0 < n1.
  Hypothesis H2 : 0 < n2.
  Hypothesis Hd : d <> zero3.
  Hypothesis Hn : nn <> zero3.
  Let f := refract n1 n2 d nn.
  Let i := rfI f.
  Let n := rfN f.

  Lemma rf_i_unit : norm2 i = 1.
  Proof. unfold i, f. rewrite refract_dir. now apply vnormalized_norm2. Qed.
  Lemma rf_n_unit : norm2 n = 1.
  Proof.
    unfold n, f. destruct (refract_cases n1 n2 d nn) as [(_ & -> & _)|(_ & -> & _)]; [|now apply vnormalized_norm2].
    generalize (vnormalized_norm2 nn Hn). generalize (vnormalized nn). intros m. spec_unfold. intros; lra.
  Qed.
  Lemma rf_pos : 0 < rfN1 f /\ 0 < rfN2 f.
  Proof. unfold f. destruct (refract_cases n1 n2 d nn) as [(_ & _ & -> & ->)|(_ & _ & -> & ->)]; auto. Qed.
  Lemma rf_cosi : 0 <= - dot3 i n.
  Proof.
    unfold i, n, f. rewrite refract_dir. destruct (refract_cases n1 n2 d nn) as [(H & -> & _)|(H & -> & _)]; [|lra].
    revert H. generalize (vnormalized d) (vnormalized nn). intros a b. spec_unfold. intros; lra.
  Qed.
  Lemma rf_sin2 : rfSin2T f = (rfN1 f / rfN2 f) * (rfN1 f / rfN2 f) * norm2 (cross3 i n).
  Proof.
    destruct (refract_fields n1 n2 d nn) as (E1 & E2 & E3). fold f in E1, E2, E3. rewrite E3, E1, E2. f_equal.
    generalize rf_i_unit rf_n_unit. fold i n. generalize i n. intros [a b c] [x y z]. spec_unfold. intros; nsatz.
  Qed.

  Lemma transmitted_snell : snell_vec (rfN1 f) (rfN2 f) i n (transmitted f).
  Proof.
    unfold snell_vec, transmitted. fold i n.
    destruct (refract_fields n1 n2 d nn) as (E1 & E2 & E3). fold f in E1, E2, E3. rewrite E1.
    destruct rf_pos as [P1 P2]. set (k := nsub _ _). clearbody k. revert k.
    generalize i n. intros [a b c] [x y z] k. opt_unfold. spec_unfold. apply vec_eq; cbn [vx vy vz]; field; lra.
  Qed.
  Lemma transmitted_dot : dot3 (transmitted f) n = - sqrt (1 - rfSin2T f).
  Proof.
    unfold transmitted. fold i n.
    destruct (refract_fields n1 n2 d nn) as (E1 & E2 & E3). fold f i n in E1, E2, E3. rewrite E2.
    rnum. set (s := sqrt _). clearbody s. generalize rf_n_unit. generalize i n (rfN12 f).
    intros [a b c] [x y z] k. opt_unfold. spec_unfold. intros H. nsatz.
  Qed.
  Lemma cross_split (a b : pt) : norm2 b = 1 -> norm2 a = norm2 (cross3 a b) + dot3 a b * dot3 a b.
  Proof. destruct a as [a1 a2 a3], b as [b1 b2 b3]. spec_unfold. intros; nsatz. Qed.
  Lemma norm2_scal k (a : pt) : norm2 (scal3 k a) = k * k * norm2 a.
  Proof. destruct a as [a1 a2 a3]; spec_unfold; ring. Qed.
  Lemma snell_sin2 t : snell_vec (rfN1 f) (rfN2 f) i n t -> norm2 (cross3 t n) = rfSin2T f.
  Proof.
    intros H. rewrite rf_sin2. destruct rf_pos as [P1 P2].
    apply (f_equal norm2) in H. rewrite !norm2_scal in H.
    set (A := norm2 (cross3 i n)) in *. set (B := norm2 (cross3 t n)) in *. clearbody A B.
    replace (rfN1 f / rfN2 f * (rfN1 f / rfN2 f) * A) with (rfN1 f * rfN1 f * A / (rfN2 f * rfN2 f)) by (field; lra).
    rewrite H. field. lra.
  Qed.
  Lemma transmitted_unit : rfSin2T f <= 1 -> norm2 (transmitted f) = 1.
  Proof.
    intros H. rewrite (cross_split _ n rf_n_unit), (snell_sin2 _ transmitted_snell), transmitted_dot.
    replace (- sqrt (1 - rfSin2T f) * - sqrt (1 - rfSin2T f)) with (sqrt (1 - rfSin2T f) * sqrt (1 - rfSin2T f)) by ring.
    rewrite sqrt_sqrt by lra. lra.
  Qed.
  Lemma norm2_ge0 (a : pt) : 0 <= norm2 a.
  Proof. apply norm2_nonneg. Qed.
  Lemma rebuild (a b : pt) : norm2 b = 1 -> a = plus3 (scal3 (dot3 a b) b) (cross3 b (cross3 a b)).
  Proof. destruct a as [a1 a2 a3], b as [b1 b2 b3]. spec_unfold. intros. apply vec_eq; cbn [vx vy vz]; nsatz. Qed.
  Lemma transmitted_unique t : norm2 t = 1 -> dot3 t n <= 0 -> snell_vec (rfN1 f) (rfN2 f) i n t -> t = transmitted f.
  Proof.
    intros Ht Hs Hv. rewrite (rebuild t n rf_n_unit), (rebuild (transmitted f) n rf_n_unit).
    assert (C : cross3 t n = cross3 (transmitted f) n).
    { assert (X : scal3 (rfN2 f) (cross3 t n) = scal3 (rfN2 f) (cross3 (transmitted f) n)).
      { rewrite <- Hv. apply transmitted_snell. }
      apply (f_equal (scal3 (/ rfN2 f))) in X. destruct rf_pos as [_ P2].
      assert (Y : forall a : pt, scal3 (/ rfN2 f) (scal3 (rfN2 f) a) = a).
      { intros [x y z]. unfold scal3; cbn [vx vy vz]. apply vec_eq; cbn [vx vy vz]; field; lra. }
      now rewrite !Y in X. }
    rewrite C. f_equal. f_equal. rewrite transmitted_dot.
    generalize (cross_split t n rf_n_unit). rewrite Ht, (snell_sin2 t Hv). intros X.
    replace (1 - rfSin2T f) with ((- dot3 t n) * (- dot3 t n)) by lra.
    rewrite sqrt_square by lra. lra.
  Qed.
  Lemma total_iff : totalReflection f = true <-> ~ exists t, norm2 t = 1 /\ snell_vec (rfN1 f) (rfN2 f) i n t.
  Proof.
    unfold totalReflection; rnum. rewrite Rltb_true. split.
    - intros H (t & Ht & Hv). generalize (cross_split t n rf_n_unit) (snell_sin2 t Hv). intros A B. rewrite Ht, B in A.
      generalize (Rle_0_sqr (dot3 t n)). unfold Rsqr. lra.
    - intros H. apply Rnot_le_lt. intros L. apply H. exists (transmitted f). split; [now apply transmitted_unit|apply transmitted_snell].
  Qed.
End Refract.

(** ** Energy *)
Section Energy.
  Variable M : R.
  Hypothesis M_pos : 0 <= M.
  Context {G : Type} `{NI : NumInf R}.
  Variable rand2 : G -> (R * R) * G.

  Definition yields {A} (a : act R G A) (V : A -> Prop) : Prop := forall c x c', a c = Val (x, c') -> V x.
  Lemma yields_bind {A B} (a : act R G A) (f : A -> act R G B) (V : A -> Prop) (W : B -> Prop) :
    yields a V -> (forall x, V x -> yields (f x) W) -> yields (mbind a f) W.
  Proof. intros Ha Hf c y c' H. apply mbind_val in H. destruct H as (x & c1 & E1 & E2). eapply Hf; eauto. Qed.
  Lemma yields_any {A B} (a : act R G A) (f : A -> act R G B) (W : B -> Prop) :
    (forall x, yields (f x) W) -> yields (mbind a f) W.
  Proof. intros H. eapply yields_bind with (V := fun _ => True); [intros c x c' _; exact I|auto]. Qed.
  Lemma yields_ret {A} (x : A) (V : A -> Prop) : V x -> yields (mret x) V.
  Proof. intros H c y c' E. unfold mret in E. congruence. Qed.
  Lemma yields_lift {A} (o : outcome A) (V : A -> Prop) : (forall x, o = Val x -> V x) -> yields (mlift o) V.
  Proof. intros H c x c' E. unfold mlift in E. destruct o; cbn in E; try discriminate. apply H. congruence. Qed.

  Lemma within_black : within M black.
  Proof. unfold within, black; cbn; lra. Qed.
  Lemma within_mul3 a b : within M a -> within 1 b -> within M (clmul3 a b).
  Proof. intros (A1 & A2 & A3) (B1 & B2 & B3). unfold within, clmul3; cbn; rnum. repeat split; nra. Qed.
  Lemma within_blend a b s t : within M a -> within M b -> 0 <= s -> 0 <= t -> s + t <= 1 ->
    within M (clmadd (clmul a s) t b).
  Proof. intros (A1 & A2 & A3) (B1 & B2 & B3) Hs Ht Hst. unfold within, clmadd, clmul; cbn; rnum. repeat split; nra. Qed.
  Lemma within_sum a b s t : within M a -> within M b -> 0 <= s -> 0 <= t -> s + t <= 1 ->
    within M (cladd (clmul a s) (clmul b t)).
  Proof. intros (A1 & A2 & A3) (B1 & B2 & B3) Hs Ht Hst. unfold within, cladd, clmul; cbn; rnum. repeat split; nra. Qed.
  Lemma within_add_black a : within M a -> within M (cladd black a).
  Proof. intros (A1 & A2 & A3). unfold within, cladd, black; cbn; rnum. repeat split; lra. Qed.
  Lemma within_scale a s : within M a -> 0 <= s <= 1 -> within M (cladd (clmul a s) black).
  Proof. intros (A1 & A2 & A3) Hs. unfold within, cladd, clmul, black; cbn; rnum. repeat split; nra. Qed.

  Variable s : scene R.
  Hypothesis no_lights : sLights s = nil.
  Hypothesis materials_passive : forall m, shown s m -> passive M m.
  Hypothesis media_passive : forall m, In m (sMedia s) -> passive_medium M m.

  Section Rec.
    Variable lf : who -> nat -> act R G (color R).
    Hypothesis lf_within : forall w r, yields (lf w r) (within M).

    Lemma refract_cosi n1 n2 (d nn : pt) : 0 <= rfCosI (refract n1 n2 d nn).
    Proof.
      unfold refract. change (vdot (vnormalized d) (vnormalized nn)) with (dot3 (vnormalized d) (vnormalized nn)).
      rnum. destruct (Rltb_spec 0 (dot3 (vnormalized d) (vnormalized nn))) as [H|H]; cbn [rfCosI]; rnum.
      - revert H. generalize (vnormalized d) (vnormalized nn). intros a b. opt_unfold. spec_unfold. intros. lra.
      - unfold vdot; rnum. unfold dot3 in H. lra.
    Qed.

    Lemma shade_within m : passive M m -> forall r h, yields (shade rand2 s lf m r h) (within M).
    Proof.
      induction m as [|t|t|col|n m IH|n1 n2|t|a IHa b IHb|wa a IHa wb b IHb|t a IHa b IHb]; cbn [passive]; intros Hp r h; cbn [shade].
      - apply yields_ret, within_black.
      - apply yields_lift. intros c Hc. exact (Hp _ _ Hc).
      - unfold matteShade. apply yields_any; intros q. apply yields_any; intros i. apply yields_any; intros q'.
        apply yields_any; intros _. rewrite no_lights. cbn [matteLights].
        eapply yields_bind with (V := fun c => c = black); [apply yields_ret; reflexivity|]. intros acc ->.
        apply yields_any; intros _. apply yields_any; intros [u v]. apply yields_any; intros _.
        eapply yields_bind; [apply lf_within|]. intros ind Hi. apply yields_any; intros _.
        eapply yields_bind; [apply yields_lift; intros x Hx; exact (Hp _ _ Hx)|]. intros refl Hr.
        apply yields_ret. apply within_mul3; auto. now apply within_add_black.
      - unfold reflectiveShade. apply yields_any; intros q. apply yields_any; intros i. apply yields_any; intros _.
        apply yields_any; intros q'. apply yields_any; intros _.
        eapply yields_bind; [apply lf_within|]. intros b Hb. apply yields_any; intros _.
        apply yields_ret. now apply within_mul3.
      - destruct Hp as [Hn Hp]. apply yields_any; intros q. apply yields_any; intros i. apply yields_any; intros _.
        apply yields_any; intros q'. apply yields_any; intros _. cbv zeta.
        eapply yields_bind; [apply IH, Hp|]. intros tr Htr.
        eapply yields_bind; [apply lf_within|]. intros refl Hrefl. apply yields_any; intros _.
        apply yields_ret.
        set (k := fresnelReflection _ _ _).
        assert (Hk : 0 <= k <= 1) by (apply fresnelReflection_range; rnum; try lra; apply Rabs_pos).
        apply within_blend; auto; rnum; lra.
      - destruct Hp as [P1 P2]. unfold refractiveShade. apply yields_any; intros q. cbv zeta.
        destruct (totalReflection _).
        + apply yields_any; intros i. apply yields_any; intros q'. apply yields_any; intros _.
          apply yields_any; intros q''. apply yields_any; intros _.
          eapply yields_bind; [apply lf_within|]. intros b Hb. apply yields_any; intros _. now apply yields_ret.
        + set (f := refract n1 n2 (rDir q) (hcNormal h)).
          apply yields_any; intros i. apply yields_any; intros q'. apply yields_any; intros _. apply yields_any; intros _.
          eapply yields_bind; [apply lf_within|]. intros cT HT.
          apply yields_any; intros j. apply yields_any; intros q''. apply yields_any; intros _. apply yields_any; intros _.
          eapply yields_bind; [apply lf_within|]. intros cR HR. apply yields_any; intros _. apply yields_any; intros _.
          apply yields_ret.
          assert (Hk : 0 <= refractR f <= 1).
          { unfold refractR. apply fresnelR_range; rnum; try apply sqrt_pos; try apply refract_cosi;
            unfold f; destruct (refract_cases n1 n2 (rDir q) (hcNormal h)) as [(_ & _ & A & B)|(_ & _ & A & B)]; rewrite ?A, ?B; lra. }
          set (k := refractR f) in *. clearbody k. apply within_sum; auto; rnum; lra.
      - unfold transparentShade. apply yields_any; intros q. apply yields_any; intros i. apply yields_any; intros _.
        apply yields_any; intros q'. apply yields_any; intros _.
        eapply yields_bind; [apply lf_within|]. intros b Hb.
        eapply yields_bind; [apply yields_lift; intros x Hx; exact (Hp _ _ Hx)|]. intros f Hf. apply yields_any; intros _.
        apply yields_ret. now apply within_mul3.
      - destruct Hp. apply yields_any; intros q. destruct (_ >? _)%num; auto.
      - destruct Hp as ((W1 & W2 & W3) & Pa & Pb).
        eapply yields_bind; [apply IHa, Pa|]. intros ca Ha.
        eapply yields_bind; [apply IHb, Pb|]. intros cb Hb.
        apply yields_ret. now apply within_blend.
      - destruct Hp as (Pk & Pa & Pb).
        eapply yields_bind; [apply yields_lift; intros x Hx; exact (Pk _ _ Hx)|]. intros k Hk.
        eapply yields_bind with (V := within M); [destruct (_ >? _)%num; [now apply IHa|apply yields_ret, within_black]|]. intros ca Ha.
        eapply yields_bind with (V := within M); [destruct (_ >? _)%num; [now apply IHb|apply yields_ret, within_black]|]. intros cb Hb.
        apply yields_ret. apply within_blend; auto; rnum; lra.
    Qed.
  End Rec.

  Lemma exp_frac len density : 0 <= len -> 0 <= density -> 0 <= exp (- len * density) <= 1.
  Proof.
    intros A B. split; [left; apply exp_pos|]. rewrite <- exp_0. 
    destruct (Req_dec (len * density) 0) as [E|E].
    - replace (- len * density) with 0 by lra. lra.
    - left. apply exp_increasing. nra.
  Qed.
  Lemma fogInterval_le height tMax (r : ray R) : fst (fogInterval height tMax r) <= snd (fogInterval height tMax r).
  Proof.
    unfold fogInterval. destruct (intersectHalfSpace height r) as [a b]. unfold intersectIntervals; rnum.
    destruct (Rltb_spec (umax 0 a) (umin tMax b)); cbn; lra.
  Qed.
  Lemma medium_within m r tMax b : passive_medium M m -> within M b -> yields (mediumFilter rand2 s m r tMax b) (within M).
  Proof.
    intros Hm Hb. destruct m as [density ambient height|density height numLight]; cbn [mediumFilter passive_medium] in *.
    - destruct Hm as [Hd Ha]. apply yields_any; intros ini. destruct (negb ini); [now apply yields_ret|].
      apply yields_any; intros q. destruct (fogInterval height tMax q) as [a e]. apply yields_lift. intros x Hx.
      unfold expFogBlend in Hx; rnum. revert Hx. rnum. destruct (Rleb_spec 0 (e - a)) as [L|L]; cbn [negb]; [|discriminate].
      intros Hx. injection Hx as <-. generalize (exp_frac (e - a) density L Hd). rnum. intros He.
      set (k := exp (- (e - a) * density)) in *. clearbody k. apply within_blend; auto; lra.
    - apply yields_any; intros ini. destruct (negb ini); [now apply yields_ret|].
      apply yields_any; intros q. generalize (fogInterval_le height tMax q).
      destruct (fogInterval height tMax q) as [a e]. cbn [fst snd]. intros Hle. apply yields_any; intros [u v].
      destruct (randExpInterval _ _ _) as [ts wt]. apply yields_any; intros q'. apply yields_any; intros i.
      rewrite no_lights. cbn [fogLights].
      eapply yields_bind with (V := fun c => c = black); [apply yields_ret; reflexivity|]. intros acc ->. cbv zeta.
      apply yields_any; intros _. apply yields_ret. apply within_scale; auto.
      rnum. apply exp_frac; lra.
  Qed.
  Lemma media_within ms r tMax : (forall m, In m ms -> passive_medium M m) -> forall b, within M b ->
    yields (mediaLoop rand2 s ms r tMax b) (within M).
  Proof.
    induction ms as [|m ms IH]; intros Hm b Hb; cbn [mediaLoop]; [now apply yields_ret|].
    eapply yields_bind; [apply medium_within; [apply Hm; now left|exact Hb]|].
    intros b' Hb'. apply IH; auto. intros; apply Hm; now right.
  Qed.

  Lemma front_shown objs r : (forall o, In o objs -> In o (all_objects s)) -> forall front,
    (forall m, hMat front = Some m -> passive M m) ->
    yields (frontLoop objs r front) (fun h => forall m, hMat h = Some m -> passive M m).
  Proof.
    induction objs as [|o objs IH]; intros Ho front Hf; cbn [frontLoop]; [now apply yields_ret|].
    eapply yields_bind with (V := fun h => exists q q', oIntersect o q = Val (h, q')).
    - intros c h c' H. unfold intersectRay in H. apply mbind_val in H. destruct H as (q & c1 & E1 & H).
      apply mbind_val in H. destruct H as ([h' q'] & c2 & E2 & H). apply mbind_val in H. destruct H as (u & c3 & E3 & H).
      unfold mret in H. injection H as -> _. unfold mlift in E2. destruct (oIntersect o q) as [p| |] eqn:Eo; cbn in E2; try discriminate.
      injection E2 as -> _. eauto.
    - intros h (q & q' & Hq). apply IH; [intros; apply Ho; now right|].
      intros m. destruct (_ && _)%bool; auto. intros Hm. apply materials_passive. exists o, q, h, q'. split; auto. apply Ho; now left.
  Qed.

  Theorem energy fuel : forall w r, yields (lightField rand2 fuel s w r) (within M).
  Proof.
    induction fuel as [|n IH]; intros w r; cbn [lightField].
    - apply yields_lift. discriminate.
    - apply yields_any; intros d. destruct (_ =? _)%Z; [apply yields_ret, within_black|].
      apply yields_any; intros _. apply yields_any; intros _.
      eapply yields_bind with (V := fun h => forall m, hMat h = Some m -> passive M m).
      { unfold intersectFrontmost. apply yields_any; intros q. apply front_shown.
        - intros o Ho. unfold all_objects. destruct w; cbn in Ho; rewrite !in_app_iff; auto.
        - cbn. intros m Hm. injection Hm as <-. exact I. }
      intros front Hf. eapply yields_bind with (V := within M).
      { destruct (hMat front) as [m|]; cbn [shadeHit]; [apply shade_within; auto|apply yields_lift; discriminate]. }
      intros b Hb. eapply yields_bind; [apply media_within; [exact media_passive|exact Hb]|].
      intros b' Hb'. apply yields_any; intros d'. apply yields_any; intros _. now apply yields_ret.
  Qed.
End Energy.
