(** * Fog in the limit of many passes *)
From Coq Require Import ZArith Reals Bool List Lia Lra Psatz.
From Coquelicot Require Import Coquelicot.
From Verif Require LightProofs.
From Verif Require Import CamProofs.
From Verif Require Import Num NumLaws Outcome GeomModel GeomSpec GeomProofs ColorModel SeqModel SeqSpec SeqProofs
  SamplerModel SamplerSpec SamplerProofs ObjModel TreeModel ObjSpec ObjProofs PrimProofs SceneModel SceneSpec SceneProofs CtxProofs ShadeProofs
  LookSpec LookProofs SceneFacts SceneMore RenderModel RenderSpec RenderProofs RenderFacts EquiSpec EquiProofs EquiMean EquiIntSpec EquiInt
  DiffuseSpec LimitSpec LimitProofs LimitFacts FogSpec FogProofs.
Import ListNotations.
Local Open Scope R_scope.

Definition quantile (density len u : R) : R := -1 / density * ln (1 - u * (1 - clear density len)).

Lemma sample_quantile u density len : randExpInterval (F := R) u density len = (quantile density len u, 1 - clear density len).
Proof.
  unfold randExpInterval; rnum. replace (- density * len) with (- (density * len)) by ring. fold (clear density len). unfold quantile.
  set (C := clear density len). f_equal; [f_equal; f_equal; f_equal|];
  (destruct (Req_dec C 1) as [-> |N]; [unfold Rdiv; rewrite ?Rmult_1_l, Rminus_diag_eq, !Rinv_0 by reflexivity; ring|field; lra]).
Qed.

Lemma clear_lt1 density len : 0 < density -> 0 < len -> 0 < clear density len < 1.
Proof. intros A B. unfold clear. split; [apply exp_pos|]. rewrite <- exp_0. apply exp_increasing. nra. Qed.

Section Law.
  Variables (density a b : R) (f : R -> R).
  Hypothesis Hd : 0 < density.
  Hypothesis Hab : a <= b.
  Hypothesis Hf : forall t, continuous f t.
  Let C := clear density (b - a).
  Definition fogged (u : R) : R := (1 - clear density (b - a)) * f (a + quantile density (b - a) u).

  Lemma C_range : 0 < C <= 1.
  Proof. apply clear_le1; lra. Qed.

  Lemma quantile_continuous u : 0 <= u <= 1 -> continuous (fun u => a + quantile density (b - a) u) u.
  Proof.
    intros Hu. generalize C_range. intros HC. apply (ex_derive_continuous (K := R_AbsRing) (V := R_NormedModule)).
    unfold quantile. fold C. auto_derive. nra.
  Qed.
  Lemma fogged_continuous u : 0 <= u <= 1 -> continuous fogged u.
  Proof.
    intros Hu. unfold fogged. apply (continuous_mult (K := R_AbsRing)); [apply continuous_const|].
    apply (continuous_comp (fun u => a + quantile density (b - a) u) f); [now apply quantile_continuous|apply Hf].
  Qed.
  Lemma fogged_ex : ex_RInt fogged 0 1.
  Proof. apply (ex_RInt_continuous (V := R_CompleteNormedModule)). intros u. rewrite Rmin_left, Rmax_right by lra. apply fogged_continuous. Qed.

  Lemma fogged_integral : RInt fogged 0 1 = scattered density a b f.
  Proof.
    unfold scattered. destruct (Req_dec a b) as [E|N].
    - rewrite (RInt_ext (V := R_CompleteNormedModule) _ (fun _ => 0)).
      + rewrite RInt_const, <- E, RInt_point. unfold scal; cbn; unfold mult; cbn. change (@eq R ((1 - 0) * 0) 0). ring.
      + intros u _. unfold fogged. rewrite <- E. unfold clear. replace (- (density * (a - a))) with 0 by ring. rewrite exp_0. change (@eq R ((1 - 1) * f (a + quantile density (a - a) u)) 0). ring.
    - assert (HC := clear_lt1 density (b - a) Hd ltac:(lra)). fold C in HC.
      set (g := fun t => (1 - clear density (t - a)) / (1 - C)). set (dg := fun t => density * clear density (t - a) / (1 - C)).
      assert (Ga : g a = 0). { unfold g, clear. replace (- (density * (a - a))) with 0 by ring. rewrite exp_0. field. lra. }
      assert (Gb : g b = 1). { unfold g. fold C. field. lra. }
      assert (Gr : forall t, a <= t <= b -> 0 <= g t <= 1).
      { intros t Ht. assert (C <= clear density (t - a) <= 1) as [A B].
        { split; [|apply clear_le1; lra]. unfold C, clear. destruct (Req_dec t b) as [-> |]; [lra|]. left. apply exp_increasing. nra. }
        unfold g. split; [apply Rmult_le_pos; [lra|left; apply Rinv_0_lt_compat; lra]|].
        apply (Rmult_le_reg_r (1 - C)); [lra|]. unfold Rdiv. rewrite Rmult_assoc, Rinv_l by lra. lra. }
      rewrite <- Ga, <- Gb, <- (RInt_comp fogged g dg).
      + apply RInt_ext. intros t _. unfold scal; cbn; unfold mult; cbn. unfold dg, fogged. fold C.
        replace (a + quantile density (b - a) (g t)) with t; [field; lra|].
        unfold quantile. fold C. unfold g. replace (1 - (1 - clear density (t - a)) / (1 - C) * (1 - C)) with (clear density (t - a)) by (field; lra).
        unfold clear. rewrite ln_exp. field. lra.
      + rewrite Rmin_left, Rmax_right by lra. intros t Ht. apply fogged_continuous. now apply Gr.
      + intros t Ht. split.
        * unfold g, dg, clear. auto_derive; [lra|]. unfold minus, plus, opp; cbn. unfold Rdiv. change (- (density * (t + - a))) with (- (density * (t - a))). ring.
        * apply (ex_derive_continuous (K := R_AbsRing) (V := R_NormedModule)). unfold dg, clear. auto_derive. lra.
  Qed.

  Lemma fogged_modulus eps : 0 < eps -> exists del, 0 < del /\ forall x y, 0 <= x <= 1 -> 0 <= y <= 1 -> Rabs (x - y) < del -> Rabs (fogged x - fogged y) < eps.
  Proof.
    intros He. destruct (Heine_cor2 (f := fogged) (a := 0) (b := 1)) with (eps := mkposreal eps He) as (del & H).
    - intros x Hx. apply continuity_pt_filterlim. now apply fogged_continuous.
    - exists del. split; [apply cond_pos|]. intros. now apply H.
  Qed.
  Definition fog_fun (l : list R) : R := match l with u :: _ => fogged u | nil => 0 end.
  Lemma fog_fun_cont d : continuous_on_cube (S d) fog_fun.
  Proof.
    intros eps He. destruct (fogged_modulus eps He) as (del & Hdel & H). exists del. split; [exact Hdel|].
    intros x y [Lx Cx] [Ly Cy] F. destruct x as [|x1 x]; [discriminate Lx|]. destruct y as [|y1 y]; [discriminate Ly|].
    inversion Cx; subst. inversion Cy; subst. inversion F; subst. cbn [fog_fun]. now apply H.
  Qed.
  Lemma iterated_const d c : iterated d (fun _ => c) = c.
  Proof. induction d as [|d IH]; cbn [iterated]; [reflexivity|]. rewrite IH, RInt_const. unfold scal; cbn; unfold mult; cbn. ring. Qed.
  Lemma fog_fun_integral d : cube_integral (S d) fog_fun (scattered density a b f).
  Proof.
    rewrite <- fogged_integral. replace (RInt fogged 0 1) with (iterated (S d) fog_fun); [apply continuous_integral, fog_fun_cont|].
    cbn [iterated]. apply RInt_ext. intros u _. cbn [fog_fun]. apply iterated_const.
  Qed.
End Law.

Lemma fog_law x density a b f : equidistributed 2 x -> 0 < density -> a <= b -> (forall t, continuous f t) ->
  Un_cv (running_mean (fun k => match x k with [u; v] => let '(t, weight) := randExpInterval u density (b - a) in weight * f (a + t) | _ => 0 end))
    (scattered density a b f).
Proof.
  intros Hx Hd Hab Hf. apply (Hx (fun l => match l with [u; v] => let '(t, weight) := randExpInterval u density (b - a) in weight * f (a + t) | _ => 0 end)).
  apply (cube_integral_ext 2 (fog_fun density a b f)); [|now apply fog_fun_integral].
  intros l Hl _. destruct l as [|u [|v [|? ?]]]; try discriminate Hl. rewrite sample_quantile. reflexivity.
Qed.

Lemma below_unique height q T a b a' b' : below height q T a b -> below height q T a' b' -> (a = b /\ a' = b') \/ (a = a' /\ b = b').
Proof.
  intros (A1 & A2 & A3 & A4) (B1 & B2 & B3 & B4). destruct (Req_dec (vy (rDir q)) 0) as [Z|N]; [left; auto|].
  assert (E : forall t, a < t < b <-> a' < t < b') by (intros t; rewrite (A4 N), (B4 N); tauto).
  destruct (Req_dec a b) as [Eab|Nab].
  - left. split; [exact Eab|]. destruct (Req_dec a' b') as [?|Nab']; [assumption|exfalso]. generalize (proj2 (E ((a' + b') / 2)) ltac:(lra)). lra.
  - right. assert (a' < b') by (generalize (proj1 (E ((a + b) / 2)) ltac:(lra)); lra). split.
    + destruct (Rtotal_order a a') as [X|[X|X]]; [exfalso|exact X|exfalso].
      * generalize (proj1 (E ((a + Rmin a' b) / 2))). destruct (Rle_lt_dec a' b) as [Y|Y]; [rewrite Rmin_left|rewrite Rmin_right]; lra.
      * generalize (proj2 (E ((a' + Rmin a b') / 2))). destruct (Rle_lt_dec a b') as [Y|Y]; [rewrite Rmin_left|rewrite Rmin_right]; lra.
    + destruct (Rtotal_order b b') as [X|[X|X]]; [exfalso|exact X|exfalso].
      * generalize (proj2 (E ((b' + Rmax b a') / 2))). destruct (Rle_lt_dec b a') as [Y|Y]; [rewrite Rmax_right|rewrite Rmax_left]; lra.
      * generalize (proj1 (E ((b + Rmax b' a) / 2))). destruct (Rle_lt_dec b' a) as [Y|Y]; [rewrite Rmax_right|rewrite Rmax_left]; lra.
Qed.

Section Pixels.
  Context {G : Type} {NI : NumInf R}.
  Variable rand2 : G -> (R * R) * G.
  Notation ctx := (ctx R G).

  Lemma image_foggy fuel s cam u v k (c : ctx) :
    0 < ninf -> (forall o, In o (all_objects s) -> sound_object o) -> (forall l, In l (sLights s) -> honest_light l) -> List.Forall real_medium (sMedia s) ->
    unit_camera rand2 cam -> sRecursionDepth s = Z.of_nat (S k) -> (S k < fuel)%nat ->
    idle_ctx c -> random_ok rand2 (cSeq c) ->
    exists col c' q t orig, imageFuncOf rand2 fuel s cam u v c = Val (col, c') /\ shoots rand2 cam u v c q /\
      surface_light rand2 s (cSeq c) k All q t orig /\ veils rand2 (drawing (cSeq c) 1) s q t (sMedia s) orig col.
  Proof.
    intros Hi Ho Hl Hm Hc Hd Hf [Hp H0] Hr.
    destruct (shoots_run rand2 cam u v c Hp) as (r & c1 & E1 & E2). set (q := camRay _ _) in *.
    assert (I1 := rayFrom_inv rand2 cam u v c Hp r c1 E1).
    assert (D1 : cDepth c1 = 0%Z) by (rewrite (inv_depth _ _ _ I1); exact H0).
    destruct (lightField_foggy rand2 s (cSeq c) k fuel All r q c1) as (col & c2 & t & orig & E3 & L & V & _); try assumption.
    - apply I1.
    - apply (inv_use _ _ _ I1). cbn; auto.
    - apply (inv_seq _ _ _ I1).
    - apply (Hc u v c q Hp). exists r, c1. auto.
    - exists col. eexists. exists q, t, orig. split.
      + unfold imageFuncOf. unfold mbind at 1. rewrite E1. cbn [obind]. unfold mbind at 1. rewrite E3. cbn [obind].
        unfold mbind, putRay, mret. cbn [obind]. reflexivity.
      + split; [exists r, c1; auto|]. auto.
  Qed.

  Lemma fog_limit fuel s cam aa shifts w h (m : nat -> mem R) p q0 x y Q density height n k T a b O (L : R -> color R) :
    0 < ninf -> (forall o, In o (all_objects s) -> sound_object o) -> (forall l, In l (sLights s) -> honest_light l) ->
    sMedia s = [MedFog density height n] -> 0 < density -> sRecursionDepth s = Z.of_nat (S k) -> (S k < fuel)%nat ->
    unit_camera rand2 cam -> (forall g, 0 <= fst (fst (rand2 g)) <= 1 /\ 0 <= snd (fst (rand2 g)) <= 1) ->
    (0 <= w)%Z -> (0 <= h)%Z -> Z.of_nat (length shifts) = (w * h)%Z -> in_image w h p -> sample_pos aa shifts w h p 0 = Val (q0, (x, y)) ->
    renderings rand2 fuel s cam aa shifts w h m ->
    (forall (c : ctx) r, pool_ok c -> shoots rand2 cam x y c r -> r = Q) ->
    (forall sq t orig, surface_light rand2 s sq k All Q t orig -> t = T /\ orig = O) ->
    below height Q T a b ->
    (forall sq t total, a <= t <= b -> lits rand2 (drawing sq 1) s (along (rStart Q) (rDir Q) (t - tinyR)) (some_lights n (sLights s)) total -> total = L t) ->
    (forall t, continuous (fun t => cR (L t)) t) -> (forall t, continuous (fun t => cG (L t)) t) -> (forall t, continuous (fun t => cB (L t)) t) ->
    tends_to (fun k => imagef (m k) p)
      (add_color (scaled (clear density (b - a)) O)
        (Color (scattered density a b (fun t => cR (L t))) (scattered density a b (fun t => cG (L t))) (scattered density a b (fun t => cB (L t))))).
  Proof.
    intros Hi Ho Hli Hm Hden Hd Hf Hc Hr Hw Hh Hl Hp E0 Hren Hq HS HB HL C1 C2 C3.
    set (f := fun l : list R => match l with u :: _ => add_color (scaled (clear density (b - a)) O) (scaled (1 - clear density (b - a)) (L (a + quantile density (b - a) u))) | nil => no_light end).
    assert (Hab : a <= b) by (destruct HB; lra).
    apply (pixel_limit rand2 fuel s cam aa shifts w h m p q0 x y f); auto.
    - intros c l Hic Hg Hu.
      destruct (image_foggy fuel s cam x y k c Hi Ho Hli) as (col & c' & q & t & orig & E & Sh & SL & V); auto.
      { rewrite Hm. repeat constructor. exact Hden. }
      { exact (in_unit_random rand2 _ _ Hr Hg Hu). }
      exists c'. rewrite E. f_equal. f_equal.
      assert (q = Q) by (apply (Hq c q); [apply Hic|exact Sh]). subst q. destruct (HS _ _ _ SL) as [-> ->].
      rewrite Hm in V. inversion V as [|? ? ? b1 ? V1 V2]; subst. inversion V2; subst. clear V V2.
      inversion V1 as [|? ? ? a' b' cc cc' u v t' total HB' [Hcs Hcd] Hgen Hu01 Ht' Hquant HT]; subst. clear V1.
      destruct Hg as (u1 & v1 & u2 & v2 & -> & G1 & G2).
      assert (u = u1).
      { revert Hgen. unfold generate2. rewrite Hcd, Hcs. cbn [Z.eqb]. rewrite G1. cbn [omap]. intros X.
        apply (f_equal (fun o => match o with Val r => fst (fst r) | _ => u1 end)) in X. cbn [fst] in X. now symmetry. }
      subst u1. unfold f.
      destruct (below_unique _ _ _ _ _ _ _ HB HB') as [[Ea Eb]|[Ea Eb]].
      + subst b b'. assert (forall z, clear density (z - z) = 1) as Z.
        { intros z. unfold clear. replace (- (density * (z - z))) with 0 by ring. apply exp_0. }
        rewrite !Z. unfold add_color, scaled; cbn [cR cG cB]. f_equal; ring.
      + subst a' b'. f_equal. f_equal. rewrite (HL (cSeq c) t' total) by auto. f_equal.
        unfold quantile. rewrite <- Hquant. replace (1 - (1 - clear density (t' - a))) with (clear density (t' - a)) by ring.
        unfold clear. rewrite ln_exp. field. lra.
    - assert (K : forall pr : color R -> R, (forall a b, pr (add_color a b) = pr a + pr b) -> (forall k a, pr (scaled k a) = k * pr a) ->
        (forall t, continuous (fun t => pr (L t)) t) ->
        cube_integral 4 (fun l => pr (f l)) (clear density (b - a) * pr O + scattered density a b (fun t => pr (L t)))).
      { intros pr P1 P2 Cp. apply (cube_integral_ext 4 (fun l => clear density (b - a) * pr O + fog_fun density a b (fun t => pr (L t)) l)).
        - intros l H4 _. destruct l as [|u l]; [discriminate H4|]. unfold f. cbn [fog_fun]. rewrite P1, !P2. unfold fogged. ring.
        - assert (CC : continuous_on_cube 4 (fun l => clear density (b - a) * pr O + fog_fun density a b (fun t => pr (L t)) l)).
          { intros eps He. destruct (fog_fun_cont density a b (fun t => pr (L t)) Hden Hab Cp 3 eps He) as (del & Hdel & H). exists del. split; [exact Hdel|].
            intros l l' Hl1 Hl2 F. match goal with |- Rabs ?e < _ => replace e with (fog_fun density a b (fun t => pr (L t)) l - fog_fun density a b (fun t => pr (L t)) l') by ring end. now apply H. }
          replace (clear density (b - a) * pr O + scattered density a b (fun t => pr (L t))) with (iterated 4 (fun l => clear density (b - a) * pr O + fog_fun density a b (fun t => pr (L t)) l)); [now apply continuous_integral|].
          rewrite <- (fogged_integral density a b (fun t : R => pr (L t)) Hden Hab Cp). cbn [iterated].
          transitivity (RInt (fun u => plus (clear density (b - a) * pr O) (fogged density a b (fun t => pr (L t)) u)) 0 1).
          + apply RInt_ext. intros u _. cbn [fog_fun]. exact (iterated_const 3 _).
          + rewrite (RInt_plus (V := R_CompleteNormedModule)); [|apply ex_RInt_const|now apply fogged_ex].
            rewrite RInt_const. unfold scal, plus; cbn; unfold mult; cbn. f_equal. ring. }
      split; [|split]; cbn [cR cG cB add_color scaled]; apply K; auto; reflexivity.
  Qed.
End Pixels.

Lemma three_squares x y z : x * x + y * y + z * z = 0 -> x = 0 /\ y = 0 /\ z = 0.
Proof.
  intros E. generalize (Rle_0_sqr x) (Rle_0_sqr y) (Rle_0_sqr z). unfold Rsqr. intros.
  repeat split; apply Rsqr_0_uniq; unfold Rsqr; lra.
Qed.
Lemma dist2_zero (a b : pt) : dist2 a b = 0 -> b = a.
Proof.
  destruct a as [a1 a2 a3], b as [b1 b2 b3]. unfold dist2, norm2, dot3, minus3. cbn [vx vy vz]. intros E. apply three_squares in E.
  apply vec_eq; cbn [vx vy vz]; lra.
Qed.

(** ** A point light in fog under a clear sky *)
Section PointLight.
  Context {G : Type} {NI : NumInf R}.
  Variable rand2 : G -> (R * R) * G.
  Hypothesis Hinf : 10 ^ 99 <= ninf.
  Variables (sky : texture R) (L : pt -> color R) (power : color R) (pos : pt) (density height : R).
  Hypothesis Hsky : forall w, sky w = Val (L w).
  Hypothesis Hden : 0 < density.
  Definition lampScene : scene R := newScene 1 [MedFog density height 1] [pointLight power pos] [backdrop (Some (MFlat sky))].

  Lemma lamp_sound o : In o (all_objects lampScene) -> sound_object o.
  Proof.
    destruct (sound_balls NI) as [SB _].
    assert (forall p, definite p (MFlat sky)) as D1 by (intros p; cbn; exists (L p); apply Hsky).
    unfold all_objects, lampScene, newScene, pointLight. cbn [sObjects sObjectsAndLights sObjectsMinusLights map app lightObject].
    assert (N : forall h : hit R (material R), h = noHit -> 0 < hT h -> False) by (intros h -> Hp; unfold noHit in Hp; cbn [hT] in Hp; rnum; lra).
    intros H. repeat (destruct H as [<-|H]; [first [apply SB; assumption|
      intros q Hq; eexists; split; [reflexivity|]; intros Hp; exfalso; exact (N _ eq_refl Hp)]|]). destruct H.
  Qed.

  Lemma lamp_surface sq S D t orig : surface_light rand2 lampScene sq 0 All (Ray S D) t orig -> t = 10 ^ 99 /\ orig = L D.
  Proof.
    intros (hits & Hh & H). unfold lampScene, newScene, pointLight in Hh. cbn [whoObjects sObjectsAndLights map app lightObject] in Hh.
    inversion Hh as [|? h1 ? hs H1 H2]; subst. inversion H2 as [|? h2 ? hs' H3 H4]; subst. inversion H4; subst. clear H2 H4 Hh.
    assert (E1 : Hit (IZR (10 ^ 99)) D D (Some (MFlat sky)) = h1) by (unfold backdrop, simpleObj in H1; cbn [oIntersect] in H1; injection H1; auto).
    assert (E2 : noHit = h2) by (unfold plainObject in H3; cbn [oIntersect] in H3; injection H3; auto).
    clear H1 H3. subst h1 h2. destruct H as [(Hfar & _)|(h & m & Hl & _ & -> & Hm & Hk)].
    - exfalso. specialize (Hfar _ (or_introl eq_refl)). cbn [hT] in Hfar. rewrite T99 in Hfar. specialize (Hfar P99). lra.
    - destruct (last_nearest_in _ _ Hl) as [[<-|[<-|[]]] Hpos].
      + cbn [hT hMat] in *. injection Hm as <-. cbn [hLocal] in Hk. inversion Hk as [|tex' c E| | | | | | | | | |]; subst. rewrite Hsky in E. injection E as <-. split; [exact T99|reflexivity].
      + discriminate Hm.
  Qed.

  (** light of the lamp at distance [t] *)
  Definition lamp_light (S D : pt) (t : R) (c : color R) : color R := scaled (/ (4 * PI * dist2 pos (along S D (t - tinyR)))) c.

  Lemma lamp_lit (here : ctx R G -> Prop) p total : p <> pos -> dist pos p < 10 ^ 99 ->
    lits rand2 here lampScene p (some_lights 1 (sLights lampScene)) total -> total = scaled (/ (4 * PI * dist2 pos p)) power.
  Proof.
    intros Hne Hfar H.
    assert (Hx : dist2 pos p <> 0).
    { intros E. apply Hne. now apply dist2_zero. }
    assert (Hc : forall (c c' : ctx R G) lpos intens, lightSample rand2 (pointLight power pos) p c = Val (lpos, intens, c') -> lpos = pos /\ intens = scaled (/ (4 * PI * dist2 pos p)) power).
    { intros c c' lpos intens E. unfold pointLight in E. cbn [lightSample] in E. unfold mret in E.
      assert (E1 := f_equal (fun o => match o with Val r => fst (fst r) | _ => lpos end) E). assert (E2 := f_equal (fun o => match o with Val r => snd (fst r) | _ => intens end) E).
      cbn [fst snd] in E1, E2. split; [now symmetry|]. rewrite <- E2. unfold scaled, clmul, pointIntensity. rewrite LightProofs.vsub_minus, LightProofs.vlen2_norm2.
      replace (norm2 (minus3 p pos)) with (dist2 pos p) by (unfold dist2, norm2, dot3, minus3; cbn [vx vy vz]; ring). rnum.
      generalize PI_neq0. intros HP. f_equal; field; auto. }
    unfold lampScene, newScene, some_lights in H. cbn [sLights Z.ltb Z.compare Z.to_nat Pos.to_nat Pos.iter_op firstn] in H.
    inversion H as [|? ? ? b Hl Hn]; subst. inversion Hn; subst. rewrite add_none_r.
    assert (HH : forall d hits, hits_of (sObjects lampScene) (Ray p d) hits -> exists h, hits = [h] /\ hT h = 10 ^ 99).
    { intros d hits Hh. unfold lampScene, newScene in Hh. cbn [sObjects] in Hh. inversion Hh as [|? h1 ? hs H1 H2]; subst. inversion H2; subst.
      exists h1. split; [reflexivity|]. unfold backdrop, simpleObj in H1. cbn [oIntersect] in H1. injection H1 as <-. cbn [hT]. exact T99. }
    assert (HB : forall h : hit R (material R), hT h = 10 ^ 99 -> ~ between (dist pos p) h).
    { intros h Eh [_ B]. apply Rltb_true in B. rewrite Eh in B. lra. }
    inversion Hl as [c c' lpos Hc0 E|c c' lpos intens hits Hc0 E Hh (h & Hin & B & _)|c c' lpos intens hits fs Hc0 E Hh HF]; subst.
    - apply Hc in E. destruct E as [_ <-]. reflexivity.
    - apply Hc in E. destruct E as [-> ->]. destruct (HH _ _ Hh) as (h' & -> & Eh). destruct Hin as [<-|[]]. exfalso. exact (HB h' Eh B).
    - apply Hc in E. destruct E as [-> ->]. destruct (HH _ _ Hh) as (h' & -> & Eh). inversion HF as [|? ? ? _ HF'|? ? ? ? B]; subst; [|exfalso; exact (HB h' Eh B)].
      inversion HF'; subst. reflexivity.
  Qed.

  Lemma lamp_limit fuel cam aa shifts w h (m : nat -> mem R) p q0 x y S D :
    (1 < fuel)%nat -> unit_camera rand2 cam -> (forall g, 0 <= fst (fst (rand2 g)) <= 1 /\ 0 <= snd (fst (rand2 g)) <= 1) ->
    (0 <= w)%Z -> (0 <= h)%Z -> Z.of_nat (length shifts) = (w * h)%Z -> in_image w h p -> sample_pos aa shifts w h p 0 = Val (q0, (x, y)) ->
    renderings rand2 fuel lampScene cam aa shifts w h m ->
    (forall (c : ctx R G) r, pool_ok c -> shoots rand2 cam x y c r -> r = Ray S D) -> 0 < vy D -> vy S < height ->
    let b := (height - vy S) / vy D in
    b < 10 ^ 99 -> (forall t, - tinyR <= t <= b -> dist pos (along S D t) < 10 ^ 99) -> (forall t, along S D t <> pos) ->
    let air := scattered density 0 b (fun t => / (4 * PI * dist2 pos (along S D (t - tinyR)))) in
    tends_to (fun k => imagef (m k) p) (add_color (scaled (clear density b) (L D)) (scaled air power)).
  Proof.
    intros Hf Hc Hr Hw Hh Hl Hp E0 Hren Hq HD HS b Hb Hnear Hoff air.
    assert (Hb0 : 0 < b) by (apply Rdiv_lt_0_compat; lra).
    assert (Kb : b * vy D = height - vy S) by (unfold b; field; lra).
    assert (Cont : forall k t, continuous (fun t => / (4 * PI * dist2 pos (along S D (t - tinyR))) * k) t).
    { intros k t. apply (ex_derive_continuous (K := R_AbsRing) (V := R_NormedModule)).
      assert (N : 4 * PI * dist2 pos (along S D (t - tinyR)) <> 0).
      { intros E. apply Rmult_integral in E. generalize PI_neq0. intros HP. destruct E as [E|E]; [lra|]. apply (Hoff (t - tinyR)). now apply dist2_zero. }
      revert N. unfold dist2, norm2, dot3, minus3, along, plus3, scal3. cbn [vx vy vz]. intros N. auto_derive. exact N. }
    assert (T := fog_limit rand2 fuel lampScene cam aa shifts w h m p q0 x y (Ray S D) density height 1 0 (10 ^ 99) 0 b (L D) (fun t => lamp_light S D t power)).
    assert (Ex : forall k, scattered density 0 b (fun t => / (4 * PI * dist2 pos (along S D (t - tinyR))) * k) = air * k).
    { intros k. unfold air, scattered. rewrite (Rmult_comm _ k). transitivity (RInt (fun t => scal k (density * clear density (t - 0) * / (4 * PI * dist2 pos (along S D (t - tinyR))))) 0 b).
      - apply RInt_ext. intros t _. generalize (/ (4 * PI * dist2 pos (along S D (t - tinyR)))) (clear density (t - 0)). intros X Y.
        change (@eq R (density * Y * (X * k)) (k * (density * Y * X))). ring.
      - rewrite (RInt_scal (V := R_CompleteNormedModule)); [reflexivity|].
        apply (ex_RInt_continuous (V := R_CompleteNormedModule)). intros z _. apply (continuous_mult (K := R_AbsRing)).
        + apply (ex_derive_continuous (K := R_AbsRing) (V := R_NormedModule)). unfold clear. auto_derive. exact I.
        + apply (continuous_ext (fun t => / (4 * PI * dist2 pos (along S D (t - tinyR))) * 1)); [intros z'; apply Rmult_1_r|apply Cont]. }
    unfold lamp_light in T. cbn [cR cG cB scaled] in T. rewrite !Ex, Rminus_0_r in T. cbn [rStart rDir] in T.
    apply T; clear T; auto.
    - generalize P99; lra.
    - exact lamp_sound.
    - intros l [<-|[]]. exact I.
    - intros sq t orig SL. exact (lamp_surface sq S D t orig SL).
    - split; [lra|]. split; [lra|]. split; cbn [rDir]; [lra|]. intros _ t. cbn [rStart]. unfold along, plus3, scal3. cbn [vx vy vz].
      split; intros [A B]; split; nra.
    - intros sq t total Ht HL. apply (lamp_lit (drawing sq 1)); [apply Hoff|apply Hnear; unfold tinyR; lra|exact HL].
  Qed.
End PointLight.

Lemma lamp_example (NI : NumInf R) (rand2 : unit -> (R * R) * unit) fov cam su sv density m : 10 ^ 99 <= ninf -> 0 < density ->
  (forall g, 0 <= fst (fst (rand2 g)) <= 1 /\ 0 <= snd (fst (rand2 g)) <= 1) -> 0 < fov < PI -> projective fov = Val cam ->
  renderings rand2 2 (newScene 1 [MedFog density 4 1] [pointLight (Color 1 2 3) (Vec 3 0 0)] [backdrop (Some (MFlat (fun _ => Val (Color 8 8 8))))])
    (camYawPitchRoll cam 0 (PI / 2) 0) false [(su, sv)] 1 1 m ->
  let air := RInt (fun t => density * exp (- (density * t)) / (4 * PI * (9 + (t - tinyR) * (t - tinyR)))) 0 4 in
  let through := exp (- (density * 4)) in
  tends_to (fun k => imagef (m k) (0, 0)%Z) (Color (through * 8 + air) (through * 8 + air * 2) (through * 8 + air * 3)).
Proof.
  intros Hi Hden Hr Hf Hc Hm air through. destruct (one_pixel_pos su sv) as (q0 & E0).
  destruct (pinhole rand2 fov Hf) as (cam' & Ec & Sh). rewrite Hc in Ec. injection Ec as <-.
  assert (Ct : 0 < / (2 * tan (fov / 2))).
  { apply Rinv_0_lt_compat. generalize (tan_half_pos fov Hf). lra. }
  assert (Mv : forall u v c q, pool_ok c -> shoots rand2 cam u v c q -> shoots rand2 (camYawPitchRoll cam 0 (PI / 2) 0) u v c
    (Ray (plus3 (camPos cam) (turn 0 (PI / 2) 0 (minus3 (rStart q) (camPos cam)))) (turn 0 (PI / 2) 0 (rDir q)))).
  { intros u v c q P S. exact (moved_camera rand2 cam [Turn 0 (PI / 2) 0] u v c q P S). }
  assert (P0 : camPos cam = zero3).
  { revert Hc. unfold projective. rewrite proj_cam by (rnum; lra). intros Ec. injection Ec as <-. reflexivity. }
  assert (X : forall c r, pool_ok c -> shoots rand2 (camYawPitchRoll cam 0 (PI / 2) 0) (/ 2) (/ 2) c r -> r = Ray (Vec 0 0 0) (Vec 0 1 0)).
  { intros c r P S. assert (S' := Mv _ _ c _ P (Sh (/ 2) (/ 2) c P)). rewrite (pinhole_center _ Ct), P0 in S'. rewrite (shoots_fun _ _ _ _ _ _ _ S S').
    unfold turn, minus3, plus3, zero3; cbn [rStart rDir vx vy vz]. rewrite sin_PI2, cos_PI2, sin_0, cos_0. f_equal; apply vec_eq; cbn [vx vy vz]; ring. }
  assert (U : unit_camera rand2 (camYawPitchRoll cam 0 (PI / 2) 0)).
  { intros u v c q P S. assert (S' := Mv _ _ c _ P (Sh u v c P)). rewrite (shoots_fun _ _ _ _ _ _ _ S S'). cbn [rDir].
    unfold norm2. rewrite turn_dot. apply unit_of_norm2'. cbn [vz]. lra. }
  assert (T := lamp_limit rand2 Hi (fun _ => Val (Color 8 8 8)) (fun _ => Color 8 8 8) (Color 1 2 3) (Vec 3 0 0) density 4 (fun _ => eq_refl) Hden
    2 (camYawPitchRoll cam 0 (PI / 2) 0) false [(su, sv)] 1 1 m (0, 0)%Z q0 (/ 2) (/ 2) (Vec 0 0 0) (Vec 0 1 0)).
  cbn [vx vy vz] in T. cbv zeta in T. replace ((4 - 0) / 1) with 4 in T by field.
  replace (scattered density 0 4 (fun t => / (4 * PI * dist2 (Vec 3 0 0) (along (Vec 0 0 0) (Vec 0 1 0) (t - tinyR))))) with air in T.
  - unfold clear in T. fold through in T. replace (Color (through * 8 + air) (through * 8 + air * 2) (through * 8 + air * 3)) with
      (add_color (scaled through (Color 8 8 8)) (scaled air (Color 1 2 3))) by (unfold add_color, scaled; cbn [cR cG cB]; f_equal; ring).
    assert (B99 : 100 < 10 ^ 99) by (assert (10 ^ 3 <= 10 ^ 99) by (apply Rle_pow; [lra|lia]); lra).
    apply T; auto; try lia; try lra.
    + repeat split; cbn; lia.
    + intros t Ht. apply Rle_lt_trans with 100; [|exact B99]. unfold dist, norm. rewrite <- (sqrt_square 100) by lra. apply sqrt_le_1_alt.
      unfold norm2, dot3, minus3, along, plus3, scal3; cbn [vx vy vz]. unfold tinyR in Ht. nra.
    + intros t E. apply (f_equal vx) in E. unfold along, plus3, scal3 in E; cbn [vx vy vz] in E. lra.
  - unfold air, scattered. apply RInt_ext. intros t _. unfold clear, Rdiv. rewrite Rminus_0_r. f_equal. f_equal. f_equal.
    unfold dist2, norm2, dot3, minus3, along, plus3, scal3; cbn [vx vy vz]. ring.
Qed.

(** the sky through exponential fog, straight up *)
Lemma haze_example {G} {NI : NumInf R} (rand2 : G -> (R * R) * G) density i (c : ctx R G) : 10 ^ 99 <= ninf ->
  pool_ok c -> in_use c i -> cDepth c = 0%Z -> random_ok rand2 (cSeq c) -> nth_error (cHeap c) i = Some (Ray (Vec 0 0 0) (Vec 0 1 0)) ->
  exists c', lightField rand2 2 (newScene 1 [MedExpFog density (Color 1 1 1) 4] nil [backdrop (Some (MFlat (fun _ => Val (Color 0 0 8))))]) All i c =
    Val (Color (1 - exp (- (density * 4))) (1 - exp (- (density * 4))) (1 + 7 * exp (- (density * 4))), c').
Proof.
  intros Hi Hp Hu Hd Hr Hq. set (s := newScene _ _ _ _).
  assert (Hs : forall o, In o (all_objects s) -> sound_object o).
  { destruct (sound_balls NI) as [SB _]. unfold all_objects, s, newScene. cbn [sObjects sObjectsAndLights sObjectsMinusLights map app].
    intros o H. repeat (destruct H as [<-|H]; [apply SB; intros p; cbn; eexists; reflexivity|]). destruct H. }
  destruct (lightField_foggy rand2 s (cSeq c) 0 2 All i (Ray (Vec 0 0 0) (Vec 0 1 0)) c) as (col & c' & t & orig & E & SL & V & _); auto.
  - generalize P99; lra.
  - intros l [].
  - repeat constructor.
  - unfold norm2, dot3; cbn [rDir vx vy vz]. ring.
  - exists c'. rewrite E. f_equal. f_equal.
    destruct SL as (hits & Hh & H). unfold s, newScene in Hh. cbn [whoObjects sObjectsAndLights map app] in Hh.
    inversion Hh as [|? h1 ? hs H1 H2]; subst. inversion H2; subst. clear H2 Hh.
    assert (E1 : Hit (IZR (10 ^ 99)) (Vec 0 1 0) (Vec 0 1 0) (Some (MFlat (fun _ => Val (Color 0 0 8)))) = h1) by (unfold backdrop, simpleObj in H1; cbn [oIntersect rDir] in H1; injection H1; auto).
    clear H1. subst h1.
    assert (t = 10 ^ 99 /\ orig = Color 0 0 8) as [-> ->].
    { destruct H as [(Hfar & _)|(h & m & Hl & _ & -> & Hm & Hk)].
      - exfalso. specialize (Hfar _ (or_introl eq_refl)). cbn [hT] in Hfar. rewrite T99 in Hfar. specialize (Hfar P99). lra.
      - destruct (last_nearest_in _ _ Hl) as [[<-|[]] Hpos]. cbn [hT hMat] in *. injection Hm as <-. cbn [hLocal] in Hk.
        inversion Hk as [|tex' cc Ec| | | | | | | | | |]; subst. split; [exact T99|]. now injection Ec as <-. }
    unfold s, newScene in V. cbn [sMedia] in V. inversion V as [|? ? ? b1 ? V1 V2]; subst. inversion V2; subst. clear V V2.
    inversion V1 as [? ? ? a b HB|]; subst. clear V1.
    assert (B0 : below 4 (Ray (Vec 0 0 0) (Vec 0 1 0)) (10 ^ 99) 0 4).
    { assert (10 ^ 1 <= 10 ^ 99) by (apply Rle_pow; [lra|lia]). split; [lra|]. split; [lra|]. split; cbn [rDir vy]; [lra|]. intros _ t.
      cbn [rStart rDir]. unfold along, plus3, scal3; cbn [vx vy vz]. lra. }
    destruct (below_unique _ _ _ _ _ _ _ B0 HB) as [[X _]|[<- <-]]; [lra|].
    unfold clear. rewrite Rminus_0_r. unfold add_color, scaled; cbn [cR cG cB]. f_equal; ring.
Qed.
