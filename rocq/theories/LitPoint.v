(** * A matte ball under a sky, lit by a point light *)
From Coq Require Import ZArith Reals Bool List Lia Lra Psatz.
From Coquelicot Require Import Coquelicot.
From Verif Require CamProofs.
From Verif Require Import Num NumLaws Outcome GeomModel GeomSpec GeomProofs ColorModel SeqModel SeqSpec HaltonProofs SeqProofs
  SamplerModel SamplerSpec SamplerProofs PoolProofs SamplerNum SamplerFacts ObjModel TreeModel ObjSpec ObjProofs PrimProofs SceneModel SceneSpec SceneProofs CtxProofs
  LightProofs LookSpec LookProofs SceneFacts SceneMore RenderModel RenderSpec RenderProofs RenderFacts EquiSpec EquiProofs EquiMean EquiIntSpec EquiInt
  DiffuseSpec DiffuseProofs DiffuseFrame LimitSpec LimitProofs LimitFacts EquiAdd LitFacts LampSpec LampProofs LitSpec LampSound LitLamp LitArea.
Import ListNotations.
Local Open Scope R_scope.

Lemma constant_integral d k : cube_integral d (fun _ => k) k.
Proof.
  assert (C : continuous_on_cube d (fun _ => k)).
  { intros eps He. exists 1. split; [lra|]. intros. rewrite Rminus_diag_eq, Rabs_R0 by reflexivity. exact He. }
  assert (E : iterated d (fun _ => k) = k).
  { clear C. induction d as [|d IH]; cbn [iterated]; [reflexivity|].
    rewrite (RInt_ext (V := R_CompleteNormedModule) _ (fun _ => k)) by (intros; apply IH). rewrite RInt_const. unfold scal; cbn; unfold mult; cbn. ring. }
  assert (T := continuous_integral d _ C). rewrite E in T. exact T.
Qed.

Section Point.
  Context {G : Type} {NI : NumInf R}.
  Variable rand2 : G -> (R * R) * G.
  Hypothesis Hinf : 10 ^ 99 <= ninf.
  Variables (tex sky : texture R) (diam : R) (center : pt) (power : color R) (pos : pt) (L : pt -> color R).
  Hypothesis Hdiam : 0 < diam.
  Hypothesis Htex : forall p, exists c, tex p = Val c.
  Hypothesis Hsky : forall w, sky w = Val (L w).
  Definition pointScene : scene R := newScene 2 nil [pointLight power pos] [sphere (Some (MMatte tex)) diam center; backdrop (Some (MFlat sky))].
  Let P99 : 0 < 10 ^ 99.
  Proof. apply pow_lt; lra. Qed.

  Lemma point_sound o : In o (all_objects pointScene) -> sound_object o.
  Proof.
    destruct (sound_balls NI) as [SB SS].
    assert (forall p, definite p (MFlat sky)) as D1 by (intros p; cbn; exists (L p); apply Hsky).
    assert (forall p, definite p (MMatte tex)) as D2 by (intros p; cbn; apply Htex).
    assert (S1 : sound_object (lightObject (pointLight power pos))).
    { intros q Hq. eexists. split; [reflexivity|]. cbn. rnum. intros H; exfalso; lra. }
    assert (S2 : sound_object (blackened (lightObject (pointLight power pos)))).
    { intros q Hq. eexists. split; [reflexivity|]. cbn. rnum. intros H; exfalso; lra. }
    unfold all_objects, pointScene, newScene. cbn [sObjects sObjectsAndLights sObjectsMinusLights map app].
    intros H. repeat (destruct H as [<-|H]; [first [assumption|apply SS; assumption|apply SB; assumption]|]). destruct H.
  Qed.

  Lemma sees_sky_by_lamp sq S d b : norm2 d = 1 -> (forall t, 0 < t -> dist2 (along S d t) center <> (diam / 2)²) ->
    light_at rand2 pointScene sq 1 MinusLights (Ray S d) b -> b = L d.
  Proof.
    intros Hd Hmiss (hits & Hh & H).
    assert (Hh2 : hits_of [sphere (Some (MMatte tex)) diam center; backdrop (Some (MFlat sky)); blackened (lightObject (pointLight power pos))] (Ray S d) hits) by exact Hh.
    inversion Hh2 as [|? h1 ? hs H1 H2]; subst. inversion H2 as [|? h2 ? hs' H3 H4]; subst. inversion H4 as [|? h3 ? hs'' H5 H6]; subst. inversion H6; subst. clear H2 H4 H6 Hh Hh2.
    assert (Z1 := ball_missed tex diam center Hdiam _ _ _ Hd Hmiss H1).
    assert (E2 : Hit (IZR (10 ^ 99)) d d (Some (MFlat sky)) = h2) by (unfold backdrop, simpleObj in H3; cbn [oIntersect] in H3; injection H3; auto).
    assert (Z3 : hT h3 = 0) by (cbn in H5; injection H5 as <-; reflexivity).
    clear H1 H3 H5. subst h2. destruct H as [[Hfar _]|(h & m & Hl & _ & Hm & Hk)].
    - exfalso. specialize (Hfar _ (or_intror (or_introl eq_refl))). cbn [hT] in Hfar. rewrite T99 in Hfar. specialize (Hfar P99). lra.
    - destruct (last_nearest_in _ _ Hl) as [[<-|[<-|[<-|[]]]] Hpos].
      + exfalso. unfold positive in Hpos. apply Rltb_true in Hpos. rewrite Z1 in Hpos. rnum. lra.
      + cbn [hMat] in Hm. injection Hm as <-. cbn [hLocal] in Hk. inversion Hk as [|tex' c E| | | | | | | | | |]; subst. rewrite Hsky in E. injection E as <-. reflexivity.
      + exfalso. unfold positive in Hpos. apply Rltb_true in Hpos. rewrite Z3 in Hpos. rnum. lra.
  Qed.

  Lemma point_direct sq n total : norm2 n = 1 ->
    let x := plus3 (plus3 center (scal3 (diam / 2) n)) (scal3 tinyR n) in x <> pos -> dist pos x <= 10 ^ 99 ->
    direct rand2 (drawing sq 1) [sphere (Some (MMatte tex)) diam center; backdrop (Some (MFlat sky))] x n [pointLight power pos] total ->
    total = scaled (Rmax 0 (dot3 (unit_of (minus3 pos x)) n) / (4 * PI * (dist x pos * dist x pos))) power.
  Proof.
    intros Hn x Hne Hdist Hd.
    inversion Hd as [|? ? a rest Hc Hr]; subst. inversion Hr; subst. clear Hd Hr.
    assert (add_color a no_light = a) as -> by (destruct a as [ar ag ab]; unfold add_color, no_light; cbn [cR cG cB]; f_equal; ring).
    assert (Hs : forall (c c' : ctx R G) lpos intens, lightSample rand2 (pointLight power pos) x c = Val ((lpos, intens), c') ->
      lpos = pos /\ intens = scaled (/ (4 * PI * (dist x pos * dist x pos))) power).
    { intros c c' lpos intens E. rewrite point_light_sample in E by exact Hne. injection E as <- <- _. auto. }
    assert (Hmiss : forall hits, 0 < dot3 (unit_of (minus3 pos x)) n ->
      hits_of [sphere (Some (MMatte tex)) diam center; backdrop (Some (MFlat sky))] (Ray x (unit_of (minus3 pos x))) hits ->
      exists h1 h2, hits = [h1; h2] /\ hT h1 = 0 /\ hT h2 = 10 ^ 99).
    { intros hits Hp Hh. inversion Hh as [|? h1 ? hs H1 H2]; subst. inversion H2 as [|? h2 ? hs' H3 H4]; subst. inversion H4; subst. exists h1, h2. split; [reflexivity|].
      assert (norm2 (unit_of (minus3 pos x)) = 1).
      { apply unit_of_norm2. intros E. rewrite E in Hp. unfold unit_of, dot3, scal3, zero3 in Hp. cbn [vx vy vz] in Hp. lra. }
      split.
      - eapply (ball_missed tex diam center Hdiam); [exact H| |exact H1]. apply (leaving_ball diam center Hdiam n tinyR); auto; [lra|]. unfold tinyR. lra.
      - assert (E2 : Hit (IZR (10 ^ 99)) (unit_of (minus3 pos x)) (unit_of (minus3 pos x)) (Some (MFlat sky)) = h2) by (unfold backdrop, simpleObj in H3; cbn [oIntersect] in H3; injection H3; auto).
        rewrite <- E2. cbn [hT]. apply T99. }
    inversion Hc as [c c' lpos Hh Hl|c c' lpos intens Hh Hl Hb|c c' lpos intens hits Hh Hl Hf Hi Hsh|c c' lpos intens hits fs Hh Hl Hf Hi Hfi]; subst.
    - destruct (Hs _ _ _ _ Hl) as (-> & Ei). symmetry. transitivity (scaled (Rmax 0 (dot3 (unit_of (minus3 pos x)) n)) (scaled (/ (4 * PI * (dist x pos * dist x pos))) power)).
      + unfold scaled; cbn [cR cG cB]. unfold Rdiv. f_equal; ring.
      + rewrite <- Ei. unfold scaled, no_light; cbn [cR cG cB]. f_equal; ring.
    - destruct (Hs _ _ _ _ Hl) as (-> & ->). rewrite Rmax_left by exact Hb. unfold scaled, no_light. unfold Rdiv. f_equal; ring.
    - exfalso. destruct (Hs _ _ _ _ Hl) as (-> & ->). destruct (Hmiss _ Hf Hi) as (h1 & h2 & -> & Z1 & Z2). destruct Hsh as (h & [<-|[<-|[]]] & (B1 & B2) & _).
      + rewrite Z1 in B1. apply Rltb_true in B1. rnum. lra.
      + rewrite Z2 in B2. apply Rltb_true in B2. rnum. lra.
    - destruct (Hs _ _ _ _ Hl) as (-> & ->). destruct (Hmiss _ Hf Hi) as (h1 & h2 & -> & Z1 & Z2).
      inversion Hfi as [|? ? ? _ Hfi'|? ? ? ? (B1 & _)]; subst.
      + inversion Hfi' as [|? ? ? _ Hfi''|? ? ? ? (B1 & B2)]; subst.
        * inversion Hfi''; subst. cbn [product3 fold_right]. rewrite Rmax_right by lra. unfold scaled; cbn [cR cG cB]. unfold Rdiv. f_equal; ring.
        * exfalso. rewrite Z2 in B2. apply Rltb_true in B2. rnum. lra.
      + exfalso. rewrite Z1 in B1. apply Rltb_true in B1. rnum. lra.
  Qed.

  Lemma point_ball_limit fuel cam aa shifts w h (m : nat -> mem R) p q0 x y S D t n refl ex ey (g : G) :
    (2 < fuel)%nat -> unit_camera rand2 cam -> lensless cam -> (forall g, 0 <= fst (fst (rand2 g)) <= 1 /\ 0 <= snd (fst (rand2 g)) <= 1) ->
    (0 <= w)%Z -> (0 <= h)%Z -> Z.of_nat (length shifts) = (w * h)%Z -> in_image w h p -> sample_pos aa shifts w h p 0 = Val (q0, (x, y)) ->
    renderings rand2 fuel pointScene cam aa shifts w h m ->
    (forall (c : ctx R G) r, pool_ok c -> shoots rand2 cam x y c r -> r = Ray S D) -> norm2 D = 1 ->
    (diam / 2)² < dist2 S center -> 0 < t < 10 ^ 99 -> along S D t = plus3 center (scal3 (diam / 2) n) -> norm2 n = 1 ->
    (forall t', 0 < t' < t -> dist2 (along S D t') center <> (diam / 2)²) ->
    tex (scal3 (diam / 2) n) = Val refl -> orthonormal ex ey n ->
    continuous_light (fun w => cR (L w)) -> continuous_light (fun w => cG (L w)) -> continuous_light (fun w => cB (L w)) ->
    let X := plus3 (plus3 center (scal3 (diam / 2) n)) (scal3 tinyR n) in X <> pos -> dist pos X <= 10 ^ 99 ->
    tends_to (fun k => imagef (m k) p)
      (mul_color (add_color (scaled (Rmax 0 (dot3 (unit_of (minus3 pos X)) n) / (4 * PI * (dist X pos * dist X pos))) power)
        (Color (cosine_average ex ey n (fun w => cR (L w))) (cosine_average ex ey n (fun w => cG (L w))) (cosine_average ex ey n (fun w => cB (L w))))) refl).
  Proof.
    intros Hf Hc Hle Hr Hw Hh Hl Hp E0 Hren Hq HD Hout Ht HP Hn Hfirst Htx HF C1 C2 C3 X HX Hdist.
    destruct (ball_first tex diam center S D t n Hdiam HD Hout (proj1 Ht) HP Hn Hfirst) as (ET & EL & EM & UN & Hfr).
    set (h1 := quadricIntersect (sphereData (Some (MMatte tex)) diam center) (Ray S D)) in *.
    set (h2 := Hit (IZR (10 ^ 99)) D D (Some (MFlat sky))).
    assert (Hits : hits_of (sObjectsAndLights pointScene) (Ray S D) [h1; h2; noHit]).
    { unfold pointScene, newScene. cbn [sObjectsAndLights map app]. constructor; [reflexivity|]. constructor; [reflexivity|]. constructor; [reflexivity|constructor]. }
    assert (Near : last_nearest [h1; h2; noHit] h1).
    { exists nil, [h2; noHit]. split; [reflexivity|]. split; [unfold positive; rewrite ET; apply Rltb_true; change (0 < t); lra|]. split; [intros h' []|].
      intros h' [<-|[<-|[]]] Hpos; rewrite ET; apply Rltb_true.
      - unfold h2. cbn [hT]. rewrite T99. lra.
      - unfold positive in Hpos. apply Rltb_true in Hpos. cbn in Hpos. rnum. lra. }
    set (K := scaled (Rmax 0 (dot3 (unit_of (minus3 pos X)) n) / (4 * PI * (dist X pos * dist X pos))) power).
    unfold mul_color, add_color. cbn [cR cG cB].
    apply (lit_limit rand2 fuel pointScene cam aa shifts w h m p q0 x y (Ray S D) [h1; h2; noHit] h1 tex refl n ex ey L (fun _ _ => K) K g); auto.
    - lra.
    - exact point_sound.
    - rewrite ET. lra.
    - now rewrite EL.
    - rewrite UN. left. cbn [rDir]. auto.
    - intros sq u v total _ _ _ Hd. cbn [rStart rDir] in Hd. rewrite ET, HP in Hd. now apply (point_direct sq n total Hn).
    - split; [|split]; [eapply cube_integral_ext; [|apply (constant_integral 2 (cR K))]|eapply cube_integral_ext; [|apply (constant_integral 2 (cG K))]|eapply cube_integral_ext; [|apply (constant_integral 2 (cB K))]];
        intros l0 H4 _; destruct l0 as [|? [|? [|? ?]]]; try discriminate H4; reflexivity.
    - intros w' sq' col Hw' Hd' Hb. cbn [rStart rDir] in Hb. rewrite ET, HP in Hb. eapply sees_sky_by_lamp; [exact Hw'| |exact Hb].
      apply leaving_ball; auto. unfold tinyR. lra.
  Qed.
End Point.
