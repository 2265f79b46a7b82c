(** * A matte ball under a lamp *)
From Coq Require Import ZArith Reals Bool List Lia Lra Psatz.
From Coquelicot Require Import Coquelicot.
From Verif Require CamProofs.
From Verif Require Import Num NumLaws Outcome GeomModel GeomSpec GeomProofs ColorModel SeqModel SeqSpec HaltonProofs SeqProofs
  SamplerModel SamplerSpec SamplerProofs PoolProofs SamplerNum SamplerFacts ObjModel TreeModel ObjSpec ObjProofs PrimProofs SceneModel SceneSpec SceneProofs CtxProofs
  LightProofs LookSpec LookProofs SceneFacts SceneMore RenderModel RenderSpec RenderProofs RenderFacts EquiSpec EquiProofs EquiMean EquiIntSpec EquiInt
  DiffuseSpec DiffuseProofs DiffuseFrame LimitSpec LimitProofs LimitFacts EquiAdd LitFacts LampSpec LampProofs LitSpec LampSound.
Import ListNotations.
Local Open Scope R_scope.

Lemma ball_first (tex : texture R) diam center S D t n : 0 < diam -> norm2 D = 1 ->
  (diam / 2)² < dist2 S center -> 0 < t -> along S D t = plus3 center (scal3 (diam / 2) n) -> norm2 n = 1 ->
  (forall t', 0 < t' < t -> dist2 (along S D t') center <> (diam / 2)²) ->
  let h1 := quadricIntersect (sphereData (Some (MMatte tex)) diam center) (Ray S D) in
  hT h1 = t /\ hLocal h1 = scal3 (diam / 2) n /\ hMat h1 = Some (MMatte tex) /\ unit_of (hNormal h1) = n /\ dot3 n D <= 0.
Proof.
  intros Hdiam HD Hout Ht HP Hn Hfirst. cbv zeta.
  assert (Hne : D <> zero3) by (intros E; rewrite E in HD; unfold norm2, dot3, zero3 in HD; cbn [vx vy vz] in HD; lra).
  assert (Hon : dist2 (along S D t) center = (diam / 2)²).
  { rewrite HP. transitivity ((diam / 2)² * norm2 n); [unfold dist2, norm2, dot3, minus3, plus3, scal3, Rsqr; cbn [vx vy vz]; ring|rewrite Hn; ring]. }
  assert (Hfront : dot3 D n <= 0).
  { destruct (Rle_lt_dec (dot3 D n) 0) as [?|Hpos]; [assumption|exfalso].
    assert (Q : forall t', dist2 (along S D t') center = (diam / 2)² + 2 * (t' - t) * (diam / 2) * dot3 D n + (t' - t) * (t' - t)).
    { intros t'. replace (along S D t') with (along (plus3 center (scal3 (diam / 2) n)) D (t' - t)).
      - transitivity ((diam / 2)² * norm2 n + 2 * (t' - t) * (diam / 2) * dot3 D n + (t' - t) * (t' - t) * norm2 D).
        + unfold dist2, norm2, dot3, along, minus3, plus3, scal3, Rsqr; cbn [vx vy vz]; ring.
        + rewrite Hn, HD. ring.
      - rewrite <- HP. unfold along, plus3, scal3; cbn [vx vy vz]. apply vec_eq; cbn [vx vy vz]; ring. }
    assert (Q0 := Q 0). replace (along S D 0) with S in Q0 by (destruct S as [s1 s2 s3]; unfold along, plus3, scal3; cbn [vx vy vz]; apply vec_eq; cbn [vx vy vz]; ring).
    rewrite Q0 in Hout. assert (t > diam * dot3 D n) by nra.
    assert (0 < diam * dot3 D n) by (apply Rmult_lt_0_compat; lra).
    apply (Hfirst (t - diam * dot3 D n)); [lra|]. rewrite Q. field. }
  set (h1 := quadricIntersect (sphereData (Some (MMatte tex)) diam center) (Ray S D)).
  assert (H1 : hT h1 = t /\ hNormal h1 = minus3 (along S D t) center /\ hLocal h1 = minus3 (along S D t) center /\ hMat h1 = Some (MMatte tex)).
  { destruct (sphere_exact (Some (MMatte tex)) diam center S D ltac:(lra) Hne) as [(A & B & CN & CL & E & F)|(E & F)]; [fold h1 in A, B, CN, CL, E, F|].
    - assert (hT h1 = t) as ET.
      { destruct (Rtotal_order (hT h1) t) as [X|[X|X]]; [exfalso; now apply (Hfirst (hT h1))|exact X|exfalso; now apply (F t)]. }
      rewrite ET in *. auto.
    - exfalso. now apply (F t). }
  destruct H1 as (ET & EN & EL & EM).
  assert (Loc : minus3 (along S D t) center = scal3 (diam / 2) n).
  { rewrite HP. unfold minus3, plus3, scal3; cbn [vx vy vz]. apply vec_eq; cbn [vx vy vz]; ring. }
  split; [exact ET|]. split; [now rewrite EL|]. split; [exact EM|]. split.
  - rewrite EN, Loc. unfold unit_of. assert (norm (scal3 (diam / 2) n) = diam / 2) as ->.
    { apply CamProofs.norm_sq_eq; [lra|]. transitivity (diam / 2 * (diam / 2) * norm2 n); [unfold norm2, dot3, scal3; cbn [vx vy vz]; ring|rewrite Hn; ring]. }
    unfold scal3; cbn [vx vy vz]. destruct n as [n1 n2 n3]. cbn [vx vy vz]. apply vec_eq; cbn [vx vy vz]; field; lra.
  - replace (dot3 n D) with (dot3 D n) by (unfold dot3; ring). exact Hfront.
Qed.

Section Lamp.
  Context {G : Type} {NI : NumInf R}.
  Variable rand2 : G -> (R * R) * G.
  Hypothesis Hinf : 0 < ninf.
  Variables (tex : texture R) (diam : R) (center : pt).
  Hypothesis Hdiam : 0 < diam.
  Hypothesis Htex : forall p, exists c, tex p = Val c.
  Variables (l : light R) (b : color R) (Surf : pt -> Prop) (area : R) (pos : R -> R -> pt).
  Hypothesis Hlamp : lamp_at (lightObject l) b Surf.
  Hypothesis Hsample : forall target (c c' : ctx R G) u v, generate2 rand2 c = Val ((u, v), c') ->
    lightSample rand2 l target c = Val ((pos u v, scaled (radiated area (pos u v) downwards target) b), c').
  Definition lampScene : scene R := newScene 2 nil [l] [sphere (Some (MMatte tex)) diam center].

  Lemma lamp_scene_sound o : In o (all_objects lampScene) -> sound_object o.
  Proof.
    destruct (sound_balls NI) as [SB SS]. destruct (lamp_sound _ _ _ Hlamp) as [L1 L2].
    assert (forall p, definite p (MMatte tex)) as D2 by (intros p; cbn; apply Htex).
    unfold all_objects, lampScene, newScene. cbn [sObjects sObjectsAndLights sObjectsMinusLights map app].
    intros H. repeat (destruct H as [<-|H]; [first [assumption|apply SS; assumption]|]). destruct H.
  Qed.
  Lemma ball_missed S d h : norm2 d = 1 -> (forall t, 0 < t -> dist2 (along S d t) center <> (diam / 2)²) ->
    oIntersect (sphere (Some (MMatte tex)) diam center) (Ray S d) = Val (h, Ray S d) -> hT h = 0.
  Proof.
    intros Hd Hmiss H. assert (Hne : d <> zero3) by (intros E; rewrite E in Hd; unfold norm2, dot3, zero3 in Hd; cbn [vx vy vz] in Hd; lra).
    unfold sphere, simpleObj in H. cbn [oIntersect] in H.
    assert (h = quadricIntersect (sphereData (Some (MMatte tex)) diam center) (Ray S d)) as -> by (injection H; auto).
    destruct (sphere_exact (Some (MMatte tex)) diam center S d ltac:(lra) Hne) as [(A & B & _)|(E & _)].
    - exfalso. now apply (Hmiss _ A).
    - rewrite E. reflexivity.
  Qed.
  Lemma sees_nothing sq S d col : norm2 d = 1 -> (forall t, 0 < t -> dist2 (along S d t) center <> (diam / 2)²) ->
    light_at rand2 lampScene sq 1 MinusLights (Ray S d) col -> col = no_light.
  Proof.
    intros Hd Hmiss (hits & Hh & H). destruct H as [[_ ->]|(h & m & Hl & _ & Hm & Hk)]; [reflexivity|].
    assert (Hh2 : hits_of [sphere (Some (MMatte tex)) diam center; blackened (lightObject l)] (Ray S d) hits) by exact Hh.
    inversion Hh2 as [|? h1 ? hs H1 H2]; subst. inversion H2 as [|? h2 ? hs' H3 H4]; subst. inversion H4; subst. clear H2 H4 Hh Hh2.
    assert (Z1 := ball_missed _ _ _ Hd Hmiss H1).
    destruct (last_nearest_in _ _ Hl) as [[<-|[<-|[]]] Hpos].
    - exfalso. unfold positive in Hpos. apply Rltb_true in Hpos. rewrite Z1 in Hpos. rnum. lra.
    - destruct (Hlamp (Ray S d)) as (a & E & _). unfold blackened, plainObject in H3. cbn [oIntersect] in H3. rewrite E in H3. cbn [omap] in H3. injection H3 as <-.
      cbn [hMat] in Hm. injection Hm as <-. inversion Hk. reflexivity.
  Qed.

  Lemma sent_radiated x n p : dot3 (unit_of (minus3 p x)) n * radiated area p downwards x = area * sent x n p \/ dot3 (unit_of (minus3 p x)) n <= 0.
  Proof.
    destruct (Rle_lt_dec (dot3 (unit_of (minus3 p x)) n) 0) as [?|P]; [now right|left].
    assert (E : dot3 (unit_of (minus3 p x)) n = dot3 (minus3 p x) n / dist p x).
    { unfold dist, unit_of, dot3, scal3, minus3. cbn [vx vy vz]. unfold Rdiv. ring. }
    assert (Dp : 0 < dist p x).
    { destruct (sqrt_pos (norm2 (minus3 p x))) as [?|Z]; [assumption|]. exfalso. unfold dist, norm in E. rewrite <- Z in E. unfold Rdiv in E. rewrite Rinv_0 in E. lra. }
    assert (0 <= dot3 (minus3 p x) n).
    { rewrite E in P. destruct (Rle_lt_dec 0 (dot3 (minus3 p x) n)); [assumption|exfalso].
      assert (dot3 (minus3 p x) n / dist p x < 0); [|lra]. apply Ropp_lt_cancel. rewrite Ropp_0. replace (- (dot3 (minus3 p x) n / dist p x)) with ((- dot3 (minus3 p x) n) / dist p x) by (field; lra).
      apply Rdiv_lt_0_compat; lra. }
    unfold radiated, sent. rewrite E. rewrite (Rmax_right 0 (dot3 (minus3 p x) n)) by assumption.
    assert (dist x p = dist p x) as -> by (unfold dist, norm, norm2, dot3, minus3; cbn [vx vy vz]; f_equal; ring).
    assert (dot3 (minus3 x p) downwards = vy p - vy x) as -> by (unfold dot3, minus3, downwards; cbn [vx vy vz]; ring).
    field. split; [lra|apply PI_neq0].
  Qed.
  Lemma sent_behind x n p : dot3 (unit_of (minus3 p x)) n <= 0 -> sent x n p = 0.
  Proof.
    intros H. assert (E : dot3 (unit_of (minus3 p x)) n = dot3 (minus3 p x) n / dist p x).
    { unfold dist, unit_of, dot3, scal3, minus3. cbn [vx vy vz]. unfold Rdiv. ring. }
    unfold sent. destruct (sqrt_pos (norm2 (minus3 p x))) as [P|Z].
    - rewrite Rmax_left; [unfold Rdiv; ring|]. rewrite E in H. change (0 < dist p x) in P.
      apply (Rmult_le_compat_r (dist p x)) in H; [|lra]. unfold Rdiv in H. rewrite Rmult_assoc, Rinv_l in H by lra. lra.
    - change (0 = dist p x) in Z. rewrite <- Z. unfold Rdiv. rewrite Rinv_0. ring.
  Qed.

  Lemma scaled_dark k : scaled k no_light = no_light.
  Proof. unfold scaled, no_light; cbn [cR cG cB]. f_equal; ring. Qed.
  Lemma lamp_direct sq n u v total : norm2 n = 1 -> hseq_generate2 (cs_1 sq) = Val (u, v) ->
    direct rand2 (drawing sq 1) [sphere (Some (MMatte tex)) diam center] (plus3 (plus3 center (scal3 (diam / 2) n)) (scal3 tinyR n)) n [l] total ->
    total = scaled (area * sent (plus3 (plus3 center (scal3 (diam / 2) n)) (scal3 tinyR n)) n (pos u v)) b.
  Proof.
    intros Hn Hg Hd. set (x := plus3 (plus3 center (scal3 (diam / 2) n)) (scal3 tinyR n)) in *.
    inversion Hd as [|? ? a rest Hc Hr]; subst. inversion Hr; subst. clear Hd Hr.
    assert (add_color a no_light = a) as -> by (destruct a as [ar ag ab]; unfold add_color, no_light; cbn [cR cG cB]; f_equal; ring).
    assert (Hs : forall (c c' : ctx R G) lpos intens, drawing sq 1 c -> lightSample rand2 l x c = Val ((lpos, intens), c') ->
      lpos = pos u v /\ intens = scaled (radiated area (pos u v) downwards x) b).
    { intros c c' lpos intens (C1 & C2) E. assert (generate2 rand2 c = Val ((u, v), c)) as Hgen.
      { unfold generate2. rewrite C2, C1. cbn [Z.eqb Pos.eqb]. rewrite Hg. reflexivity. }
      rewrite (Hsample x c c u v Hgen) in E. injection E as <- <- _. auto. }
    assert (Hmiss : forall hits, 0 < dot3 (unit_of (minus3 (pos u v) x)) n -> hits_of [sphere (Some (MMatte tex)) diam center] (Ray x (unit_of (minus3 (pos u v) x))) hits ->
      exists h, hits = [h] /\ hT h = 0).
    { intros hits Hp Hh. inversion Hh as [|? h1 ? hs H1 H2]; subst. inversion H2; subst. exists h1. split; [reflexivity|].
      assert (norm2 (unit_of (minus3 (pos u v) x)) = 1).
      { apply unit_of_norm2. intros E. rewrite E in Hp. unfold unit_of, dot3, scal3, zero3 in Hp. cbn [vx vy vz] in Hp. lra. }
      eapply ball_missed; [exact H| |exact H1]. apply (leaving_ball diam center Hdiam n tinyR); auto; [lra|]. unfold tinyR. lra. }
    destruct (sent_radiated x n (pos u v)) as [E|E].
    - inversion Hc as [c c' lpos Hh Hl|c c' lpos intens Hh Hl Hb|c c' lpos intens hits Hh Hl Hf Hi Hsh|c c' lpos intens hits fs Hh Hl Hf Hi Hfi]; subst.
      + destruct (Hs _ _ _ _ Hh Hl) as (-> & Ei). rewrite <- E. symmetry.
        transitivity (scaled (dot3 (unit_of (minus3 (pos u v) x)) n) (scaled (radiated area (pos u v) downwards x) b)).
        * unfold scaled; cbn [cR cG cB]. f_equal; ring.
        * rewrite <- Ei. apply scaled_dark.
      + destruct (Hs _ _ _ _ Hh Hl) as (-> & ->). rewrite (sent_behind _ _ _ Hb), Rmult_0_r. unfold scaled, no_light. f_equal; ring.
      + exfalso. destruct (Hs _ _ _ _ Hh Hl) as (-> & ->). destruct (Hmiss _ Hf Hi) as (h0 & -> & Hz). destruct Hsh as (h1 & [<-|[]] & (B1 & _) & _).
        rewrite Hz in B1. apply Rltb_true in B1. rnum. lra.
      + destruct (Hs _ _ _ _ Hh Hl) as (-> & ->). destruct (Hmiss _ Hf Hi) as (h0 & -> & Hz).
        inversion Hfi as [|? ? ? _ Hfi'|? ? ? ? (B1 & _)]; subst.
        * inversion Hfi'; subst. cbn [product3 fold_right]. rewrite <- E. unfold scaled; cbn [cR cG cB]. f_equal; ring.
        * exfalso. rewrite Hz in B1. apply Rltb_true in B1. rnum. lra.
    - rewrite (sent_behind _ _ _ E), Rmult_0_r.
      assert (scaled 0 b = no_light) as -> by (unfold scaled, no_light; f_equal; ring).
      inversion Hc as [c c' lpos Hh Hl|c c' lpos intens Hh Hl Hb|c c' lpos intens hits Hh Hl Hf Hi Hsh|c c' lpos intens hits fs Hh Hl Hf Hi Hfi]; subst; auto.
      exfalso. destruct (Hs _ _ _ _ Hh Hl) as (-> & _). lra.
  Qed.

  Lemma lamp_limit fuel cam aa shifts w h (m : nat -> mem R) p q0 x y S D t n refl I (g : G) :
    (2 < fuel)%nat -> unit_camera rand2 cam -> lensless cam -> (forall g, 0 <= fst (fst (rand2 g)) <= 1 /\ 0 <= snd (fst (rand2 g)) <= 1) ->
    (0 <= w)%Z -> (0 <= h)%Z -> Z.of_nat (length shifts) = (w * h)%Z -> in_image w h p -> sample_pos aa shifts w h p 0 = Val (q0, (x, y)) ->
    renderings rand2 fuel lampScene cam aa shifts w h m ->
    (forall (c : ctx R G) r, pool_ok c -> shoots rand2 cam x y c r -> r = Ray S D) -> norm2 D = 1 ->
    (diam / 2)² < dist2 S center -> 0 < t <= ninf -> along S D t = plus3 center (scal3 (diam / 2) n) -> norm2 n = 1 ->
    (forall t', 0 < t' < t -> dist2 (along S D t') center <> (diam / 2)²) -> (forall t', 0 < t' <= t -> ~ Surf (along S D t')) ->
    tex (scal3 (diam / 2) n) = Val refl ->
    cube_integral 2 (fun l => match l with [u; v] => sent (plus3 (plus3 center (scal3 (diam / 2) n)) (scal3 tinyR n)) n (pos u v) | _ => 0 end) I ->
    tends_to (fun k => imagef (m k) p) (mul_color (scaled (area * I) b) refl).
  Proof.
    intros Hf Hc Hle Hr Hw Hh Hl Hp E0 Hren Hq HD Hout Ht HP Hn Hfirst Hnl Htx HI.
    destruct (ball_first tex diam center S D t n Hdiam HD Hout (proj1 Ht) HP Hn Hfirst) as (ET & EL & EM & UN & Hfr).
    set (h1 := quadricIntersect (sphereData (Some (MMatte tex)) diam center) (Ray S D)) in *.
    destruct (Hlamp (Ray S D)) as (h2 & E2 & H2). cbn [rStart rDir] in H2.
    assert (Hits : hits_of (sObjectsAndLights lampScene) (Ray S D) [h1; h2]).
    { unfold lampScene, newScene. cbn [sObjectsAndLights map app]. constructor; [reflexivity|]. constructor; [exact E2|constructor]. }
    assert (Near : last_nearest [h1; h2] h1).
    { exists nil, [h2]. split; [reflexivity|]. split; [unfold positive; rewrite ET; apply Rltb_true; change (0 < t); lra|]. split; [intros h' []|].
      intros h' [<-|[]] Hpos. rewrite ET. apply Rltb_true. unfold positive in Hpos. apply Rltb_true in Hpos.
      destruct H2 as [-> |(_ & P2 & _ & S2)]; [cbn in Hpos; rnum; lra|].
      destruct (Rlt_le_dec t (hT h2)) as [?|X]; [assumption|exfalso]. now apply (Hnl (hT h2)). }
    set (xx := plus3 (plus3 center (scal3 (diam / 2) n)) (scal3 tinyR n)) in *.
    pose proof (frame_orthonormal n Hn) as HF.
    assert (T := lit_limit rand2 fuel lampScene cam aa shifts w h m p q0 x y (Ray S D) [h1; h2] h1 tex refl n (m0 (cosineFrame n)) (m1 (cosineFrame n)) (fun _ => no_light)
      (fun u v => scaled (area * sent xx n (pos u v)) b) (scaled (area * I) b) g).
    assert (Av : cosine_average (m0 (cosineFrame n)) (m1 (cosineFrame n)) n (fun _ => 0) = 0).
    { unfold cosine_average. rewrite (RInt_ext (V := R_CompleteNormedModule) _ (fun _ => 0)).
      - rewrite RInt_const. unfold scal; cbn; unfold mult; cbn. ring.
      - intros ph _. rewrite (RInt_ext (V := R_CompleteNormedModule) _ (fun _ => 0)) by (intros; match goal with |- ?l = ?r => change (@eq R l r) end; ring).
        rewrite RInt_const. unfold scal; cbn; unfold mult; cbn. match goal with |- ?l = ?r => change (@eq R l r) end. ring. }
    assert (Cz : continuous_light (fun _ => 0)).
    { intros eps He. exists 1. split; [lra|]. intros. rewrite Rminus_diag_eq, Rabs_R0 by reflexivity. exact He. }
    cbn [no_light cR cG cB] in T. rewrite !Av in T.
    replace (mul_color (scaled (area * I) b) refl) with (Color ((cR (scaled (area * I) b) + 0) * cR refl) ((cG (scaled (area * I) b) + 0) * cG refl) ((cB (scaled (area * I) b) + 0) * cB refl))
      by (unfold mul_color; f_equal; ring).
    apply T; auto.
    - exact lamp_scene_sound.
    - rewrite ET. lra.
    - now rewrite EL.
    - rewrite UN. left. cbn [rDir]. auto.
    - intros sq u v total Hg _ _ Hd. cbn [rStart rDir] in Hd. rewrite ET, HP in Hd. now apply (lamp_direct sq n u v total Hn Hg).
    - assert (K : forall k, cube_integral 2 (fun l0 => match l0 with [u; v] => area * sent xx n (pos u v) * k | _ => 0 end) (area * I * k)).
      { intros k. apply (cube_integral_ext 2 (fun l0 => (area * k) * match l0 with [u; v] => sent xx n (pos u v) | _ => 0 end)).
        - intros l0 H4 _. destruct l0 as [|? [|? [|? ?]]]; try discriminate H4. ring.
        - replace (area * I * k) with (area * k * I) by ring. now apply cube_integral_scale. }
      split; [|split]; [eapply cube_integral_ext; [|apply (K (cR b))]|eapply cube_integral_ext; [|apply (K (cG b))]|eapply cube_integral_ext; [|apply (K (cB b))]];
        intros l0 H4 _; destruct l0 as [|? [|? [|? ?]]]; try discriminate H4; reflexivity.
    - intros w' sq' col Hw' Hd' Hb. cbn [rStart rDir] in Hb. rewrite ET, HP in Hb. eapply sees_nothing; [exact Hw'| |exact Hb].
      apply leaving_ball; auto. unfold tinyR. lra.
  Qed.
End Lamp.
