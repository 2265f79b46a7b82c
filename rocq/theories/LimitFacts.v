(** * Matte surfaces under a sky *)
From Coq Require Import ZArith Reals Bool List Lia Lra Psatz.
From Coquelicot Require Import Coquelicot.
From Verif Require CamProofs.
From Verif Require Import Num NumLaws Outcome GeomModel GeomSpec GeomProofs ColorModel SeqModel SeqSpec HaltonProofs SeqProofs
  SamplerModel SamplerSpec SamplerProofs PoolProofs SamplerNum SamplerFacts ObjModel TreeModel ObjSpec ObjProofs PrimProofs SceneModel SceneSpec SceneProofs CtxProofs
  LookSpec LookProofs SceneFacts SceneMore RenderModel RenderSpec RenderProofs RenderFacts EquiSpec EquiProofs EquiMean EquiIntSpec EquiInt
  DiffuseSpec DiffuseProofs DiffuseFrame LimitSpec LimitProofs.
Import ListNotations.
Local Open Scope R_scope.

(** ** Integrals *)
Lemma cube_integral_ext d f g I : (forall x, length x = d -> in_unit_cube x -> f x = g x) -> cube_integral d f I -> cube_integral d g I.
Proof.
  intros H Hf eps He. destruct (Hf eps He) as (n & lo & hi & Hn & Hc & Hr). exists n, lo, hi. split; [exact Hn|]. split; [|exact Hr].
  intros c x Hin Hx. rewrite <- H; [now apply (Hc c x)| |].
  - apply in_cells in Hin. destruct Hin as [Hl _]. rewrite <- Hl. clear - Hx. unfold in_cell in Hx. induction Hx; cbn; congruence.
  - apply in_cells in Hin. destruct Hin as [_ Hb]. clear - Hx Hb Hn. unfold in_cell in Hx. unfold in_unit_cube. induction Hx as [|a y c x [Ha1 Ha2] Hx IH]; [constructor|].
    inversion Hb as [|? ? Hb1 Hb2]; subst. constructor; [|now apply IH].
    assert (0 < IZR n) as P by now apply IZR_lt. split.
    + eapply Rle_trans; [|exact Ha1]. apply Rmult_le_pos; [apply IZR_le; lia|]. left. now apply Rinv_0_lt_compat.
    + eapply Rlt_le_trans; [exact Ha2|]. apply (Rmult_le_reg_r (IZR n)); [exact P|]. unfold Rdiv. rewrite Rmult_assoc, Rinv_l, Rmult_1_r, Rmult_1_l by lra.
      rewrite <- plus_IZR. apply IZR_le. lia.
Qed.

(** a function of the first two of four numbers *)
Definition first_two (f : list R -> R) (l : list R) : R := match l with [a; b; _; _] => f [a; b] | _ => 0 end.
Lemma first_two_cont f : continuous_on_cube 2 f -> continuous_on_cube 4 (first_two f).
Proof.
  intros H eps He. destruct (H eps He) as (del & Hd & HH). exists del. split; [exact Hd|].
  intros x y [Lx Cx] [Ly Cy] F.
  destruct x as [|x1 [|x2 [|x3 [|x4 [|? ?]]]]]; try discriminate Lx. destruct y as [|y1 [|y2 [|y3 [|y4 [|? ?]]]]]; try discriminate Ly.
  cbn [first_two]. inversion F as [|? ? ? ? F1 G1]; subst. inversion G1 as [|? ? ? ? F2 G2]; subst.
  inversion Cx as [|? ? X1 Cx1]; subst. inversion Cx1 as [|? ? X2 _]; subst. inversion Cy as [|? ? Y1 Cy1]; subst. inversion Cy1 as [|? ? Y2 _]; subst.
  apply HH; [split; [reflexivity|]|split; [reflexivity|]|]; repeat (apply List.Forall_cons; [assumption|]); try apply List.Forall_nil.
  constructor; [assumption|]. constructor; [assumption|constructor].
Qed.
Lemma first_two_iterated f : iterated 4 (first_two f) = iterated 2 f.
Proof.
  cbn [iterated first_two]. apply RInt_ext. intros a _. apply RInt_ext. intros b _.
  rewrite RInt_const, RInt_const. unfold scal; cbn. unfold mult; cbn. ring.
Qed.
Lemma hemisphere_integral ex ey m L : orthonormal ex ey m -> continuous_light L ->
  cube_integral 4 (first_two (hemi_fun L m)) (cosine_average ex ey m L).
Proof.
  intros HF HL. assert (Hm : norm2 m = 1) by apply HF.
  rewrite (cosine_average_frame _ _ _ _ m L (frame_orthonormal m Hm) HF HL), <- (hemisphere_preserves L m Hm HL), <- first_two_iterated.
  apply continuous_integral. apply first_two_cont. now apply hemi_fun_cont.
Qed.

Lemma cosine_average_scale ex ey n L k : orthonormal ex ey n -> continuous_light L ->
  cosine_average ex ey n (fun w => L w * k) = cosine_average ex ey n L * k.
Proof.
  intros HF HL. unfold cosine_average.
  transitivity (/ PI * RInt (fun ph => scal k (ring_light ex ey n L ph)) 0 (2 * PI)).
  - f_equal. apply RInt_ext. intros ph _. unfold ring_light. rewrite <- (RInt_scal (V := R_CompleteNormedModule)) by now apply slice_ex.
    apply RInt_ext. intros th _. unfold slice, scal; cbn; unfold mult; cbn. ring.
  - rewrite (RInt_scal (V := R_CompleteNormedModule)) by now apply ring_ex.
    change (/ PI * (k * RInt (ring_light ex ey n L) 0 (2 * PI)) = / PI * RInt (ring_light ex ey n L) 0 (2 * PI) * k). ring.
Qed.
Lemma continuous_scale L k : continuous_light L -> continuous_light (fun w => L w * k).
Proof.
  intros H eps He. assert (K : 0 < Rabs k + 1) by (generalize (Rabs_pos k); lra).
  destruct (H (eps / (Rabs k + 1))) as (del & Hd & HH); [apply Rdiv_lt_0_compat; lra|]. exists del. split; [exact Hd|].
  intros w w' Hw Hw' Hdist. rewrite <- Rmult_minus_distr_r, Rabs_mult. specialize (HH w w' Hw Hw' Hdist).
  apply Rle_lt_trans with (Rabs (L w - L w') * (Rabs k + 1)); [apply Rmult_le_compat_l; [apply Rabs_pos|lra]|].
  apply (Rmult_lt_compat_r (Rabs k + 1)) in HH; [|exact K]. unfold Rdiv in HH. rewrite Rmult_assoc, Rinv_l, Rmult_1_r in HH by lra. exact HH.
Qed.

(** ** Surfaces *)
Lemma facing_fun d n m m' : facing d n m -> facing d n m' -> m = m'.
Proof. intros [[A ->]|[A ->]] [[B ->]|[B ->]]; auto; lra. Qed.

Section Sky.
  Context {G : Type} {NI : NumInf R}.
  Variable rand2 : G -> (R * R) * G.

  Lemma matte_seen s cam sq x y Q hits h tex refl m u1 v1 (L : pt -> color R) col :
    sRecursionDepth s = 2%Z -> sLights s = nil -> hseq_generate2 (cs_1 sq) = Val (u1, v1) ->
    (forall (c : ctx R G) r, pool_ok c -> shoots rand2 cam x y c r -> r = Q) ->
    hits_of (sObjectsAndLights s) Q hits -> last_nearest hits h -> hT h <= ninf -> hMat h = Some (MMatte tex) -> tex (hLocal h) = Val refl ->
    facing (rDir Q) (unit_of (hNormal h)) m ->
    (forall w sq' b, norm2 w = 1 -> 0 <= dot3 w m ->
      light_at rand2 s sq' 1 MinusLights (Ray (plus3 (along (rStart Q) (rDir Q) (hT h)) (scal3 (2 * tinyR) m)) w) b -> b = L w) ->
    seen rand2 s cam sq x y col -> col = mul_color (L (cosineSphere u1 v1 m)) refl.
  Proof.
    intros Hd Hli Hg Hq Hh Hn Hle Hm Ht Hf Hs (c & r & Hp & Sh & Hl). rewrite (Hq c r Hp Sh) in Hl. clear r Sh Hp c.
    rewrite Hd in Hl. change (Z.to_nat 2) with 2%nat in Hl. destruct Hl as (hits' & Hh' & Hl).
    assert (hits' = hits) by (eapply hits_fun; [exact Hh|exact Hh']). subst hits'.
    destruct Hl as [[Hfar _]|(h' & mat & Hn' & _ & Hm' & Hk)].
    - exfalso. destruct (last_nearest_in hits h Hn) as [Hin Hpos]. unfold positive in Hpos. apply Rltb_true in Hpos. specialize (Hfar h Hin Hpos). lra.
    - assert (h' = h) by (eapply last_nearest_unique; eassumption). subst h'. rewrite Hm in Hm'. injection Hm' as <-.
      inversion Hk as [| |tex' refl' m' total c c' u v w b T' F' Di (Hc1 & Hc2) Gen Ew Nw Dw Lw| | | | | | | | |]; subst tex'. subst col.
      rewrite Ht in T'. injection T' as <-. assert (m' = m) by (eapply facing_fun; eassumption). subst m'.
      rewrite Hli in Di. inversion Di; subst total. clear Di. rewrite add_none_l. f_equal.
      rewrite Hd in Hc2. change (cDepth c = 1%Z) in Hc2.
      unfold generate2 in Gen. rewrite Hc2, Hc1 in Gen. cbn [Z.eqb Pos.eqb] in Gen. rewrite Hg in Gen. cbn [omap] in Gen.
      assert (u1 = u /\ v1 = v) as [<- <-].
      { apply (f_equal (fun o => match o with Val (p, _) => p | _ => (0, 0) end)) in Gen. split; [exact (f_equal fst Gen)|exact (f_equal snd Gen)]. }
      rewrite <- Ew. eapply Hs; eassumption.
  Qed.

  (** a pixel that shows a matte surface tends to the light of the hemisphere above it *)
  Lemma matte_limit fuel s cam aa shifts w h (m : nat -> mem R) p q0 x y Q hits ht tex refl n ex ey (L : pt -> color R) (g : G) :
    0 < ninf -> (forall o, In o (all_objects s) -> sound_object o) -> sMedia s = nil -> sLights s = nil -> sRecursionDepth s = 2%Z -> (2 < fuel)%nat ->
    unit_camera rand2 cam -> lensless cam -> (forall g, 0 <= fst (fst (rand2 g)) <= 1 /\ 0 <= snd (fst (rand2 g)) <= 1) ->
    (0 <= w)%Z -> (0 <= h)%Z -> Z.of_nat (length shifts) = (w * h)%Z -> in_image w h p -> sample_pos aa shifts w h p 0 = Val (q0, (x, y)) ->
    renderings rand2 fuel s cam aa shifts w h m ->
    (forall (c : ctx R G) r, pool_ok c -> shoots rand2 cam x y c r -> r = Q) ->
    hits_of (sObjectsAndLights s) Q hits -> last_nearest hits ht -> hT ht <= ninf -> hMat ht = Some (MMatte tex) -> tex (hLocal ht) = Val refl ->
    facing (rDir Q) (unit_of (hNormal ht)) n -> orthonormal ex ey n ->
    continuous_light (fun w => cR (L w)) -> continuous_light (fun w => cG (L w)) -> continuous_light (fun w => cB (L w)) ->
    (forall w sq' b, norm2 w = 1 -> 0 <= dot3 w n ->
      light_at rand2 s sq' 1 MinusLights (Ray (plus3 (along (rStart Q) (rDir Q) (hT ht)) (scal3 (2 * tinyR) n)) w) b -> b = L w) ->
    tends_to (fun k => imagef (m k) p)
      (Color (cosine_average ex ey n (fun w => cR (L w)) * cR refl) (cosine_average ex ey n (fun w => cG (L w)) * cG refl)
             (cosine_average ex ey n (fun w => cB (L w)) * cB refl)).
  Proof.
    intros Hi Ho Hm Hli Hd Hf Hc Hle Hr Hw Hh Hl Hp E0 Hren Hq Hh' Hn Hfar Hmat Ht Hfac HF C1 C2 C3 Hs.
    destruct (sample_function_exists rand2 fuel s cam g x y Hi Ho Hm Hc Hle ltac:(lia) ltac:(rewrite Hd; exact Hf) Hr) as (f & Sf & Seen).
    apply (pixel_limit rand2 fuel s cam aa shifts w h m p q0 x y f); auto.
    assert (Ff : forall l, length l = 4%nat -> in_unit_cube l -> f l = match l with [a; b; _; _] => mul_color (L (cosineSphere a b n)) refl | _ => no_light end).
    { intros l H4 Hu. destruct (Seen l H4 Hu) as (sq & (u1 & v1 & u2 & v2 & -> & G1 & G2) & Hse).
      eapply (matte_seen s cam sq x y Q hits ht tex refl n u1 v1 L); eauto. }
    assert (K : forall pr : color R -> R, (forall a b, pr (mul_color a b) = pr a * pr b) -> continuous_light (fun w => pr (L w)) ->
      cube_integral 4 (fun l => pr (f l)) (cosine_average ex ey n (fun w => pr (L w)) * pr refl)).
    { intros pr Hpr Cp. rewrite <- (cosine_average_scale ex ey n _ (pr refl) HF Cp).
      apply (cube_integral_ext 4 (first_two (hemi_fun (fun w => pr (L w) * pr refl) n))).
      - intros l H4 Hu. rewrite (Ff l H4 Hu). destruct l as [|a [|b [|c [|d [|? ?]]]]]; try discriminate H4. cbn [first_two hemi_fun]. now rewrite Hpr.
      - apply hemisphere_integral; [exact HF|]. now apply continuous_scale. }
    split; [|split]; cbn [cR cG cB]; apply K; auto; reflexivity.
  Qed.
End Sky.

(** ** A matte ball under a sky *)
Section Ball.
  Context {G : Type} {NI : NumInf R}.
  Variable rand2 : G -> (R * R) * G.
  Hypothesis Hinf : 10 ^ 99 <= ninf.
  Variables (tex sky : texture R) (diam : R) (center : pt).
  Hypothesis Hdiam : 0 < diam.
  Hypothesis Htex : forall p, exists c, tex p = Val c.
  Variable L : pt -> color R.
  Hypothesis Hsky : forall w, sky w = Val (L w).
  Definition ballScene : scene R := newScene 2 nil nil [sphere (Some (MMatte tex)) diam center; backdrop (Some (MFlat sky))].

  Lemma T99 : IZR (10 ^ 99) = 10 ^ 99.
  Proof. change 99%Z with (Z.of_nat 99). now rewrite <- pow_IZR. Qed.
  Lemma P99 : 0 < 10 ^ 99.
  Proof. apply pow_lt; lra. Qed.

  Lemma ball_sound o : In o (all_objects ballScene) -> sound_object o.
  Proof.
    destruct (sound_balls NI) as [SB SS].
    assert (forall p, definite p (MFlat sky)) as D1 by (intros p; cbn; exists (L p); apply Hsky).
    assert (forall p, definite p (MMatte tex)) as D2 by (intros p; cbn; apply Htex).
    unfold all_objects, ballScene, newScene. cbn [sObjects sObjectsAndLights sObjectsMinusLights map app].
    intros H. repeat (destruct H as [<-|H]; [first [apply SS; assumption|apply SB; assumption]|]). destruct H.
  Qed.

  (** rays that miss the ball see the sky *)
  Lemma sees_sky wh sq S d b : norm2 d = 1 -> (forall t, 0 < t -> dist2 (along S d t) center <> (diam / 2)²) ->
    light_at rand2 ballScene sq 1 wh (Ray S d) b -> b = L d.
  Proof.
    intros Hd Hmiss (hits & Hh & H).
    assert (Hne : d <> zero3) by (intros E; rewrite E in Hd; unfold norm2, dot3, zero3 in Hd; cbn [vx vy vz] in Hd; lra).
    assert (Hh2 : hits_of [sphere (Some (MMatte tex)) diam center; backdrop (Some (MFlat sky))] (Ray S d) hits) by (destruct wh; exact Hh).
    inversion Hh2 as [|? h1 ? hs H1 H2]; subst. inversion H2 as [|? h2 ? hs' H3 H4]; subst. inversion H4; subst. clear H2 H4 Hh Hh2.
    assert (E1 : h1 = quadricIntersect (sphereData (Some (MMatte tex)) diam center) (Ray S d)).
    { unfold sphere, simpleObj in H1. cbn [oIntersect] in H1. injection H1. auto. }
    assert (Z1 : hT h1 = 0).
    { destruct (sphere_exact (Some (MMatte tex)) diam center S d ltac:(lra) Hne) as [(A & B & _)|(E & _)].
      - exfalso. now apply (Hmiss _ A).
      - rewrite E1, E. reflexivity. }
    clear H1. assert (E2 : Hit (IZR (10 ^ 99)) d d (Some (MFlat sky)) = h2) by (unfold backdrop, simpleObj in H3; cbn [oIntersect] in H3; injection H3; auto).
    clear H3. subst h2. destruct H as [[Hfar _]|(h & m & Hl & _ & Hm & Hk)].
    - exfalso. specialize (Hfar _ (or_intror (or_introl eq_refl))). cbn [hT] in Hfar. rewrite T99 in Hfar. specialize (Hfar P99). lra.
    - destruct (last_nearest_in _ _ Hl) as [[<-|[<-|[]]] Hpos].
      + exfalso. unfold positive in Hpos. apply Rltb_true in Hpos. rewrite Z1 in Hpos. rnum. lra.
      + cbn [hMat] in Hm. injection Hm as <-. cbn [hLocal] in Hk. inversion Hk as [|tex' c E| | | | | | | | | |]; subst. rewrite Hsky in E. injection E as <-. reflexivity.
  Qed.

  Lemma leaving_ball n k w : norm2 n = 1 -> norm2 w = 1 -> 0 <= dot3 w n -> 0 < k ->
    forall t, 0 < t -> dist2 (along (plus3 (plus3 center (scal3 (diam / 2) n)) (scal3 k n)) w t) center <> (diam / 2)².
  Proof.
    intros Hn Hw Hd Hk t Ht E.
    assert (X : dist2 (along (plus3 (plus3 center (scal3 (diam / 2) n)) (scal3 k n)) w t) center =
      (diam / 2 + k) * (diam / 2 + k) * norm2 n + 2 * t * (diam / 2 + k) * dot3 w n + t * t * norm2 w).
    { unfold dist2, norm2, dot3, along, minus3, plus3, scal3; cbn [vx vy vz]; ring. }
    rewrite X, Hn, Hw in E. unfold Rsqr in E. generalize (Rmult_le_pos (t * (diam / 2 + k)) (dot3 w n)). nra.
  Qed.

  Lemma ball_limit fuel cam aa shifts w h (m : nat -> mem R) p q0 x y S D t n refl ex ey (g : G) :
    (2 < fuel)%nat -> unit_camera rand2 cam -> lensless cam -> (forall g, 0 <= fst (fst (rand2 g)) <= 1 /\ 0 <= snd (fst (rand2 g)) <= 1) ->
    (0 <= w)%Z -> (0 <= h)%Z -> Z.of_nat (length shifts) = (w * h)%Z -> in_image w h p -> sample_pos aa shifts w h p 0 = Val (q0, (x, y)) ->
    renderings rand2 fuel ballScene cam aa shifts w h m ->
    (forall (c : ctx R G) r, pool_ok c -> shoots rand2 cam x y c r -> r = Ray S D) -> norm2 D = 1 ->
    (diam / 2)² < dist2 S center -> 0 < t < 10 ^ 99 -> along S D t = plus3 center (scal3 (diam / 2) n) -> norm2 n = 1 ->
    (forall t', 0 < t' < t -> dist2 (along S D t') center <> (diam / 2)²) ->
    tex (scal3 (diam / 2) n) = Val refl -> orthonormal ex ey n ->
    continuous_light (fun w => cR (L w)) -> continuous_light (fun w => cG (L w)) -> continuous_light (fun w => cB (L w)) ->
    tends_to (fun k => imagef (m k) p)
      (Color (cosine_average ex ey n (fun w => cR (L w)) * cR refl) (cosine_average ex ey n (fun w => cG (L w)) * cG refl)
             (cosine_average ex ey n (fun w => cB (L w)) * cB refl)).
  Proof.
    intros Hf Hc Hle Hr Hw Hh Hl Hp E0 Hren Hq HD Hout Ht HP Hn Hfirst Htx HF C1 C2 C3.
    assert (Hne : D <> zero3) by (intros E; rewrite E in HD; unfold norm2, dot3, zero3 in HD; cbn [vx vy vz] in HD; lra).
    assert (Hon : dist2 (along S D t) center = (diam / 2)²).
    { rewrite HP. transitivity ((diam / 2)² * norm2 n); [unfold dist2, norm2, dot3, minus3, plus3, scal3, Rsqr; cbn [vx vy vz]; ring|rewrite Hn; ring]. }
    (* the front side *)
    assert (Hfront : dot3 D n <= 0).
    { destruct (Rle_lt_dec (dot3 D n) 0) as [?|Hpos]; [assumption|exfalso].
      assert (Q : forall t', dist2 (along S D t') center = (diam / 2)² + 2 * (t' - t) * (diam / 2) * dot3 D n + (t' - t) * (t' - t)).
      { intros t'. replace (along S D t') with (along (plus3 center (scal3 (diam / 2) n)) D (t' - t)).
        - transitivity ((diam / 2)² * norm2 n + 2 * (t' - t) * (diam / 2) * dot3 D n + (t' - t) * (t' - t) * norm2 D).
          + unfold dist2, norm2, dot3, along, minus3, plus3, scal3, Rsqr; cbn [vx vy vz]; ring.
          + rewrite Hn, HD. ring.
        - rewrite <- HP. unfold along, plus3, scal3; cbn [vx vy vz]. apply vec_eq; cbn [vx vy vz]; ring. }
      assert (Q0 := Q 0). replace (along S D 0) with S in Q0 by (destruct S as [s1 s2 s3]; unfold along, plus3, scal3; cbn [vx vy vz]; apply vec_eq; cbn [vx vy vz]; ring).
      rewrite Q0 in Hout. assert (t > diam * dot3 D n) by nra.
      assert (0 < diam * dot3 D n) by (apply Rmult_lt_0_compat; lra).
      apply (Hfirst (t - diam * dot3 D n)); [lra|]. rewrite Q. field. }
    (* the hits *)
    set (h1 := quadricIntersect (sphereData (Some (MMatte tex)) diam center) (Ray S D)).
    set (h2 := Hit (IZR (10 ^ 99)) D D (Some (MFlat sky))).
    assert (Hits : hits_of (sObjectsAndLights ballScene) (Ray S D) [h1; h2]).
    { unfold ballScene, newScene. cbn [sObjectsAndLights map app]. repeat constructor. }
    assert (H1 : hT h1 = t /\ hNormal h1 = minus3 (along S D t) center /\ hLocal h1 = minus3 (along S D t) center /\ hMat h1 = Some (MMatte tex)).
    { destruct (sphere_exact (Some (MMatte tex)) diam center S D ltac:(lra) Hne) as [(A & B & CN & CL & E & F)|(E & F)]; [fold h1 in A, B, CN, CL, E, F|].
      - assert (hT h1 = t) as ET.
        { destruct (Rtotal_order (hT h1) t) as [X|[X|X]]; [exfalso; now apply (Hfirst (hT h1))|exact X|exfalso; now apply (F t)]. }
        rewrite ET in *. auto.
      - exfalso. now apply (F t). }
    destruct H1 as (ET & EN & EL & EM).
    assert (Loc : minus3 (along S D t) center = scal3 (diam / 2) n).
    { rewrite HP. unfold minus3, plus3, scal3; cbn [vx vy vz]. apply vec_eq; cbn [vx vy vz]; ring. }
    assert (UN : unit_of (hNormal h1) = n).
    { rewrite EN, Loc. unfold unit_of. assert (norm (scal3 (diam / 2) n) = diam / 2) as ->.
      { apply CamProofs.norm_sq_eq; [lra|]. transitivity (diam / 2 * (diam / 2) * norm2 n); [unfold norm2, dot3, scal3; cbn [vx vy vz]; ring|rewrite Hn; ring]. }
      unfold scal3; cbn [vx vy vz]. destruct n as [n1 n2 n3]. cbn [vx vy vz]. apply vec_eq; cbn [vx vy vz]; field; lra. }
    assert (Near : last_nearest [h1; h2] h1).
    { exists nil, [h2]. split; [reflexivity|]. split; [unfold positive; rewrite ET; apply Rltb_true; change (0 < t); lra|]. split; [intros h' []|].
      intros h' [<-|[]] _. rewrite ET. apply Rltb_true. unfold h2. cbn [hT]. rewrite T99. lra. }
    assert (Fac : facing D (unit_of (hNormal h1)) n).
    { rewrite UN. left. split; [|reflexivity]. replace (dot3 n D) with (dot3 D n) by (unfold dot3; ring). exact Hfront. }
    apply (matte_limit rand2 fuel ballScene cam aa shifts w h m p q0 x y (Ray S D) [h1; h2] h1 tex refl n ex ey L g); auto.
    - generalize P99; lra.
    - exact ball_sound.
    - rewrite ET. lra.
    - rewrite EL, Loc. exact Htx.
    - intros w' sq' b Hw' Hd' Hb. cbn [rStart rDir] in Hb. rewrite ET in Hb. eapply sees_sky; [exact Hw'| |exact Hb].
      rewrite HP. apply leaving_ball; auto. unfold tinyR. lra.
  Qed.
End Ball.

(** ** A sky that is brighter on one side *)
Lemma comp_dist w w' : Rabs (vx w - vx w') <= dist w w' /\ Rabs (vy w - vy w') <= dist w w' /\ Rabs (vz w - vz w') <= dist w w'.
Proof.
  unfold dist, norm, norm2, dot3, minus3; cbn [vx vy vz].
  generalize (vx w - vx w') (vy w - vy w') (vz w - vz w'). intros a b c.
  assert (forall x y, 0 <= y - x * x -> Rabs x <= sqrt y) as H.
  { intros x y Hy. rewrite <- sqrt_Rsqr_abs. apply sqrt_le_1_alt. unfold Rsqr. lra. }
  repeat split; apply H; nra.
Qed.
Lemma affine_continuous a b : continuous_light (fun w => a + dot3 b w).
Proof.
  intros eps He. set (K := Rabs (vx b) + Rabs (vy b) + Rabs (vz b) + 1).
  assert (HK : 0 < K) by (unfold K; generalize (Rabs_pos (vx b)) (Rabs_pos (vy b)) (Rabs_pos (vz b)); lra).
  exists (eps / K). split; [now apply Rdiv_lt_0_compat|]. intros w w' _ _ Hd.
  destruct (comp_dist w w') as (H1 & H2 & H3). set (d := dist w w') in *.
  assert (Hd0 : 0 <= d) by (eapply Rle_trans; [apply Rabs_pos|exact H1]).
  replace (a + dot3 b w - (a + dot3 b w')) with (vx b * (vx w - vx w') + vy b * (vy w - vy w') + vz b * (vz w - vz w')) by (unfold dot3; ring).
  assert (forall x y, Rabs y <= d -> Rabs (x * y) <= Rabs x * d) as X by (intros; rewrite Rabs_mult; apply Rmult_le_compat_l; [apply Rabs_pos|assumption]).
  assert (d * K < eps).
  { apply (Rmult_lt_compat_r K) in Hd; [|exact HK]. unfold Rdiv in Hd. rewrite Rmult_assoc, Rinv_l, Rmult_1_r in Hd by lra. exact Hd. }
  eapply Rle_lt_trans; [apply Rabs_triang|]. eapply Rle_lt_trans; [apply Rplus_le_compat_r, Rabs_triang|].
  generalize (X (vx b) _ H1) (X (vy b) _ H2) (X (vz b) _ H3). unfold K in *. nra.
Qed.
Lemma affine_inner a A C : RInt (fun th => (a + (A * sin th + C * cos th)) * cos th * sin th) 0 (PI / 2) = a / 2 + A / 3 + C / 3.
Proof.
  set (F := fun th => a * (sin th * sin th) / 2 + A * (sin th * sin th * sin th) / 3 - C * (cos th * cos th * cos th) / 3).
  assert (E : a / 2 + A / 3 + C / 3 = minus (F (PI / 2)) (F 0)).
  { unfold F, minus, plus, opp; cbn. rewrite sin_PI2, cos_PI2, sin_0, cos_0. field. }
  rewrite E. apply is_RInt_unique. apply (is_RInt_derive (V := R_CompleteNormedModule)).
  - intros t _. unfold F. auto_derive; [exact I|]. field.
  - intros t _. apply (ex_derive_continuous (K := R_AbsRing) (V := R_NormedModule)). auto_derive. exact I.
Qed.
Lemma affine_outer a A B : RInt (fun ph => a + (A * cos ph + B * sin ph)) 0 (2 * PI) = 2 * PI * a.
Proof.
  set (F := fun ph => a * ph + A * sin ph - B * cos ph).
  assert (E : 2 * PI * a = minus (F (2 * PI)) (F 0)).
  { unfold F, minus, plus, opp; cbn. rewrite sin_2PI, cos_2PI, sin_0, cos_0. ring. }
  rewrite E. apply is_RInt_unique. apply (is_RInt_derive (V := R_CompleteNormedModule)).
  - intros t _. unfold F. auto_derive; [exact I|]. ring.
  - intros t _. apply (ex_derive_continuous (K := R_AbsRing) (V := R_NormedModule)). auto_derive. exact I.
Qed.
(** the cosine average of an affine sky: two thirds of the slope along the normal *)
Lemma affine_average ex ey n a b : cosine_average ex ey n (fun w => a + dot3 b w) = a + 2 / 3 * dot3 b n.
Proof.
  unfold cosine_average.
  rewrite (RInt_ext (V := R_CompleteNormedModule) _ (fun ph => (a / 2 + dot3 b n / 3) + (dot3 b ex / 3 * cos ph + dot3 b ey / 3 * sin ph))).
  - rewrite affine_outer. field. apply PI_neq0.
  - intros ph _. transitivity (RInt (fun th => (a + ((dot3 b ex * cos ph + dot3 b ey * sin ph) * sin th + dot3 b n * cos th)) * cos th * sin th) 0 (PI / 2)).
    + apply RInt_ext. intros th _. f_equal. f_equal. f_equal. unfold polar, dot3, plus3, scal3; cbn [vx vy vz]. ring.
    + rewrite affine_inner. match goal with |- ?l = ?r => change (@eq R l r) end. field.
Qed.

Lemma one_pixel_pos (su sv : R) : exists q0, sample_pos false [(su, sv)] 1 1 (0, 0)%Z 0 = Val (q0, (/ 2, / 2)).
Proof.
  unfold sample_pos. rewrite indexToCam_R; [|lia|lia|cbn [fst]; rnum; lra|cbn [snd]; rnum; lra].
  cbn [obind]. eexists. cbn. do 2 f_equal. f_equal; rnum; field.
Qed.
(** a matte ball in front of the camera; the sky behind the camera is bright *)
Definition frontSky : pt -> color R := fun w => let k := / 2 + dot3 (Vec 0 0 (/ 2)) w in Color k k k.
Lemma ball_example (NI : NumInf R) (rand2 : unit -> (R * R) * unit) fov cam su sv m : 10 ^ 99 <= ninf ->
  (forall g, 0 <= fst (fst (rand2 g)) <= 1 /\ 0 <= snd (fst (rand2 g)) <= 1) -> 0 < fov < PI -> projective fov = Val cam ->
  renderings rand2 3 (newScene 2 nil nil [sphere (Some (MMatte (fun _ => Val (Color 1 (/ 2) 0)))) 2 (Vec 0 0 (-3)); backdrop (Some (MFlat (fun w => Val (frontSky w))))])
    cam false [(su, sv)] 1 1 m ->
  tends_to (fun k => imagef (m k) (0, 0)%Z) (Color (5 / 6) (5 / 12) 0).
Proof.
  intros Hi Hr Hf Hc Hm. destruct (one_pixel_pos su sv) as (q0 & E0).
  destruct (CamProofs.pinhole rand2 fov Hf) as (cam' & Ec & Sh). rewrite Hc in Ec. injection Ec as <-.
  assert (Ct : 0 < / (2 * tan (fov / 2))).
  { apply Rinv_0_lt_compat. generalize (CamProofs.tan_half_pos fov Hf). lra. }
  assert (X : forall c r, pool_ok c -> shoots rand2 cam (/ 2) (/ 2) c r -> r = Ray (Vec 0 0 0) (Vec 0 0 (-1))).
  { intros c r P S. assert (S' := Sh (/ 2) (/ 2) c P). rewrite (CamProofs.pinhole_center _ Ct) in S'. eapply CamProofs.shoots_fun; eassumption. }
  assert (A : forall k, cosine_average (Vec 1 0 0) (Vec 0 1 0) (Vec 0 0 1) (fun w => / 2 + dot3 (Vec 0 0 (/ 2)) w) * k = 5 / 6 * k).
  { intros k. rewrite affine_average. unfold dot3; cbn [vx vy vz]. field. }
  assert (T := ball_limit rand2 Hi (fun _ => Val (Color 1 (/ 2) 0)) (fun w => Val (frontSky w)) 2 (Vec 0 0 (-3)) ltac:(lra) (fun _ => ex_intro _ _ eq_refl) frontSky
    (fun w => eq_refl) 3 cam false [(su, sv)] 1 1 m (0, 0)%Z q0 (/ 2) (/ 2) (Vec 0 0 0) (Vec 0 0 (-1)) 2 (Vec 0 0 1) (Color 1 (/ 2) 0) (Vec 1 0 0) (Vec 0 1 0) tt).
  assert (E : Color (5 / 6) (5 / 12) 0 = Color (cosine_average (Vec 1 0 0) (Vec 0 1 0) (Vec 0 0 1) (fun w => cR (frontSky w)) * 1)
    (cosine_average (Vec 1 0 0) (Vec 0 1 0) (Vec 0 0 1) (fun w => cG (frontSky w)) * / 2) (cosine_average (Vec 1 0 0) (Vec 0 1 0) (Vec 0 0 1) (fun w => cB (frontSky w)) * 0)).
  { unfold frontSky; cbn [cR cG cB]. rewrite !A. f_equal; field. }
  rewrite E. cbn [cR cG cB] in T. apply T; auto.
  - apply (unit_projective rand2 fov cam Hf Hc).
  - revert Hc. unfold projective. rewrite CamProofs.proj_cam by (rnum; lra). intros Ec. injection Ec as <-. unfold lensless; cbn [camOrig]. rnum. destruct (Rltb_spec 0 0); [lra|reflexivity].
  - lia.
  - lia.
  - repeat split; cbn; lia.
  - unfold norm2, dot3; cbn [vx vy vz]; ring.
  - unfold dist2, norm2, dot3, minus3, Rsqr; cbn [vx vy vz]; lra.
  - split; [lra|]. assert (10 ^ 1 <= 10 ^ 99) by (apply Rle_pow; [lra|lia]). lra.
  - unfold along, plus3, scal3; cbn [vx vy vz]. apply vec_eq; cbn [vx vy vz]; field.
  - unfold norm2, dot3; cbn [vx vy vz]; ring.
  - intros t' Ht. unfold dist2, norm2, dot3, minus3, along, plus3, scal3, Rsqr; cbn [vx vy vz]. nra.
  - unfold orthonormal, norm2, dot3; cbn [vx vy vz]. repeat split; ring.
  - apply affine_continuous.
  - apply affine_continuous.
  - apply affine_continuous.
Qed.

(** ** Shares and means of the sequences *)
Lemma cell_integral n d c chi : (0 < n)%Z -> length c = d -> List.Forall (fun a => 0 <= a < n)%Z c ->
  (forall x, in_cell n c x -> chi x = 1) -> (forall x, ~ in_cell n c x -> chi x = 0) -> cube_integral d chi (/ IZR n ^ d).
Proof.
  intros Hn Hc Hb H1 H0 eps He. set (ind := fun c' => if list_eq_dec Z.eq_dec c' c then 1 else 0).
  assert (M : mean (map ind (cells n d)) = / IZR n ^ d).
  { unfold mean. rewrite map_length, <- INR_IZR_INZ, (length_cells n d Hn). unfold Rdiv. rewrite <- (Rmult_1_l (/ IZR n ^ d)) at 2. f_equal.
    assert (In c (cells n d)) as Hin by now apply in_cells. generalize (nodup_cells n d) Hin. generalize (cells n d).
    assert (Z0 : forall l, ~ In c l -> Rsum (map ind l) = 0).
    { induction l as [|a l IH]; [reflexivity|]. intros Hni. cbn [map Rsum]. rewrite IH by (intros X; apply Hni; now right).
      unfold ind. destruct (list_eq_dec Z.eq_dec a c) as [->|]; [exfalso; apply Hni; now left|lra]. }
    induction l as [|a l IH]; intros ND HI; [destruct HI|]. inversion ND; subst. cbn [map Rsum].
    destruct HI as [->|HI].
    - rewrite Z0 by assumption. unfold ind. destruct (list_eq_dec Z.eq_dec c c); [lra|congruence].
    - rewrite IH by assumption. unfold ind. destruct (list_eq_dec Z.eq_dec a c) as [->|]; [contradiction|lra]. }
  exists n, ind, ind. split; [exact Hn|]. split; [|rewrite M; lra].
  intros c' x Hin Hx. unfold ind. destruct (list_eq_dec Z.eq_dec c' c) as [->|Hne].
  - rewrite H1 by assumption. lra.
  - rewrite H0; [lra|]. intros X. apply Hne. now apply (cells_disjoint n c' c x).
Qed.

Lemma pair_even b1 b2 shifts pixel (s : nat -> hseq R) (x : nat -> list R) : (2 <= b1)%Z -> (2 <= b2)%Z -> Z.gcd b1 b2 = 1%Z ->
  (forall k, hseq_init (newHalton b1 b2 shifts) pixel (Z.of_nat k) = Val (s k)) ->
  (forall k, exists u v, hseq_generate2 (s k) = Val (u, v) /\ x k = [u; v]) -> equidistributed 2 x.
Proof.
  intros H1 H2 Hg Hs Hx.
  assert (E0 := Hs O). unfold hseq_init, newHalton in E0. cbn [hs_shifts hs_baseU hs_baseV] in E0.
  destruct (nth_error shifts pixel) as [[su sv]|] eqn:En; [|discriminate]. clear E0.
  change 2%nat with (length [b1; b2]). apply (halton_equidistributed [b1; b2] [su; sv]).
  - repeat (apply List.Forall_cons; [assumption|]). apply List.Forall_nil.
  - cbn. repeat split; auto. intros b' [<-|[]]. exact Hg. intros b' [].
  - reflexivity.
  - intros k. destruct (Hx k) as (u & v & G2 & ->). assert (E := Hs k). unfold hseq_init, newHalton in E. cbn [hs_shifts hs_baseU hs_baseV] in E. rewrite En in E.
    injection E as E. rewrite <- E in G2. destruct (generated _ _ _ _ _ _ _ _ G2) as (h1 & h2 & A & B & -> & ->).
    exists [h1; h2]. split; [repeat constructor; assumption|reflexivity].
Qed.
Lemma gives_even shifts pixel : (pixel < length shifts)%nat -> exists (q : nat -> ctxseq R) (x : nat -> list R),
  forall k, ctxseq_init (newCtxSeq shifts) pixel (Z.of_nat k) = Val (q k) /\ gives (q k) (x k) /\ in_unit_cube (x k).
Proof.
  intros Hp. apply nth_error_Some in Hp. destruct (nth_error shifts pixel) as [[su sv]|] eqn:En; [clear Hp|congruence].
  assert (H : forall k : nat, exists ql, ctxseq_init (newCtxSeq shifts) pixel (Z.of_nat k) = Val (fst ql) /\ gives (fst ql) (snd ql) /\ in_unit_cube (snd ql)).
  { intros k. assert (exists q, ctxseq_init (newCtxSeq shifts) pixel (Z.of_nat k) = Val q) as (q & E).
    { unfold ctxseq_init, newCtxSeq, hseq_init, newHalton. cbn [cs_1 cs_2 cs_L cs_AA hs_shifts]. rewrite En. cbn [obind]. eexists. reflexivity. }
    destruct (gives_total shifts pixel (Z.of_nat k) q (Zle_0_nat k) E) as (l & A & B). exists (q, l). auto. }
  set (q := fun k : nat => match ctxseq_init (newCtxSeq shifts) pixel (Z.of_nat k) with Val q => q | _ => newCtxSeq nil end).
  exists q, (fun k => match hseq_generate2 (cs_1 (q k)), hseq_generate2 (cs_2 (q k)) with Val (u1, v1), Val (u2, v2) => [u1; v1; u2; v2] | _, _ => nil end).
  intros k. destruct (H k) as ([q' l] & A & (u1 & v1 & u2 & v2 & El & G1 & G2) & C). cbn [fst snd] in *. unfold q. rewrite A, G1, G2. split; [reflexivity|]. subst l.
  split; [|exact C]. exists u1, v1, u2, v2. auto.
Qed.
Lemma cosine_law x L ex ey n : equidistributed 2 x -> orthonormal ex ey n -> continuous_light L ->
  Un_cv (running_mean (fun k => match x k with [u; v] => L (cosineSphere u v n) | _ => 0 end)) (cosine_average ex ey n L).
Proof.
  intros Hx HF HL. assert (Hn : norm2 n = 1) by apply HF. apply (Hx (hemi_fun L n)).
  rewrite (cosine_average_frame _ _ _ _ n L (frame_orthonormal n Hn) HF HL), <- (hemisphere_preserves L n Hn HL).
  apply continuous_integral. now apply hemi_fun_cont.
Qed.
Lemma disk_law x f : equidistributed 2 x -> continuous_on_disk f ->
  Un_cv (running_mean (fun k => match x k with [u; v] => let '(a, b) := uniformDisk u v in f a b | _ => 0 end)) (disk_average f).
Proof. intros Hx Hf. apply (Hx (disk_fun f)). rewrite <- disk_preserves by exact Hf. apply continuous_integral. now apply disk_fun_cont. Qed.
Lemma half_integral : cube_integral 4 (fun l => match l with u :: _ => if Rlt_dec u (/ 2) then 1 else 0 | nil => 0 end) (/ 2).
Proof.
  intros eps He. set (ind := fun c => match c with 0%Z :: _ => 1 | _ => 0 end).
  assert (M : mean (map ind (cells 2 4)) = / 2).
  { unfold mean. rewrite map_length, <- INR_IZR_INZ, (length_cells 2 4) by lia.
    assert (Rsum (map ind (cells 2 4)) = 8) as -> by (let l := eval vm_compute in (cells 2 4) in change (cells 2 4) with l; unfold ind; cbn [map Rsum]; lra). field. }
  exists 2%Z, ind, ind. split; [lia|]. split; [|rewrite M; lra].
  intros c x Hin Hx. apply in_cells in Hin. destruct Hin as [Hl Hb]. destruct c as [|a c]; [discriminate Hl|].
  inversion Hb as [|? ? Ha _]; subst. inversion Hx as [|? y ? x' [Hy1 Hy2] _]; subst. unfold ind.
  assert (a = 0 \/ a = 1)%Z as [->| ->] by lia; destruct (Rlt_dec y (/ 2)); lra.
Qed.
