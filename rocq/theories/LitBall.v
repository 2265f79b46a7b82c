(** * A matte ball under a rectangle light or a disk light *)
From Coq Require Import ZArith Reals Bool List Lia Lra Psatz.
From Coquelicot Require Import Coquelicot.
From Verif Require CamProofs.
From Verif Require Import Num NumLaws Outcome GeomModel GeomSpec GeomProofs ColorModel SeqModel SeqSpec HaltonProofs SeqProofs
  SamplerModel SamplerSpec SamplerProofs PoolProofs SamplerNum SamplerFacts ObjModel TreeModel ObjSpec ObjProofs PrimProofs SceneModel SceneSpec SceneProofs CtxProofs
  LightProofs LookSpec LookProofs SceneFacts SceneMore RenderModel RenderSpec RenderProofs RenderFacts EquiSpec EquiProofs EquiMean EquiIntSpec EquiInt
  DiffuseSpec DiffuseProofs DiffuseFrame LimitSpec LimitProofs LimitFacts EquiAdd LitFacts LampSpec LampProofs LitSpec LampSound LitLamp LitArea.
Import ListNotations.
Local Open Scope R_scope.

Section Balls.
  Context {G : Type} {NI : NumInf R}.
  Variable rand2 : G -> (R * R) * G.
  Hypothesis Hinf : 1 < ninf <= 9 * 10 ^ 99.
  Variables (to32 : R -> R) (ss : (object R (material R) -> object R (material R) -> bool) -> list (object R (material R)) -> list (object R (material R))).
  Variables (tex : texture R) (diam : R) (center : pt).
  Hypothesis Hdiam : 0 < diam.
  Hypothesis Htex : forall p, exists c, tex p = Val c.
  Variables (b : color R) (c : pt) (l : light R).

  Lemma rect_ball_limit lw lh fuel cam aa shifts w h (m : nat -> mem R) p q0 x y S D t n refl (g : G) :
    0 < lw -> 0 < lh -> rectangleLight to32 ss b lw lh c = Val l ->
    (2 < fuel)%nat -> unit_camera rand2 cam -> lensless cam -> (forall g, 0 <= fst (fst (rand2 g)) <= 1 /\ 0 <= snd (fst (rand2 g)) <= 1) ->
    (0 <= w)%Z -> (0 <= h)%Z -> Z.of_nat (length shifts) = (w * h)%Z -> in_image w h p -> sample_pos aa shifts w h p 0 = Val (q0, (x, y)) ->
    renderings rand2 fuel (newScene 2 nil [l] [sphere (Some (MMatte tex)) diam center]) cam aa shifts w h m ->
    (forall (c : ctx R G) r, pool_ok c -> shoots rand2 cam x y c r -> r = Ray S D) -> norm2 D = 1 ->
    (diam / 2)² < dist2 S center -> 0 < t <= ninf -> along S D t = plus3 center (scal3 (diam / 2) n) -> norm2 n = 1 ->
    (forall t', 0 < t' < t -> dist2 (along S D t') center <> (diam / 2)²) -> (forall t', 0 < t' <= t -> ~ on_rect lw lh c (along S D t')) ->
    tex (scal3 (diam / 2) n) = Val refl ->
    tends_to (fun k => imagef (m k) p)
      (mul_color (scaled (over_rect lw lh c (sent (plus3 (plus3 center (scal3 (diam / 2) n)) (scal3 tinyR n)) n)) b) refl).
  Proof.
    intros Hlw Hlh Hl Hf Hc Hle Hr Hw Hh Hsh Hp E0 Hren Hq HD Hout Ht HP Hn Hfirst Hnl Htx.
    set (xx := plus3 (plus3 center (scal3 (diam / 2) n)) (scal3 tinyR n)).
    set (I := over_rect lw lh c (sent xx n)).
    replace I with ((lw * lh) * (/ (lw * lh) * I)) by (field; lra).
    assert (Hlamp := rect_lamp (proj1 Hinf) (proj2 Hinf) to32 ss b lw lh c l Hlw Hlh Hl).
    refine (lamp_limit rand2 _ tex diam center Hdiam Htex l b (on_rect lw lh c) (lw * lh) (fun u v => planarPos lw lh c KRect (u, v)) Hlamp _
      fuel cam aa shifts w h m p q0 x y S D t n refl _ g Hf Hc Hle Hr Hw Hh Hsh Hp E0 Hren Hq HD Hout Ht HP Hn Hfirst Hnl Htx _); [lra| |].
    - intros target c0 c0' u v Hg. unfold rectangleLight, planarLight in Hl. apply omap_val' in Hl. destruct Hl as (rect & _ & ->).
      rewrite (planar_sample _ _ _ _ _ _ _ _ _ _ _ _ Hg), scaled_mul, <- radiated_below. rnum. do 3 f_equal. f_equal. ring.
    - unfold I, over_rect. replace (vz c + lh / 2) with (vz c - lh / 2 + lh) by field. replace (vx c + lw / 2) with (vx c - lw / 2 + lw) by field.
      apply (cube_integral_ext 2 (fun l0 => match l0 with [u; v] => (fun a d => sent xx n (Vec a (vy c + tinyR) d)) (vx c - lw / 2 + lw * u) (vz c - lh / 2 + lh * v) | _ => 0 end)).
      + intros l0 H2 _. destruct l0 as [|u [|v [|? ?]]]; try discriminate H2. f_equal. unfold planarPos, transfSample, transfRect, vadd, nQ. cbn [fst snd vx vy vz]. rnum.
        rewrite ?tiny_eq; apply vec_eq; cbn [vx vy vz]; field.
      + apply (over_rectangle _ (sent_cont xx n (vy c + tinyR)) lw lh); assumption.
  Qed.
  Lemma disk_ball_limit ld fuel cam aa shifts w h (m : nat -> mem R) p q0 x y S D t n refl (g : G) :
    0 < ld -> diskLight to32 ss b ld c = Val l ->
    (2 < fuel)%nat -> unit_camera rand2 cam -> lensless cam -> (forall g, 0 <= fst (fst (rand2 g)) <= 1 /\ 0 <= snd (fst (rand2 g)) <= 1) ->
    (0 <= w)%Z -> (0 <= h)%Z -> Z.of_nat (length shifts) = (w * h)%Z -> in_image w h p -> sample_pos aa shifts w h p 0 = Val (q0, (x, y)) ->
    renderings rand2 fuel (newScene 2 nil [l] [sphere (Some (MMatte tex)) diam center]) cam aa shifts w h m ->
    (forall (c : ctx R G) r, pool_ok c -> shoots rand2 cam x y c r -> r = Ray S D) -> norm2 D = 1 ->
    (diam / 2)² < dist2 S center -> 0 < t <= ninf -> along S D t = plus3 center (scal3 (diam / 2) n) -> norm2 n = 1 ->
    (forall t', 0 < t' < t -> dist2 (along S D t') center <> (diam / 2)²) -> (forall t', 0 < t' <= t -> ~ on_disk ld c (along S D t')) ->
    tex (scal3 (diam / 2) n) = Val refl ->
    tends_to (fun k => imagef (m k) p)
      (mul_color (scaled (over_disk ld c (sent (plus3 (plus3 center (scal3 (diam / 2) n)) (scal3 tinyR n)) n)) b) refl).
  Proof.
    intros Hld Hl Hf Hc Hle Hr Hw Hh Hsh Hp E0 Hren Hq HD Hout Ht HP Hn Hfirst Hnl Htx.
    set (xx := plus3 (plus3 center (scal3 (diam / 2) n)) (scal3 tinyR n)).
    set (I := over_disk ld c (sent xx n)). assert (PP := PI_RGT_0).
    replace I with ((PI * (ld / 2 * (ld / 2))) * (/ (PI * (ld / 2 * (ld / 2))) * I)) by (field; lra).
    assert (Hlamp := disk_lamp (proj1 Hinf) (proj2 Hinf) to32 ss b ld c l Hld Hl).
    refine (lamp_limit rand2 _ tex diam center Hdiam Htex l b (on_disk ld c) (PI * (ld / 2 * (ld / 2))) (fun u v => planarPos ld ld c KDisk (u, v)) Hlamp _
      fuel cam aa shifts w h m p q0 x y S D t n refl _ g Hf Hc Hle Hr Hw Hh Hsh Hp E0 Hren Hq HD Hout Ht HP Hn Hfirst Hnl Htx _); [lra| |].
    - intros target c0 c0' u v Hg. unfold diskLight, planarLight in Hl. apply omap_val' in Hl. destruct Hl as (rect & _ & ->).
      rewrite (planar_sample _ _ _ _ _ _ _ _ _ _ _ _ Hg), scaled_mul, <- radiated_below. rnum. do 3 f_equal. f_equal. field.
    - apply (cube_integral_ext 2 (fun l0 => match l0 with [u; v] => (fun a d => sent xx n (Vec a (vy c + tinyR) d)) (vx c + ld / 2 * fst (uniformDisk u v)) (vz c + ld / 2 * snd (uniformDisk u v)) | _ => 0 end)).
      + intros l0 H2 _. destruct l0 as [|u [|v [|? ?]]]; try discriminate H2. f_equal. unfold planarPos, transfSample, transfRect, vadd, nQ. cbn [fst snd].
        destruct (uniformDisk u v) as [a d]. cbn [fst snd vx vy vz]. rnum.
        rewrite ?tiny_eq; apply vec_eq; cbn [vx vy vz]; field.
      + apply (over_circle _ (sent_cont xx n (vy c + tinyR)) (ld / 2)); lra.
  Qed.
End Balls.

(** straight below the middle of a disk *)
Lemma over_disk_axis diam c x : 0 < diam -> vx x = vx c -> vz x = vz c -> vy x < vy c + tinyR ->
  over_disk diam c (sent x (Vec 0 1 0)) = (diam / 2)² / ((diam / 2)² + (vy c + tinyR - vy x)²).
Proof.
  intros Hd Ex Ez Hy. set (H := vy c + tinyR - vy x). assert (0 < H) by (unfold H; lra). assert (PP := PI_RGT_0).
  unfold over_disk.
  assert (E : forall ph r, sent x (Vec 0 1 0) (Vec (vx c + r * cos ph) (vy c + tinyR) (vz c + r * sin ph)) * r = H² * r / (PI * (r² + H²)²)).
  { intros ph r. assert (N : norm2 (minus3 (Vec (vx c + r * cos ph) (vy c + tinyR) (vz c + r * sin ph)) x) = r² + H²).
    { unfold norm2, dot3, minus3. cbn [vx vy vz]. rewrite Ex, Ez. fold H. assert (T := sin2_cos2 ph). unfold Rsqr in *.
      replace ((vx c + r * cos ph - vx c) * (vx c + r * cos ph - vx c) + H * H + (vz c + r * sin ph - vz c) * (vz c + r * sin ph - vz c)) with (r * r * (sin ph * sin ph + cos ph * cos ph) + H * H) by ring.
      rewrite T. ring. }
    assert (0 < r² + H²) by (unfold Rsqr; nra).
    unfold sent. assert (0 < dist (Vec (vx c + r * cos ph) (vy c + tinyR) (vz c + r * sin ph)) x) by (unfold dist, norm; rewrite N; now apply sqrt_lt_R0).
    assert (DD : dist (Vec (vx c + r * cos ph) (vy c + tinyR) (vz c + r * sin ph)) x * dist (Vec (vx c + r * cos ph) (vy c + tinyR) (vz c + r * sin ph)) x = r² + H²).
    { unfold dist, norm. rewrite sqrt_sqrt; rewrite N; lra. }
    assert (dot3 (minus3 (Vec (vx c + r * cos ph) (vy c + tinyR) (vz c + r * sin ph)) x) (Vec 0 1 0) = H) as -> by (unfold dot3, minus3, H; cbn [vx vy vz]; ring).
    cbn [vy]. fold H. rewrite Rmax_right by lra. set (d := dist _ x) in *. clearbody d. rewrite <- DD. unfold Rsqr. field. lra. }
  assert (In : RInt (fun r => H² * r / (PI * (r² + H²)²)) 0 (diam / 2) = (diam / 2)² / ((diam / 2)² + H²) / (2 * PI)).
  { apply is_RInt_unique.
    replace ((diam / 2)² / ((diam / 2)² + H²) / (2 * PI)) with (minus ((- H² / (2 * PI * ((diam / 2)² + H²)))) (- H² / (2 * PI * (0² + H²)))).
    2:{ unfold minus, plus, opp, Rsqr; cbn. field. split; nra. }
    apply (is_RInt_derive (fun r => - H² / (2 * PI * (r² + H²)))).
    - intros r _. unfold Rsqr. assert (K : 0 < r * r + H * H) by nra. assert (K2 : 2 * PI * (r * r + H * H) <> 0) by (apply Rgt_not_eq, Rmult_lt_0_compat; lra).
      auto_derive; [exact K2|]. field. lra.
    - intros r _. apply (ex_derive_continuous (fun r => H² * r / (PI * (r² + H²)²))). unfold Rsqr. assert (K : 0 < r * r + H * H) by nra.
      assert (K2 : PI * ((r * r + H * H) * (r * r + H * H)) <> 0) by (apply Rgt_not_eq, Rmult_lt_0_compat; [lra|now apply Rmult_lt_0_compat]). auto_derive. exact K2. }
  rewrite (RInt_ext _ (fun _ => (diam / 2)² / ((diam / 2)² + H²) / (2 * PI))).
  2:{ intros ph _. rewrite <- In. apply RInt_ext. intros r _. apply E. }
  rewrite RInt_const. unfold scal; cbn. unfold mult; cbn. field. split; [unfold Rsqr; nra|lra].
Qed.
