(** * Scenes: the lemmas put together for the property statements (C21, C22, C44-C46, C50, C53, C55, C81-C83) *)
From Coq Require Import ZArith Reals Bool List Permutation Lia Lra.
From Verif Require Import Num NumLaws Outcome GeomModel GeomSpec GeomProofs ColorModel SeqModel ObjModel TreeModel ObjSpec ObjProofs PrimProofs SceneModel SceneSpec LookSpec SceneProofs CtxProofs ShadeProofs LightProofs MediaProofs CamProofs LookProofs SceneFacts FinishProofs.
Import ListNotations.
Local Open Scope R_scope.

(** ** Shadow rays *)
Lemma occlude_blocked {F} {NF : Num F} {G} (s : scene F) r q hits len orig (c : ctx F G) :
  nth_error (cHeap c) r = Some q -> hits_of (sObjects s) q hits ->
  (forall h, In h hits -> between len h -> is_transparent h -> exists f, filters_by h f) ->
  (exists h, In h hits /\ between len h /\ ~ is_transparent h) ->
  occlude s r len orig c = Val (black, c).
Proof. intros Hr Hh Ht Hb. exact (occlude_opaque (sObjects s) r q hits len Hh Ht orig c Hr Hb). Qed.
Lemma occlude_passes {F} {NF : Num F} {G} (s : scene F) r q hits len orig (c : ctx F G) :
  nth_error (cHeap c) r = Some q -> hits_of (sObjects s) q hits ->
  (forall h, In h hits -> between len h -> exists f, filters_by h f) ->
  exists fs, filtering len hits fs /\ occlude s r len orig c = Val (fold_left clmul3 fs orig, c).
Proof.
  intros Hr Hh Ht. destruct (filtering_exists len hits Ht) as [fs Hf]. exists fs. split; [exact Hf|].
  exact (occlude_filters (sObjects s) r q hits len Hh fs Hf orig c Hr).
Qed.
Lemma hits_perm {F M} {NF : Num F} (objs objs' : list (object F M)) q : Permutation objs objs' ->
  forall hits, hits_of objs q hits -> exists hits', hits_of objs' q hits' /\ Permutation hits hits'.
Proof.
  induction 1 as [|x l l' HP IH|x y l|l l' l'' HP1 IH1 HP2 IH2]; intros hits Hh.
  - exists hits. split; [exact Hh|apply Permutation_refl].
  - inversion Hh as [|? h ? hs H1 H2]; subst. destruct (IH hs H2) as (hs' & A & B). exists (h :: hs'). split; [constructor; assumption|now constructor].
  - inversion Hh as [|? h ? hs H1 H2]; subst. inversion H2 as [|? h2 ? hs2 H3 H4]; subst. exists (h2 :: h :: hs2).
    split; [constructor; [assumption|constructor; assumption]|constructor].
  - destruct (IH1 hits Hh) as (h1 & A & B). destruct (IH2 h1 A) as (h2 & C & D). exists h2. split; [exact C|now apply Permutation_trans with h1].
Qed.
Lemma occlude_order {G} (s s' : scene R) r q hits len orig (c : ctx R G) :
  Permutation (sObjects s) (sObjects s') ->
  nth_error (cHeap c) r = Some q -> hits_of (sObjects s) q hits ->
  (forall h, In h hits -> between len h -> is_transparent h -> exists f, filters_by h f) ->
  occlude s r len orig c = occlude s' r len orig c.
Proof.
  intros HP Hr Hh Ht. destruct (hits_perm _ _ q HP hits Hh) as (hits' & Hh' & HP').
  assert (Ht' : forall h, In h hits' -> between len h -> is_transparent h -> exists f, filters_by h f)
    by (intros h Hi; apply Ht; now apply (Permutation_in _ (Permutation_sym HP'))).
  assert (D : (exists h, In h hits /\ between len h /\ ~ is_transparent h) \/ (forall h, In h hits -> between len h -> is_transparent h)).
  { clear Hh Ht HP' Ht'. induction hits as [|h hs IH]; [right; intros ? []|].
    destruct IH as [(h' & A & B)|IH]; [left; exists h'; split; [now right|exact B]|].
    destruct (between_dec len h) as [X|X]; [|right; intros h' [<-|Hi] Hb; [contradiction|now apply IH]].
    destruct (transparent_dec h) as [Y|Y]; [right; intros h' [<-|Hi] Hb; [assumption|now apply IH]|].
    left. exists h. split; [now left|split; assumption]. }
  destruct D as [(h & A & B)|D].
  - rewrite (occlude_blocked s r q hits len orig c Hr Hh Ht) by eauto.
    rewrite (occlude_blocked s' r q hits' len orig c Hr Hh' Ht'); [reflexivity|]. exists h. split; [now apply (Permutation_in _ HP')|exact B].
  - destruct (filtering_exists len hits) as [fs Hf]; [intros h Hi Hb; apply Ht; auto|].
    destruct (filtering_perm len hits hits' HP' fs Hf) as (fs' & Hf' & Hp).
    unfold occlude. rewrite (occlude_filters (sObjects s) r q hits len Hh fs Hf orig c Hr).
    rewrite (occlude_filters (sObjects s') r q hits' len Hh' fs' Hf' orig c Hr).
    rewrite !product3_app, (product3_perm orig fs fs' Hp). reflexivity.
Qed.

(** ** Termination *)
Lemma eval_terminates {F} {NF : Num F} {NI : NumInf F} {TF : Trig F} {G} (rand2 : G -> (F * F) * G) fuel (s : scene F) w r (c : ctx F G) :
  restoring s -> finishing s -> seq_finishing (cSeq c) -> pool_ok c -> in_use c r ->
  (cDepth c <= sRecursionDepth s)%Z -> (Z.to_nat (sRecursionDepth s - cDepth c) < fuel)%nat ->
  watched rand2 fuel s nil w r c = lightField rand2 fuel s w r c /\ lightField rand2 fuel s w r c <> NoFuel.
Proof. intros H1 H2 H3 H4 H5 H6 H7. destruct (eval_watched rand2 fuel s w r c H1 H2 H3 H4 H5 H6 H7) as [A B]. split; [exact A|]. now rewrite <- A. Qed.
Lemma eval_stops {F} {NF : Num F} {NI : NumInf F} {TF : Trig F} {G} (rand2 : G -> (F * F) * G) (s : scene F) w r (c : ctx F G) :
  restoring s -> finishing s -> seq_finishing (cSeq c) -> pool_ok c -> in_use c r -> (cDepth c <= sRecursionDepth s)%Z ->
  exists fuel, lightField rand2 fuel s w r c <> NoFuel.
Proof. intros. exists (S (Z.to_nat (sRecursionDepth s - cDepth c))). apply (eval_terminates rand2 _ s w r c); auto. Qed.
Lemma built_scene_terminates {TF : Trig b64} {G} (rand2 : G -> (b64 * b64) * G) (to32 : b64 -> b64) sortSlice rd media lights objs :
  reorders sortSlice ->
  (forall o, In o objs -> iso_free to32 sortSlice o) -> (forall l, In l lights -> built_light to32 sortSlice l) ->
  (forall m, shown (newScene rd media lights objs) m -> textures (fun t => forall p, t p <> NoFuel) m) ->
  forall fuel w r (c : ctx b64 G) shifts pixel pass,
    ctxseq_init (newCtxSeq shifts) pixel pass = Val (cSeq c) -> (0 <= pass < 2 ^ 53 - 1)%Z ->
    pool_ok c -> in_use c r -> (cDepth c <= rd)%Z -> (Z.to_nat (rd - cDepth c) < fuel)%nat ->
    lightField rand2 fuel (newScene rd media lights objs) w r c <> NoFuel.
Proof.
  intros Hs Ho Hl Ht fuel w r c shifts pixel pass Hc Hp P U D Hf.
  apply (eval_terminates rand2 fuel (newScene rd media lights objs) w r c); auto.
  - apply (newScene_restoring to32 sortSlice Hs); [|exact Hl]. intros o Hi. apply iso_free_built, Ho, Hi.
  - split; [|exact Ht]. apply (newScene_ends to32 sortSlice Hs); assumption.
  - apply (init_finishing shifts pixel pass); assumption.
Qed.

(** ** Cameras *)
Lemma pinhole_dirs fov : 0 < fov < PI ->
  let f := / (2 * tan (fov / 2)) in
  let dir u v := unit_of (Vec (u - / 2) (v - / 2) (- f)) in
  0 < f /\ (forall u v, norm2 (dir u v) = 1) /\ dir (/ 2) (/ 2) = Vec 0 0 (-1) /\
  (forall u v, (/ 2 < u <-> 0 < vx (dir u v)) /\ (/ 2 < v <-> 0 < vy (dir u v)) /\ vz (dir u v) < 0) /\
  dot3 (dir 0 (/ 2)) (dir 1 (/ 2)) = cos fov.
Proof.
  intros Hf f dir. assert (T := tan_half_pos fov Hf). assert (F0 : 0 < f) by (apply Rinv_0_lt_compat; lra).
  split; [exact F0|]. split; [intros; apply unit_of_norm2'; cbn [vz]; lra|]. split; [now apply pinhole_center|].
  split; [|now apply pinhole_span]. intros u v. unfold dir, unit_of, scal3. cbn [vx vy vz].
  set (a := Vec (u - / 2) (v - / 2) (- f)). assert (N : 0 < / norm a).
  { apply Rinv_0_lt_compat, sqrt_lt_R0. unfold norm2, dot3, a; cbn [vx vy vz].
    generalize (Rle_0_sqr (u - / 2)) (Rle_0_sqr (v - / 2)) (Rmult_lt_0_compat f f F0 F0). unfold Rsqr. lra. }
  assert (K : forall x, 0 < x <-> 0 < / norm a * x).
  { intros x. split; intros H; [now apply Rmult_lt_0_compat|]. apply (Rmult_lt_reg_l (/ norm a)); [exact N|]. now rewrite Rmult_0_r. }
  split; [rewrite <- K; lra|]. split; [rewrite <- K; lra|].
  assert (X := proj1 (K f) F0). lra.
Qed.
Lemma env_covers : let dir u v := Vec (- (sin (2 * PI * u) * cos (PI * (v - / 2)))) (sin (PI * (v - / 2))) (cos (2 * PI * u) * cos (PI * (v - / 2))) in
  (forall u v, norm2 (dir u v) = 1) /\ dir (/ 2) (/ 2) = Vec 0 0 (-1) /\
  (forall u, dir u 0 = Vec 0 (-1) 0 /\ dir u 1 = Vec 0 1 0) /\
  (forall d, norm2 d = 1 -> (vx d <> 0 \/ vz d <> 0) -> exists u v, 0 <= u < 1 /\ 0 < v < 1 /\ dir u v = d) /\
  (forall u v u' v', 0 <= u < 1 -> 0 < v < 1 -> 0 <= u' < 1 -> 0 < v' < 1 -> dir u v = dir u' v' -> u = u' /\ v = v').
Proof.
  cbv zeta. split; [exact env_unit|]. split; [|split; [|split; [exact env_onto|exact env_inj]]].
  - replace (2 * PI * / 2) with PI by field. replace (PI * (/ 2 - / 2)) with 0 by ring. rewrite sin_PI, cos_PI, cos_0, sin_0. f_equal; ring.
  - intros u. replace (PI * (0 - / 2)) with (- (PI / 2)) by field. replace (PI * (1 - / 2)) with (PI / 2) by field.
    rewrite cos_neg, sin_neg, cos_PI2, sin_PI2. split; f_equal; ring.
Qed.
Lemma iso_frames dir : (0 <= dir <= 2)%Z -> let '(rt, up, back) := iso_frame dir in
  cross3 rt up = back /\ norm2 rt = 1 /\ norm2 up = 1 /\ norm2 back = 1.
Proof.
  intros H. assert (E : (dir = 0 \/ dir = 1 \/ dir = 2)%Z) by lia.
  destruct E as [->|[->| ->]]; unfold iso_frame; cbn [Z.eqb Pos.eqb]; unfold cross3, norm2, dot3; cbn [vx vy vz];
    (split; [f_equal; ring|repeat split; ring]).
Qed.
Lemma lens_witness : exists (c1 c2 : ctx R (R * R)) cam q1 q2, pool_ok c1 /\ pool_ok c2 /\
  projectiveAperture (PI / 2) 1 1 = Val cam /\
  shoots (NI := {| ninf := 1 |}) (fun g => (g, g)) cam (/ 2) (/ 2) c1 q1 /\ shoots (NI := {| ninf := 1 |}) (fun g => (g, g)) cam (/ 2) (/ 2) c2 q2 /\
  rStart q1 <> rStart q2 /\ 2 * tan (PI / 2 / 2) <> 1.
Proof.
  set (cx := fun g : R * R => Ctx 0%Z (newCtxSeq nil) g nil nil 0%Z : ctx R (R * R)).
  assert (P : forall g, pool_ok (cx g)) by (intros g; split; [constructor|intros i []]).
  assert (PB := PI_RGT_0).
  destruct (lens_rays (NI := {| ninf := 1 |}) (fun g : R * R => (g, g)) (PI / 2) 1 1) as (cam & Hc & Hall); [lra..|].
  destruct (Hall (/ 2) (/ 2) (cx (0, 0)) (P _)) as (x1 & y1 & U1 & S1).
  destruct (Hall (/ 2) (/ 2) (cx (0, 1)) (P _)) as (x2 & y2 & U2 & S2).
  cbn [fst snd cRng cx] in U1, U2. unfold uniformDisk in U1, U2. rnum.
  injection U1 as <- <-. injection U2 as <- <-.
  exists (cx (0, 0)), (cx (0, 1)), cam. eexists _, _. split; [apply P|]. split; [apply P|]. split; [exact Hc|]. split; [exact S1|]. split; [exact S2|].
  cbn [rStart]. split; [|replace (PI / 2 / 2) with (PI / 4) by field; rewrite tan_PI4; lra].
  intros E. apply (f_equal vx) in E. cbn [vx] in E. rewrite sqrt_0, sqrt_1 in E. revert E.
  match goal with |- context [cos ?a] => replace a with 0 by ring end. rewrite cos_0. lra.
Qed.

(** ** Refraction *)
Lemma refraction_spec n1 n2 d nn : 0 < n1 -> 0 < n2 -> d <> zero3 -> nn <> zero3 ->
  let f := refract n1 n2 d nn in
  ((dot3 d nn <= 0 /\ rfN f = unit_of nn /\ rfN1 f = n1 /\ rfN2 f = n2) \/
   (0 < dot3 d nn /\ rfN f = scal3 (-1) (unit_of nn) /\ rfN1 f = n2 /\ rfN2 f = n1)) /\
  rfI f = unit_of d /\
  snell_vec (rfN1 f) (rfN2 f) (rfI f) (rfN f) (transmitted f) /\
  (totalReflection f = false -> norm2 (transmitted f) = 1 /\ dot3 (transmitted f) (rfN f) <= 0 /\
     forall t, norm2 t = 1 -> dot3 t (rfN f) <= 0 -> snell_vec (rfN1 f) (rfN2 f) (rfI f) (rfN f) t -> t = transmitted f) /\
  (totalReflection f = true <-> ~ exists t, norm2 t = 1 /\ snell_vec (rfN1 f) (rfN2 f) (rfI f) (rfN f) t).
Proof.
  intros H1 H2 Hd Hn f.
  assert (U : forall a : pt, vnormalized a = unit_of a) by exact vnormalized_unit_of.
  assert (K : forall a : pt, a <> zero3 -> 0 < / norm a).
  { intros a Ha. apply Rinv_0_lt_compat, sqrt_lt_R0. destruct (Req_dec (norm2 a) 0) as [E|E].
    - exfalso. apply Ha. destruct a as [x y z]. unfold norm2, dot3 in E. cbn [vx vy vz] in E. unfold zero3. f_equal; nra.
    - generalize (norm2_ge0 a). lra. }
  assert (S : dot3 (unit_of d) (unit_of nn) = / norm d * / norm nn * dot3 d nn) by (unfold unit_of; spec_unfold; ring).
  assert (Q := Rmult_lt_0_compat _ _ (K d Hd) (K nn Hn)).
  split; [|split; [unfold f; now rewrite refract_dir, U|split; [now apply transmitted_snell|split; [|now apply total_iff]]]].
  - destruct (refract_cases n1 n2 d nn) as [(A & B)|(A & B)]; fold f in B; rewrite !U in A; rewrite !U in B; rewrite ?S in A; [right|left]; (split; [|exact B]).
    + apply (Rmult_lt_reg_l (/ norm d * / norm nn)); [exact Q|]. now rewrite Rmult_0_r.
    + destruct (Rle_or_lt (dot3 d nn) 0) as [X|X]; [exact X|]. generalize (Rmult_lt_0_compat _ _ Q X). lra.
  - intros T. assert (T' : rfSin2T f <= 1) by (unfold totalReflection in T; fold f in T; revert T; rnum; rcase; intros; [discriminate|lra]).
    split; [now apply transmitted_unit|]. split; [|intros; now apply transmitted_unique].
    assert (E := transmitted_dot n1 n2 d nn). cbv zeta in E. fold f in E. rewrite E by assumption. generalize (sqrt_pos (1 - rfSin2T f)). lra.
Qed.

(** ** Area lights *)
Lemma scaled_mul k j (b : color R) : clmul (clmul b k) j = scaled (j * k) b.
Proof. destruct b as [x y z]. unfold clmul, scaled. cbn [cR cG cB]. rnum. f_equal; ring. Qed.
Lemma rect_light {G} {NI : NumInf R} (rand2 : G -> (R * R) * G) to32 sortSlice b w h center l :
  0 <= w -> 0 <= h -> rectangleLight to32 sortSlice b w h center = Val l ->
  forall target (c c' : ctx R G) u v, generate2 rand2 c = Val ((u, v), c') -> 0 <= u <= 1 -> 0 <= v <= 1 ->
  exists p k, lightSample rand2 l target c = Val ((p, scaled (k * (w * h)) b), c') /\
    vy p = vy center + tinyR /\ Rabs (vx p - vx center) <= w / 2 /\ Rabs (vz p - vz center) <= h / 2 /\
    0 <= k /\ (vy p <= vy target -> k = 0) /\
    (vy target < vy p -> k = (vy p - vy target) / dist target p / (PI * (dist target p * dist target p))).
Proof.
  intros Hw Hh Hl target c c' u v Hg Hu Hv. unfold rectangleLight, planarLight in Hl.
  apply omap_val' in Hl. destruct Hl as (rect & _ & ->).
  exists (planarPos w h center KRect (u, v)), (planarIntensity (planarPos w h center KRect (u, v)) target).
  split; [rewrite (planar_sample _ _ _ _ _ _ _ _ _ _ _ _ Hg), scaled_mul; rnum; now rewrite Rmult_1_r|].
  destruct (rect_pos w h center u v Hw Hh Hu Hv) as (A & B & C).
  split; [exact B|]. split; [exact A|]. split; [exact C|]. apply planarIntensity_spec.
Qed.
Lemma disk_light {G} {NI : NumInf R} (rand2 : G -> (R * R) * G) to32 sortSlice b diam center l :
  0 <= diam -> diskLight to32 sortSlice b diam center = Val l ->
  forall target (c c' : ctx R G) u v, generate2 rand2 c = Val ((u, v), c') -> 0 <= v <= 1 ->
  exists p k, lightSample rand2 l target c = Val ((p, scaled (k * (PI * (diam / 2) ^ 2)) b), c') /\
    vy p = vy center + tinyR /\ (vx p - vx center) ^ 2 + (vz p - vz center) ^ 2 = v * (diam / 2) ^ 2 /\
    0 <= k /\ (vy p <= vy target -> k = 0) /\
    (vy target < vy p -> k = (vy p - vy target) / dist target p / (PI * (dist target p * dist target p))).
Proof.
  intros Hw Hl target c c' u v Hg Hv. unfold diskLight, planarLight in Hl.
  apply omap_val' in Hl. destruct Hl as (rect & _ & ->).
  exists (planarPos diam diam center KDisk (u, v)), (planarIntensity (planarPos diam diam center KDisk (u, v)) target).
  split; [rewrite (planar_sample _ _ _ _ _ _ _ _ _ _ _ _ Hg), scaled_mul; rnum; do 4 f_equal; field|].
  destruct (disk_pos diam center u v Hw Hv) as (A & B).
  split; [exact B|]. split; [|apply planarIntensity_spec]. rewrite <- !Rsqr_pow2. unfold Rsqr. exact A.
Qed.

(** ** Fog *)
Lemma horizontal_fog height (q : ray R) tMax : vy (rDir q) = 0 -> vy (rStart q) < height -> 0 < tMax ->
  fogInterval (XF height) (XF tMax) (xray (rStart q) (rDir q)) = (XF 0, XF 0) /\
  forall t, 0 < t < tMax -> vy (along (rStart q) (rDir q) t) < height.
Proof.
  intros Hd Hs Ht. split; [now apply fog_horizontal|]. intros t _. unfold along, plus3, scal3. cbn [vy]. rewrite Hd. lra.
Qed.

(** ** What evaluations mean *)
Lemma evaluation_meaning {G} {NI : NumInf R} (rand2 : G -> (R * R) * G) (s : scene R) :
  0 < ninf -> (forall o, In o (all_objects s) -> sound_object o) -> sMedia s = nil ->
  forall fuel w r q (c : ctx R G), (0 <= cDepth c <= sRecursionDepth s)%Z ->
    (Z.to_nat (sRecursionDepth s - cDepth c) < fuel)%nat ->
    pool_ok c -> in_use c r -> random_ok rand2 (cSeq c) -> nth_error (cHeap c) r = Some q -> norm2 (rDir q) = 1 ->
    exists col c', lightField rand2 fuel s w r c = Val (col, c') /\
      light_at rand2 s (cSeq c) (Z.to_nat (sRecursionDepth s - cDepth c)) w q col /\ same_rays c c' /\ cDepth c' = cDepth c.
Proof.
  intros H1 H2 H3 fuel w r q c Hd Hf P U Hr Hq Hn.
  destruct (lightField_light rand2 s H1 H2 H3 (cSeq c) (Z.to_nat (sRecursionDepth s - cDepth c)) fuel (cDepth c) Hf ltac:(lia) ltac:(lia) w r q c P U eq_refl eq_refl Hr Hq Hn) as (col & c' & A & B & C & D & E).
  exists col, c'. auto.
Qed.
Lemma evaluation_safe {G} {NI : NumInf R} (rand2 : G -> (R * R) * G) (s : scene R) :
  0 < ninf -> (forall o, In o (all_objects s) -> sound_object o) -> sMedia s = nil ->
  forall fuel w r q (c : ctx R G), (0 <= cDepth c <= sRecursionDepth s)%Z ->
    (Z.to_nat (sRecursionDepth s - cDepth c) < fuel)%nat ->
    pool_ok c -> in_use c r -> random_ok rand2 (cSeq c) -> nth_error (cHeap c) r = Some q -> norm2 (rDir q) = 1 ->
    lightField rand2 fuel s w r c <> Panic.
Proof.
  intros H1 H2 H3 fuel w r q c Hd Hf P U Hr Hq Hn.
  destruct (evaluation_meaning rand2 s H1 H2 H3 fuel w r q c Hd Hf P U Hr Hq Hn) as (col & c' & -> & _). discriminate.
Qed.
Lemma sound_balls (NI : NumInf R) :
  (forall m, (forall p, definite p m) -> sound_object (backdrop (Some m))) /\
  (forall m diam center, 0 < diam -> (forall p, definite p m) -> sound_object (sphere (Some m) diam center)).
Proof.
  split.
  - intros m Hm q Hq. eexists. split; [reflexivity|]. intros _. cbn [hNormal hMat hLocal]. split; [|exists m; auto].
    intros _ E. rewrite E in Hq. unfold norm2, dot3, zero3 in Hq. cbn [vx vy vz] in Hq. lra.
  - intros m diam center Hd Hm [s d] Hq. cbn [rDir] in Hq. eexists. split; [reflexivity|]. intros Ht.
    assert (D : d <> zero3) by (intros E; rewrite E in Hq; unfold norm2, dot3, zero3 in Hq; cbn [vx vy vz] in Hq; lra).
    destruct (sphere_exact (Some m) diam center s d ltac:(lra) D) as [(A & B & C & L & E & _)|(E & _)].
    + split; [|exists m; split; [exact E|auto]]. intros _. rewrite C. intros Z. unfold dist2 in B. rewrite Z in B.
      unfold norm2, dot3, zero3, Rsqr in B. cbn [vx vy vz] in B. nra.
    + exfalso. revert Ht. match goal with |- 0 < hT ?x -> _ => replace x with (noHit : hit R (material R)) by (symmetry; exact E) end.
      unfold noHit. cbn [hT]. rnum. lra.
Qed.
Lemma mirror_one (NI : NumInf R) (rand2 : unit -> (R * R) * unit) : 10 ^ 99 <= ninf ->
  forall sq col, light_at rand2 (newScene 2 nil nil [backdrop (Some (MReflective (Color 1 0 (/ 2))))]) sq 1 All (Ray zero3 (Vec 0 0 1)) col ->
  col = Color 0 0 0.
Proof.
  intros Hn sq col (hits & Hh & H). cbn [whoObjects newScene sObjectsAndLights app map] in Hh.
  inversion Hh as [|? h ? hs H1 H2]; subst. inversion H2; subst. clear H2 Hh. unfold backdrop, simpleObj in H1. cbn [oIntersect] in H1. injection H1 as <-.
  destruct H as [[_ ->]|(h & m & Hl & _ & Hm & Hk)]; [reflexivity|].
  destruct (last_nearest_in _ _ Hl) as [[<-|[]] _]. cbn [hMat] in Hm. injection Hm as <-.
  inversion Hk as [| | |c b HL| | | | | | | |]; subst. unfold mul_color. cbn [light_at] in HL. subst b. unfold no_light. cbn [cR cG cB]. f_equal; ring.
Qed.
Lemma matte_looks {G} {NI : NumInf R} (rand2 : G -> (R * R) * G) (here : ctx R G -> Prop) (s : scene R) (L : who -> ray R -> color R -> Prop) p d n t local tex col :
  looks rand2 here (sObjects s) (sLights s) L p d n t local (MMatte tex) col ->
  exists refl m total c c' x y w b, tex local = Val refl /\ facing d n m /\
    here c /\ generate2 rand2 c = Val ((x, y), c') /\ w = cosineSphere x y m /\
    direct rand2 here (sObjects s) (plus3 (along p d t) (scal3 tinyR m)) m (sLights s) total /\
    norm2 w = 1 /\ 0 <= dot3 w m /\ L MinusLights (Ray (plus3 (along p d t) (scal3 (2 * tinyR) m)) w) b /\
    col = mul_color (add_color total b) refl.
Proof. intros H. inversion H; subst. do 9 eexists. repeat (split; [eassumption || reflexivity|]). reflexivity. Qed.
Lemma hits_fun {F M} {NF : Num F} (objs : list (object F M)) q hits : hits_of objs q hits -> forall hits', hits_of objs q hits' -> hits' = hits.
Proof.
  induction 1 as [|o h os hs H1 H2 IH]; intros hits' H'; inversion H' as [|? h' ? hs' H3 H4]; subst; [reflexivity|].
  rewrite H1 in H3. injection H3 as <-. f_equal. now apply IH.
Qed.
Lemma filtering_none {F} {NF : Num F} (len : F) hits : (forall h, In h hits -> ~ between len h) -> forall fs, filtering len hits fs -> fs = nil.
Proof.
  intros H fs Hf. induction Hf as [|h hits fs Hn _ IH|h f hits fs Hb _ _ _]; [reflexivity| |].
  - apply IH. intros h' Hi. apply H. now right.
  - exfalso. apply (H h); [now left|exact Hb].
Qed.
Lemma lambert_point {G} {NI : NumInf R} (rand2 : G -> (R * R) * G) here objs power pos p n hits col :
  p <> pos -> hits_of objs (Ray p (unit_of (minus3 pos p))) hits ->
  (forall h, In h hits -> ~ between (dist pos p) h) -> 0 < dot3 (unit_of (minus3 pos p)) n ->
  contribution rand2 here objs p n (pointLight power pos) col ->
  col = scaled (dot3 (unit_of (minus3 pos p)) n / (4 * PI * (dist p pos * dist p pos))) power.
Proof.
  intros Hp Hh Hb Hc H. inversion H as [c c' lpos Hc' E|c c' lpos intens Hc' E Hd|c c' lpos intens hits' Hc' E Hd Hh' (h & A & B & _)|c c' lpos intens hits' fs Hc' E Hd Hh' Hf]; subst;
    rewrite (point_light_sample rand2 power pos p c Hp) in E.
  - apply (f_equal (fun o => match o with Val ((_, x), _) => x | _ => no_light end)) in E. rename E into Z.
    destruct power as [a b d]. unfold scaled, no_light in *. cbn [cR cG cB] in *. injection Z as Z1 Z2 Z3.
    assert (K : forall x, / (4 * PI * (dist p pos * dist p pos)) * x = 0 ->
      0 = dot3 (unit_of (minus3 pos p)) n / (4 * PI * (dist p pos * dist p pos)) * x) by (intros x X; unfold Rdiv; rewrite Rmult_assoc, X; ring).
    f_equal; now apply K.
  - apply (f_equal (fun o => match o with Val ((x, _), _) => x | _ => zero3 end)) in E. subst lpos. lra.
  - apply (f_equal (fun o => match o with Val ((x, _), _) => x | _ => zero3 end)) in E. subst lpos.
    exfalso. rewrite (hits_fun _ _ _ Hh hits' Hh') in A. now apply (Hb h A).
  - assert (E2 := f_equal (fun o => match o with Val ((_, x), _) => x | _ => no_light end) E).
    apply (f_equal (fun o => match o with Val ((x, _), _) => x | _ => zero3 end)) in E. cbv beta iota in E, E2. subst lpos intens.
    rewrite (hits_fun _ _ _ Hh hits' Hh') in Hf. rewrite (filtering_none _ _ Hb fs Hf). unfold product3, scaled. cbn [fold_right cR cG cB].
    f_equal; unfold Rdiv; ring.
Qed.
