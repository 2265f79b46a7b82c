(** * Auxiliary facts for C125 and C126 *)
From Coq Require Import ZArith Reals Bool List Lra Lia.
From Verif Require Import Num NumLaws Outcome GeomModel GeomSpec GeomProofs ColorModel SeqModel ObjModel TreeModel SceneModel SceneSpec ObjSpec MeshSpec MeshProofs RectProofs DiskProofs
  LampSpec LightLook LampProofs.
Import ListNotations.
Local Open Scope R_scope.

Lemma split_seen {TF : Trig xr} {G} (rand2 : G -> (xr * xr) * G) (b : color xr) (d : pt) (A B : Prop) (sees : who -> color xr -> Prop) : (A <-> B) ->
  (forall who, exists col, sees who col /\ (B -> col = match who with All => lamp_side b d | MinusLights => black end) /\ (~ B -> col = black)) ->
  (B \/ ~ B) ->
  (A -> 0 < vy d -> sees All b) /\ (A -> vy d < 0 -> sees All black) /\ (~ A -> sees All black) /\ sees MinusLights black.
Proof.
  intros AB H Dec. destruct (H All) as (col & S & Y & N). destruct (H MinusLights) as (col' & S' & Y' & N'). unfold lamp_side in Y. repeat split.
  - intros a P. rewrite Y in S by tauto. replace (Rltb 0 (vy d)) with true in S by (symmetry; now apply Rltb_true). exact S.
  - intros a P. rewrite Y in S by tauto. replace (Rltb 0 (vy d)) with false in S by (symmetry; apply Rltb_false; lra). exact S.
  - intros a. now rewrite N in S by tauto.
  - destruct Dec as [X|X]; [now rewrite Y' in S'|now rewrite N' in S'].
Qed.

Lemma rect_lamp_seen {TF : Trig xr} {G} (rand2 : G -> (xr * xr) * G) sortSlice (b : color xr) (w dp : R) (c s d : pt) (k : Z) :
  0 < w -> 0 < dp -> vy d <> 0 ->
  vx d <> 0 \/ (vx s <> vx c - w / 2 /\ vx s <> vx c + w / 2) ->
  vz d <> 0 \/ (vz s <> vz c - dp / 2 /\ vz s <> vz c + dp / 2) ->
  (vy c - vy s) / vy d < horizon ->
  let ahead := exists t, 0 < t /\ vy (along s d t) = vy c /\
                 Rabs (vx (along s d t) - vx c) <= w / 2 /\ Rabs (vz (along s d t) - vz c) <= dp / 2 in
  exists l, rectangleLight (fun x => x) sortSlice b (XF w) (XF dp) (xv c) = Val l /\
    forall n (cx : ctx xr G) r, nth_error (cHeap cx) r = Some (xray s d) -> cDepth cx <> k ->
      let sees who col := lightField rand2 (S n) (newScene k nil [l] nil) who r cx = Val (col, withNumRays cx (cNumRays cx + 1)%Z) in
      (ahead -> 0 < vy d -> sees All b) /\ (ahead -> vy d < 0 -> sees All black) /\ (~ ahead -> sees All black) /\
      sees MinusLights black.
Proof.
  intros Hw Hdp Hd Cx Cz HB ahead. destruct (rect_lamp rand2 sortSlice b w dp c s d k Hw Hdp Hd Cx Cz HB) as (l & El & H).
  exists l. split; [exact El|]. intros n cx r Hr Hk sees.
  eapply (split_seen rand2 b d ahead _ sees); [reflexivity|intros who; exact (H n who cx r Hr Hk)|apply Classical_Prop.classic].
Qed.
Lemma disk_lamp_seen {TF : Trig xr} {G} (rand2 : G -> (xr * xr) * G) sortSlice (b : color xr) (diam : R) (c s d : pt) (k : Z) :
  0 < diam -> vy d <> 0 ->
  vx d <> 0 \/ (vx s <> vx c - diam / 2 /\ vx s <> vx c + diam / 2) ->
  vz d <> 0 \/ (vz s <> vz c - diam / 2 /\ vz s <> vz c + diam / 2) ->
  (vy c - vy s) / vy d < horizon ->
  let ahead := exists t, 0 < t /\ vy (along s d t) = vy c /\
                 (vx (along s d t) - vx c)² + (vz (along s d t) - vz c)² < (diam / 2)² in
  exists l, diskLight (fun x => x) sortSlice b (XF diam) (xv c) = Val l /\
    forall n (cx : ctx xr G) r, nth_error (cHeap cx) r = Some (xray s d) -> cDepth cx <> k ->
      let sees who col := lightField rand2 (S n) (newScene k nil [l] nil) who r cx = Val (col, withNumRays cx (cNumRays cx + 1)%Z) in
      (ahead -> 0 < vy d -> sees All b) /\ (ahead -> vy d < 0 -> sees All black) /\ (~ ahead -> sees All black) /\
      sees MinusLights black.
Proof.
  intros Hw Hd Cx Cz HB ahead. destruct (disk_lamp rand2 sortSlice b diam c s d k Hw Hd Cx Cz HB) as (l & El & H).
  exists l. split; [exact El|]. intros n cx r Hr Hk sees.
  eapply (split_seen rand2 b d ahead _ sees); [reflexivity|intros who; exact (H n who cx r Hr Hk)|apply Classical_Prop.classic].
Qed.

Lemma lamp_views (TF : Trig xr) (b : color xr) :
  exists l, diskLight (fun x => x) (fun _ l => l) b (XF 2) (xv (Vec 0 3 0)) = Val l /\
    let view q := lightField (fun g : unit => ((XF 0, XF 0), g)) 1 (newScene 1 nil [l] nil) All 0 (Ctx 0 (newCtxSeq nil) tt nil [q] 0) in
    omap fst (view (xray (Vec 0 0 0) (Vec 0 1 0))) = Val b /\
    omap fst (view (xray (Vec 0 5 0) (Vec 0 (-1) 0))) = Val black /\
    omap fst (view (xray (Vec (3 / 2) 0 0) (Vec 0 1 0))) = Val black.
Proof.
  assert (2 < horizon) as HH by (unfold horizon; apply IZR_lt; reflexivity).
  assert (3 < horizon) as HH' by (unfold horizon; apply IZR_lt; reflexivity).
  destruct (disk_lamp_seen (fun g : unit => ((XF 0, XF 0), g)) (fun _ l => l) b 2 (Vec 0 3 0) (Vec 0 0 0) (Vec 0 1 0) 1) as (l & El & H1); cbn [vx vy vz] in *; try (right; lra); try lra.
  destruct (disk_lamp_seen (fun g : unit => ((XF 0, XF 0), g)) (fun _ l => l) b 2 (Vec 0 3 0) (Vec 0 5 0) (Vec 0 (-1) 0) 1) as (l2 & El2 & H2); cbn [vx vy vz] in *; try (right; lra); try lra.
  destruct (disk_lamp_seen (fun g : unit => ((XF 0, XF 0), g)) (fun _ l => l) b 2 (Vec 0 3 0) (Vec (3 / 2) 0 0) (Vec 0 1 0) 1) as (l3 & El3 & H3); cbn [vx vy vz] in *; try (right; lra); try lra.
  rewrite El in El2, El3. injection El2 as <-. injection El3 as <-.
  exists l. split; [exact El|]. cbv zeta.
  destruct (H1 O (Ctx 0 (newCtxSeq nil) tt nil [xray (Vec 0 0 0) (Vec 0 1 0)] 0) 0%nat eq_refl ltac:(discriminate)) as (A & _).
  destruct (H2 O (Ctx 0 (newCtxSeq nil) tt nil [xray (Vec 0 5 0) (Vec 0 (-1) 0)] 0) 0%nat eq_refl ltac:(discriminate)) as (_ & B & _).
  destruct (H3 O (Ctx 0 (newCtxSeq nil) tt nil [xray (Vec (3 / 2) 0 0) (Vec 0 1 0)] 0) 0%nat eq_refl ltac:(discriminate)) as (_ & _ & C & _).
  split; [|split].
  - rewrite A; [reflexivity| |lra]. exists 3. unfold along, plus3, scal3, Rsqr. cbn [vx vy vz]. repeat split; lra.
  - rewrite B; [reflexivity| |lra]. exists 2. unfold along, plus3, scal3, Rsqr. cbn [vx vy vz]. repeat split; lra.
  - rewrite C; [reflexivity|]. intros (t & _ & _ & X). unfold along, plus3, scal3, Rsqr in X. cbn [vx vy vz] in X. lra.
Qed.

Lemma lamps_shine {G} {NI : NumInf R} (rand2 : G -> (R * R) * G) to32 sortSlice (b : color R) (center : pt) :
  (forall w h l, 0 <= w -> 0 <= h -> rectangleLight to32 sortSlice b w h center = Val l ->
     shines rand2 l b (w * h) (raised_rect w h center) downwards) /\
  (forall diam l, 0 <= diam -> diskLight to32 sortSlice b diam center = Val l ->
     shines rand2 l b (PI * (diam / 2) ^ 2) (raised_disk diam center) downwards).
Proof. split; intros; [eapply rect_shines|eapply disk_shines]; eauto. Qed.
Lemma lamps_move {NI : NumInf R} (to32 : R -> R) sortSlice (b : color R) (center : pt) :
  (forall w h, exists l, rectangleLight to32 sortSlice b w h center = Val l /\ forall t, exists l', transformedLight l t = Val l') /\
  (forall diam, exists l, diskLight to32 sortSlice b diam center = Val l /\ forall t, exists l', transformedLight l t = Val l').
Proof. split; intros; [apply rect_light_total|apply disk_light_total]. Qed.
Lemma stretched_lamp {NI : NumInf R} (to32 : R -> R) sortSlice (b : color R) : cR b <> 0 ->
  exists l l' wide, rectangleLight to32 sortSlice b 2 2 zero3 = Val l /\ transformedLight l stretch = Val l' /\
    rectangleLight to32 sortSlice b 4 2 zero3 = Val wide /\
    (forall p, transformPoint stretch p = Vec (2 * vx p) (vy p) (vz p)) /\
    forall G (rand2 : G -> (R * R) * G) (c : ctx R G), generate2 rand2 c = Val ((1 / 2, 1 / 2), c) ->
      exists p col, lightSample rand2 l' (Vec 0 (-1) 0) c = Val ((p, col), c) /\
        lightSample rand2 wide (Vec 0 (-1) 0) c = Val ((p, scaled 2 col), c) /\ cR col <> 0.
Proof.
  intros Hb. destruct (stretched_witness to32 sortSlice b Hb) as (l & l' & wide & A & B & C & D).
  exists l, l', wide. repeat (split; [assumption|]). split; [|exact D].
  intros p. unfold stretch, transformPoint, mmulvec, vadd, zero3. cbn [afA afB m0 m1 m2 vx vy vz]. rnum. f_equal; ring.
Qed.
Lemma lamp_example :
  let t := Affine (Matrix (Vec 3 0 0) (Vec 0 0 3) (Vec 0 (-3) 0)) (Vec 5 6 7) in
  similarity 3 (transformPoint t) /\ scal3 (/ 3) (transformDir t downwards) = Vec 0 0 (-1) /\
  radiated 1 (Vec 0 0 0) (Vec 0 0 (-1)) (Vec 0 0 (-2)) = / (4 * PI).
Proof.
  intros t. split; [|split].
  - split; [lra|]. intros [x y z] [x' y' z']. unfold dist, norm. rewrite <- (sqrt_square 3) at 1 by lra. rewrite <- sqrt_mult_alt by lra. f_equal.
    unfold t, transformPoint, mmulvec, vadd, norm2, dot3, minus3. cbn [afA afB m0 m1 m2 vx vy vz]. rnum. ring.
  - unfold t, transformDir, mmulvec, downwards, scal3. cbn [afA afB m0 m1 m2 vx vy vz]. rnum. f_equal; field.
  - unfold radiated. assert (dist (Vec 0 0 (-2)) (Vec 0 0 0) = 2) as ->.
    { unfold dist, norm. replace (norm2 _) with (2 * 2) by (unfold norm2, dot3, minus3; cbn [vx vy vz]; ring). apply sqrt_square. lra. }
    replace (dot3 _ _) with 2 by (unfold dot3, minus3; cbn [vx vy vz]; ring). rewrite Rmax_right by lra. assert (P := PI_RGT_0). field. lra.
Qed.
