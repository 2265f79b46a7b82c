(** * Properties C125 and C126: what area lights look like and how they shine when moved *)
From Coq Require Import ZArith Reals Bool List Lra Lia.
From Verif Require Import Num NumLaws Outcome B64 GeomModel GeomSpec GeomProofs ColorModel SeqModel ObjModel TreeModel SceneModel SceneSpec ObjSpec MeshSpec MeshProofs
  LampSpec LightLook LampProofs LampFacts.
Import ListNotations.
Local Open Scope R_scope.

(** ** C125 *)
(** a scene with nothing but a lamp; rays inside a plane through a border of the rectangle are excluded *)
Theorem C125_rectangle_light_looks_bright_from_below :
  forall (TF : Trig xr) (G : Type) (rand2 : G -> (xr * xr) * G) sortSlice (b : color xr) (w dp : R) (c s d : pt) (k : Z),
    0 < w -> 0 < dp -> vy d <> 0 ->
    vx d <> 0 \/ (vx s <> vx c - w / 2 /\ vx s <> vx c + w / 2) ->
    vz d <> 0 \/ (vz s <> vz c - dp / 2 /\ vz s <> vz c + dp / 2) ->
    (vy c - vy s) / vy d < horizon ->
    let ahead := exists t, 0 < t /\ vy (along s d t) = vy c /\
                   Rabs (vx (along s d t) - vx c) <= w / 2 /\ Rabs (vz (along s d t) - vz c) <= dp / 2 in
    exists l, rectangleLight (fun x => x) sortSlice b (XF w) (XF dp) (xv c) = Val l /\
      forall n (cx : ctx xr G) r, nth_error (cHeap cx) r = Some (xray s d) -> cDepth cx <> k ->
        let sees who col := lightField rand2 (S n) (newScene k nil [l] nil) who r cx = Val (col, withNumRays cx (cNumRays cx + 1)%Z) in
        (ahead -> 0 < vy d -> sees All b) /\ (ahead -> vy d < 0 -> sees All black) /\ (~ ahead -> sees All black) /\
        sees MinusLights black.
Proof. exact @rect_lamp_seen. Qed.
Print Assumptions C125_rectangle_light_looks_bright_from_below.

Theorem C125_disk_light_looks_bright_from_below :
  forall (TF : Trig xr) (G : Type) (rand2 : G -> (xr * xr) * G) sortSlice (b : color xr) (diam : R) (c s d : pt) (k : Z),
    0 < diam -> vy d <> 0 ->
    vx d <> 0 \/ (vx s <> vx c - diam / 2 /\ vx s <> vx c + diam / 2) ->
    vz d <> 0 \/ (vz s <> vz c - diam / 2 /\ vz s <> vz c + diam / 2) ->
    (vy c - vy s) / vy d < horizon ->
    let ahead := exists t, 0 < t /\ vy (along s d t) = vy c /\
                   (vx (along s d t) - vx c)² + (vz (along s d t) - vz c)² < (diam / 2)² in
    exists l, diskLight (fun x => x) sortSlice b (XF diam) (xv c) = Val l /\
      forall n (cx : ctx xr G) r, nth_error (cHeap cx) r = Some (xray s d) -> cDepth cx <> k ->
        let sees who col := lightField rand2 (S n) (newScene k nil [l] nil) who r cx = Val (col, withNumRays cx (cNumRays cx + 1)%Z) in
        (ahead -> 0 < vy d -> sees All b) /\ (ahead -> vy d < 0 -> sees All black) /\ (~ ahead -> sees All black) /\
        sees MinusLights black.
Proof. exact @disk_lamp_seen. Qed.
Print Assumptions C125_disk_light_looks_bright_from_below.

(** a disk of diameter 2 at height 3, seen from the origin and from above *)
Example C125_example : forall (TF : Trig xr) (b : color xr),
  exists l, diskLight (fun x => x) (fun _ l => l) b (XF 2) (xv (Vec 0 3 0)) = Val l /\
    let view q := lightField (fun g : unit => ((XF 0, XF 0), g)) 1 (newScene 1 nil [l] nil) All 0 (Ctx 0 (newCtxSeq nil) tt nil [q] 0) in
    omap fst (view (xray (Vec 0 0 0) (Vec 0 1 0))) = Val b /\
    omap fst (view (xray (Vec 0 5 0) (Vec 0 (-1) 0))) = Val black /\
    omap fst (view (xray (Vec (3 / 2) 0 0) (Vec 0 1 0))) = Val black.
Proof. exact @lamp_views. Qed.

(** ** C126 *)
Theorem C126_flat_lamps_shine :
  forall (G : Type) (NI : NumInf R) (rand2 : G -> (R * R) * G) to32 sortSlice (b : color R) (center : pt),
    (forall w h l, 0 <= w -> 0 <= h -> rectangleLight to32 sortSlice b w h center = Val l ->
       shines rand2 l b (w * h) (raised_rect w h center) downwards) /\
    (forall diam l, 0 <= diam -> diskLight to32 sortSlice b diam center = Val l ->
       shines rand2 l b (PI * (diam / 2) ^ 2) (raised_disk diam center) downwards).
Proof. exact @lamps_shine. Qed.
Print Assumptions C126_flat_lamps_shine.

(** rotations, shifts, reflections and scaling by the same factor in all directions, in any combination and repeatedly *)
Theorem C126_moved_lamps_shine_partial :
  forall (G : Type) (rand2 : G -> (R * R) * G) (t : affine R) (k : R), similarity k (transformPoint t) ->
    forall l l' b area S n, shines rand2 l b area S n -> transformedLight l t = Val l' ->
      shines rand2 l' b (k ^ 2 * area) (image (transformPoint t) S) (scal3 (/ k) (transformDir t n)).
Proof. exact @moved_shines. Qed.
Print Assumptions C126_moved_lamps_shine_partial.

(** such lamps can be built, and moved by every transformation *)
Theorem C126_lamps_can_be_moved :
  forall (NI : NumInf R) to32 sortSlice (b : color R) (center : pt),
    (forall w h, exists l, rectangleLight to32 sortSlice b w h center = Val l /\ forall t, exists l', transformedLight l t = Val l') /\
    (forall diam, exists l, diskLight to32 sortSlice b diam center = Val l /\ forall t, exists l', transformedLight l t = Val l').
Proof. exact @lamps_move. Qed.
Print Assumptions C126_lamps_can_be_moved.

Theorem C126_point_lights_cannot_be_moved_refuted :
  forall (power : color R) (pos : pt) (t : affine R), transformedLight (pointLight power pos) t = Panic.
Proof. exact @point_stuck. Qed.
Print Assumptions C126_point_lights_cannot_be_moved_refuted.

(** a lamp stretched to twice its width looks like the wide lamp but sends out half the light of it *)
Theorem C126_stretched_lamps_are_too_dark_refuted :
  forall (NI : NumInf R) (to32 : R -> R) sortSlice (b : color R), cR b <> 0 ->
    exists l l' wide, rectangleLight to32 sortSlice b 2 2 zero3 = Val l /\ transformedLight l stretch = Val l' /\
      rectangleLight to32 sortSlice b 4 2 zero3 = Val wide /\
      (forall p, transformPoint stretch p = Vec (2 * vx p) (vy p) (vz p)) /\
      forall G (rand2 : G -> (R * R) * G) (c : ctx R G), generate2 rand2 c = Val ((1 / 2, 1 / 2), c) ->
        exists p col, lightSample rand2 l' (Vec 0 (-1) 0) c = Val ((p, col), c) /\
          lightSample rand2 wide (Vec 0 (-1) 0) c = Val ((p, scaled 2 col), c) /\ cR col <> 0.
Proof. exact @stretched_lamp. Qed.
Print Assumptions C126_stretched_lamps_are_too_dark_refuted.

(** a quarter turn about the x axis that triples the size; the lamp then shines along the axis [z] *)
Example C126_example :
  let t := Affine (Matrix (Vec 3 0 0) (Vec 0 0 3) (Vec 0 (-3) 0)) (Vec 5 6 7) in
  similarity 3 (transformPoint t) /\ scal3 (/ 3) (transformDir t downwards) = Vec 0 0 (-1) /\
  radiated 1 (Vec 0 0 0) (Vec 0 0 (-1)) (Vec 0 0 (-2)) = / (4 * PI).
Proof. exact lamp_example. Qed.
