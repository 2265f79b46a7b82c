(** * A ball seen from above under a round lamp *)
From Coq Require Import ZArith Reals Bool List Lia Lra Psatz.
From Verif Require CamProofs.
From Verif Require Import Num NumLaws Outcome GeomModel GeomSpec GeomProofs ColorModel SeqModel SeqSpec
  SamplerModel SamplerSpec ObjModel TreeModel ObjSpec PrimProofs SceneModel SceneSpec LightProofs LookSpec RenderModel RenderSpec RenderProofs RenderFacts
  LimitSpec LimitProofs LimitFacts LampSpec LampProofs LitSpec LitBall.
Import ListNotations.
Local Open Scope R_scope.

Lemma lamp_example (NI : NumInf R) (rand2 : unit -> (R * R) * unit) (to32 : R -> R) ss fov cam su sv l m : 8 <= ninf <= 9 * 10 ^ 99 ->
  (forall g, 0 <= fst (fst (rand2 g)) <= 1 /\ 0 <= snd (fst (rand2 g)) <= 1) -> 0 < fov < PI -> projective fov = Val cam ->
  diskLight to32 ss (Color 10 10 5) 8 (Vec 0 8 0) = Val l ->
  renderings rand2 3 (newScene 2 nil [l] [sphere (Some (MMatte (fun _ => Val (Color 1 (/ 2) 0)))) 2 (Vec 0 (-1) 0)])
    (fold_left call [Turn 0 (- (PI / 2)) 0; Shift (Vec 0 3 0)] cam) false [(su, sv)] 1 1 m ->
  tends_to (fun k => imagef (m k) (0, 0)%Z) (Color 2 1 0).
Proof.
  intros Hi Hr Hf Hc Hl Hm. destruct (one_pixel_pos su sv) as (q0 & E0). set (ms := [Turn 0 (- (PI / 2)) 0; Shift (Vec 0 3 0)]) in *.
  destruct (CamProofs.pinhole rand2 fov Hf) as (cam' & Ec & Sh). rewrite Hc in Ec. injection Ec as <-.
  assert (Ct : 0 < / (2 * tan (fov / 2))).
  { apply Rinv_0_lt_compat. generalize (CamProofs.tan_half_pos fov Hf). lra. }
  assert (Hpos : camPos cam = Vec 0 0 0 /\ lensless cam).
  { revert Hc. unfold projective. rewrite CamProofs.proj_cam by (rnum; lra). intros Ec. injection Ec as <-. unfold lensless; cbn [camOrig camPos]. rnum.
    split; [reflexivity|]. destruct (Rltb_spec 0 0); [lra|reflexivity]. }
  destruct Hpos as (Hpos & Hle).
  assert (X : forall c r, pool_ok c -> shoots rand2 (fold_left call ms cam) (/ 2) (/ 2) c r -> r = Ray (Vec 0 3 0) (Vec 0 (-1) 0)).
  { intros c r P S. assert (S' := Sh (/ 2) (/ 2) c P). rewrite (CamProofs.pinhole_center _ Ct) in S'.
    assert (S2 := CamProofs.moved_camera rand2 cam ms _ _ c _ P S'). rewrite (CamProofs.shoots_fun rand2 _ _ _ c _ _ S S2).
    rewrite Hpos. unfold ms, shifted, turned, turn, plus3, minus3, zero3. cbn [fold_left rStart rDir vx vy vz].
    rewrite !cos_neg, !sin_neg, cos_PI2, sin_PI2, cos_0, sin_0. f_equal; apply vec_eq; cbn [vx vy vz]; ring. }
  assert (Hle2 : lensless (fold_left call ms cam)) by (unfold lensless in *; rewrite CamProofs.calls_orig; exact Hle).
  assert (Hi' : 1 < ninf <= 9 * 10 ^ 99) by (split; [apply Rlt_le_trans with 8; [lra|tauto]|tauto]).
  assert (T := disk_ball_limit rand2 Hi' to32 ss (fun _ => Val (Color 1 (/ 2) 0)) 2 (Vec 0 (-1) 0) ltac:(lra) (fun _ => ex_intro _ _ eq_refl) (Color 10 10 5) (Vec 0 8 0) l
    8 3 (fold_left call ms cam) false [(su, sv)] 1 1 m (0, 0)%Z q0 (/ 2) (/ 2) (Vec 0 3 0) (Vec 0 (-1) 0) 3 (Vec 0 1 0) (Color 1 (/ 2) 0) tt).
  rewrite over_disk_axis in T; cbn [vx vy vz plus3 scal3]; try (unfold tinyR; lra).
  cbn [vx vy vz plus3 scal3] in T.
  replace (Color 2 1 0) with (mul_color (scaled ((8 / 2)² / ((8 / 2)² + (8 + tinyR - (-1 + 2 / 2 * 1 + tinyR * 1))²)) (Color 10 10 5)) (Color 1 (/ 2) 0)).
  2:{ replace (8 + tinyR - (-1 + 2 / 2 * 1 + tinyR * 1)) with 8 by field. unfold mul_color, scaled, Rsqr; cbn [cR cG cB]. f_equal; field. }
  apply T; auto; try lra; try lia.
  - apply unit_moved. now apply (unit_projective rand2 fov cam Hf Hc).
  - repeat split; cbn; lia.
  - unfold norm2, dot3; cbn [vx vy vz]; ring.
  - unfold dist2, norm2, dot3, minus3, Rsqr; cbn [vx vy vz]; lra.
  - unfold along, plus3, scal3; cbn [vx vy vz]. apply vec_eq; cbn [vx vy vz]; field.
  - unfold norm2, dot3; cbn [vx vy vz]; ring.
  - intros t' Ht. unfold dist2, norm2, dot3, minus3, along, plus3, scal3, Rsqr; cbn [vx vy vz]. nra.
  - intros t' Ht (Hy & _). unfold along, plus3, scal3 in Hy; cbn [vx vy vz] in Hy. lra.
Qed.
