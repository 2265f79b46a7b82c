(** * A ball under a lamp *)
From Coq Require Import ZArith Reals Bool List Lra Lia.
From Flocq Require Import Core.
From Flocq Require IEEE754.BinarySingleNaN.
Import IEEE754.BinarySingleNaN.
From Verif Require Import Num NumLaws Outcome B64 GeomModel ColorModel SeqModel SeqSpec ObjModel TreeModel SceneModel SceneSpec SamplerModel SamplerSpec RenderModel RenderSpec
  FloatErr FloatSpec RectFloat TurnSpec CamFloat TurnFloat ScatterSpec CosSharp DullSpec DullProofs ShineSpec ShineFloat ShineProofs ShineScene ShineImage ShineRender.
Import ListNotations.
Local Open Scope R_scope.

(** [cornerTrig] with an exponential function that is everywhere 1/2 *)
Definition dimTrig : Trig b64 :=
  {| npi := npi (Trig := cornerTrig); nsin := nsin (Trig := cornerTrig); ncos := ncos (Trig := cornerTrig);
     ntan := fun _ => nofZ 1; nexp := fun _ => half; nlog := fun x => x; npow := fun x _ => x |}.
Lemma dim_accurate : accurate_trig dimTrig.
Proof. exact corner_accurate. Qed.
Lemma dim_damping : damping dimTrig.
Proof. intros x _. exact (proj1 from0_half). Qed.
Lemma dim_sharp : sharp_trig dimTrig.
Proof.
  assert (Z0 := Z_b 0 ltac:(cbv; discriminate)). assert (Z1 := Z_b 1 ltac:(cbv; discriminate)). assert (Zm := Z_b (-1) ltac:(cbv; discriminate)). assert (C := tinyc).
  destruct dim_accurate as ((Fp & Rp) & H & _). split.
  - split; [split; [exact Fp|change (bpow radix2 2) with 4; apply Rabs_le; lra]|]. intros x Fx. destruct (H x Fx) as (A1 & A2 & A3 & A4 & A5).
    split; [exact A1|]. split; [exact A2|]. split; [exact A3|]. split; [exact A4|]. eapply Rle_trans; [exact A5|]. apply bpow_le. lia.
  - intros x _. change (bpow radix2 (-53)) with (/ 9007199254740992). cbn [nsin ncos dimTrig cornerTrig].
    assert (D : isOne x [nofZ 0; cornerPi; nopp cornerPi] = isOne x [nofZ 0] || isOne x [cornerPi; nopp cornerPi]) by (unfold isOne; cbn [existsb]; destruct (neqb x (nofZ 0)), (neqb x cornerPi), (neqb x (nopp cornerPi)); reflexivity).
    rewrite D. set (t := nQ 1 9007199254740992 : b64) in *. clearbody t.
    set (z := nofZ 0 : b64) in *. set (o := nofZ 1 : b64) in *. set (n := nofZ (-1) : b64) in *. clearbody z o n. destruct Z0 as [F0 E0]. destruct Z1 as [F1 E1]. destruct Zm as [Fm Em]. destruct C as [Ft Et].
    assert (S2 : 0 <= B2R t * B2R t <= / 9007199254740992) by (split; [apply Rle_0_sqr|nra]).
    destruct (isOne x [z]), (isOne x [cornerPi; nopp cornerPi]); cbn [orb];
      repeat match goal with |- context [if ?b then _ else _] => destruct b end; rewrite ?E0, ?E1, ?Em; lra.
Qed.

Lemma from0_Z k z : (0 <= z <= 2 ^ k)%Z -> (0 <= k <= 50)%Z -> from0 k (nofZ z).
Proof.
  intros H K. pose proof (Z.pow_le_mono_r 2 k 50 ltac:(lia) ltac:(lia)) as P. destruct (Z_b z ltac:(lia)) as [F E]. split; [exact F|]. rewrite E. split; [apply IZR_le; lia|].
  rewrite bpow_powerRZ, <- (Z2Nat.id k) by lia. rewrite <- pow_powerRZ. change (IZR radix2) with 2. rewrite pow_IZR. apply IZR_le. rewrite Z2Nat.id by lia. lia.
Qed.
Lemma at_most_Z k z : (Z.abs z <= 2 ^ k)%Z -> (0 <= k <= 50)%Z -> at_most k (nofZ z : b64).
Proof.
  intros H K. pose proof (Z.pow_le_mono_r 2 k 50 ltac:(lia) ltac:(lia)) as P. destruct (Z_b z ltac:(lia)) as [F E]. split; [exact F|]. rewrite E, <- abs_IZR.
  rewrite bpow_powerRZ, <- (Z2Nat.id k) by lia. rewrite <- pow_powerRZ. change (IZR radix2) with 2. rewrite pow_IZR. apply IZR_le. rewrite Z2Nat.id by lia. lia.
Qed.

(** a ball, half mirror and half matte, with a lamp of power 100 four above it and a white sky *)
Definition shinyBall : ball := Ball (MBlend half (MReflective white1) half (MMatte (fun _ => Val (Color half half half)))) (nofZ 2) vO.
Definition bulb : light b64 := LPoint (Vec (nofZ 0) (nofZ 5) (nofZ 0)) (Color (nofZ 100) (nofZ 100) (nofZ 100)).
Definition sky : object b64 (material b64) := backdrop (Some (MFlat (fun _ => Val white1))).
Definition garden : scene b64 := newScene 8 nil [bulb] (map ball_object [shinyBall] ++ [sky]).
Lemma garden_park : park 7 nil [bulb] [shinyBall] [sky].
Proof.
  destruct from0_half as [H0 Hh]. fold (half (F := b64)) in H0, Hh. pose proof (from0_1 0 ltac:(lia)) as O. assert (W : lit 0 white1) by exact (conj O (conj O O)).
  constructor.
  - refine (Forall_cons _ _ (Forall_nil _)). cbn [lamp bulb]. split.
    + exact (conj (at_most_Z 20 0 ltac:(lia) ltac:(lia)) (conj (at_most_Z 20 5 ltac:(lia) ltac:(lia)) (at_most_Z 20 0 ltac:(lia) ltac:(lia)))).
    + pose proof (from0_Z 7 100 ltac:(lia) ltac:(lia)) as X. exact (conj X (conj X X)).
  - cbn [length]. lia.
  - refine (Forall_cons _ _ (Forall_nil _)). unfold near_ball, shinyBall. cbn [bMaterial bDiam bCenter]. split; [|split].
    + cbn [dull]. refine (conj H0 (conj H0 (conj _ (conj W _)))); [rewrite Hh; lra|]. intros p c E'. enough (c = Color half half half) as -> by exact (conj H0 (conj H0 H0)). congruence.
    + destruct (Z_b 2 ltac:(lia)) as [F E]. split; [exact F|]. rewrite E. lra.
    + exact (conj (at_most_Z 6 0 ltac:(lia) ltac:(lia)) (conj (at_most_Z 6 0 ltac:(lia) ltac:(lia)) (at_most_Z 6 0 ltac:(lia) ltac:(lia)))).
  - refine (Forall_cons _ (Forall_cons _ _ (Forall_nil _)) (Forall_nil _)). cbn [apart bulb shinyBall bCenter bDiam vx vy vz vO]. cbv zeta. left.
    destruct (Z_b 2 ltac:(lia)) as [F2 E2]. destruct (Z_b 5 ltac:(lia)) as [F5 E5]. destruct (Z_b 0 ltac:(lia)) as [F0 E0].
    revert E0 E2 E5. generalize (nofZ 0 : b64), (nofZ 2 : b64), (nofZ 5 : b64). intros a b c -> -> ->. lra.
  - refine (Forall_cons _ _ (Forall_nil _)). apply backdrop_coloured. intros p c E. enough (c = white1) as -> by exact (conj (from0_1 7 ltac:(lia)) (conj (from0_1 7 ltac:(lia)) (from0_1 7 ltac:(lia)))). congruence.
  - constructor.
Qed.
(** seen from above, between the lamp and the ball: 0.5 of the sky by way of the mirror, the rest by way of the matte half *)
Lemma garden_bright :
  match lightField (TF := dimTrig) (fun g : unit => ((half, half), g)) 100 garden All 0
          (Ctx 0 (newCtxSeq [(half, half)]) tt nil [Ray (Vec (nofZ 0) (nofZ 4) (nofZ 0)) (Vec (nofZ 0) (nofZ (-1)) (nofZ 0))] 0) with
  | Val (col, _) => (nltb (nQ 81 100) (cR col) && nltb (cR col) (nQ 88 100))%bool
  | _ => false
  end = true.
Proof. vm_compute. reflexivity. Qed.
