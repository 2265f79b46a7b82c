(** * Scenes under lamps whose colours cannot leave the range of double precision *)
From Coq Require Import ZArith Reals List.
From Flocq Require Import Core.
From Flocq Require IEEE754.BinarySingleNaN.
Import IEEE754.BinarySingleNaN.
From Verif Require Import Num Outcome B64 GeomModel ColorModel SeqModel ObjModel SceneModel SceneSpec FloatSpec MirrorSpec DullSpec.
Import ListNotations.
Local Open Scope R_scope.

(** a place in the scene: coordinates up to 2^P *)
Definition place (P : Z) (p : vec b64) : Prop := all3 (at_most P) p.
(** rays that start about there, with directions whose squared length differs from one by at most [e] *)
Definition aimed (P : Z) (e : R) (q : ray b64) : Prop :=
  all3 (at_most (P + 1)) (rStart q) /\ all3 (fun x => is_finite x = true) (rDir q) /\ Rabs (rdot (rDir q) (rDir q) - 1) <= e.
(** in some coordinate the lamp is at least 2^-18 away, which is five times tracer.Tiny *)
Definition off (lamp p : vec b64) : Prop :=
  bpow radix2 (-18) <= Rabs (B2R (vx lamp) - B2R (vx p)) \/ bpow radix2 (-18) <= Rabs (B2R (vy lamp) - B2R (vy p)) \/ bpow radix2 (-18) <= Rabs (B2R (vz lamp) - B2R (vz p)).

(** materials that show a colour of their own, whatever surrounds them *)
Fixpoint bare (m : material b64) : bool :=
  match m with
  | MBlack | MFlat _ => true
  | MTwoSided a b | MBlend _ a _ b | MBlendMap _ a b => bare a && bare b
  | _ => false
  end.
(** point lights of power at most 2^k, with coordinates up to 2^20, about a million *)
Definition lamp (k : Z) (l : light b64) : Prop :=
  match l with LPoint pos power => place 20 pos /\ lit k power | _ => False end.
Definition off_light (p : vec b64) (l : light b64) : Prop :=
  match l with LPoint pos _ => off pos p | _ => True end.

(** objects that leave rays as they are, consist of materials without glass and are hit in the scene, at a distance
    from the lamps, with a normal; objects with a colour of their own may be anywhere *)
Definition solid (P k : Z) (lights : list (light b64)) (o : object b64 (material b64)) : Prop :=
  forall q h q', oIntersect o q = Val (h, q') -> q' = q /\
    forall m, hMat h = Some m -> dull k m /\
      (aimed P (/ 1000) q -> nltb (nofZ 0) (hT h) = true -> bare m = false ->
        place P (rayAt q (hT h)) /\ usable (hNormal h) /\ Forall (off_light (rayAt q (hT h))) lights).

Definition lamplit (P k : Z) (s : scene b64) : Prop :=
  Forall (lamp k) (sLights s) /\ (Z.of_nat (length (sLights s)) <= 2 ^ 18)%Z /\
  Forall (solid P k (sLights s)) (all_objects s) /\ Forall (dull_fog k) (sMedia s).

(** random numbers from 0 to 1, the second below 1 *)
Definition fair_pair (uv : b64 * b64) : Prop := FloatSpec.between 0 1 (fst uv) /\ is_finite (snd uv) = true /\ 0 <= B2R (snd uv) < 1.
Definition fair_numbers {G} (rand2 : G -> (b64 * b64) * G) (q : ctxseq b64) : Prop :=
  (forall g, fair_pair (fst (rand2 g))) /\
  (forall uv, hseq_generate2 (cs_1 q) = Val uv -> fair_pair uv) /\ (forall uv, hseq_generate2 (cs_2 q) = Val uv -> fair_pair uv).

(** ** Balls under lamps *)
Record ball : Type := Ball { bMaterial : material b64; bDiam : b64; bCenter : vec b64 }.
Definition ball_object (b : ball) : object b64 (material b64) := sphere (Some (bMaterial b)) (bDiam b) (bCenter b).
(** diameter from 1 to 64, centre up to 64 in every coordinate *)
Definition near_ball (k : Z) (b : ball) : Prop := dull k (bMaterial b) /\ FloatSpec.between 1 64 (bDiam b) /\ all3 (at_most 6) (bCenter b).
(** lamps in a ball or out of it, at least a thousandth away from its surface *)
Definition apart (b : ball) (l : light b64) : Prop :=
  match l with
  | LPoint pos _ =>
    let D2 := (B2R (vx pos) - B2R (vx (bCenter b))) ^ 2 + (B2R (vy pos) - B2R (vy (bCenter b))) ^ 2 + (B2R (vz pos) - B2R (vz (bCenter b))) ^ 2 in
    (B2R (bDiam b) / 2 + / 1000) ^ 2 <= D2 \/ D2 <= (B2R (bDiam b) / 2 - / 1000) ^ 2
  | _ => True
  end.
(** surfaces with a colour of their own, anywhere: skies, glowing shapes *)
Definition coloured (k : Z) (o : object b64 (material b64)) : Prop :=
  forall q h q', oIntersect o q = Val (h, q') -> q' = q /\ forall m, hMat h = Some m -> dull k m /\ bare m = true.
(** balls under lamps in front of coloured surfaces *)
Record park (k : Z) (media : list (medium b64)) (lights : list (light b64)) (balls : list ball) (others : list (object b64 (material b64))) : Prop := Park {
  park_lights : Forall (lamp k) lights;
  park_few : (Z.of_nat (length lights) <= 2 ^ 18)%Z;
  park_balls : Forall (near_ball k) balls;
  park_apart : Forall (fun b => Forall (apart b) lights) balls;
  park_others : Forall (coloured k) others;
  park_media : Forall (dull_fog k) media }.

(** cameras whose rays all start in one point or on a lens of radius up to 16 *)
Definition small_lens (cam : camera b64) : Prop :=
  match camOrig cam with CProjective _ _ aperture => nltb (nofZ 0) aperture = true -> at_most 4 aperture | CEnvMap => True | CIsometric _ => False end.
