(** * Vocabulary: the numbers a sample is computed from, and limits of renderings *)
From Coq Require Import ZArith Reals List.
From Verif Require Import Num Outcome GeomModel GeomSpec ColorModel SeqModel ObjModel SamplerModel SamplerSpec SceneModel RenderModel RenderSpec EquiSpec.
Import ListNotations.
Local Open Scope R_scope.

(** the numbers of [q] for the first surface, then for the second *)
Definition gives (q : ctxseq R) (l : list R) : Prop :=
  exists u1 v1 u2 v2, l = [u1; v1; u2; v2] /\ hseq_generate2 (cs_1 q) = Val (u1, v1) /\ hseq_generate2 (cs_2 q) = Val (u2, v2).
Definition in_unit_cube (l : list R) : Prop := Forall (fun x => 0 <= x < 1) l.

Definition color_integral (d : nat) (f : list R -> color R) (I : color R) : Prop :=
  cube_integral d (fun l => cR (f l)) (cR I) /\ cube_integral d (fun l => cG (f l)) (cG I) /\ cube_integral d (fun l => cB (f l)) (cB I).
Definition tends_to (c : nat -> color R) (I : color R) : Prop :=
  Un_cv (fun n => cR (c n)) (cR I) /\ Un_cv (fun n => cG (c n)) (cG I) /\ Un_cv (fun n => cB (c n)) (cB I).

(** [m n] is the memory after a rendering of [n] passes, in any number of calls *)
Definition renderings {G} {NI : NumInf R} (rand2 : G -> (R * R) * G) fuel (s : scene R) (cam : camera R) aa shifts w h (m : nat -> mem R) : Prop :=
  forall n, exists ns, Forall (fun k => 0 <= k)%Z ns /\ total ns = Z.of_nat n /\ renderCalls rand2 fuel s cam aa shifts w h ns newMem (m n).
(** the samples of the scene at (x, y) are [f] of the numbers of the first two surfaces *)
Definition sample_function {G} {NI : NumInf R} (rand2 : G -> (R * R) * G) fuel (s : scene R) (cam : camera R) (x y : R) (f : list R -> color R) : Prop :=
  forall (c : ctx R G) l, idle_ctx c -> gives (cSeq c) l -> in_unit_cube l -> exists c', imageFuncOf rand2 fuel s cam x y c = Val (f l, c').
