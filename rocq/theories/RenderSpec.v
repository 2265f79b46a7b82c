(** * What a rendering of a scene should be *)
From Coq Require Import ZArith Reals Bool List.
From Verif Require Import Num Outcome GeomModel GeomSpec ColorModel SeqModel ObjModel SamplerModel SamplerSpec SceneModel SceneSpec LookSpec.
Import ListNotations.

Section Gains.
  Context {F : Type} `{NF : Num F}.
  (** [n] further samples of a pixel, where the sample of pass [k] can be any colour in [S k] *)
  Inductive gains (S : Z -> color F -> Prop) : nat -> acc F -> acc F -> Prop :=
  | gains_0 a : gains S 0 a a
  | gains_S n a c b : S (aN a) c -> gains S n (add_sample a c) b -> gains S (Datatypes.S n) a b.

  (** a camera without a lens *)
  Definition lensless (cam : camera F) : Prop :=
    match camOrig cam with CProjective _ _ aperture => (aperture >? #0)%num = false | _ => True end.
End Gains.

(** the sequences give the same numbers at the first two surfaces *)
Definition same_numbers {F} `{NF : Num F} (q1 q2 : ctxseq F) : Prop :=
  hseq_generate2 (cs_1 q1) = hseq_generate2 (cs_1 q2) /\ hseq_generate2 (cs_2 q1) = hseq_generate2 (cs_2 q2).

(** contexts between two samples *)
Definition idle_ctx {F G} (c : ctx F G) : Prop := pool_ok c /\ cDepth c = 0%Z.

(** same outcome apart from the context *)
Definition same_result {F G A} (o1 o2 : outcome (A * ctx F G)) : Prop :=
  match o1, o2 with
  | Val (x1, _), Val (x2, _) => x1 = x2
  | Panic, Panic | NoFuel, NoFuel => True
  | _, _ => False
  end.

(** every ray of the camera has a direction of length one *)
Definition unit_camera {G} {NI : NumInf R} (rand2 : G -> (R * R) * G) (cam : camera R) : Prop :=
  forall u v (c : ctx R G) q, pool_ok c -> shoots rand2 cam u v c q -> norm2 (rDir q) = 1%R.

(** a colour that can be seen through the camera at (u, v) with the numbers of [sq]: the light along some camera ray *)
Definition seen {G} {NI : NumInf R} (rand2 : G -> (R * R) * G) (s : scene R) (cam : camera R) (sq : ctxseq R) (u v : R) (col : color R) : Prop :=
  exists (c : ctx R G) q, pool_ok c /\ shoots rand2 cam u v c q /\
    light_at rand2 s sq (Z.to_nat (sRecursionDepth s)) All q col.
