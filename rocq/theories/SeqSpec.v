(** * Vocabulary for the sequence properties, independent of the model *)
From Coq Require Import ZArith Bool List.
From Verif Require Import Num.

(** the number whose base-b digits, least significant first, are ds *)
Definition digits_value (b : Z) (ds : list Z) : Z := fold_right (fun d acc => d + b * acc)%Z 0%Z ds.

(** sum of d_k / b^(k+1) over a digit list, evaluated from the least significant digit with
    running weight [f], in any arithmetic *)
Definition accum {F} `{Num F} (bf : F) (ds : list Z) (f r : F) : F :=
  snd (fold_left (fun '(f, r) d => let f' := ndiv f bf in (f', nadd r (nmul f' (nofZ d)))) ds (f, r)).

(** 0 <= x < 1 in binary64 *)
Definition in_unit (x : b64) : Prop := nleb (nofZ 0) x = true /\ nltb x (nofZ 1) = true.
