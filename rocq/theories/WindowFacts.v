(** * C127: an example *)
From Coq Require Import ZArith Bool List.
From Flocq Require Import IEEE754.BinarySingleNaN.
From Verif Require Import Num B64 Outcome GeomModel TreeModel SceneModel ApiModel ViewerModel ViewerSpec ViewerProofs ViewerFloat ViewerFacts WindowSpec.
Import ListNotations.

(** the sizes in which pictures were drawn, and of the window in the end *)
Definition drawn_sizes (o : outcome (state b64)) : list (Z * Z) * option (Z * Z) :=
  match o with
  | Val s => (flat_map (fun a => match a with AShow _ _ z => [z] | _ => [] end) (rev (stLog s)), Some (stSize s))
  | _ => ([], None)
  end.
(** the window grows and shrinks while pictures arrive; the last request is not answered *)
Definition resizing : list (input b64) :=
  [Input (S1Events (ESize 640 480) []) GotImage bake_arrives GotImage;
   Input (S1Events (ESize 800 600) [ESize 400 300]) GotError (S3Events (ESize 8 8) []) GotEmpty;
   Input (S1Events EPaint []) GotEmpty (S3Events (EKey true KUp false) []) GotEmpty].
Example resizing_drawn : drawn_sizes (run (TF := flatTrig) to32b is_finite resizing start) =
  ([(640, 480); (640, 480); (400, 300); (8, 8); (8, 8)]%Z, Some (8, 8)%Z).
Proof. vm_compute. reflexivity. Qed.
