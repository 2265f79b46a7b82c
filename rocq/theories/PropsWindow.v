(** * Property C127: the window of the viewer shows the current picture *)
From Coq Require Import ZArith Bool List.
From Flocq Require Import IEEE754.BinarySingleNaN.
From Verif Require Import Num B64 Outcome GeomModel TreeModel SceneModel ApiModel ViewerModel ViewerSpec ViewerProofs ViewerFacts WindowSpec WindowProofs WindowFacts.
Import ListNotations.

(** ** C127 *)
Theorem C127_the_window_is_up_to_date :
  forall (F : Type) (NF : Num F) (TF : Trig F) (to32 : F -> F) (jsonOk : F -> bool) (is : list (input F)) (s : state F),
    is <> nil -> run to32 jsonOk is start = Val s ->
    stWindowDirty s = false /\ on_screen (stLog s) (stImg s) (stSize s).
Proof. exact @window_shows. Qed.
Print Assumptions C127_the_window_is_up_to_date.

Theorem C127_exposed_windows_are_redrawn :
  forall (F : Type) (NF : Num F) (TF : Trig F) (to32 : F -> F) (jsonOk : F -> bool) (is : list (input F)) (s s' : state F) (i : input F),
    run to32 jsonOk is start = Val s -> iterate to32 jsonOk i s = Val s' -> stReturned s' = false ->
    (exists e, In e (events_of i) /\ asks_repaint e = true) ->
    exists l, stLog s' = l ++ stLog s /\ exists j cur size, In (AShow j cur size) l.
Proof. exact (fun F NF TF to32 jsonOk is s s' i => @window_redrawn F NF TF to32 jsonOk is s i s'). Qed.
Print Assumptions C127_exposed_windows_are_redrawn.

Example C127_example : drawn_sizes (run (TF := flatTrig) to32b is_finite resizing start) =
  ([(640, 480); (640, 480); (400, 300); (8, 8); (8, 8)]%Z, Some (8, 8)%Z).
Proof. exact resizing_drawn. Qed.
