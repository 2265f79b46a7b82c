(** * What the window of the viewer shows (C127) *)
From Coq Require Import ZArith Bool List.
From Verif Require Import Num GeomModel ApiModel ViewerModel.
Import ListNotations.

Section Spec.
  Context {F : Type}.
  Definition is_show (a : action F) : Prop := match a with AShow _ _ _ => True | _ => False end.
  Definition is_bake (a : action F) : Prop := match a with ABake _ _ => True | _ => False end.
  (** what was drawn last, and in which size (the log has the latest action first) *)
  Definition on_screen (log : list (action F)) (i : img F) (size : Z * Z) : Prop :=
    exists l1 cur l2, log = l1 ++ AShow i cur size :: l2 /\ forall a, In a l1 -> ~ is_show a.
  (** events after which the contents of the window are lost or have the wrong size *)
  Definition asks_repaint (e : event F) : bool := match e with ESize _ _ | EPaint | ELife _ => true | _ => false end.
End Spec.
