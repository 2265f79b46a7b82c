(** * What users of bruteray-watch can see *)
From Coq Require Import ZArith Bool List.
From Verif Require Import CmdModel.
Import ListNotations.
Local Open Scope Z_scope.

Section WatchSpec.
  Context {Text : Type}.
  (** the programs that are running *)
  Definition running (w : watcher Text) : list Text := map snd (wProcs w).
  Definition watching (w : watcher Text) : Prop := wAt w <> AtExit /\ wAt w <> AtCrash.
  (** modification times of all versions saved *)
  Fixpoint stamps (l : list (happening Text)) : list Z :=
    match l with
    | [] => []
    | HSave f :: l => fStamp f :: stamps l
    | _ :: l => stamps l
    end.
  (** the user does nothing *)
  Definition idle (h : happening Text) : Prop := match h with HSave _ | HRemove => False | _ => True end.
  Definition present (h : happening Text) : Prop := match h with HRemove => False | _ => True end.
  Definition can_start (h : happening Text) : Prop := match h with HStep false => False | _ => True end.
  (** number of steps the watcher takes *)
  Definition steps (l : list (happening Text)) : nat := length (filter (fun h => match h with HStep _ => true | _ => false end) l).
  (** no process ends by itself *)
  Definition goes_on (h : happening Text) : Prop := match h with HDone _ => False | _ => True end.
End WatchSpec.
