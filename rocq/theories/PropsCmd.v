(** * C111-C113: the programs bruteray-watch and halton *)
From Coq Require Import ZArith Bool List.
From Verif Require Import Num Outcome SeqModel CmdModel CmdSpec CmdProofs.
Import ListNotations.
Local Open Scope Z_scope.

(** ** C111 *)
Theorem C111_at_most_one_rendering_runs :
  forall (Text : Type) (builds : Text -> bool) f l, (length (running (history builds (wInit f) l)) <= 1)%nat.
Proof. exact @one_running. Qed.
Print Assumptions C111_at_most_one_rendering_runs.

(** the version saved last, if its modification time is new, is the one rendered in the end; if it does not
    compile, nothing is. Left out: modification times that do not change, see below *)
Theorem C111_the_latest_version_is_rendered_partial :
  forall (Text : Type) (builds : Text -> bool) l1 l2 f,
    watching (history builds (wInit None) l1) -> ~ In (fStamp f) (0 :: stamps l1) -> Forall idle l2 -> Forall can_start l2 -> (7 <= steps l2)%nat ->
    let w := history builds (wInit None) (l1 ++ HSave f :: l2) in
    watching w /\ if builds (fText f) then hd_error (wStarted w) = Some (fText f) /\ (running w = [] \/ running w = [fText f]) /\ (Forall goes_on l2 -> running w = [fText f])
    else running w = [].
Proof. exact @latest_is_rendered. Qed.
Print Assumptions C111_the_latest_version_is_rendered_partial.

(** a version saved within the same tick of the clock as the one being compiled is never rendered *)
Theorem C111_the_latest_version_is_rendered_refuted :
  forall l : list (happening Z), Forall idle l -> Forall can_start l -> Forall goes_on l -> (1 <= steps l)%nat ->
    running (history (fun _ => true) (wInit None) (quick_edits l)) = [10].
Proof. exact quick_edit_lost. Qed.
Print Assumptions C111_the_latest_version_is_rendered_refuted.

(** version 20 is saved while version 10 is compiled; version 30 does not compile *)
Example C111_example :
  running (history (fun t => negb (t =? 30)) (wInit None) [HSave (File 1 10); HStep true; HStep true; HStep true; HSave (File 2 20); HStep true]) = [10] /\
  running (history (fun t => negb (t =? 30)) (wInit None) [HSave (File 1 10); HStep true; HStep true; HStep true; HSave (File 2 20);
    HStep true; HStep true; HStep true; HStep true; HStep true; HStep true; HStep true]) = [20] /\
  running (history (fun t => negb (t =? 30)) (wInit None) [HSave (File 1 10); HStep true; HStep true; HStep true; HStep true; HSave (File 2 30);
    HStep true; HStep true; HStep true; HStep true; HStep true; HStep true; HStep true]) = [].
Proof. repeat split. Qed.

(** ** C112 *)
Theorem C112_watching_goes_on_partial :
  forall (Text : Type) (builds : Text -> bool) f l, Forall present l -> Forall can_start l -> watching (history builds (wInit (Some f)) l).
Proof. exact @goes_on_watching. Qed.
Print Assumptions C112_watching_goes_on_partial.

(** an editor that removes the file and writes it anew ends the watcher, and the outdated rendering runs on *)
Theorem C112_watching_goes_on_refuted :
  let l := [HSave (File 1 10); HStep true; HStep true; HStep true; HStep true; HRemove; HStep true; HSave (File 2 20)] in
  ~ watching (history (fun _ => true) (wInit None) l) /\ running (history (fun _ => true) (wInit None) l) = [10].
Proof. exact save_by_replacing_ends. Qed.
Print Assumptions C112_watching_goes_on_refuted.

(** so does a process that cannot be started *)
Theorem C112_failed_start_crashes_refuted :
  ~ watching (history (fun _ : Z => true) (wInit None) [HSave (File 1 10); HStep true; HStep true; HStep true; HStep false]).
Proof. exact failed_start_crashes. Qed.
Print Assumptions C112_failed_start_crashes_refuted.

(** once the watcher has ended, nothing stops the rendering and no edit is rendered *)
Theorem C112_nothing_happens_after_the_end :
  forall (Text : Type) (builds : Text -> bool) l w, ~ watching w -> Forall goes_on l ->
    running (history builds w l) = running w /\ wStarted (history builds w l) = wStarted w.
Proof. exact @ended. Qed.
Print Assumptions C112_nothing_happens_after_the_end.

Example C112_example : watching (history (fun _ => true) (wInit (Some (File 1 10))) [HStep true; HStep true; HSave (File 2 20); HStep true; HDone 0; HStep true; HStep true]).
Proof. split; discriminate. Qed.

(** ** C113 *)
Theorem C113_number_of_points_partial :
  forall a b, 2 <= a < 2 ^ 53 -> 2 <= b < 2 ^ 53 -> forall s i n fuel, 1 <= s -> 0 <= i -> 0 <= n -> s * (i + n) < 2 ^ 53 -> (Z.to_nat (s * (i + n)) < fuel)%nat ->
    exists l : list (b64 * b64), haltonCmd fuel a b s i n = Val l /\ n <= Z.of_nat (length l) /\ (i = 0 \/ s = 1 -> Z.of_nat (length l) = n) /\
      forall k u v, nth_error l k = Some (u, v) -> halton a (i + s * Z.of_nat k) = Val u /\ halton b (i + s * Z.of_nat k) = Val v.
Proof. exact haltonCmd_points. Qed.
Print Assumptions C113_number_of_points_partial.

(** halton -s 2 -i 1 -n 1 prints two points *)
Theorem C113_number_of_points_refuted : exists l : list (b64 * b64), haltonCmd 10 2 3 2 1 1 = Val l /\ length l = 2%nat.
Proof. exact halton_one_too_many. Qed.
Print Assumptions C113_number_of_points_refuted.

Example C113_example :
  match haltonCmd (F := b64) 10 2 3 2 0 3 with
  | Val [(u0, v0); (u1, v1); (u2, v2)] =>
      (neqb u0 (nQ 1 2) && neqb u1 (nQ 3 4) && neqb u2 (nQ 5 8) && neqb v0 (nQ 1 3))%bool
  | _ => false
  end = true.
Proof. vm_compute. reflexivity. Qed.
