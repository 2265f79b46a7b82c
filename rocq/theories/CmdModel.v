(** * The programs cmd/bruteray-watch/main.go and cmd/halton/halton.go

    The watcher and its surroundings as a state machine: the user edits or removes the source file, renderings
    end by themselves, and the watcher takes its next step, in any order. Left out: flags, printed messages,
    renice, the directory and the arguments of the commands. [go build] reads the file at one moment; it
    succeeds or not depending on the text alone. *)
From Coq Require Import ZArith Bool List.
From Verif Require Import Num Outcome SeqModel.
Import ListNotations.
Local Open Scope Z_scope.

Section Watch.
  Context {Text : Type}.
  Variable builds : Text -> bool.

  (** modification time and contents of the source file; 0 is the zero time.Time *)
  Record file : Type := File { fStamp : Z; fText : Text }.
  (** what main is about to do: stat; kill the last process; compile; start the program; or it has ended
      by os.Exit(1), or by a nil dereference *)
  Inductive at_ : Type :=
  | AtPoll
  | AtKill (stamp : Z)
  | AtBuild (stamp : Z)
  | AtStart (stamp : Z)
  | AtExit
  | AtCrash.
  Record watcher : Type := W {
    wFile : option file;          (* the source file, if it exists *)
    wExe : option Text;           (* text from which the program on disk was built *)
    wAt : at_;
    wStamp : Z;                   (* ts *)
    wLast : option nat;           (* last: the process started last *)
    wProcs : list (nat * Text);   (* processes that are running *)
    wNext : nat;                  (* fresh process number *)
    wStarted : list Text          (* every program started, latest first *)
  }.
  Inductive happening : Type :=
  | HSave (f : file)              (* the file is written *)
  | HRemove                       (* the file is removed *)
  | HDone (p : nat)               (* process p ends *)
  | HStep (ok : bool).            (* the watcher proceeds; ok: the operating system can start a process *)

  Definition wInit (f : option file) : watcher := W f None AtPoll 0 None [] 0 [].
  Definition wWithout (p : nat) (l : list (nat * Text)) : list (nat * Text) := filter (fun q => negb (Nat.eqb (fst q) p)) l.
  Definition wGoto (a : at_) (w : watcher) : watcher :=
    W (wFile w) (wExe w) a (wStamp w) (wLast w) (wProcs w) (wNext w) (wStarted w).
  Definition wSetFile (f : option file) (w : watcher) : watcher :=
    W f (wExe w) (wAt w) (wStamp w) (wLast w) (wProcs w) (wNext w) (wStarted w).
  Definition wSetProcs (l : list (nat * Text)) (w : watcher) : watcher :=
    W (wFile w) (wExe w) (wAt w) (wStamp w) (wLast w) l (wNext w) (wStarted w).
  Definition wSetExe (e : option Text) (w : watcher) : watcher :=
    W (wFile w) e (wAt w) (wStamp w) (wLast w) (wProcs w) (wNext w) (wStarted w).
  (** main.go:32-34: back from rerun *)
  Definition wReturn (stamp : Z) (w : watcher) : watcher :=
    W (wFile w) (wExe w) AtPoll stamp (wLast w) (wProcs w) (wNext w) (wStarted w).
  (** main.go:57-71: exec.Command(...).Start() succeeds *)
  Definition wStart (t : Text) (w : watcher) : watcher :=
    W (wFile w) (wExe w) (wAt w) (wStamp w) (Some (wNext w)) ((wNext w, t) :: wProcs w) (S (wNext w)) (t :: wStarted w).

  Definition wStep (ok : bool) (w : watcher) : watcher :=
    match wAt w with
    | AtPoll =>                                           (* main.go:28-32 *)
        match wFile w with
        | None => wGoto AtExit w
        | Some f => if fStamp f =? wStamp w then w else wGoto (AtKill (fStamp f)) w
        end
    | AtKill stamp =>                                     (* main.go:41-48 *)
        wGoto (AtBuild stamp) (match wLast w with Some p => wSetProcs (wWithout p (wProcs w)) w | None => w end)
    | AtBuild stamp =>                                    (* main.go:49-52, 74-82 *)
        match wFile w with
        | Some f => if builds (fText f) then wGoto (AtStart stamp) (wSetExe (Some (fText f)) w) else wReturn stamp w
        | None => wReturn stamp w
        end
    | AtStart stamp =>                                    (* main.go:53-71; cmd.Process is nil if Start failed *)
        match ok, wExe w with
        | true, Some t => wReturn stamp (wStart t w)
        | _, _ => wGoto AtCrash w
        end
    | AtExit | AtCrash => w
    end.
  Definition happen (w : watcher) (h : happening) : watcher :=
    match h with
    | HSave f => wSetFile (Some f) w
    | HRemove => wSetFile None w
    | HDone p => wSetProcs (wWithout p (wProcs w)) w
    | HStep ok => wStep ok w
    end.
  Definition history (w : watcher) (l : list happening) : watcher := fold_left happen l w.
End Watch.
Arguments file : clear implicits.
Arguments watcher : clear implicits.
Arguments happening : clear implicits.

(** ** cmd/halton/halton.go:22-41, without -rand and -disk: the points printed; a, b, s, i, n are the flags.
    The loop does not end for s <= 0 with max > i: fuel *)
Section HaltonCmd.
  Context {F : Type} `{NF : Num F}.
  Fixpoint haltonLoop (fuel : nat) (a b s i max : Z) : outcome (list (F * F)) :=
    match fuel with
    | O => NoFuel
    | S fuel =>
        if i <? max then
          obind (halton a i) (fun u =>
          obind (halton b i) (fun v =>
          omap (cons (u, v)) (haltonLoop fuel a b s (i + s) max)))
        else Val []
    end.
  Definition haltonCmd (fuel : nat) (a b s i n : Z) : outcome (list (F * F)) := haltonLoop fuel a b s i (s * (i + n)).
End HaltonCmd.
