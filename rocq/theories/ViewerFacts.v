(** * Concrete runs of the viewer: what goes wrong, and examples *)
From Coq Require Import ZArith Reals Bool List Lia Lra.
From Flocq Require Import Core.
From Flocq Require Import IEEE754.BinarySingleNaN.
From Verif Require Import Num NumLaws B64 Outcome GeomModel TreeModel SceneModel ApiModel ViewerModel ViewerSpec ViewerProofs ViewerFloat.
Import ListNotations.

Definition bake_arrives : select3 b64 := S3Bakery 0 GotImage.
Definition zero64 : b64 := nofZ 0.
Definition wheel (b : button) : event b64 := EMouse DNone b zero64 zero64 false.

(** ** C71: a window of less than eight pixels high *)
Definition flat_window : list (input b64) :=
  [quiet_turn; Input (S1Events (ESize 64 4) []) GotEmpty (S3Events EPaint []) GotEmpty].
Lemma stale_image {TF : Trig b64} : exists s v cur size, run64 flat_window start = Val s /\ In (AShow (IBake v) cur size) (stLog s) /\ ~ bake_of v cur size.
Proof.
  do 4 eexists. split; [vm_compute; reflexivity|]. split; [cbn [stLog]; left; reflexivity|].
  intros (d & Hd & (_ & Hw & _) & _). cbn in Hw. destruct Hd as [<-|[<-|[<-|[<-|[]]]]]; discriminate Hw.
Qed.

(** ** C72: the divisor starts over when the window is closed *)
Definition closing : list (input b64) :=
  [quiet_turn; quiet_turn; Input (S1Events (ELife true) []) GotImage S3Abort GotImage].
Lemma coarser_at_closing {TF : Trig b64} : exists s l1 l2 l3 v2 v1, run64 closing start = Val s /\ stLog s = l1 ++ ABake v2 8 :: l2 ++ ABake v1 4 :: l3 /\
  (forall a, In a l2 -> ~ is_preview a).
Proof.
  eexists. exists []. eexists [_; _; _]. do 3 eexists. split; [vm_compute; reflexivity|]. split; [reflexivity|].
  intros a [<-|[<-|[<-|[]]]] [].
Qed.

(** ** C92: zooming out until the field of view is infinite *)
Definition zoom_out : list (input b64) :=
  [Input (S1Events (EKey true KX false) (repeat (wheel BWheelDown) 2050)) GotImage (S3Events EPaint []) GotImage].
Lemma zoom_crash {TF : Trig b64} : run64 zoom_out start = Panic.
Proof. vm_compute. reflexivity. Qed.
Lemma zoom_calm : forall e, In e (all_events zoom_out) -> calm e.
Proof.
  intros e H. unfold all_events, zoom_out in H. cbn [flat_map events_of events1 events3 in1 in3 app] in H.
  assert (calm (wheel BWheelDown)) as W by (split; apply bz_0; lia).
  rewrite app_nil_r in H. destruct H as [<-|H]; [exact I|].
  apply in_app_or in H. destruct H as [H|[<-|[]]]; [|exact I]. apply repeat_spec in H. subst e. exact W.
Qed.
(** closing the window twice *)
Lemma close_crash {TF : Trig b64} : run64 [Input (S1Events (ELife true) [ELife true]) GotImage S3Abort GotImage] start = Panic.
Proof. vm_compute. reflexivity. Qed.

(** ** Examples *)
(** a trigonometry that satisfies the assumptions *)
Definition flatTrig : Trig b64 :=
  {| npi := nQ 314159 100000; nsin := fun _ => nofZ 0; ncos := fun _ => nofZ 1; ntan := fun x => x; nexp := fun x => x; nlog := fun x => x; npow := fun x _ => x |}.
Lemma flatTrig_sane : @sane_trig flatTrig.
Proof.
  split.
  - intros x _. split; apply bz_const; try lia; vm_compute; reflexivity.
  - split; [vm_compute; reflexivity|].
    assert (is_finite (@npi b64 flatTrig) = true) as Fp by (vm_compute; reflexivity).
    split.
    + change 0%R with (B2R (nofZ (F := b64) 0)). apply (bleb_R (nofZ 0) _); [vm_compute; reflexivity|exact Fp|vm_compute; reflexivity].
    + replace 4%R with (B2R (nofZ (F := b64) 4)) by (apply (bofZ_correct 4); lia).
      apply (bleb_R _ (nofZ 4) Fp); [vm_compute; reflexivity|vm_compute; reflexivity].
Qed.

(** what is on the screen *)
Definition shown (o : outcome (state b64)) : list (Z * Z * bool) :=
  match o with
  | Val s => flat_map (fun a => match a with
                                | AShow (IPreview v) _ _ => [(vwWidth v, vwHeight v, false)]
                                | AShow (IBake v) _ _ => [(vwWidth v, vwHeight v, true)]
                                | _ => [] end) (rev (stLog s))
  | _ => []
  end.
(** a window of 640x480: preview, then three finer and finer bakes, a step forward, and all over again;
    the bake that was cancelled by the step is not shown *)
Definition session : list (input b64) :=
  [Input (S1Events (ESize 640 480) []) GotImage bake_arrives GotImage; quiet_turn; quiet_turn; quiet_turn;
   Input S1Default GotImage (S3Events (EKey true KUp false) []) GotImage; quiet_turn; quiet_turn].
Example session_shown : shown (run (TF := flatTrig) to32b is_finite session start) =
  [(80, 60, false); (80, 60, true); (160, 120, true); (320, 240, true); (640, 480, true); (80, 60, false); (160, 120, true)]%Z.
Proof. vm_compute. reflexivity. Qed.
(** dragging the mouse 1000 pixels down tilts the camera by a quarter turn, not by five radians *)
Definition drag : list (input b64) :=
  [Input (S1Events (EMouse DPress BLeft zero64 zero64 false) [EMouse DNone BNone zero64 (nofZ 1000) false]) GotImage (S3Events EPaint []) GotImage].
Example drag_pitch : omap (fun s => neqb (vwCamPitch (stView s)) (nQ 314159 200000)) (run (TF := flatTrig) to32b is_finite drag start) = Val true.
Proof. vm_compute. reflexivity. Qed.
Lemma session_not_empty : shown (run (TF := flatTrig) to32b is_finite session start) <> [].
Proof. rewrite session_shown. discriminate. Qed.
