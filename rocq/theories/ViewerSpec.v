(** * What is expected of the viewer, independently of its implementation *)
From Coq Require Import ZArith Bool List.
From Verif Require Import Num GeomModel ApiModel ViewerModel.
Import ListNotations.

Section Spec.
  Context {F : Type}.
  Notation view := (view F).

  (** Two views of the same thing, perhaps in different resolutions. *)
  Definition same_camera (a b : view) : Prop :=
    vwCamPos a = vwCamPos b /\ vwCamYaw a = vwCamYaw b /\ vwCamPitch a = vwCamPitch b /\
    vwDebugNormals a = vwDebugNormals b /\ vwIsometric a = vwIsometric b /\
    vwIsometricFOV a = vwIsometricFOV b /\ vwIsometricDir a = vwIsometricDir b.
  (** [v] is the view [cur] in a window of the given size, [d] times downscaled. *)
  Definition downscaled (d : Z) (v cur : view) (size : Z * Z) : Prop :=
    same_camera v cur /\ vwWidth v = Z.quot (fst size) d /\ vwHeight v = Z.quot (snd size) d.
  (** A bake for the current view: at one of the four resolutions, anti-aliased at the full one only. *)
  Definition bake_of (v cur : view) (size : Z * Z) : Prop :=
    exists d, In d [8; 4; 2; 1]%Z /\ downscaled d v cur size /\ vwAntiAlias v = (d =? 1)%Z.
  (** An up-to-date image: a placeholder, or one that was requested for the current view. *)
  Definition up_to_date (i : img F) (cur : view) (size : Z * Z) : Prop :=
    match i with
    | IDummy => True
    | IPreview v => downscaled 8 v cur size
    | IBake v => bake_of v cur size
    end.
  Definition is_preview (a : action F) : Prop := match a with APreview _ => True | _ => False end.

  (** The user events in the order in which they arrive. *)
  Definition events1 (c : select1 F) : list (event F) := match c with S1Events e es => e :: es | _ => [] end.
  Definition events3 (c : select3 F) : list (event F) := match c with S3Events e es => e :: es | _ => [] end.
  Definition events_of (i : input F) : list (event F) := events1 (in1 i) ++ events3 (in3 i).
  Definition all_events (is : list (input F)) : list (event F) := flat_map events_of is.

  Definition coords_ok (ok : F -> Prop) (e : event F) : Prop :=
    match e with EMouse _ _ x y _ => ok x /\ ok y | _ => True end.
  (** turns of the mouse wheel, and window closings *)
  Definition is_wheel (e : event F) : bool := match e with EMouse _ (BWheelUp | BWheelDown) _ _ _ => true | _ => false end.
  Definition is_dead (e : event F) : bool := match e with ELife true => true | _ => false end.
  Definition count (f : event F -> bool) (es : list (event F)) : nat := length (filter f es).

  (** The server answers every preview with a non-empty image or an error. *)
  Definition answers (i : input F) : Prop := inR1 i <> GotEmpty /\ inR2 i <> GotEmpty.

  (** One turn of the loop without user events, in which the pending bake succeeds. *)
  Definition quiet_turn : input F := Input S1Default GotImage (S3Bakery 0 GotImage) GotImage.
End Spec.
