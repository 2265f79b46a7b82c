(** * Properties C71, C72, C92, C97: the interactive viewer *)
From Coq Require Import ZArith Reals Bool List Lia.
From Flocq Require Import IEEE754.BinarySingleNaN.
From Verif Require Import Num Outcome GeomModel TreeModel SceneModel ApiModel ViewerModel ViewerSpec ViewerProofs ViewerFloat ViewerFacts.
Import ListNotations.

(** ** C71 *)
Theorem C71_at_most_one_bake_in_flight :
  forall (F : Type) (NF : Num F) (TF : Trig F) (to32 : F -> F) (jsonOk : F -> bool) is s,
    run to32 jsonOk is start = Val s -> (length (stFlight s) <= 1)%nat.
Proof. exact @one_bake. Qed.
Print Assumptions C71_at_most_one_bake_in_flight.

Theorem C71_accepted_bakes_are_current :
  forall (F : Type) (NF : Num F) (TF : Trig F) (to32 : F -> F) (jsonOk : F -> bool) is s v cur size,
    run to32 jsonOk is start = Val s -> In (AAccept v cur size) (stLog s) -> bake_of v cur size.
Proof. exact @accepted_current. Qed.
Print Assumptions C71_accepted_bakes_are_current.

Theorem C71_displayed_images_are_current_partial :
  forall (F : Type) (NF : Num F) (TF : Trig F) (to32 : F -> F) (jsonOk : F -> bool) is s i cur size,
    (forall i, In i is -> answers i) -> run to32 jsonOk is start = Val s ->
    In (AShow i cur size) (stLog s) -> up_to_date i cur size.
Proof. exact @shown_current. Qed.
Print Assumptions C71_displayed_images_are_current_partial.

Theorem C71_displayed_images_are_current_refuted :
  forall TF : Trig b64, exists s v cur size,
    run to32b is_finite flat_window start = Val s /\ In (AShow (IBake v) cur size) (stLog s) /\ ~ bake_of v cur size.
Proof. exact @stale_image. Qed.
Print Assumptions C71_displayed_images_are_current_refuted.

Example C71_example : shown (run (TF := flatTrig) to32b is_finite session start) =
  [(80, 60, false); (80, 60, true); (160, 120, true); (320, 240, true); (640, 480, true); (80, 60, false); (160, 120, true)]%Z.
Proof. exact session_shown. Qed.

(** ** C72 *)
Theorem C72_pitch_stays_within_a_quarter_turn :
  forall (TF : Trig b64), is_finite (npi (F := b64)) = true -> (0 <= B2R (npi (F := b64)))%R ->
    forall (jsonOk : b64 -> bool) is (s : state b64),
    (forall e, In e (all_events is) -> coords_ok (fun x => is_finite x = true) e) ->
    run to32b jsonOk is start = Val s ->
    is_finite (vwCamPitch (stView s)) = true /\
    nleb (nopp (ndiv npi (nofZ 2))) (vwCamPitch (stView s)) = true /\ nleb (vwCamPitch (stView s)) (ndiv npi (nofZ 2)) = true.
Proof. exact @pitch_run. Qed.
Print Assumptions C72_pitch_stays_within_a_quarter_turn.

Theorem C72_modes_stay_in_range :
  forall (F : Type) (NF : Num F) (TF : Trig F) (to32 : F -> F) (jsonOk : F -> bool) is s,
    run to32 jsonOk is start = Val s ->
    (0 <= vwDebugNormals (stView s) <= 2)%Z /\ (0 <= vwIsometricDir (stView s) <= 2)%Z.
Proof. exact @modes_run. Qed.
Print Assumptions C72_modes_stay_in_range.

Theorem C72_divisors :
  forall (F : Type) (NF : Num F) (TF : Trig F) (to32 : F -> F) (jsonOk : F -> bool) is s v d,
    run to32 jsonOk is start = Val s -> In (ABake v d) (stLog s) ->
    In d [8; 4; 2; 1]%Z /\ vwAntiAlias v = (d =? 1)%Z.
Proof. exact @bakes_divisor. Qed.
Print Assumptions C72_divisors.

Theorem C72_divisors_decrease_until_the_view_changes_partial :
  forall (F : Type) (NF : Num F) (TF : Trig F) (to32 : F -> F) (jsonOk : F -> bool) is s l1 l2 l3 v2 d2 v1 d1,
    (forall e, In e (all_events is) -> is_dead e = false) -> run to32 jsonOk is start = Val s ->
    stLog s = l1 ++ ABake v2 d2 :: l2 ++ ABake v1 d1 :: l3 -> (forall a, In a l2 -> ~ is_preview a) ->
    (d2 <= d1)%Z /\ same_camera v2 v1.
Proof. exact @bakes_finer. Qed.
Print Assumptions C72_divisors_decrease_until_the_view_changes_partial.

Theorem C72_divisor_increases_at_closing_refuted :
  forall TF : Trig b64, exists s l1 l2 l3 v2 v1,
    run to32b is_finite closing start = Val s /\
    stLog s = l1 ++ ABake v2 8 :: l2 ++ ABake v1 4 :: l3 /\ (forall a, In a l2 -> ~ is_preview a).
Proof. exact @coarser_at_closing. Qed.
Print Assumptions C72_divisor_increases_at_closing_refuted.

Example C72_example :
  omap (fun s => neqb (vwCamPitch (stView s)) (nQ 314159 200000)) (run (TF := flatTrig) to32b is_finite drag start) = Val true.
Proof. exact drag_pitch. Qed.

(** ** C92 *)
Theorem C92_viewer_survives_partial :
  forall TF : Trig b64, sane_trig -> forall is : list (input b64),
    (Z.of_nat (length (all_events is)) <= 2 ^ 27)%Z -> (Z.of_nat (count is_wheel (all_events is)) <= 1000)%Z ->
    (forall e, In e (all_events is) -> coords_ok (fun x => bz x (2 ^ 20)) e) ->
    (count is_dead (all_events is) <= 1)%nat -> run to32b is_finite is start <> Panic.
Proof. exact @viewer_safe. Qed.
Print Assumptions C92_viewer_survives_partial.

Theorem C92_viewer_survives_refuted :
  forall TF : Trig b64, run to32b is_finite zoom_out start = Panic /\
    count is_dead (all_events zoom_out) = 0%nat /\ (forall e, In e (all_events zoom_out) -> coords_ok (fun x => bz x (2 ^ 20)) e).
Proof. exact (fun TF => conj (@zoom_crash TF) (conj eq_refl zoom_calm)). Qed.
Print Assumptions C92_viewer_survives_refuted.

(** the assumptions can be met, and the run of C71_example does not crash *)
Example C92_example : @sane_trig flatTrig /\ shown (run (TF := flatTrig) to32b is_finite session start) <> [].
Proof. exact (conj flatTrig_sane session_not_empty). Qed.

(** ** C97 *)
Theorem C97_left_alone_the_full_picture_appears :
  forall (F : Type) (NF : Num F) (TF : Trig F) (to32 : F -> F) (jsonOk : F -> bool) is s n,
    run to32 jsonOk is start = Val s ->
    stPaused s = false -> stPreview s = false -> stAborted s = false -> stReturned s = false -> encodable jsonOk (stView s) = true ->
    exists s' v l, run to32 jsonOk (repeat quiet_turn (4 + n)) s = Val s' /\
      stLog s' = AShow (IBake v) (stView s) (stSize s) :: l /\
      downscaled 1 v (stView s) (stSize s) /\ vwAntiAlias v = true.
Proof.
  exact (fun F NF TF to32 jsonOk is s n E => @quiet_converges F NF TF to32 jsonOk is s n E (@res_run F NF TF to32 jsonOk is s E)).
Qed.
Print Assumptions C97_left_alone_the_full_picture_appears.

Example C97_example : shown (run (TF := flatTrig) to32b is_finite (repeat quiet_turn 5) start) =
  [(4, 4, false); (4, 4, true); (8, 8, true); (16, 16, true); (32, 32, true); (32, 32, true)]%Z.
Proof. vm_compute. reflexivity. Qed.
