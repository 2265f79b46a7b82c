(** * C33 for balls and boxes: the hypotheses about crossings hold, and what follows *)
From Coq Require Import ZArith Reals List.
From Verif Require Import Num Outcome GeomModel GeomSpec ObjModel ObjSpec PrimProofs SolidProofs CrossProofs.
Local Open Scope R_scope.

Theorem C33_balls_report_their_crossings :
  forall (M : Type) (m : option M) (diam : R) (c s d : pt), 0 <= diam -> d <> zero3 ->
    exists cs, (length cs <= 2)%nat /\ crossings (sphere m diam c) s d cs /\
      forall t, In t cs <-> dist2 (along s d t) c = (diam / 2)².
Proof. exact @ball_crossings. Qed.
Print Assumptions C33_balls_report_their_crossings.

Theorem C33_boxes_report_their_crossings :
  forall (M : Type) (m : option M) (lo hi s d : pt), ordered lo hi -> slanted d -> ~ on_box_surface lo hi s ->
    exists cs, (length cs <= 2)%nat /\ crossings (boxWithBounds m lo hi) s d cs /\
      forall t, In t cs <-> on_box_surface lo hi (along s d t).
Proof. exact @box_crossings. Qed.
Print Assumptions C33_boxes_report_their_crossings.

(** a ball cut with a box is hit at the first point of its surface, if crossings of the same member
    are more than Tiny apart *)
Theorem C33_a_ball_cut_with_a_box :
  forall (M : Type) (NI : NumInf R) (m m' : option M) (diam : R) (c lo hi s d : pt),
    0 <= diam -> d <> zero3 -> ordered lo hi -> slanted d -> ~ on_box_surface lo hi s ->
    let on_ball t := dist2 (along s d t) c = (diam / 2)² in
    let on_cube t := on_box_surface lo hi (along s d t) in
    (forall t t', on_ball t -> on_ball t' -> t < t' -> t + tiny < t') ->
    (forall t t', on_cube t -> on_cube t' -> t < t' -> t + tiny < t') ->
    (forall t, on_ball t \/ on_cube t -> t < ninf) ->
    let valid t := 0 < t /\ ((on_ball t /\ in_open_box lo hi (along s d t)) \/ (on_cube t /\ dist2 (along s d t) c < (diam / 2)²)) in
    exists h, oIntersect (cAnd (sphere m diam c) (boxWithBounds m' lo hi)) (Ray s d) = Val (h, Ray s d) /\
      ((valid (hT h) /\ forall t, valid t -> hT h <= t) \/ (hT h = 0 /\ forall t, ~ valid t)).
Proof. exact @dice_first. Qed.
Print Assumptions C33_a_ball_cut_with_a_box.

(** in double precision: a die with rounded corners shows its flat face at x = 1 and its round corner further back *)
Definition rounded : object b64 unit := cAnd (sphere None (nofZ 3) vO) (boxWithBounds None (Vec (nofZ (-1)) (nofZ (-1)) (nofZ (-1))) (Vec (nofZ 1) (nofZ 1) (nofZ 1))).
Example C33_rounded_die :
  let seen y := match oIntersect rounded (Ray (Vec (nofZ 5) y y) (Vec (nofZ (-1)) (nofZ 0) (nofZ 0))) with Val (h, _) => hT h | _ => nofZ (-1) end in
  andb (neqb (seen (nQ 1 4)) (nofZ 4)) (andb (nltb (nQ 41 10) (seen (nQ 19 20))) (nltb (seen (nQ 19 20)) (nofZ 5))) = true.
Proof. vm_compute. reflexivity. Qed.
