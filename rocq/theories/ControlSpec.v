(** * What the controls of the viewer are expected to do, independently of its implementation *)
From Coq Require Import ZArith Reals Bool List.
From Verif Require Import Num Outcome GeomModel GeomSpec SceneModel SceneSpec ApiModel ViewerModel.
Import ListNotations.
Local Open Scope R_scope.

(** pressing a key *)
Definition press (code : keyCode) (shift : bool) (s : state R) : state R := handleKeyEvent true code shift s.
(** how far it moves the camera *)
Definition travel (code : keyCode) (shift : bool) (s : state R) : pt :=
  minus3 (vwCamPos (stView (press code shift s))) (vwCamPos (stView s)).
(** dragging the mouse by (dx, dy) pixels, and turning its wheel *)
Definition drag (dx dy : R) (s : state R) : state R :=
  handleMouseEvent (fun x => x) DNone BNone (stX s + dx) (stY s + dy) false s.
Definition wheel (b : button) (s : state R) : state R :=
  handleMouseEvent (fun x => x) DNone b (stX s) (stY s) false s.

(** The six directions: right, up and forward; and back. *)
Definition rightwards (s : state R) : pt := travel KRight false s.
Definition upwards (s : state R) : pt := travel KSpace false s.
Definition forwards (s : state R) : pt := travel KUp false s.

(** the camera with which the server shows the view *)
Definition shown_by {M L Med : Type} (nm n2 fb : M) (v : view R) (sp : spec R M L Med) (cam : camera R) : Prop :=
  exists sp', viewApplyTo nm n2 fb v sp = Val sp' /\ spCamera sp' = Some cam.

(** a scene and a view that can be drawn *)
Definition drawable {M L Med : Type} (v : view R) (sp : spec R M L Med) : Prop :=
  (0 < spRecursion sp)%Z /\ (0 < spNumPass sp)%Z /\ (0 < vwWidth v <= 2 ^ 52)%Z /\ (0 < vwHeight v <= 2 ^ 52)%Z.

(** keys that move the camera *)
Definition moves (code : keyCode) : bool :=
  match code with KLeft | KS | KRight | KF | KUp | KE | KDown | KD | KSpace => true | _ => false end.
(** the axis of a key that shows the scene along it *)
Definition axis_key (code : keyCode) : option Z :=
  match code with KX => Some 0%Z | KY => Some 1%Z | KZ => Some 2%Z | _ => None end.
(** the axis along which a view shows the scene without perspective, if it does *)
Definition along_axis (v : view R) : option Z := if vwIsometric v then Some (vwIsometricDir v) else None.
