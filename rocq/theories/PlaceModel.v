(** * Model of the placing methods of api.Object (api/object.go) and of the box geometry they use *)
From Coq Require Import ZArith Bool List.
From Verif Require Import Num Outcome GeomModel ObjModel.
Import ListNotations.

(** ** tracer/objects/boundingbox.go *)
Section Boxes.
  Context {F : Type} `{NF : Num F} `{NI : NumInf F}.
  Local Open Scope num_scope.

  (** boundingbox.go:53 *)
  Definition bbSize (b : bbox F) : vec F := vsub (bMax b) (bMin b).
  (** boundingbox.go:93-101: math.IsInf(a[i], -1) && math.IsInf(b[i], 1) *)
  Definition safeCoord (a b avg : F) : F := if ((a =? - ninf) && (b =? ninf))%bool then #0 else avg.
  Definition safeAverage (a b : vec F) : vec F :=
    let avg := vmul (vadd a b) (nQ 1 2) in
    Vec (safeCoord (vx a) (vx b) (vx avg)) (safeCoord (vy a) (vy b) (vy avg)) (safeCoord (vz a) (vz b) (vz avg)).
  (** boundingbox.go:65-91 *)
  Definition bbCenter (b : bbox F) : vec F := safeAverage (bMin b) (bMax b).
  Definition bbCenterBottom (b : bbox F) : vec F := vset (bbCenter b) AY (vy (bMin b)).
  Definition bbCenterTop (b : bbox F) : vec F := vset (bbCenter b) AY (vy (bMax b)).
  Definition bbCenterBack (b : bbox F) : vec F := vset (bbCenter b) AZ (vz (bMin b)).
  Definition bbCenterFront (b : bbox F) : vec F := vset (bbCenter b) AZ (vz (bMax b)).
End Boxes.

(** ** api/object.go *)
Section Placing.
  Context {F : Type} `{NF : Num F} `{NI : NumInf F} {M : Type}.
  Local Open Scope num_scope.
  Notation object := (object F M).

  (** object.go:85-103 *)
  Definition objCenter (o : object) : outcome (vec F) := omap bbCenter (oBounds o).
  Definition objCenterBack (o : object) : outcome (vec F) := omap bbCenterBack (oBounds o).
  Definition objCenterFront (o : object) : outcome (vec F) := omap bbCenterFront (oBounds o).
  Definition objCenterTop (o : object) : outcome (vec F) := omap bbCenterTop (oBounds o).
  Definition objCenterBottom (o : object) : outcome (vec F) := omap bbCenterBottom (oBounds o).

  (** object.go:105-113 *)
  Definition withCenter (o : object) (pos : vec F) : outcome object :=
    obind (objCenter o) (fun c => translated o (vsub pos c)).
  Definition withCenterBottom (o : object) (pos : vec F) : outcome object :=
    obind (objCenterBottom o) (fun c => translated o (vsub pos c)).
  (** object.go:131-137 *)
  Definition scaleObjAt (o : object) (center : vec F) (s : F) : outcome object := transformed o (scale center s).
  Definition scaleObj (o : object) (s : F) : outcome object := obind (objCenter o) (fun c => scaleObjAt o c s).
  (** object.go:147-150 *)
  Definition scaleToSize (o : object) (maxSize : F) : outcome object :=
    obind (oBounds o) (fun b => scaleObj o (maxSize / vx (bbSize b))).
  (** object.go:164-170 *)
  Definition andNot (o b : object) : object := cAnd o (cNot b).
  Definition remove (o b : object) : object := cRestrict o (cNot b).

  Context `{TF : Trig F}.
  (** object.go:115-121 *)
  Definition rotateObjAt (o : object) (center axis : vec F) (radians : F) : outcome object :=
    transformed o (rotate center axis radians).
  Definition rotateObj (o : object) (axis : vec F) (radians : F) : outcome object :=
    obind (objCenter o) (fun c => rotateObjAt o c axis radians).
End Placing.
