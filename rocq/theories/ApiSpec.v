(** * What to expect of specs, saved files and local rendering *)
From Coq Require Import ZArith Bool List.
From Verif Require Import Num ColorModel ObjModel PpmSpec ApiModel.
Import ListNotations.
Local Open Scope Z_scope.

(** objects that behave the same *)
Definition same_object {F M} (a b : object F M) : Prop :=
  (forall r, oIntersect a r = oIntersect b r) /\ (forall p, oInside a p = oInside b p) /\ oBounds a = oBounds b.

(** all fields of a spec the same, except that objects only have to behave the same *)
Definition same_spec {F M L Med} (s t : spec F M L Med) : Prop :=
  spLights s = spLights t /\ spMedia s = spMedia t /\ spCamera s = spCamera t /\ spRecursion s = spRecursion t /\
  spNumPass s = spNumPass t /\ spWidth s = spWidth t /\ spHeight s = spHeight t /\ spDebugNormals s = spDebugNormals t /\
  spIsometricFOV s = spIsometricFOV t /\ spIsometricDir s = spIsometricDir t /\
  Forall2 (fun a b => same_object (aoInterface a) (aoInterface b)) (spObjects s) (spObjects t).

(** every hit on the object has the given material *)
Definition all_material {F M} (m : M) (o : object F M) : Prop := forall r h r', oIntersect o r = Outcome.Val (h, r') -> hMat h = Some m.

(** 1, 2, ..., k and their sum *)
Definition counting (k : nat) : list Z := map Z.of_nat (seq 1 k).
Definition triangular (k : Z) : Z := k * (k + 1) / 2.
(** [k] is the first number with [n <= 1 + ... + k] *)
Definition first_reaching (n k : Z) : Prop := 0 <= k /\ n <= triangular k /\ forall j, 0 <= j < k -> triangular j < n.

(** all files but the listed ones are as before *)
Definition untouched (names : list (list Z)) (before after : fsys) : Prop :=
  forall n, ~ In n names -> fsFiles after n = fsFiles before n.
(** the free space when a file has been emptied *)
Definition space_for (fs : fsys) (name : list Z) : nat := fsRoom fs + length (fsRead fs name).

(** the encoding of an image in the format that the extension of a file name asks for *)
Inductive stored_as {I : Type} (png jpeg : I -> option (list Z)) : list Z -> I -> list Z -> Prop :=
| as_png stem img b : png img = Some b -> stored_as png jpeg (stem ++ [46; 112; 110; 103]) img b
| as_jpg stem img b : jpeg img = Some b -> stored_as png jpeg (stem ++ [46; 106; 112; 103]) img b
| as_jpeg stem img b : jpeg img = Some b -> stored_as png jpeg (stem ++ [46; 106; 112; 101; 103]) img b.

(** [stem] is the file name without its extension; an extension has no dots or slashes *)
Definition stem_of (stem name : list Z) : Prop := exists ext, name = stem ++ 46 :: ext /\ Forall (fun c => c <> 46 /\ c <> 47) ext.
(** [d] is the number [i] written with at least five digits, and no more than needed *)
Definition five_digits (i : Z) (d : list Z) : Prop :=
  Forall (fun c => is_digit c = true) d /\ digits_value d 0 = (i, nil) /\ (5 <= length d)%nat /\ (i < 100000 -> length d = 5%nat).
