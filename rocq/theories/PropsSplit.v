(** * Properties of the construction of bounding volume hierarchies *)
From Coq Require Import ZArith Bool List Permutation.
From Flocq Require IEEE754.BinarySingleNaN.
From Verif Require Import Num Outcome GeomModel ObjModel TreeModel ObjSpec SplitSpec SplitProofs.
Import ListNotations.

(** ** C119: trees divide their objects in halves, across the longest extent; double precision *)
Theorem C119_trees_cut_the_longest_extent_in_halves :
  forall (M : Type) (to32 : b64 -> b64) (sortSlice : (object b64 M -> object b64 M -> bool) -> list (object b64 M) -> list (object b64 M)),
  sorts sortSlice ->
  forall os, os <> nil -> (forall o, In o os -> finite_box o) ->
  exists n, tree to32 sortSlice os = Val (treeOf n) /\ Permutation (members n) os /\
    forall bb l r, In (Inner bb l r) (nodes n) -> halves (members l) (members r).
Proof. exact @tree_splits. Qed.
Print Assumptions C119_trees_cut_the_longest_extent_in_halves.

(** there are such functions *)
Theorem C119_insertion_sort_sorts : forall A : Type, sorts (@insertionSort A).
Proof. exact @insertionSort_sorts. Qed.
Print Assumptions C119_insertion_sort_sorts.

(** nine balls on a slanted line, in disorder: the four with the smallest z are on the left *)
Definition balls9 : list (object b64 unit) :=
  map (fun i => sphere None (nofZ 1) (Vec (nofZ i) (nofZ 0) (nofZ (2 * i)))) [4; 8; 1; 7; 3; 5; 0; 6; 2]%Z.
Definition zs (os : list (object b64 unit)) : list Z :=
  map (fun o => match oBounds o with Val b => ntrunc (vz (bMin b)) | _ => -1 end)%Z os.
Example C119_example :
  match buildTree (fun x => x) insertionSort 10 balls9 with
  | Val (Inner _ l r) => (zs (members l), zs (members r)) = ([0; 1; 3; 5], [7; 9; 11; 13; 15])%Z
  | _ => False end.
Proof. vm_compute. reflexivity. Qed.
