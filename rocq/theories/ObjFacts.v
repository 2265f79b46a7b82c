(** * Double precision witnesses about objects *)
From Coq Require Import ZArith Reals Bool List Lra Lia.
From Flocq Require Import Core.
From Flocq Require IEEE754.BinarySingleNaN.
Import IEEE754.BinarySingleNaN.
From Verif Require Import Num NumLaws Outcome B64 GeomModel GeomSpec GeomProofs ObjModel TreeModel ObjSpec ObjProofs TreeProofs.
Import ListNotations.

Lemma val_test {A} (o : outcome A) (P : A -> bool) :
  match o with Val x => P x | _ => false end = true -> exists x, o = Val x /\ P x = true.
Proof. destruct o; try discriminate. eauto. Qed.

Lemma Some_inj {A} (x y : A) : Some x = Some y -> x = y.
Proof. congruence. Qed.

(** ** C36 *)
Definition farBoxMin : vec b64 := Vec (nofZ 100000000) (nofZ (-200000000)) (nofZ (-200000000)).
Definition farBoxMax : vec b64 := Vec (nofZ 300000000) (nofZ 200000000) (nofZ 200000000).
(** from the origin along the unit vector (0.6, 0.64, 0.48) *)
Definition farBoxRay : ray b64 := Ray vO (Vec (nQ 60 100) (nQ 64 100) (nQ 48 100)).
Lemma far_box_panics {M} (m : option M) : oIntersect (boxWithBounds m farBoxMin farBoxMax) farBoxRay = Panic.
Proof.
  cbn [oIntersect boxWithBounds simpleObj]. unfold boxIntersect.
  assert (negb (nltb (nofZ 0) (bbIntersect (BBox farBoxMin farBoxMax) farBoxRay)) = false) as -> by (vm_compute; reflexivity).
  cbv zeta.
  assert (boxNormal (BBox farBoxMin farBoxMax) (rayAt farBoxRay (bbIntersect (BBox farBoxMin farBoxMax) farBoxRay)) = Panic) as ->
    by (vm_compute; reflexivity).
  reflexivity.
Qed.

(** ** C40 *)
(** a ball of diameter 2 around the origin, and a ray that passes through a corner of its box *)
Definition ball {M} (m : option M) : object b64 M := sphere m (nofZ 2) vO.
Definition cornerRay : ray b64 := Ray (Vec (nQ 95 100) (nQ 95 100) (nofZ (-5))) (Vec (nofZ 0) (nofZ 0) (nofZ 1)).

Lemma ball_missed {M} (m : option M) : oIntersect (ball m) cornerRay = Val (noHit, cornerRay).
Proof.
  cbn [ball sphere quadric simpleObj oIntersect omap].
  assert (quadricIntersect (sphereData m (nofZ 2) vO) cornerRay = noHit) as -> by (vm_compute; reflexivity). reflexivity.
Qed.

Lemma ball_tree_phantom {M} (m : option M) sortSlice :
  exists o, tree to32b sortSlice [ball m] = Val o /\ oIntersect o cornerRay = Val (farHit, cornerRay).
Proof.
  destruct (val_test (makeBoundingBox [ball m]) (fun bb => negb (nleb (bbIntersect (boxTo32 to32b bb) cornerRay) (nofZ 0)))) as (bb & E & P).
  { vm_compute. reflexivity. }
  exists (treeOf (Leaf (boxTo32 to32b bb) [ball m])). split.
  - unfold tree. change (buildTree to32b sortSlice (S (length [ball m])) [ball m]) with
      (omap (fun bb => Leaf (boxTo32 to32b bb) [ball m]) (makeBoundingBox [ball m])). rewrite E. reflexivity.
  - apply leaf_phantom with (hits := [noHit]).
    + constructor; [apply ball_missed|constructor].
    + intros h [<-|[]]. unfold positive. vm_compute. discriminate.
    + now apply negb_true_iff.
Qed.

(** ** C41 *)
Definition thinMin : vec b64 := Vec (nQ 1 10) (nofZ 0) (nofZ 0).
Definition thinMax : vec b64 := Vec (nofZ 1) (nofZ 1) (nofZ 1).
Definition thinBox {M} (m : option M) : object b64 M := boxWithBounds m thinMin thinMax.
(** passes 5e-10 inside the face x = 0.1 *)
Definition thinRay : ray b64 := Ray (Vec (nQ 1000000005 (10 ^ 10)) (nQ 1 2) (nofZ (-1))) (Vec (nofZ 0) (nofZ 0) (nofZ 1)).

Lemma thin_hit {M} (m : option M) : exists h, oIntersect (thinBox m) thinRay = Val (h, thinRay) /\ nltb (nofZ 0) (hT h) = true.
Proof.
  destruct (val_test (boxIntersect (BBox thinMin thinMax) m thinRay) (fun h => nltb (nofZ 0) (hT h))) as (h & E & P).
  { vm_compute. reflexivity. }
  exists h. split; auto. cbn [oIntersect thinBox boxWithBounds simpleObj]. now rewrite E.
Qed.

Lemma thin_tree {M} (m : option M) sortSlice : exists o bb,
  tree to32b sortSlice [thinBox m] = Val o /\ oBounds o = Val bb /\ ~ box_within (BBox thinMin thinMax) bb /\
  oIntersect o thinRay = Val (noHit, thinRay).
Proof.
  destruct (val_test (makeBoundingBox [thinBox m]) (fun bb => (nleb (bbIntersect (boxTo32 to32b bb) thinRay) (nofZ 0) &&
     negb (nleb (vx (bMin (boxTo32 to32b bb))) (vx thinMin)))%bool)) as (bb & E & P).
  { vm_compute. reflexivity. }
  apply andb_true_iff in P. destruct P as [P1 P2]. apply negb_true_iff in P2.
  exists (treeOf (Leaf (boxTo32 to32b bb) [thinBox m])), (boxTo32 to32b bb). split; [|split; [reflexivity|split]].
  - unfold tree. change (buildTree to32b sortSlice (S (length [thinBox m])) [thinBox m]) with
      (omap (fun bb => Leaf (boxTo32 to32b bb) [thinBox m]) (makeBoundingBox [thinBox m])). rewrite E. reflexivity.
  - intros (W & _). cbn [bMin] in W. change (bMin (boxTo32 to32b bb)) with (Vec (to32b (vx (bMin bb))) (to32b (vy (bMin bb))) (to32b (vz (bMin bb)))) in P2.
    cbn [vx boxTo32 bMin] in *. congruence.
  - cbn [treeOf oIntersect]. unfold treeIntersect. cbn [nodeBox]. now rewrite P1.
Qed.

(** ** C43: bisection that never ends *)
Section Loop.
  Variable g : b64 -> outcome b64.
  Definition bisectStep (st : b64 * b64) : option (b64 * b64) :=
    let '(a, b) := st in
    if nltb isoTol (nsub b a) then
      let mid := ndiv (nadd a b) (nofZ 2) in
      match g mid with
      | Val x => Some (if nltb (nofZ 0) x then (mid, b) else (a, mid))
      | _ => None
      end
    else None.
  Fixpoint bisectSteps (k : nat) (st : b64 * b64) : option (b64 * b64) :=
    match k with O => Some st | S k => match bisectStep st with Some st => bisectSteps k st | None => None end end.

  Lemma bisectStep_loop st st' n : bisectStep st = Some st' ->
    bisectLoop (S n) g (fst st) (snd st) = bisectLoop n g (fst st') (snd st').
  Proof.
    destruct st as [a b]. unfold bisectStep. cbn [fst snd bisectLoop].
    destruct (nltb isoTol (nsub b a)); [|discriminate].
    destruct (g (ndiv (nadd a b) (nofZ 2))) as [x| |]; try discriminate. cbn [obind].
    intros H. apply Some_inj in H. subst st'. destruct (nltb (nofZ 0) x); reflexivity.
  Qed.
  Lemma stuck_forever st : bisectStep st = Some st -> forall n, bisectLoop n g (fst st) (snd st) = NoFuel.
  Proof. intros H. induction n; [reflexivity|]. now rewrite (bisectStep_loop _ _ _ H). Qed.
  Lemma reach_stuck : forall k st st', bisectSteps k st = Some st' -> bisectStep st' = Some st' ->
    forall n, bisectLoop n g (fst st) (snd st) = NoFuel.
  Proof.
    induction k as [|k IH]; intros st st' H S n; cbn [bisectSteps] in H.
    - injection H as ->. now apply stuck_forever.
    - destruct (bisectStep st) as [st1|] eqn:E; [|discriminate]. destruct n; [reflexivity|].
      rewrite (bisectStep_loop _ _ _ E). eapply IH; eauto.
  Qed.
  Definition sfpair (st : option (b64 * b64)) := option_map (fun st => (B2SF (fst st), B2SF (snd st))) st.
  Lemma sfpair_inj a b : sfpair a = sfpair b -> a = b.
  Proof.
    destruct a as [[a1 a2]|], b as [[b1 b2]|]; cbn; try discriminate; auto.
    intros H. injection H as H1 H2. apply B2SF_inj in H1, H2. now subst.
  Qed.
End Loop.

Definition flat (_ _ : b64) : b64 := nQ 1 2.
(** straight down on a unit height field from 2^40 above it *)
Definition highRay : ray b64 := Ray (Vec (nQ 1 2) (nofZ (2 ^ 40)) (nQ 1 2)) (Vec (nofZ 0) (nofZ (-1)) (nofZ 0)).
Definition isoG (t : b64) : outcome b64 := isoValueAt (nofZ 1) (nofZ 1) (nofZ 1) flat (rayAt highRay t).
Definition highIn : b64 := nsub (fst (intersectAABB2 (isoBounds (nofZ 1) (nofZ 1) (nofZ 1)) highRay)) tiny.
Definition highOut : b64 := nadd (snd (intersectAABB2 (isoBounds (nofZ 1) (nofZ 1) (nofZ 1)) highRay)) tiny.

Lemma high_stuck : exists st, bisectSteps isoG 40 (highIn, highOut) = Some st /\ bisectStep isoG st = Some st.
Proof.
  assert (sfpair (bisectSteps isoG 40 (highIn, highOut)) = sfpair (match bisectSteps isoG 40 (highIn, highOut) with Some st => bisectStep isoG st | None => None end)) as E
    by (vm_compute; reflexivity).
  apply sfpair_inj in E.
  assert ((if bisectSteps isoG 40 (highIn, highOut) then true else false) = true) as T by (vm_compute; reflexivity).
  destruct (bisectSteps isoG 40 (highIn, highOut)) as [st|]; [|discriminate]. exists st. auto.
Qed.

Lemma bisect_start (g : b64 -> outcome b64) a b fuel :
  match g a with Val f1 => match g b with Val f2 => (negb (nltb (nofZ 0) (nmul f1 f2)) && nltb (nofZ 0) f1)%bool | _ => false end | _ => false end = true ->
  bisect fuel g a b = bisectLoop fuel g a b.
Proof.
  intros T. unfold bisect. destruct (g a) as [f1| |]; [|discriminate T|discriminate T].
  destruct (g b) as [f2| |]; [|discriminate T|discriminate T]. cbn [obind].
  apply andb_true_iff in T. destruct T as [T1 T2]. apply negb_true_iff in T1. now rewrite T1, T2.
Qed.

Lemma bisect_never_ends fuel : bisect fuel isoG highIn highOut = NoFuel.
Proof.
  rewrite bisect_start by (vm_compute; reflexivity).
  destruct high_stuck as (st & R & S). exact (reach_stuck isoG 40 (highIn, highOut) st R S fuel).
Qed.

Lemma iso_start {M} (m : option M) dx dy dz f fuel r t1 t2 :
  intersectAABB2 (isoBounds dx dy dz) r = (t1, t2) -> nltb (nofZ 0) t2 = true ->
  bisect fuel (fun t : b64 => isoValueAt dx dy dz f (rayAt r t)) (nsub t1 tiny) (nadd t2 tiny) = NoFuel ->
  oIntersect (isoSurface m dx dy dz f fuel) r = NoFuel.
Proof.
  intros E T B. cbn [oIntersect isoSurface simpleObj]. unfold isoIntersect. rewrite E, T. cbn [negb]. now rewrite B.
Qed.

Lemma iso_never_ends {M} (m : option M) fuel :
  oIntersect (isoSurface m (nofZ 1) (nofZ 1) (nofZ 1) flat fuel) highRay = NoFuel.
Proof.
  apply (iso_start m (nofZ 1) (nofZ 1) (nofZ 1) flat fuel highRay
    (fst (intersectAABB2 (isoBounds (nofZ 1) (nofZ 1) (nofZ 1)) highRay)) (snd (intersectAABB2 (isoBounds (nofZ 1) (nofZ 1) (nofZ 1)) highRay))).
  - apply surjective_pairing.
  - vm_compute. reflexivity.
  - exact (bisect_never_ends fuel).
Qed.
