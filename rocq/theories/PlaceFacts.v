(** * Witnesses and corollaries for placing objects *)
From Coq Require Import ZArith Reals Bool List Lra.
From Verif Require Import Num NumLaws Outcome B64 GeomModel GeomSpec GeomProofs ObjModel ObjSpec ObjProofs BoxProofs TransfProofs PlaceModel PlaceSpec PlaceProofs.
Import ListNotations.
Local Open Scope R_scope.

Definition veqb_vec (a b : vec b64) : bool := neqb (vx a) (vx b) && neqb (vy a) (vy b) && neqb (vz a) (vz b).

Lemma attained lo hi (t : affine R) (sel : pt -> R) a b c d : ordered lo hi ->
  (forall x y z, sel (transformPoint t (Vec x y z)) = a * x + b * y + c * z + d) ->
  let E := Rabs a * vx (half lo hi) + Rabs b * vy (half lo hi) + Rabs c * vz (half lo hi) in
  (exists p, in_closed_box lo hi p /\ sel (transformPoint t p) = sel (transformPoint t (mid lo hi)) - E) /\
  (exists p, in_closed_box lo hi p /\ sel (transformPoint t p) = sel (transformPoint t (mid lo hi)) + E).
Proof.
  intros O H E. unfold E, mid, half, scal3, plus3, minus3; cbn [vx vy vz]. rewrite !H. split.
  - destruct (end_down a (vx lo) (vx hi)) as (x & Hx & A1), (end_down b (vy lo) (vy hi)) as (y & Hy & A2), (end_down c (vz lo) (vz hi)) as (z & Hz & A3).
    exists (Vec x y z). rewrite H. split; [|lra]. unfold in_closed_box, ordered in *; cbn [vx vy vz].
    destruct Hx as [-> | ->], Hy as [-> | ->], Hz as [-> | ->]; lra.
  - destruct (end_up a (vx lo) (vx hi)) as (x & Hx & A1), (end_up b (vy lo) (vy hi)) as (y & Hy & A2), (end_up c (vz lo) (vz hi)) as (z & Hz & A3).
    exists (Vec x y z). rewrite H. split; [|lra]. unfold in_closed_box, ordered in *; cbn [vx vy vz].
    destruct Hx as [-> | ->], Hy as [-> | ->], Hz as [-> | ->]; lra.
Qed.

Theorem transformed_box_tight (lo hi : pt) (t : affine R) : ordered lo hi ->
  exists lo' hi', transformBounds (xbox lo hi) (xaff t) = Val (xbox lo' hi') /\
    (forall p, in_closed_box lo hi p -> in_closed_box lo' hi' (transformPoint t p)) /\
    (forall i, (exists p, in_closed_box lo hi p /\ vget (transformPoint t p) i = vget lo' i) /\
               (exists p, in_closed_box lo hi p /\ vget (transformPoint t p) i = vget hi' i)) /\
    mid lo' hi' = transformPoint t (mid lo hi).
Proof.
  intros O. pose proof (transformBounds_exact lo hi t O) as E. unfold around in E.
  do 2 eexists. split; [exact E|]. rewrite mid_around. split; [|split; [|reflexivity]].
  - intros p Hp. destruct (transformBounds_encloses lo hi t) as (lo2 & hi2 & E2 & In). rewrite E in E2. apply value_inj, xbox_inj in E2.
    destruct E2 as [-> ->]. now apply In.
  - intros i. set (q := transformPoint t (mid lo hi)).
    destruct i; cbn [vget minus3 plus3 spread vx vy vz].
    + apply (attained lo hi t (fun p => vx p) _ _ _ (vx (afB t)) O).
      intros. destruct t as [[[a b c] [d e f] [g h i]] [j k l]]. unfold transformPoint, vadd, mmulvec; cbn [afA afB m0 m1 m2 vx vy vz]; rnum; ring.
    + apply (attained lo hi t (fun p => vy p) _ _ _ (vy (afB t)) O).
      intros. destruct t as [[[a b c] [d e f] [g h i]] [j k l]]. unfold transformPoint, vadd, mmulvec; cbn [afA afB m0 m1 m2 vx vy vz]; rnum; ring.
    + apply (attained lo hi t (fun p => vz p) _ _ _ (vz (afB t)) O).
      intros. destruct t as [[[a b c] [d e f] [g h i]] [j k l]]. unfold transformPoint, vadd, mmulvec; cbn [afA afB m0 m1 m2 vx vy vz]; rnum; ring.
Qed.

Lemma box_placeable : placeable (boxWithBounds None (xv (Vec 0 0 0)) (xv (Vec 1 2 3)) : object xr unit).
Proof. apply (P_base _ (Vec 0 0 0) (Vec 1 2 3)); [reflexivity|reflexivity|]. unfold ordered; cbn. lra. Qed.

Definition tallTest (o : outcome (object b64 unit)) : bool :=
  match o with Val o' => match oBounds o' with Val b => neqb (vy (bbSize b)) (nofZ 2) | _ => false end | _ => false end.
Lemma tall_split (x : outcome (object b64 unit)) : tallTest x = true ->
  exists o', x = Val o' /\ match oBounds o' with Val b => neqb (vy (bbSize b)) (nofZ 2) = true | _ => False end.
Proof.
  unfold tallTest. destruct x as [o'| |]; [|discriminate|discriminate]. intros H. exists o'. split; [reflexivity|].
  destruct (oBounds o'); [exact H|discriminate|discriminate].
Qed.
Theorem scale_to_size_wrong :
  (exists o o' : object b64 unit, o = box None (nofZ 1) (nofZ 2) (nofZ 1) vO /\
     scaleToSize o (nofZ 1) = Val o' /\
     match oBounds o' with Val b => neqb (vy (bbSize b)) (nofZ 2) = true | _ => False end) /\
  scaleToSize (box None (nofZ 0) (nofZ 2) (nofZ 1) vO : object b64 unit) (nofZ 1) = Panic.
Proof.
  split; [|vm_compute; reflexivity].
  destruct (tall_split (scaleToSize (box None (nofZ 1) (nofZ 2) (nofZ 1) vO) (nofZ 1))) as (o' & E & B); [vm_compute; reflexivity|].
  exists (box None (nofZ 1) (nofZ 2) (nofZ 1) vO), o'. split; [reflexivity|]. split; [exact E|exact B].
Qed.

Lemma rotate_rigid c a th : a <> zero3 -> rigid (rotate c a th).
Proof. intros H p q. now apply rotate_dist. Qed.

Theorem two_turns :
  exists o1 o2 : object xr unit,
    let base := boxWithBounds None (xv (Vec 0 0 0)) (xv (Vec 1 2 3)) in
    rotateObj (TF := TrigX) base (xv (Vec 0 0 1)) (XF 1) = Val o1 /\
    rotateObj (TF := TrigX) o1 (xv (Vec 1 1 0)) (XF 2) = Val o2 /\ displaced base o2.
Proof.
  set (base := boxWithBounds None (xv (Vec 0 0 0)) (xv (Vec 1 2 3)) : object xr unit).
  assert (forall (o : object xr unit) a th, placeable o -> displaced base o -> a <> zero3 ->
    exists o', rotateObj (TF := TrigX) o (xv a) (XF th) = Val o' /\ placeable o' /\ displaced base o') as Step.
  { intros o a th P D A. destruct (placeable_shape o P) as (b0 & t0 & c0 & e0 & [_ _ _ _ Bo _ _]).
    destruct (rotate_about_center o _ _ a th P Bo A) as (o' & T & P' & _). exists o'. split; auto. split; auto.
    pose proof T as T'. unfold rotateObj, rotateObjAt in T'. destruct (centers o _ _ Bo) as (Ec & _). rewrite Ec in T'. cbn [obind] in T'.
    rewrite xrotate in T' by auto. eapply D_move; [exact D|apply rotate_rigid, A|exact T']. }
  destruct (Step base (Vec 0 0 1) 1 box_placeable (D_base base)) as (o1 & T1 & P1 & D1); [unfold zero3; intros X; injection X; lra|].
  destruct (Step o1 (Vec 1 1 0) 2 P1 D1) as (o2 & T2 & P2 & D2); [unfold zero3; intros X; injection X; lra|].
  exists o1, o2. split; [exact T1|]. split; [exact T2|exact D2].
Qed.
