(** * Centres of boxes that reach to infinity *)
From Coq Require Import ZArith Reals Bool List Lra.
From Flocq Require Import Core.
From Verif Require Import Num NumLaws Outcome B64 GeomModel ObjModel PlaceModel PlaceSpec.
Local Open Scope R_scope.

Lemma safe_halfway (a b : xr) : lower_end a -> upper_end b -> halfway a b (safeCoord a b (nmul (nQ 1 2) (nadd a b))).
Proof.
  assert (H : (nQ 1 2 : xr) = XF (1 / 2)). { unfold nQ. cbn [nofZ ndiv NumX xdiv]. destruct (Req_EM_T 2 0); [lra|reflexivity]. }
  assert (C : Rcompare (1 / 2) 0 = Gt) by (apply Rcompare_Gt; lra).
  rewrite H. intros [->|[x ->]] [->|[y ->]]; unfold safeCoord; cbn [neqb nopp ninf nmul nadd nofZ NumX NumInfX xopp xeqb xadd xmul xsgn andb cmul]; unfold Rsgn.
  - constructor.
  - rewrite C. constructor.
  - rewrite C. constructor.
  - replace (1 / 2 * (x + y)) with ((x + y) / 2) by lra. constructor.
Qed.
Theorem centre_halfway {M} (o : object xr M) lo hi : oBounds o = Val (BBox lo hi) ->
  lower_end (vx lo) -> lower_end (vy lo) -> lower_end (vz lo) -> upper_end (vx hi) -> upper_end (vy hi) -> upper_end (vz hi) ->
  exists c, objCenter o = Val c /\ halfway (vx lo) (vx hi) (vx c) /\ halfway (vy lo) (vy hi) (vy c) /\ halfway (vz lo) (vz hi) (vz c) /\
    objCenterBottom o = Val (Vec (vx c) (vy lo) (vz c)) /\ objCenterTop o = Val (Vec (vx c) (vy hi) (vz c)) /\
    objCenterBack o = Val (Vec (vx c) (vy c) (vz lo)) /\ objCenterFront o = Val (Vec (vx c) (vy c) (vz hi)).
Proof.
  intros E A1 A2 A3 B1 B2 B3. unfold objCenter, objCenterBottom, objCenterTop, objCenterBack, objCenterFront. rewrite E. cbn [omap]. eexists. split; [reflexivity|].
  unfold bbCenterBottom, bbCenterTop, bbCenterBack, bbCenterFront, bbCenter, safeAverage. cbn [bMin bMax vx vy vz vset vmul vadd].
  split; [now apply safe_halfway|]. split; [now apply safe_halfway|]. split; [now apply safe_halfway|]. repeat split.
Qed.
