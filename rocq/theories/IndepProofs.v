(** * What an evaluation depends on: a logic for two runs from different contexts *)
From Coq Require Import ZArith Reals Bool List Lia.
From Verif Require Import Num NumLaws Outcome GeomModel ColorModel SeqModel ObjModel TreeModel ObjSpec ObjProofs ParamProofs SceneModel SceneSpec SceneProofs CtxProofs RenderSpec.
Import ListNotations.

Section Two.
  Context {F G : Type} `{NF : Num F} `{NI : NumInf F} `{TF : Trig F}.
  Variable rand2 : G -> (F * F) * G.
  Notation ctx := (ctx F G).
  Notation material := (material F).
  Notation object := (object F material).
  (** [lax]: the generators may differ, and then the depth stays at most 2 *)
  Variable lax : bool.
  (** the depth of both runs *)
  Variable dp : Z.
  Hypothesis low : lax = true -> (0 <= dp <= 2)%Z.

  (** the rays [fst p] of one context hold the same as the rays [snd p] of the other, for [p] in [L] *)
  Record alike (L : list (nat * nat)) (c1 c2 : ctx) : Prop := Alike {
    al_1 : pool_ok c1;
    al_2 : pool_ok c2;
    al_depth1 : cDepth c1 = dp;
    al_depth2 : cDepth c2 = dp;
    al_seq : same_numbers (cSeq c1) (cSeq c2);
    al_rng : lax = false -> cRng c1 = cRng c2;
    al_nd1 : NoDup (map fst L);
    al_nd2 : NoDup (map snd L);
    al_live : forall i j, In (i, j) L -> in_use c1 i /\ in_use c2 j /\
      exists q, nth_error (cHeap c1) i = Some q /\ nth_error (cHeap c2) j = Some q }.

  Definition both {A} (P : ctx -> ctx -> Prop) (a1 a2 : act F G A) (Q : A -> A -> ctx -> ctx -> Prop) : Prop :=
    forall c1 c2, P c1 c2 ->
      match a1 c1, a2 c2 with
      | Val (x1, d1), Val (x2, d2) => Q x1 x2 d1 d2
      | Panic, Panic | NoFuel, NoFuel => True
      | _, _ => False
      end.
  (** the common case: same result, same live rays *)
  Definition agree {A} L (a1 a2 : act F G A) : Prop := both (alike L) a1 a2 (fun x y c1 c2 => x = y /\ alike L c1 c2).

  Lemma both_bind {A B} (P : ctx -> ctx -> Prop) (Q : A -> A -> ctx -> ctx -> Prop) (R : B -> B -> ctx -> ctx -> Prop) a1 a2 f1 f2 :
    both P a1 a2 Q -> (forall x y, both (Q x y) (f1 x) (f2 y) R) -> both P (mbind a1 f1) (mbind a2 f2) R.
  Proof.
    intros Ha Hf c1 c2 Hc. specialize (Ha c1 c2 Hc). unfold mbind.
    destruct (a1 c1) as [[x1 d1]| |], (a2 c2) as [[x2 d2]| |]; cbn; try tauto. now apply Hf.
  Qed.
  Lemma both_pre {A} (P P' : ctx -> ctx -> Prop) (a1 a2 : act F G A) Q : (forall c d, P' c d -> P c d) -> both P a1 a2 Q -> both P' a1 a2 Q.
  Proof. intros H Hr c d Hc. apply Hr. auto. Qed.
  Lemma bind_same {A B} L (a1 a2 : act F G A) (f1 f2 : A -> act F G B) R :
    agree L a1 a2 -> (forall x, both (alike L) (f1 x) (f2 x) R) -> both (alike L) (mbind a1 f1) (mbind a2 f2) R.
  Proof.
    intros Ha Hf. eapply both_bind; [exact Ha|]. intros x y c1 c2 [<- H]. now apply Hf.
  Qed.
  Lemma agree_bind {A B} L (a1 a2 : act F G A) (f1 f2 : A -> act F G B) :
    agree L a1 a2 -> (forall x, agree L (f1 x) (f2 x)) -> agree L (mbind a1 f1) (mbind a2 f2).
  Proof. intros. now apply bind_same. Qed.
  Lemma agree_ret {A} L (x : A) : agree L (mret x) (mret x).
  Proof. intros c1 c2 H. cbn. auto. Qed.
  Lemma agree_lift {A} L (o : outcome A) : agree L (mlift o) (mlift o).
  Proof. intros c1 c2 H. unfold mlift. destruct o; cbn; auto. Qed.

  (** ** Rays *)
  Lemma agree_read L i j : In (i, j) L -> agree L (readRay i) (readRay j).
  Proof.
    intros Hi c1 c2 H. destruct (al_live _ _ _ H i j Hi) as (_ & _ & q & E1 & E2). unfold readRay. rewrite E1, E2. auto.
  Qed.
  Lemma alike_write L c1 c2 i j q : alike L c1 c2 -> In (i, j) L ->
    alike L (withPool c1 (cPool c1) (setNth (cHeap c1) i q)) (withPool c2 (cPool c2) (setNth (cHeap c2) j q)).
  Proof.
    intros [P1 P2 D1 D2 Sq Rn N1 N2 Li] Hi. destruct (Li i j Hi) as ([U1 U1'] & [U2 U2'] & _).
    split; auto.
    - destruct P1 as [A B]. split; auto. cbn. intros k Hk. rewrite setNth_length. auto.
    - destruct P2 as [A B]. split; auto. cbn. intros k Hk. rewrite setNth_length. auto.
    - intros k l Hk. destruct (Li k l Hk) as ([V1 V1'] & [V2 V2'] & q0 & E1 & E2).
      unfold in_use; cbn. rewrite !setNth_length. split; [auto|]. split; [auto|].
      destruct (Nat.eq_dec i k) as [->|Hne].
      + assert (j = l) as ->.
        { clear - N1 Hi Hk. induction L as [|[a b] L IH]; [destruct Hi|]. cbn in N1. inversion N1 as [|? ? X Y]; subst.
          destruct Hi as [Hi|Hi], Hk as [Hk|Hk].
          - congruence.
          - injection Hi as -> ->. exfalso. apply X. apply in_map_iff. now exists (k, l).
          - injection Hk as -> ->. exfalso. apply X. apply in_map_iff. now exists (k, j).
          - auto. }
        exists q. split; now apply nth_setNth_eq.
      + assert (j <> l) as Hne'.
        { intros ->. apply Hne. clear - N2 Hi Hk. induction L as [|[a b] L IH]; [destruct Hi|]. cbn in N2. inversion N2 as [|? ? X Y]; subst.
          destruct Hi as [Hi|Hi], Hk as [Hk|Hk].
          - congruence.
          - injection Hi as -> ->. exfalso. apply X. apply in_map_iff. now exists (k, l).
          - injection Hk as -> ->. exfalso. apply X. apply in_map_iff. now exists (i, l).
          - auto. }
        exists q0. rewrite !nth_setNth_ne by auto. auto.
  Qed.
  Lemma agree_write L i j q : In (i, j) L -> agree L (writeRay i q) (writeRay j q).
  Proof.
    intros Hi c1 c2 H. destruct (al_live _ _ _ H i j Hi) as (_ & _ & q0 & E1 & E2). unfold writeRay. rewrite E1, E2.
    split; [auto|]. now apply alike_write.
  Qed.
  Lemma agree_setStart L i j p : In (i, j) L -> agree L (setStart i p) (setStart j p).
  Proof. intros Hi. unfold setStart. apply agree_bind; [now apply agree_read|]. intros q. now apply agree_write. Qed.
  Lemma agree_setDir L i j p : In (i, j) L -> agree L (setDir i p) (setDir j p).
  Proof. intros Hi. unfold setDir. apply agree_bind; [now apply agree_read|]. intros q. now apply agree_write. Qed.

  Lemma new_rng (c d : ctx) i : newRay c = Val (i, d) -> cRng d = cRng c.
  Proof.
    unfold newRay, mbind. destruct (cPool c) as [|k rest]; cbn; unfold writeRay; cbn.
    - destruct (nth_error _ _); cbn; [|discriminate]. intros H. injection H as _ <-. reflexivity.
    - destruct (nth_error _ _); cbn; [|discriminate]. intros H. injection H as _ <-. reflexivity.
  Qed.
  (** a new ray has the same contents on both sides *)
  Lemma both_new L : both (alike L) newRay newRay (fun i j => alike ((i, j) :: L)).
  Proof.
    intros c1 c2 [P1 P2 D1 D2 Sq Rn N1 N2 Li].
    destruct (inv_new c1 nil c1 (inv_refl c1 P1)) as (i & d1 & E1 & I1 & Z1 & F1).
    destruct (inv_new c2 nil c2 (inv_refl c2 P2)) as (j & d2 & E2 & I2 & Z2 & F2).
    rewrite E1, E2. assert (R1 := new_rng _ _ _ E1). assert (R2 := new_rng _ _ _ E2).
    split.
    - apply I1.
    - apply I2.
    - rewrite (inv_depth _ _ _ I1). exact D1.
    - rewrite (inv_depth _ _ _ I2). exact D2.
    - rewrite (inv_seq _ _ _ I1), (inv_seq _ _ _ I2). exact Sq.
    - rewrite R1, R2. exact Rn.
    - cbn. constructor; auto. intros X. apply in_map_iff in X. destruct X as ([a b] & <- & Hin). apply F1. now apply (Li a b).
    - cbn. constructor; auto. intros X. apply in_map_iff in X. destruct X as ([a b] & <- & Hin). apply F2. now apply (Li a b).
    - intros a b [E|Hin].
      + injection E as <- <-. split; [apply (inv_use _ _ _ I1); cbn; auto|]. split; [apply (inv_use _ _ _ I2); cbn; auto|].
        exists zeroRay. auto.
      + destruct (Li a b Hin) as (U1 & U2 & q & Q1 & Q2). split; [apply (inv_use _ _ _ I1); auto|]. split; [apply (inv_use _ _ _ I2); auto|].
        exists q. rewrite (inv_heap _ _ _ I1), (inv_heap _ _ _ I2); auto.
  Qed.
  Lemma new_bind {B} L (f1 f2 : nat -> act F G B) R :
    (forall i j, both (alike ((i, j) :: L)) (f1 i) (f2 j) R) -> both (alike L) (mbind newRay f1) (mbind newRay f2) R.
  Proof. intros H. eapply both_bind; [apply both_new|exact H]. Qed.

  Lemma alike_put L c1 c2 i j : alike ((i, j) :: L) c1 c2 ->
    alike L (withPool c1 (i :: cPool c1) (cHeap c1)) (withPool c2 (j :: cPool c2) (cHeap c2)).
  Proof.
    intros [P1 P2 D1 D2 Sq Rn N1 N2 Li]. cbn in N1, N2. inversion N1 as [|? ? X1 Y1]; subst. inversion N2 as [|? ? X2 Y2]; subst.
    destruct (Li i j) as ([U1 U1'] & [U2 U2'] & _); [now left|]. split; auto.
    - destruct P1 as [A B]. split; cbn; [now constructor|]. intros k [<-|Hk]; auto.
    - destruct P2 as [A B]. split; cbn; [now constructor|]. intros k [<-|Hk]; auto.
    - intros a b Hin. destruct (Li a b) as ([V1 V1'] & [V2 V2'] & q & E1 & E2); [now right|].
      unfold in_use; cbn. split; [split; auto|split; [split; auto|]].
      + intros [<-|H]; auto. apply X1. apply in_map_iff. now exists (i, b).
      + intros [<-|H]; auto. apply X2. apply in_map_iff. now exists (a, j).
      + exists q. auto.
  Qed.
  Lemma put_bind {B} L i j (f1 f2 : unit -> act F G B) R :
    both (alike L) (f1 tt) (f2 tt) R -> both (alike ((i, j) :: L)) (mbind (putRay i) f1) (mbind (putRay j) f2) R.
  Proof.
    intros H c1 c2 Hc. unfold mbind, putRay; cbn. apply H. now apply alike_put.
  Qed.

  (** ** Random numbers and depth *)
  Lemma agree_pseudo L : lax = false -> agree L (pseudo2 rand2) (pseudo2 rand2).
  Proof.
    intros X c1 c2 [P1 P2 D1 D2 Sq Rn N1 N2 Li]. unfold pseudo2. rewrite <- (Rn X). destruct (rand2 (cRng c1)) as [uv g].
    split; [auto|]. split; auto.
  Qed.
  Lemma agree_generate2 L : agree L (generate2 rand2) (generate2 rand2).
  Proof.
    intros c1 c2 H. unfold generate2. rewrite (al_depth1 _ _ _ H), (al_depth2 _ _ _ H), (proj1 (al_seq _ _ _ H)), (proj2 (al_seq _ _ _ H)).
    destruct (dp =? 0)%Z eqn:D0; [exact Logic.I|].
    destruct (dp =? 1)%Z eqn:D1. { destruct (hseq_generate2 _); cbn; auto. }
    destruct (dp =? 2)%Z eqn:D2. { destruct (hseq_generate2 _); cbn; auto. }
    destruct lax eqn:X.
    - specialize (low eq_refl). apply Z.eqb_neq in D0, D1, D2. lia.
    - now apply (agree_pseudo L X).
  Qed.
  Lemma agree_isInitial L : agree L isInitial isInitial.
  Proof.
    intros c1 c2 H. unfold isInitial. rewrite (al_depth1 _ _ _ H), (al_depth2 _ _ _ H). destruct (dp =? 0)%Z; cbn; auto.
  Qed.

  (** ** Objects *)
  Lemma agree_intersect L o i j : In (i, j) L -> agree L (intersectRay o i) (intersectRay o j).
  Proof.
    intros Hi. unfold intersectRay. apply agree_bind; [now apply agree_read|]. intros q.
    apply agree_bind; [apply agree_lift|]. intros [h q']. apply agree_bind; [now apply agree_write|]. intros []. apply agree_ret.
  Qed.
  Lemma agree_front L objs i j : In (i, j) L -> forall h, agree L (frontLoop objs i h) (frontLoop objs j h).
  Proof.
    intros Hi. induction objs as [|o objs IH]; intros h; cbn; [apply agree_ret|].
    apply agree_bind; [now apply agree_intersect|]. intros x. apply IH.
  Qed.
  Lemma agree_frontmost L objs i j : In (i, j) L -> agree L (intersectFrontmost objs i) (intersectFrontmost objs j).
  Proof.
    intros Hi. unfold intersectFrontmost. apply agree_bind; [now apply agree_read|]. intros q. now apply agree_front.
  Qed.
  Lemma agree_occlude L objs i j len : In (i, j) L -> forall c, agree L (occludeLoop objs i len c) (occludeLoop objs j len c).
  Proof.
    intros Hi. induction objs as [|o objs IH]; intros c; cbn; [apply agree_ret|].
    apply agree_bind; [now apply agree_intersect|]. intros f. destruct (_ && _)%bool; [|apply IH].
    destruct (matFilter _ _ _); [|apply agree_ret]. apply agree_bind; [apply agree_lift|]. intros x. apply IH.
  Qed.

  (** ** Lights *)
  Lemma agree_light L l : forall target, agree L (lightSample rand2 l target) (lightSample rand2 l target).
  Proof.
    induction l as [pos power|w h c tp k o|fw iv l IH o]; intros target; cbn.
    - apply agree_ret.
    - apply agree_bind; [apply agree_generate2|]. intros uv. apply agree_ret.
    - apply agree_bind; [apply IH|]. intros [p b]. apply agree_ret.
  Qed.

  Section Shade.
    Variable s : scene F.
    Variable lf1 lf2 : who -> nat -> act F G (color F).
    Hypothesis Hlf : forall L w i j, In (i, j) L -> agree L (lf1 w i) (lf2 w j).

    Lemma agree_matteLights L ls p n i j : In (i, j) L -> forall acc,
      agree L (matteLights rand2 s ls p n i acc) (matteLights rand2 s ls p n j acc).
    Proof.
      intros Hi. induction ls as [|l ls IH]; intros acc; cbn; [apply agree_ret|].
      apply agree_bind; [apply agree_light|]. intros [lpos intens].
      destruct (isBlack intens); [apply IH|]. destruct (_ <=? _)%num; [apply IH|].
      apply agree_bind; [now apply agree_setDir|]. intros [].
      apply agree_bind; [now apply agree_occlude|]. intros x. apply IH.
    Qed.
    Ltac inL := cbn; tauto.
    Lemma agree_matte L t i j h : In (i, j) L -> agree L (matteShade rand2 s lf1 t i h) (matteShade rand2 s lf2 t j h).
    Proof.
      intros Hi. unfold matteShade. apply agree_bind; [now apply agree_read|]. intros q.
      apply new_bind. intros a b. apply bind_same; [apply agree_read; inL|]. intros q'.
      apply bind_same; [apply agree_setStart; inL|]. intros [].
      apply bind_same; [apply agree_matteLights; inL|]. intros acc.
      apply bind_same; [apply agree_setStart; inL|]. intros [].
      apply bind_same; [apply agree_generate2|]. intros [u v].
      apply bind_same; [apply agree_setDir; inL|]. intros [].
      apply bind_same; [apply Hlf; inL|]. intros ind.
      apply put_bind. apply agree_bind; [apply agree_lift|]. intros refl. apply agree_ret.
    Qed.
    Lemma agree_reflective L c i j h : In (i, j) L -> agree L (reflectiveShade lf1 c i h) (reflectiveShade lf2 c j h).
    Proof.
      intros Hi. unfold reflectiveShade. apply agree_bind; [now apply agree_read|]. intros q.
      apply new_bind. intros a b. apply bind_same; [apply agree_setStart; inL|]. intros [].
      apply bind_same; [apply agree_read; inL|]. intros q'.
      apply bind_same; [apply agree_setDir; inL|]. intros [].
      apply bind_same; [apply Hlf; inL|]. intros x. apply put_bind. apply agree_ret.
    Qed.
    Lemma agree_refractive L n1 n2 i j h : In (i, j) L -> agree L (refractiveShade lf1 n1 n2 i h) (refractiveShade lf2 n1 n2 j h).
    Proof.
      intros Hi. unfold refractiveShade. apply agree_bind; [now apply agree_read|]. intros q.
      destruct (totalReflection _).
      - apply new_bind. intros a b. apply bind_same; [apply agree_read; inL|]. intros q1.
        apply bind_same; [apply agree_setStart; inL|]. intros [].
        apply bind_same; [apply agree_read; inL|]. intros q2.
        apply bind_same; [apply agree_setDir; inL|]. intros [].
        apply bind_same; [apply Hlf; inL|]. intros x. apply put_bind. apply agree_ret.
      - apply new_bind. intros a b. apply bind_same; [apply agree_read; inL|]. intros q1.
        apply bind_same; [apply agree_setStart; inL|]. intros [].
        apply bind_same; [apply agree_setDir; inL|]. intros [].
        apply bind_same; [apply Hlf; inL|]. intros x.
        apply new_bind. intros a' b'. apply bind_same; [apply agree_read; inL|]. intros q2.
        apply bind_same; [apply agree_setStart; inL|]. intros [].
        apply bind_same; [apply agree_setDir; inL|]. intros [].
        apply bind_same; [apply Hlf; inL|]. intros y.
        apply put_bind. apply put_bind. apply agree_ret.
    Qed.
    Lemma agree_transparent L t i j h : In (i, j) L -> agree L (transparentShade lf1 t i h) (transparentShade lf2 t j h).
    Proof.
      intros Hi. unfold transparentShade. apply agree_bind; [now apply agree_read|]. intros q.
      apply new_bind. intros a b. apply bind_same; [apply agree_setStart; inL|]. intros [].
      apply bind_same; [apply agree_read; inL|]. intros q'.
      apply bind_same; [apply agree_setDir; inL|]. intros [].
      apply bind_same; [apply Hlf; inL|]. intros x.
      apply bind_same; [apply agree_lift|]. intros f. apply put_bind. apply agree_ret.
    Qed.
    Lemma agree_shade m : forall L i j h, In (i, j) L -> agree L (shade rand2 s lf1 m i h) (shade rand2 s lf2 m j h).
    Proof.
      induction m as [|t|t|c|n tr IH|n1 n2|t|f IHf b IHb|a ma IHa b mb IHb|t ma IHa mb IHb]; intros L i j h Hi; cbn.
      - apply agree_ret.
      - apply agree_lift.
      - now apply agree_matte.
      - now apply agree_reflective.
      - apply agree_bind; [now apply agree_read|]. intros q.
        apply new_bind. intros a b. apply bind_same; [apply agree_setStart; inL|]. intros [].
        apply bind_same; [apply agree_read; inL|]. intros q'.
        apply bind_same; [apply agree_setDir; inL|]. intros [].
        apply bind_same; [apply IH; inL|]. intros x.
        apply bind_same; [apply Hlf; inL|]. intros y. apply put_bind. apply agree_ret.
      - now apply agree_refractive.
      - now apply agree_transparent.
      - apply agree_bind; [now apply agree_read|]. intros q. destruct (_ >? _)%num; auto.
      - apply agree_bind; [auto|]. intros x. apply agree_bind; [auto|]. intros y. apply agree_ret.
      - apply agree_bind; [apply agree_lift|]. intros k.
        apply agree_bind; [destruct (_ >? _)%num; auto using agree_ret|]. intros x.
        apply agree_bind; [destruct (_ >? _)%num; auto using agree_ret|]. intros y. apply agree_ret.
    Qed.
    Lemma agree_shadeHit m : forall L i j h, In (i, j) L -> agree L (shadeHit rand2 s lf1 m i h) (shadeHit rand2 s lf2 m j h).
    Proof. intros L i j h Hi. destruct m; [now apply agree_shade|apply agree_lift]. Qed.
  End Shade.

  (** ** Media *)
  Section Media.
    Variable s : scene F.
    Lemma agree_fogLights L n p wt a b : In (a, b) L -> forall ls i acc,
      agree L (fogLights rand2 s i ls n p wt a acc) (fogLights rand2 s i ls n p wt b acc).
    Proof.
      intros Hi. induction ls as [|l ls IH]; intros i acc; cbn; [apply agree_ret|].
      destruct (i =? n)%Z; [apply agree_ret|].
      apply agree_bind; [apply agree_light|]. intros [lpos intens].
      destruct (isBlack intens); [apply IH|].
      apply agree_bind; [now apply agree_setStart|]. intros [].
      apply agree_bind; [now apply agree_setDir|]. intros [].
      apply agree_bind; [now apply agree_occlude|]. intros x. apply IH.
    Qed.
    Lemma agree_medium L m i j t c : In (i, j) L -> agree L (mediumFilter rand2 s m i t c) (mediumFilter rand2 s m j t c).
    Proof.
      intros Hi. destruct m as [d a h|d h n]; cbn.
      - apply agree_bind; [apply agree_isInitial|]. intros ini. destruct (negb ini); [apply agree_ret|].
        apply agree_bind; [now apply agree_read|]. intros q. destruct (fogInterval h t q). apply agree_lift.
      - apply agree_bind; [apply agree_isInitial|]. intros ini. destruct (negb ini); [apply agree_ret|].
        apply agree_bind; [now apply agree_read|]. intros q. destruct (fogInterval h t q) as [st en].
        apply agree_bind; [apply agree_generate2|]. intros [u v].
        apply agree_bind; [now apply agree_read|]. intros q'.
        apply new_bind. intros a b. apply bind_same; [apply agree_fogLights; cbn; tauto|]. intros x.
        apply put_bind. apply agree_ret.
    Qed.
    Lemma agree_media L ms i j t : In (i, j) L -> forall c, agree L (mediaLoop rand2 s ms i t c) (mediaLoop rand2 s ms j t c).
    Proof.
      intros Hi. induction ms as [|m ms IH]; intros c; cbn; [apply agree_ret|].
      apply agree_bind; [now apply agree_medium|]. intros x. apply IH.
    Qed.
  End Media.

  (** ** Evaluation *)
  Lemma agree_count L : agree L countRay countRay.
  Proof. intros c1 c2 [P1 P2 D1 D2 Sq Rn N1 N2 Li]. split; [auto|]. split; auto. Qed.
End Two.

Section Eval.
  Context {F G : Type} `{NF : Num F} `{NI : NumInf F} `{TF : Trig F}.
  Variable rand2 : G -> (F * F) * G.
  Notation ctx := (ctx F G).
  Variable lax : bool.
  Notation alike := (alike (F := F) (G := G) lax).
  Lemma alike_depth dp dp' L (c1 c2 : ctx) : alike dp L c1 c2 -> alike dp' L (withDepth c1 dp') (withDepth c2 dp').
  Proof. intros [P1 P2 D1 D2 Sq Rn N1 N2 Li]. split; auto. Qed.

  Variable s : scene F.
  Hypothesis low : lax = true -> (sRecursionDepth s <= 2)%Z.
  Lemma agree_eval fuel : forall dp L w i j, (lax = true -> 0 <= dp <= sRecursionDepth s)%Z -> In (i, j) L ->
    agree (F := F) (G := G) lax dp L (lightField rand2 fuel s w i) (lightField rand2 fuel s w j).
  Proof.
    induction fuel as [|n IH]; intros dp L w i j Hd Hi; cbn [lightField]; [apply agree_lift|].
    assert (forall A (f : Z -> act F G A) c, mbind getDepth f c = f (cDepth c) c) as GD by reflexivity.
    intros c1 c2 Hc. rewrite !GD.
    rewrite (al_depth1 _ _ _ _ _ Hc), (al_depth2 _ _ _ _ _ Hc).
    destruct (sRecursionDepth s =? dp)%Z eqn:E; [cbn; auto|].
    assert (lax = true -> 0 <= dp + 1 <= sRecursionDepth s)%Z as Hd'.
    { intros X. apply Z.eqb_neq in E. specialize (Hd X). lia. }
    assert (lax = true -> 0 <= dp + 1 <= 2)%Z as Hd2 by (intros X; specialize (Hd' X); specialize (low X); lia).
    set (k1 := mbind (intersectFrontmost _ i) _). set (k2 := mbind (intersectFrontmost _ j) _).
    assert (both (alike (dp + 1) L) k1 k2 (fun x y d1 d2 => x = y /\ alike dp L d1 d2)) as K.
    { subst k1 k2. apply bind_same; [now apply agree_frontmost|]. intros front.
      apply bind_same; [apply agree_shadeHit; auto|]. intros b.
      apply bind_same; [now apply agree_media|]. intros b'.
      intros d1 d2 Hx. unfold getDepth, setDepth, mbind, mret. cbn [obind].
      rewrite (al_depth1 _ _ _ _ _ Hx), (al_depth2 _ _ _ _ _ Hx). split; [auto|].
      replace (dp + 1 - 1)%Z with dp by lia. now apply alike_depth with (dp := (dp + 1)%Z). }
    apply (K (withDepth (withNumRays c1 (cNumRays c1 + 1)%Z) (dp + 1)) (withDepth (withNumRays c2 (cNumRays c2 + 1)%Z) (dp + 1))).
    apply alike_depth with (dp := dp). destruct Hc as [P1 P2 D1 D2 Sq Rn N1 N2 Li]. split; auto.
  Qed.

  (** ** Cameras *)
  (** cameras without a lens draw no random numbers *)
  Lemma both_rayFrom dp cam u v L : lax = false \/ lensless cam ->
    both (alike dp L) (rayFrom rand2 cam u v) (rayFrom rand2 cam u v) (fun i j => alike dp ((i, j) :: L)).
  Proof.
    intros Hc. unfold rayFrom.
    assert (forall (i j : nat) (q : ray F), both (alike dp ((i, j) :: L)) (mbind (writeRay i q) (fun _ => mret i)) (mbind (writeRay j q) (fun _ => mret j)) (fun i j => alike dp ((i, j) :: L))) as W.
    { intros i j q. apply bind_same; [apply agree_write; cbn; auto|]. intros [] c1 c2 H. exact H. }
    eapply both_bind with (Q := fun i j => alike dp ((i, j) :: L)).
    - unfold rayFrom0. apply new_bind. intros i j. unfold lensless in Hc. destruct (camOrig cam) as [f d a| |sz].
      + apply bind_same; [|intros st; apply W].
        destruct (a >? #0)%num eqn:E; [|apply agree_ret]. destruct Hc as [Hc|Hc]; [|discriminate].
        apply agree_bind; [now apply agree_pseudo|]. intros uv. destruct (uniformDisk _ _). apply agree_ret.
      + apply W.
      + apply W.
    - intros i j. apply bind_same; [apply agree_read; cbn; auto|]. intros q. apply W.
  Qed.
  Lemma agree_image dp fuel cam u v : (lax = true -> 0 <= dp <= sRecursionDepth s)%Z -> lax = false \/ lensless cam ->
    agree (F := F) (G := G) lax dp nil (imageFuncOf rand2 fuel s cam u v) (imageFuncOf rand2 fuel s cam u v).
  Proof.
    intros Hd Hc. unfold imageFuncOf. eapply both_bind; [now apply both_rayFrom|]. intros i j.
    apply bind_same; [apply agree_eval; cbn; auto|]. intros x. apply put_bind. apply agree_ret.
  Qed.
End Eval.
