(** * Scenes: frontmost hit, occlusion, recursion and ray recycling (C20-C23) *)
From Coq Require Import ZArith Reals Bool List Permutation Lia Lra.
From Verif Require Import Num NumLaws Outcome GeomModel GeomSpec ColorModel SeqModel ObjModel TreeModel ObjSpec ObjProofs ParamProofs SceneModel SceneSpec.
Import ListNotations.

Lemma nth_error_setNth_same {A} (l : list A) i a : nth_error l i = Some a -> setNth l i a = l.
Proof. revert i; induction l as [|x l IH]; intros [|i] H; cbn in *; try discriminate; [congruence|now rewrite IH]. Qed.

Lemma mbind_val {F G A B} (a : act F G A) (f : A -> act F G B) c y c' :
  mbind a f c = Val (y, c') -> exists x c1, a c = Val (x, c1) /\ f x c1 = Val (y, c').
Proof. unfold mbind. destruct (a c) as [[x c1]| |]; cbn; intros H; try discriminate. eauto. Qed.
Lemma mbind_run {F G A B} (a : act F G A) (f : A -> act F G B) c x c1 :
  a c = Val (x, c1) -> mbind a f c = f x c1.
Proof. unfold mbind. now intros ->. Qed.

(** ** Frontmost *)
Section Front.
  Context {F G : Type} `{NF : Num F} `{NI : NumInf F} {NK : NumKey F}.
  Notation object := (object F (material F)).
  Notation hit := (hit F (material F)).

  Lemma intersectRay_run (o : object) r q h (c : ctx F G) :
    nth_error (cHeap c) r = Some q -> oIntersect o q = Val (h, q) -> intersectRay o r c = Val (h, c).
  Proof.
    intros Hr Ho. unfold intersectRay, readRay, mbind, mlift, writeRay, mret. rewrite Hr. cbn.
    rewrite Ho. cbn. rewrite Hr. cbn. rewrite nth_error_setNth_same by exact Hr. now destruct c.
  Qed.

  (** what the loop keeps *)
  Definition better (front h : hit) : hit :=
    if ((hT h >? #0) && (hT h <=? hT front))%num%bool then h else front.
  Lemma frontLoop_fold objs r q hits : hits_of objs q hits -> forall front (c : ctx F G),
    nth_error (cHeap c) r = Some q -> frontLoop objs r front c = Val (fold_left better hits front, c).
  Proof.
    induction 1 as [|o h objs hits Ho _ IH]; intros front c Hr; cbn; auto.
    rewrite (mbind_run _ _ _ _ _ (intersectRay_run _ _ _ _ _ Hr Ho)). now apply IH.
  Qed.

  Lemma fold_better hits : forall front, nltb (nofZ 0) (hT front) = true ->
    (exists h, last_nearest hits h /\ nleb (hT h) (hT front) = true /\ fold_left better hits front = h) \/
    ((forall h, In h hits -> positive h -> nltb (hT front) (hT h) = true) /\ fold_left better hits front = front).
  Proof.
    induction hits as [|x hits IH]; intros front Hf.
    - right. split; [intros h []|reflexivity].
    - cbn [fold_left].
      change (better front x) with (if ((hT x >? #0) && (hT x <=? hT front))%num%bool then x else front).
      destruct ((hT x >? #0) && (hT x <=? hT front))%num%bool eqn:E.
      + apply andb_true_iff in E. destruct E as [E1 E2]. left.
        destruct (IH x E1) as [(h & (b & a & -> & Hp & Hb & Ha) & Hle & Hfold)|(Hall & Hfold)].
        * exists h. split; [|split; [now apply (nleb_trans _ (hT x))|exact Hfold]].
          exists (x :: b), a. split; [reflexivity|]. split; [exact Hp|]. split; [|exact Ha].
          intros h' [<-|Hin]; auto.
        * exists x. split; [|split; [exact E2|exact Hfold]].
          exists nil, hits. split; [reflexivity|]. split; [exact E1|]. split; [intros h' []|exact Hall].
      + assert (N : positive x -> nltb (hT front) (hT x) = true).
        { intros Hx. unfold positive in Hx. rewrite Hx in E. cbn in E.
          apply nleb_false_ltb; [now apply nltb_not_nan in Hx|now apply nltb_not_nan in Hf|exact E]. }
        destruct (IH front Hf) as [(h & (b & a & -> & Hp & Hb & Ha) & Hle & Hfold)|(Hall & Hfold)].
        * left. exists h. split; [|split; [exact Hle|exact Hfold]].
          exists (x :: b), a. split; [reflexivity|]. split; [exact Hp|]. split; [|exact Ha].
          intros h' [<-|Hin] Hp'; [|auto]. apply nltb_leb. exact (nle_lt_trans _ _ _ Hle (N Hp')).
        * right. split; [|exact Hfold]. intros h [<-|Hin] Hp; auto.
  Qed.

  Lemma last_nearest_unique hits (h h' : hit) : last_nearest hits h -> last_nearest hits h' -> h = h'.
  Proof.
    intros (b & a & E & Hp & Hb & Ha) (b' & a' & E' & Hp' & Hb' & Ha').
    rewrite E in E'. clear E. revert b' E' Hb'. induction b as [|x b IH]; intros [|x' b'] E' Hb'; cbn in E'.
    - congruence.
    - injection E' as -> ->. exfalso.
      assert (In h' (b' ++ h' :: a')) as Hi by (apply in_or_app; cbn; auto).
      generalize (Ha _ Hi Hp'); generalize (Hb' x' (or_introl eq_refl) Hp).
      intros A B. generalize (nlt_le_trans _ _ _ B A). now rewrite nltb_irrefl.
    - injection E' as -> <-. exfalso.
      assert (In h (b ++ h :: a)) as Hi by (apply in_or_app; cbn; auto).
      generalize (Ha' _ Hi Hp); generalize (Hb h' (or_introl eq_refl) Hp').
      intros A B. generalize (nlt_le_trans _ _ _ B A). now rewrite nltb_irrefl.
    - injection E' as -> E'. apply (IH (fun h' H => Hb h' (or_intror H)) b' E').
      intros; apply Hb'; cbn; auto.
  Qed.

  Lemma intersectFrontmost_reach objs r q hits (c : ctx F G) :
    nltb (nofZ 0) (@ninf F NI) = true -> nth_error (cHeap c) r = Some q -> hits_of objs q hits ->
    (exists h, last_nearest hits h /\ nleb (hT h) ninf = true /\ intersectFrontmost objs r c = Val (h, c)) \/
    ((forall h, In h hits -> positive h -> nltb ninf (hT h) = true) /\
     intersectFrontmost objs r c = Val (Hit ninf (rDir q) vO (Some MBlack), c)).
  Proof.
    intros Hinf Hr Hh. unfold intersectFrontmost.
    rewrite (mbind_run (readRay r) _ c q c) by (unfold readRay; now rewrite Hr).
    rewrite (frontLoop_fold _ _ _ _ Hh _ _ Hr).
    destruct (fold_better hits (front0 (rDir q)) Hinf) as [(h & Hl & Hle & ->)|(Hall & ->)]; [left; exists h; auto|right; auto].
  Qed.

  Lemma intersectFrontmost_hits objs r q hits (c : ctx F G) :
    nltb (nofZ 0) (@ninf F NI) = true ->
    (forall h, In h hits -> positive h -> nleb (hT h) ninf = true) ->
    nth_error (cHeap c) r = Some q -> hits_of objs q hits ->
    (forall h, last_nearest hits h -> intersectFrontmost objs r c = Val (h, c)) /\
    (no_hit hits -> intersectFrontmost objs r c = Val (Hit ninf (rDir q) vO (Some MBlack), c)) /\
    ((exists h, last_nearest hits h) \/ no_hit hits).
  Proof.
    intros Hinf Htop Hr Hh.
    destruct (intersectFrontmost_reach objs r q hits c Hinf Hr Hh) as [(h & Hl & _ & ->)|(Hall & ->)].
    - split; [|split; [|now left; exists h]].
      + intros h' Hl'. now rewrite (last_nearest_unique _ _ _ Hl Hl').
      + intros Hn. exfalso. destruct Hl as (b & a & -> & Hp & _). apply (Hn h); auto. apply in_or_app; cbn; auto.
    - assert (N : no_hit hits).
      { intros h Hin Hp. generalize (Hall h Hin Hp) (Htop h Hin Hp). cbn [hT front0]. intros A B.
        generalize (nlt_le_trans _ _ _ A B). now rewrite nltb_irrefl. }
      split; [|split; [reflexivity|now right]].
      intros h (b & a & -> & Hp & _). exfalso. apply (N h); auto. apply in_or_app; cbn; auto.
  Qed.
End Front.

(** ** Occlusion *)
Section Occlude.
  Context {F G : Type} `{NF : Num F}.
  Notation object := (object F (material F)).
  Notation hit := (hit F (material F)).

  Lemma occlude_opaque objs r q hits len : hits_of objs q hits ->
    (forall h, In h hits -> between len h -> is_transparent h -> exists f, filters_by h f) ->
    forall orig (c : ctx F G), nth_error (cHeap c) r = Some q ->
    (exists h, In h hits /\ between len h /\ ~ is_transparent h) ->
    occludeLoop objs r len orig c = Val (black, c).
  Proof.
    intros Hh. induction Hh as [|o h objs hits Ho Hh IH]; intros Ht orig c Hr [h' (Hi & Hb & Hn)]; [destruct Hi|].
    cbn [occludeLoop]. rewrite (mbind_run _ _ _ _ _ (intersectRay_run _ _ _ _ _ Hr Ho)).
    destruct ((hT h >? #0) && (hT h <? len))%num%bool eqn:E.
    - apply andb_true_iff in E. destruct E as [E1 E2].
      destruct (hMat h) as [m|] eqn:Em; [|reflexivity].
      assert (T : is_transparent h \/ matFilter (Some m) h orig = None).
      { destruct m; cbn; auto. left. exists t. exact Em. }
      destruct T as [T|T]; [|rewrite T; reflexivity].
      destruct (Ht h (or_introl eq_refl) (conj E1 E2) T) as (f & t & Hm & Hf).
      rewrite Hm in Em. injection Em as <-. cbn. rewrite Hf. cbn. unfold mbind, mlift; cbn.
      apply IH; auto; [intros; apply Ht; cbn; auto|].
      destruct Hi as [<-|Hi]; [|now exists h']. exfalso. apply Hn. exact T.
    - apply IH; auto; [intros; apply Ht; cbn; auto|].
      destruct Hi as [<-|Hi]; [|now exists h']. destruct Hb as [B1 B2]. rewrite B1, B2 in E. discriminate.
  Qed.

  (** [fs] are the filters of the hits in between, in the order of the objects *)
  Lemma filtering_exists len hits :
    (forall h, In h hits -> between len h -> exists f, filters_by h f) -> exists fs, filtering len hits fs.
  Proof.
    induction hits as [|h hits IH]; intros H; [exists nil; constructor|].
    destruct IH as [fs Hfs]; [intros; apply H; cbn; auto|].
    destruct (nltb (nofZ 0) (hT h)) eqn:E1; [destruct (nltb (hT h) len) eqn:E2|].
    - destruct (H h) as [f Hf]; [cbn; auto|split; auto|]. exists (f :: fs). apply Fhit; auto. now split.
    - exists fs. constructor; auto. intros [_ B]. congruence.
    - exists fs. constructor; auto. intros [B _]. congruence.
  Qed.

  Lemma occlude_filters objs r q hits len : hits_of objs q hits -> forall fs, filtering len hits fs ->
    forall orig (c : ctx F G), nth_error (cHeap c) r = Some q ->
    occludeLoop objs r len orig c = Val (fold_left clmul3 fs orig, c).
  Proof.
    intros Hh. induction Hh as [|o h objs hits Ho Hh IH]; intros fs Hf orig c Hr; inversion Hf; subst; [reflexivity| |].
    - cbn [occludeLoop]. rewrite (mbind_run _ _ _ _ _ (intersectRay_run _ _ _ _ _ Hr Ho)).
      destruct ((hT h >? #0) && (hT h <? len))%num%bool eqn:E; [|now apply IH].
      apply andb_true_iff in E. exfalso; auto.
    - cbn [occludeLoop]. rewrite (mbind_run _ _ _ _ _ (intersectRay_run _ _ _ _ _ Hr Ho)).
      match goal with H : between _ _ |- _ => destruct H as [B1 B2] end. rewrite B1, B2. cbn [andb].
      match goal with H : filters_by _ _ |- _ => destruct H as (t & Hm & Ht) end. rewrite Hm.
      cbn [matFilter]. rewrite Ht. cbn [omap]. unfold mbind, mlift; cbn [omap obind fold_left]. now apply IH.
  Qed.
End Occlude.

Lemma clmul3_R (a b : color R) : clmul3 a b = Color (cR a * cR b)%R (cG a * cG b)%R (cB a * cB b)%R.
Proof. reflexivity. Qed.
Lemma product3_app c fs : fold_left clmul3 fs c = product3 c fs.
Proof.
  revert c; induction fs as [|f fs IH]; intros c; [reflexivity|].
  cbn [fold_left]. rewrite IH. clear IH. cbn [product3 fold_right]. fold (product3 c fs).
  rewrite clmul3_R. revert f; induction fs as [|g fs IH]; intros f.
  - cbn. f_equal; ring.
  - cbn [product3 fold_right]. fold (product3 c fs). fold (product3 (Color (cR c * cR f)%R (cG c * cG f)%R (cB c * cB f)%R) fs).
    rewrite IH. cbn. f_equal; ring.
Qed.
Lemma product3_perm c fs fs' : Permutation fs fs' -> product3 c fs = product3 c fs'.
Proof.
  induction 1; auto.
  - unfold product3 in *; cbn. now rewrite IHPermutation.
  - cbn. f_equal; ring.
  - congruence.
Qed.
Lemma filtering_perm {F} `{Num F} len hits hits' : Permutation hits hits' -> forall fs, filtering len hits fs ->
  exists fs', filtering len hits' fs' /\ Permutation fs fs'.
Proof.
  induction 1 as [|h l l' P IH|h k l|l l' l'' P IH P' IH']; intros fs Hf.
  - inversion Hf; subst. exists nil. split; constructor.
  - inversion Hf; subst; match goal with X : filtering _ _ _ |- _ => destruct (IH _ X) as (fs' & A & B) end.
    + exists fs'. split; auto. now apply Fskip.
    + exists (f :: fs'). split; auto. now apply Fhit.
  - inversion Hf; subst; match goal with X : filtering _ (_ :: _) _ |- _ => inversion X; subst end;
    eexists; (split; [repeat first [eassumption|apply Fskip; [assumption|]|eapply Fhit; [eassumption|eassumption|]]|]); auto; constructor.
  - destruct (IH _ Hf) as (fs' & A & B). destruct (IH' _ A) as (fs'' & C & D). exists fs''. split; auto. now transitivity fs'.
Qed.
