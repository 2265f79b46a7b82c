(** * Renderings tend to integrals *)
From Coq Require Import ZArith Reals Bool List Lia Lra.
From Coquelicot Require Import Coquelicot.
From Verif Require Import Num NumLaws Outcome GeomModel GeomSpec GeomProofs ColorModel SeqModel SeqSpec HaltonProofs SeqProofs
  SamplerModel SamplerSpec SamplerProofs PoolProofs SamplerNum SamplerFacts ObjModel TreeModel ObjSpec SceneModel SceneSpec SceneProofs CtxProofs
  LookSpec LookProofs SceneFacts SceneMore RenderModel RenderSpec RenderProofs RenderFacts EquiSpec EquiProofs EquiMean EquiIntSpec EquiInt
  DiffuseSpec DiffuseProofs LimitSpec.
Import ListNotations.
Local Open Scope R_scope.

(** ** The sequences of a context *)
Lemma frac_fpart (x : R) : frac x = fpart x.
Proof. reflexivity. Qed.

Lemma generated b1 b2 i su sv shs u v : hseq_generate2 (HSeq b1 b2 i su sv shs) = Val (u, v) ->
  exists h1 h2, halton (F := R) b1 i = Val h1 /\ halton (F := R) b2 i = Val h2 /\ u = fpart (h1 + su) /\ v = fpart (h2 + sv).
Proof.
  unfold hseq_generate2. cbn [hs_baseU hs_baseV hs_index hs_shiftU hs_shiftV].
  destruct (halton b1 i) as [h1| |]; cbn [obind]; try discriminate. destruct (halton b2 i) as [h2| |]; cbn [obind]; try discriminate.
  intros H. apply (f_equal (fun o => match o with Val p => p | _ => (0, 0) end)) in H. exists h1, h2.
  split; [reflexivity|]. split; [reflexivity|]. split; [exact (eq_sym (f_equal fst H))|exact (eq_sym (f_equal snd H))].
Qed.

Lemma init_gives shifts pixel i (q : ctxseq R) su sv l : nth_error shifts pixel = Some (su, sv) ->
  ctxseq_init (newCtxSeq shifts) pixel i = Val q -> gives q l -> point [2; 3; 5; 7]%Z [su; sv; su; sv] i l.
Proof.
  intros Hn E (u1 & v1 & u2 & v2 & -> & G1 & G2).
  unfold ctxseq_init, newCtxSeq, hseq_init, newHalton in E. cbn [cs_1 cs_2 cs_L cs_AA hs_shifts hs_baseU hs_baseV] in E.
  rewrite Hn in E. cbn [obind] in E. apply (f_equal (fun o => match o with Val p => p | _ => q end)) in E. subst q.
  cbn [cs_1 cs_2] in G1, G2.
  destruct (generated _ _ _ _ _ _ _ _ G1) as (h1 & h2 & E1 & E2 & -> & ->).
  destruct (generated _ _ _ _ _ _ _ _ G2) as (h3 & h4 & E3 & E4 & -> & ->).
  exists [h1; h2; h3; h4]. split; [repeat constructor; assumption|reflexivity].
Qed.

Lemma four_coprime : pairwise_coprime [2; 3; 5; 7]%Z.
Proof.
  cbn [pairwise_coprime]. repeat split; intros b H; cbn [In] in H;
    repeat match type of H with _ \/ _ => destruct H as [H|H] end; try subst b; try reflexivity; destruct H.
Qed.

Lemma passes_even shifts pixel (q : nat -> ctxseq R) (x : nat -> list R) :
  (forall k, ctxseq_init (newCtxSeq shifts) pixel (Z.of_nat k) = Val (q k)) -> (forall k, gives (q k) (x k)) -> equidistributed 4 x.
Proof.
  intros Hq Hx.
  assert (exists su sv, nth_error shifts pixel = Some (su, sv)) as (su & sv & Hn).
  { specialize (Hq 0%nat). unfold ctxseq_init, newCtxSeq, hseq_init, newHalton in Hq. cbn [cs_1 hs_shifts] in Hq.
    destruct (nth_error shifts pixel) as [[su sv]|]; [eauto|discriminate]. }
  apply (halton_equidistributed [2; 3; 5; 7]%Z [su; sv; su; sv]).
  - repeat constructor; lia.
  - exact four_coprime.
  - reflexivity.
  - intros i. exact (init_gives shifts pixel _ (q i) su sv (x i) Hn (Hq i) (Hx i)).
Qed.

Lemma gives_total shifts pixel i (q : ctxseq R) : (0 <= i)%Z -> ctxseq_init (newCtxSeq shifts) pixel i = Val q ->
  exists l, gives q l /\ in_unit_cube l.
Proof.
  intros Hi E. unfold ctxseq_init, newCtxSeq, hseq_init, newHalton in E. cbn [cs_1 cs_2 cs_L cs_AA hs_shifts hs_baseU hs_baseV] in E.
  destruct (nth_error shifts pixel) as [[su sv]|]; [|discriminate].
  cbn [obind] in E. apply (f_equal (fun o => match o with Val p => p | _ => q end)) in E. subst q.
  destruct (halton_R_val 2 i ltac:(lia) Hi) as (h2 & E2 & _). destruct (halton_R_val 3 i ltac:(lia) Hi) as (h3 & E3 & _).
  destruct (halton_R_val 5 i ltac:(lia) Hi) as (h5 & E5 & _). destruct (halton_R_val 7 i ltac:(lia) Hi) as (h7 & E7 & _).
  exists [fpart (h2 + su); fpart (h3 + sv); fpart (h5 + su); fpart (h7 + sv)]. split.
  - do 4 eexists. split; [reflexivity|]. unfold hseq_generate2. cbn [cs_1 cs_2 hs_baseU hs_baseV hs_index hs_shiftU hs_shiftV].
    rewrite E2, E3, E5, E7. split; reflexivity.
  - unfold in_unit_cube. repeat (apply List.Forall_cons; [apply fpart_range|]). apply List.Forall_nil.
Qed.

(** sequences that give any numbers we like *)
Definition seqGiving (b1 b2 : Z) (u v : R) : hseq R :=
  HSeq b1 b2 0 (u - match halton (F := R) b1 0 with Val h => h | _ => 0 end) (v - match halton (F := R) b2 0 with Val h => h | _ => 0 end) nil.
Lemma seqGiving_ok b1 b2 u v : (2 <= b1)%Z -> (2 <= b2)%Z -> 0 <= u < 1 -> 0 <= v < 1 -> hseq_generate2 (seqGiving b1 b2 u v) = Val (u, v).
Proof.
  intros H1 H2 Hu Hv. unfold hseq_generate2, seqGiving. cbn [hs_baseU hs_baseV hs_index hs_shiftU hs_shiftV].
  destruct (halton_R_val b1 0 H1 ltac:(lia)) as (h1 & -> & _). destruct (halton_R_val b2 0 H2 ltac:(lia)) as (h2 & -> & _). cbn [obind].
  rewrite !frac_fpart. f_equal. f_equal; (apply (fpart_eq _ 0); [rnum; ring|assumption]).
Qed.
Definition ctxGiving {G} (g : G) (l : list R) : ctx R G :=
  match l with
  | [u1; v1; u2; v2] => Ctx 0 (CtxSeq (seqGiving 2 3 u1 v1) (seqGiving 5 7 u2 v2) (seqGiving 5 7 u2 v2) (seqGiving 2 3 u1 v1)) g nil nil 0
  | _ => Ctx 0 (newCtxSeq nil) g nil nil 0
  end.
Lemma ctxGiving_idle {G} (g : G) l : idle_ctx (ctxGiving g l).
Proof.
  assert (pool_ok (Ctx (F := R) 0 (newCtxSeq nil) g nil nil 0)) as P by (split; cbn; [constructor|intros i []]).
  unfold ctxGiving. destruct l as [|a [|b [|c [|d [|? ?]]]]]; split; try reflexivity; exact P.
Qed.
Lemma ctxGiving_gives {G} (g : G) u1 v1 u2 v2 : in_unit_cube [u1; v1; u2; v2] -> gives (cSeq (ctxGiving g [u1; v1; u2; v2])) [u1; v1; u2; v2].
Proof.
  intros H. inversion H as [|? ? A H1]; subst. inversion H1 as [|? ? B H2]; subst. inversion H2 as [|? ? C H3]; subst. inversion H3 as [|? ? D _]; subst.
  do 4 eexists. split; [reflexivity|]. cbn [ctxGiving cSeq cs_1 cs_2]. split; apply seqGiving_ok; auto; lia.
Qed.
Lemma gives_same (q1 q2 : ctxseq R) l : gives q1 l -> gives q2 l -> same_numbers q1 q2.
Proof.
  intros (a & b & c & d & -> & A1 & A2) (a' & b' & c' & d' & E & B1 & B2).
  assert (a = a' /\ b = b' /\ c = c' /\ d = d') as (<- & <- & <- & <-) by (repeat split; congruence).
  split; congruence.
Qed.
Lemma in_unit_random {G} (rand2 : G -> (R * R) * G) q l : (forall g, 0 <= fst (fst (rand2 g)) <= 1 /\ 0 <= snd (fst (rand2 g)) <= 1) ->
  gives q l -> in_unit_cube l -> random_ok rand2 q.
Proof.
  intros Hr (u1 & v1 & u2 & v2 & -> & A1 & A2) H.
  inversion H as [|? ? A H1]; subst. inversion H1 as [|? ? B H2]; subst. inversion H2 as [|? ? C H3]; subst. inversion H3 as [|? ? D _]; subst.
  split; [exact Hr|]. split; do 2 eexists; (split; [eassumption|lra]).
Qed.

(** ** Limits of renderings *)
Section Limit.
  Context {G : Type} {NI : NumInf R}.
  Variable rand2 : G -> (R * R) * G.
  Notation ctx := (ctx R G).

  Lemma pixel_limit fuel s cam aa shifts w h (m : nat -> mem R) p q0 x y f I :
    (0 <= w)%Z -> (0 <= h)%Z -> Z.of_nat (length shifts) = (w * h)%Z -> in_image w h p ->
    sample_pos aa shifts w h p 0 = Val (q0, (x, y)) -> sample_function rand2 fuel s cam x y f -> color_integral 4 f I ->
    renderings rand2 fuel s cam aa shifts w h m -> tends_to (fun n => imagef (m n) p) I.
  Proof.
    intros Hw Hh Hl Hp E0 Hf (HR & HG & HB) Hm.
    (* the numbers of pass k *)
    assert (Hk : forall k : nat, exists q l, sample_pos aa shifts w h p (Z.of_nat k) = Val (q, (x, y)) /\
      ctxseq_init (newCtxSeq shifts) (Z.to_nat (w * snd p + fst p)) (Z.of_nat k) = Val q /\ gives q l /\ in_unit_cube l).
    { intros k. destruct (sample_pos_R aa shifts w h p (Z.of_nat k) Hl Hp) as (q & xy & E).
      assert (X := pos_constant aa shifts w h p _ _ _ _ _ _ E0 E). subst xy.
      assert (ctxseq_init (newCtxSeq shifts) (Z.to_nat (w * snd p + fst p)) (Z.of_nat k) = Val q) as Ei.
      { revert E. unfold sample_pos. destruct (indexToCam w h _ _) as [[xi yi]| |]; cbn [obind]; try discriminate.
        destruct (ctxseq_init _ _ _) as [q'| |]; cbn [obind]; try discriminate. destruct (jitter _ _ _ _ _ _); cbn [omap]; try discriminate.
        intros X. apply (f_equal (fun o => match o with Val p => fst p | _ => q' end)) in X. cbn [fst] in X. now rewrite X. }
      destruct (gives_total shifts _ _ q (Zle_0_nat k) Ei) as (l & Gl & Ul). exists q, l. auto. }
    (* choose *)
    set (Q := fun k : nat => match ctxseq_init (newCtxSeq shifts) (Z.to_nat (w * snd p + fst p)) (Z.of_nat k) with Val q => q | _ => q0 end).
    set (X := fun k : nat => match hseq_generate2 (cs_1 (Q k)), hseq_generate2 (cs_2 (Q k)) with
      | Val (u1, v1), Val (u2, v2) => [u1; v1; u2; v2] | _, _ => nil end).
    assert (HQ : forall k, ctxseq_init (newCtxSeq shifts) (Z.to_nat (w * snd p + fst p)) (Z.of_nat k) = Val (Q k) /\ gives (Q k) (X k) /\ in_unit_cube (X k) /\
      sample_pos aa shifts w h p (Z.of_nat k) = Val (Q k, (x, y))).
    { intros k. destruct (Hk k) as (q & l & E1 & E2 & (u1 & v1 & u2 & v2 & -> & G1 & G2) & Ul).
      assert (Q k = q) as EQ by (unfold Q; now rewrite E2).
      assert (X k = [u1; v1; u2; v2]) as EX by (unfold X; now rewrite EQ, G1, G2).
      rewrite EQ, EX. split; [exact E2|]. split; [do 4 eexists; split; [reflexivity|]; auto|]. auto. }
    assert (Ev : equidistributed 4 X).
    { apply (passes_even shifts (Z.to_nat (w * snd p + fst p)) Q X); intros k; apply HQ. }
    (* the image *)
    assert (Him : forall n, imagef (m n) p = Color (running_mean (fun k => cR (f (X k))) n) (running_mean (fun k => cG (f (X k))) n) (running_mean (fun k => cB (f (X k))) n)).
    { intros n. destruct (Hm n) as (ns & Hn & Ht & H).
      assert (Y := renders_result rand2 fuel s cam aa shifts w h Hw Hh (fun p k => sample_pos_R aa shifts w h p k Hl)
        (fun p' k c => p' = p -> (0 <= k)%Z -> c = f (X (Z.to_nat k)))).
      specialize (fun HH => Y HH ns newMem (m n) Hn H p). rewrite (in_image_b w h p Hp) in Y.
      destruct (gains_more (F := R) _ _ _ _ (Y ltac:(
        intros p' k q x' y' c Hp' E Hic -> Hk0; destruct (HQ (Z.to_nat k)) as (_ & Hg & Hu & E'); rewrite Z2Nat.id in E' by exact Hk0;
        rewrite E in E'; assert (A := f_equal (fun o => match o with Val r => r | _ => (q, (x', y')) end) E');
        assert (A1 := f_equal fst A); assert (A2 := f_equal (fun r => fst (snd r)) A); assert (A3 := f_equal (fun r => snd (snd r)) A); cbn [fst snd] in A1, A2, A3; subst q x' y';
        destruct (Hf (withSeq c (Q (Z.to_nat k))) (X (Z.to_nat k)) (idle_seq c _ Hic) Hg Hu) as (c' & Ec);
        unfold sceneFunc; rewrite Ec; reflexivity))) as (col & Hcol & E).
      rewrite (imagef_mean (m n) p (first_samples col (Z.to_nat (total ns)))) by (rewrite E; exact (total_new col _)).
      rewrite Ht, Nat2Z.id in *. unfold running_mean, first_samples. rewrite !map_map.
      assert (Hc : forall k, In k (seq 0 n) -> col (Z.of_nat k) = f (X k)).
      { intros k Hin. apply in_seq in Hin. rewrite <- (Nat2Z.id k) at 2. apply Hcol; [|reflexivity|lia]. cbn [acc_at newMem aN mN]. lia. }
      f_equal; f_equal; apply map_ext_in; intros k Hin; now rewrite (Hc k Hin). }
    split; [|split]; (eapply Un_cv_ext; [intros n; rewrite (Him n); cbn [cR cG cB]; reflexivity|]).
    - exact (Ev _ _ HR).
    - exact (Ev _ _ HG).
    - exact (Ev _ _ HB).
  Qed.

  (** scenes two surfaces deep have a sample function, and its values are what can be seen *)
  Lemma sample_function_exists fuel s cam (g : G) x y :
    0 < ninf -> (forall o, In o (all_objects s) -> sound_object o) -> sMedia s = nil ->
    unit_camera rand2 cam -> lensless cam -> (0 <= sRecursionDepth s <= 2)%Z -> (Z.to_nat (sRecursionDepth s) < fuel)%nat ->
    (forall g, 0 <= fst (fst (rand2 g)) <= 1 /\ 0 <= snd (fst (rand2 g)) <= 1) ->
    exists f, sample_function rand2 fuel s cam x y f /\
      forall l, length l = 4%nat -> in_unit_cube l -> exists q, gives q l /\ seen rand2 s cam q x y (f l).
  Proof.
    intros Hi Ho Hm Hc Hlens Hd Hf Hr.
    exists (fun l => match imageFuncOf rand2 fuel s cam x y (ctxGiving g l) with Val (c, _) => c | _ => black end). split.
    - intros c l Hic Hg Hu. assert (Hg' := Hg). destruct Hg' as (u1 & v1 & u2 & v2 & -> & _ & _).
      assert (S := sample_shallow rand2 fuel s cam x y c (ctxGiving g [u1; v1; u2; v2]) Hd Hlens Hic (ctxGiving_idle g _) (gives_same _ _ _ Hg (ctxGiving_gives g _ _ _ _ Hu))).
      destruct (image_seen rand2 fuel s cam x y c Hi Ho Hm Hc (proj1 Hd) Hf Hic (in_unit_random rand2 _ _ Hr Hg Hu)) as (col & c' & E & _).
      rewrite E in S |- *. unfold same_result in S. destruct (imageFuncOf rand2 fuel s cam x y (ctxGiving g [u1; v1; u2; v2])) as [[col' c'']| |]; try contradiction.
      subst col'. eauto.
    - intros l Hl Hu. destruct l as [|u1 [|v1 [|u2 [|v2 [|? ?]]]]]; try discriminate.
      assert (Hg := ctxGiving_gives g _ _ _ _ Hu). eexists. split; [exact Hg|].
      destruct (image_seen rand2 fuel s cam x y _ Hi Ho Hm Hc (proj1 Hd) Hf (ctxGiving_idle g _) (in_unit_random rand2 _ _ Hr Hg Hu)) as (col & c' & E & Hs).
      rewrite E. exact Hs.
  Qed.
End Limit.
