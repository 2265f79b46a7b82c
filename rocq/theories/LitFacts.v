(** * Matte surfaces under lights and a sky *)
From Coq Require Import ZArith Reals Bool List Lia Lra Psatz.
From Coquelicot Require Import Coquelicot.
From Verif Require CamProofs.
From Verif Require Import Num NumLaws Outcome GeomModel GeomSpec GeomProofs ColorModel SeqModel SeqSpec HaltonProofs SeqProofs
  SamplerModel SamplerSpec SamplerProofs PoolProofs SamplerNum SamplerFacts ObjModel TreeModel ObjSpec ObjProofs PrimProofs SceneModel SceneSpec SceneProofs CtxProofs
  LookSpec LookProofs SceneFacts SceneMore RenderModel RenderSpec RenderProofs RenderFacts EquiSpec EquiProofs EquiMean EquiIntSpec EquiInt
  DiffuseSpec DiffuseProofs DiffuseFrame LimitSpec LimitProofs LimitFacts EquiAdd.
Import ListNotations.
Local Open Scope R_scope.

Section Lit.
  Context {G : Type} {NI : NumInf R}.
  Variable rand2 : G -> (R * R) * G.

  Lemma lit_seen s cam sq x y Q hits h tex refl m u1 v1 (L : pt -> color R) Dir col :
    sRecursionDepth s = 2%Z -> hseq_generate2 (cs_1 sq) = Val (u1, v1) ->
    (forall (c : ctx R G) r, pool_ok c -> shoots rand2 cam x y c r -> r = Q) ->
    hits_of (sObjectsAndLights s) Q hits -> last_nearest hits h -> hT h <= ninf -> hMat h = Some (MMatte tex) -> tex (hLocal h) = Val refl ->
    facing (rDir Q) (unit_of (hNormal h)) m ->
    (forall total, direct rand2 (drawing sq 1) (sObjects s) (plus3 (along (rStart Q) (rDir Q) (hT h)) (scal3 tinyR m)) m (sLights s) total -> total = Dir) ->
    (forall w sq' b, norm2 w = 1 -> 0 <= dot3 w m ->
      light_at rand2 s sq' 1 MinusLights (Ray (plus3 (along (rStart Q) (rDir Q) (hT h)) (scal3 (2 * tinyR) m)) w) b -> b = L w) ->
    seen rand2 s cam sq x y col -> col = mul_color (add_color Dir (L (cosineSphere u1 v1 m))) refl.
  Proof.
    intros Hd Hg Hq Hh Hn Hle Hm Ht Hf Hdir Hs (c & r & Hp & Sh & Hl). rewrite (Hq c r Hp Sh) in Hl. clear r Sh Hp c.
    rewrite Hd in Hl. change (Z.to_nat 2) with 2%nat in Hl. destruct Hl as (hits' & Hh' & Hl).
    assert (hits' = hits) by (eapply hits_fun; [exact Hh|exact Hh']). subst hits'.
    destruct Hl as [[Hfar _]|(h' & mat & Hn' & _ & Hm' & Hk)].
    - exfalso. destruct (last_nearest_in hits h Hn) as [Hin Hpos]. unfold positive in Hpos. apply Rltb_true in Hpos. specialize (Hfar h Hin Hpos). lra.
    - assert (h' = h) by (eapply last_nearest_unique; eassumption). subst h'. rewrite Hm in Hm'. injection Hm' as <-.
      inversion Hk as [| |tex' refl' m' total c c' u v w b T' F' Di (Hc1 & Hc2) Gen Ew Nw Dw Lw| | | | | | | | |]; subst tex'. subst col.
      rewrite Ht in T'. injection T' as <-. assert (m' = m) by (eapply facing_fun; eassumption). subst m'.
      rewrite Hd in Hc2, Di. change (cDepth c = 1%Z) in Hc2. change (2 - Z.of_nat 1)%Z with 1%Z in Di.
      rewrite (Hdir _ Di). f_equal. f_equal.
      unfold generate2 in Gen. rewrite Hc2, Hc1 in Gen. cbn [Z.eqb Pos.eqb] in Gen. rewrite Hg in Gen. cbn [omap] in Gen.
      assert (u1 = u /\ v1 = v) as [<- <-].
      { apply (f_equal (fun o => match o with Val (p, _) => p | _ => (0, 0) end)) in Gen. split; [exact (f_equal fst Gen)|exact (f_equal snd Gen)]. }
      rewrite <- Ew. eapply Hs; eassumption.
  Qed.

  (** a pixel that shows a matte surface tends to the mean of the light of the lamps plus the light of the hemisphere above it *)
  Lemma lit_limit fuel s cam aa shifts w h (m : nat -> mem R) p q0 x y Q hits ht tex refl n ex ey (L : pt -> color R) (Dir : R -> R -> color R) E (g : G) :
    0 < ninf -> (forall o, In o (all_objects s) -> sound_object o) -> sMedia s = nil -> sRecursionDepth s = 2%Z -> (2 < fuel)%nat ->
    unit_camera rand2 cam -> lensless cam -> (forall g, 0 <= fst (fst (rand2 g)) <= 1 /\ 0 <= snd (fst (rand2 g)) <= 1) ->
    (0 <= w)%Z -> (0 <= h)%Z -> Z.of_nat (length shifts) = (w * h)%Z -> in_image w h p -> sample_pos aa shifts w h p 0 = Val (q0, (x, y)) ->
    renderings rand2 fuel s cam aa shifts w h m ->
    (forall (c : ctx R G) r, pool_ok c -> shoots rand2 cam x y c r -> r = Q) ->
    hits_of (sObjectsAndLights s) Q hits -> last_nearest hits ht -> hT ht <= ninf -> hMat ht = Some (MMatte tex) -> tex (hLocal ht) = Val refl ->
    facing (rDir Q) (unit_of (hNormal ht)) n -> orthonormal ex ey n ->
    (forall sq u v total, hseq_generate2 (cs_1 sq) = Val (u, v) -> 0 <= u < 1 -> 0 <= v < 1 ->
      direct rand2 (drawing sq 1) (sObjects s) (plus3 (along (rStart Q) (rDir Q) (hT ht)) (scal3 tinyR n)) n (sLights s) total -> total = Dir u v) ->
    color_integral 2 (fun l => match l with [u; v] => Dir u v | _ => no_light end) E ->
    continuous_light (fun w => cR (L w)) -> continuous_light (fun w => cG (L w)) -> continuous_light (fun w => cB (L w)) ->
    (forall w sq' b, norm2 w = 1 -> 0 <= dot3 w n ->
      light_at rand2 s sq' 1 MinusLights (Ray (plus3 (along (rStart Q) (rDir Q) (hT ht)) (scal3 (2 * tinyR) n)) w) b -> b = L w) ->
    tends_to (fun k => imagef (m k) p)
      (Color ((cR E + cosine_average ex ey n (fun w => cR (L w))) * cR refl) ((cG E + cosine_average ex ey n (fun w => cG (L w))) * cG refl)
             ((cB E + cosine_average ex ey n (fun w => cB (L w))) * cB refl)).
  Proof.
    intros Hi Ho Hm Hd Hf Hc Hle Hr Hw Hh Hl Hp E0 Hren Hq Hh' Hn Hfar Hmat Ht Hfac HF HD HE C1 C2 C3 Hs.
    destruct (sample_function_exists rand2 fuel s cam g x y Hi Ho Hm Hc Hle ltac:(lia) ltac:(rewrite Hd; exact Hf) Hr) as (f & Sf & Seen).
    apply (pixel_limit rand2 fuel s cam aa shifts w h m p q0 x y f); auto.
    assert (Ff : forall l, length l = 4%nat -> in_unit_cube l -> f l = match l with [a; b; _; _] => mul_color (add_color (Dir a b) (L (cosineSphere a b n))) refl | _ => no_light end).
    { intros l H4 Hu. destruct (Seen l H4 Hu) as (sq & (u1 & v1 & u2 & v2 & -> & G1 & G2) & Hse).
      unfold in_unit_cube in Hu. inversion Hu as [|? ? U1 Hu1]; subst. inversion Hu1 as [|? ? V1 _]; subst.
      eapply (lit_seen s cam sq x y Q hits ht tex refl n u1 v1 L); eauto. }
    assert (K : forall pr : color R -> R, (forall a b, pr (mul_color a b) = pr a * pr b) -> (forall a b, pr (add_color a b) = pr a + pr b) ->
      continuous_light (fun w => pr (L w)) -> cube_integral 2 (fun l => pr (match l with [u; v] => Dir u v | _ => no_light end)) (pr E) ->
      cube_integral 4 (fun l => pr (f l)) ((pr E + cosine_average ex ey n (fun w => pr (L w))) * pr refl)).
    { intros pr Hpr Hpa Cp HEp. rewrite Rmult_comm.
      apply (cube_integral_ext 4 (fun l => pr refl * (first_two (fun l => pr (match l with [u; v] => Dir u v | _ => no_light end)) l + first_two (hemi_fun (fun w => pr (L w)) n) l))).
      - intros l H4 Hu. rewrite (Ff l H4 Hu). destruct l as [|a [|b [|c [|d [|? ?]]]]]; try discriminate H4. cbn [first_two hemi_fun]. rewrite Hpr, Hpa. ring.
      - apply cube_integral_scale, cube_integral_plus; [now apply cube_integral_2_4|]. now apply hemisphere_integral. }
    destruct HE as (HE1 & HE2 & HE3).
    split; [|split]; cbn [cR cG cB]; apply K; auto; reflexivity.
  Qed.
End Lit.
