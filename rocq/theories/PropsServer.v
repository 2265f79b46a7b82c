(** * Properties C69, C70, C89, C91, C96: the render server *)
From Coq Require Import ZArith Bool List Lia.
From Verif Require Import Num Outcome GeomModel SceneFacts ApiModel ServerModel ServerSpec ServerProofs ServerFacts ApiSpec.
Import ListNotations.

(** ** C69 *)
Theorem C69_no_channel_is_closed_twice :
  forall (V : Type) (veqb : V -> V -> bool) (bad : V -> bool) rs s ts,
    reachable veqb bad rs s ts -> NoDup (svClosed s) /\ ~ In (TDone Cancel RCrash) ts.
Proof. exact @never_closed_twice. Qed.
Print Assumptions C69_no_channel_is_closed_twice.

Theorem C69_two_bakes_on_one_sampler_refuted :
  forall (V : Type) (veqb : V -> V -> bool) (bad : V -> bool) v, veqb v v = true -> bad v = false ->
    exists s ts, reachable veqb bad [Bake v; Cancel; Bake v] s ts /\ sampling_on 0 ts = 2%nat.
Proof. exact @overlap. Qed.
Print Assumptions C69_two_bakes_on_one_sampler_refuted.

Theorem C69_bakes_in_progress_partial :
  forall (V : Type) (veqb : V -> V -> bool) (bad : V -> bool) rs s ts id,
    reachable veqb bad rs s ts -> (sampling_on id ts <= in_progress ts <= 1 + cancels rs)%nat.
Proof. exact @bounded_bakes. Qed.
Print Assumptions C69_bakes_in_progress_partial.

(** a second bake is refused while the first one runs *)
Example C69_example : exists s ts, reachable Nat.eqb (fun _ => false) [Bake 7; Bake 8] s ts /\
  in_progress ts = 1%nat /\ In (TDone (Bake 8) RError) ts.
Proof.
  do 2 eexists. split.
  - unfold reachable. cbn [map].
    eapply (snoc _ _ _ _ _ [_] _ []); [|reflexivity|eapply st_busy].
    eapply (snoc _ _ _ _ _ [] _ [_]); [apply css_refl|reflexivity|eapply st_prepare; reflexivity]. reflexivity.
  - split; [reflexivity|]. right. left. reflexivity.
Qed.

(** ** C70 *)
Theorem C70_passes_accumulate_per_view :
  forall (V : Type) (veqb : V -> V -> bool) (bad : V -> bool), (forall a b, veqb a b = true <-> a = b) ->
    forall s h, history veqb bad s h ->
    Forall (fun r => match r with Bake v | Preview v => bad v = false | Cancel => True end) (map fst h) ->
    forall h1 r resp h2, h = h1 ++ (r, resp) :: h2 ->
    match r with
    | Bake v => resp = RImage v (counting (S (streak veqb v (rev (map fst h1))))) false
    | Cancel => resp = ROk
    | Preview v => resp = RImage v [1%Z] false
    end.
Proof. exact (fun V veqb bad Hv s h Hh Hw => proj2 (@served V veqb bad Hv s h Hh Hw)). Qed.
Print Assumptions C70_passes_accumulate_per_view.

Theorem C70_every_request_is_answered :
  forall (V : Type) (veqb : V -> V -> bool) (bad : V -> bool), (forall a b, veqb a b = true <-> a = b) ->
    forall rs, Forall (fun r => match r with Bake v | Preview v => bad v = false | Cancel => True end) rs ->
    exists s h, history veqb bad s h /\ map fst h = rs.
Proof. exact @all_served. Qed.
Print Assumptions C70_every_request_is_answered.

(** views 7, 7, 9, 7 *)
Example C70_example : forall s h, history Nat.eqb (fun _ => false) s h ->
  map fst h = [Bake 7; Bake 7; Cancel; Bake 9; Preview 3; Bake 7; Bake 7; Bake 7] ->
  map snd h = [RImage 7%nat [1] false; RImage 7%nat [1; 2] false; ROk; RImage 9%nat [1] false; RImage 3%nat [1] false;
               RImage 7%nat [1] false; RImage 7%nat [1; 2] false; RImage 7%nat [1; 2; 3] false]%Z.
Proof.
  intros s h Hh E.
  assert (Hw : Forall (fun r => match r with Bake v | Preview v => false = false | Cancel => True end) (map fst h)).
  { rewrite E. repeat constructor. }
  pose proof (C70_passes_accumulate_per_view nat Nat.eqb (fun _ => false) Nat.eqb_eq s h Hh Hw) as P.
  do 8 (destruct h as [|[? ?] h]; [discriminate|]). destruct h; [|discriminate]. cbn in E. injection E as -> -> -> -> -> -> -> ->.
  pose proof (P [] _ _ _ eq_refl) as P1. pose proof (P [_] _ _ _ eq_refl) as P2. pose proof (P [_; _] _ _ _ eq_refl) as P3.
  pose proof (P [_; _; _] _ _ _ eq_refl) as P4. pose proof (P [_; _; _; _] _ _ _ eq_refl) as P5. pose proof (P [_; _; _; _; _] _ _ _ eq_refl) as P6.
  pose proof (P [_; _; _; _; _; _] _ _ _ eq_refl) as P7. pose proof (P [_; _; _; _; _; _; _] _ _ _ eq_refl) as P8.
  cbn in *. now subst.
Qed.

(** ** C89 *)
Theorem C89_responses_show_another_view_refuted :
  forall (V : Type) (veqb : V -> V -> bool) (bad : V -> bool) v1 v2, veqb v1 v2 = false -> bad v1 = false -> bad v2 = false ->
    exists s ts, reachable veqb bad [Bake v1; Cancel; Bake v2] s ts /\ In (TDone (Bake v1) (RImage v2 nil false)) ts.
Proof. exact @stolen. Qed.
Print Assumptions C89_responses_show_another_view_refuted.

Theorem C89_own_view_without_cancels_partial :
  forall (V : Type) (veqb : V -> V -> bool) (bad : V -> bool) rs s ts v w calls torn,
    cancels rs = 0%nat -> reachable veqb bad rs s ts -> In (TDone (Bake v) (RImage w calls torn)) ts ->
    (w = v \/ veqb w v = true) /\ torn = false.
Proof. exact @own_views. Qed.
Print Assumptions C89_own_view_without_cancels_partial.

(** ** C91 *)
Theorem C91_cancelled_bakes_go_on_refuted :
  forall (V : Type) (veqb : V -> V -> bool) (bad : V -> bool) v, bad v = false -> exists s1 s2 c id,
    reachable veqb bad [Bake v; Cancel] s1 [TSampling v c id 1; TDone Cancel ROk] /\ In c (svClosed s1) /\
    csteps veqb bad (s1, [TSampling v c id 1; TDone Cancel ROk]) (s2, [TDone (Bake v) (RImage v [1%Z] false); TDone Cancel ROk]).
Proof. exact @goes_on. Qed.
Print Assumptions C91_cancelled_bakes_go_on_refuted.

Theorem C91_cancel_admits_the_next_bake_partial :
  forall (V : Type) (veqb : V -> V -> bool) (bad : V -> bool) rs s l r s' resp v,
    reachable veqb bad rs s (l ++ TStart Cancel :: r) -> tstep veqb bad s (TStart Cancel) s' (TDone Cancel resp) ->
    resp = ROk /\ prepareBakery veqb bad v s' <> PError.
Proof. exact @cancel_frees. Qed.
Print Assumptions C91_cancel_admits_the_next_bake_partial.

(** ** C96 *)
Theorem C96_one_bad_request_blocks_the_server_refuted :
  forall (V : Type) (veqb : V -> V -> bool) (bad : V -> bool) v ws, bad v = true ->
    exists s, history veqb bad s ((Bake v, RCrash) :: map (fun w => (Bake w, RError)) ws).
Proof. exact @blocked. Qed.
Print Assumptions C96_one_bad_request_blocks_the_server_refuted.

Theorem C96_renderable_views_are_never_refused_partial :
  forall (V : Type) (veqb : V -> V -> bool) (bad : V -> bool), (forall a b, veqb a b = true <-> a = b) ->
    forall s h, history veqb bad s h ->
    Forall (fun r => match r with Bake v | Preview v => bad v = false | Cancel => True end) (map fst h) ->
    forall r resp, In (r, resp) h -> resp <> RError /\ resp <> RCrash.
Proof. exact @never_refused. Qed.
Print Assumptions C96_renderable_views_are_never_refused_partial.

(** isometric direction 3 cannot be rendered *)
Definition askew : view b64 := View 64 48 false (Vec (nofZ 0) (nofZ 0) (nofZ 0)) (nofZ 0) (nofZ 0) 0 true (nofZ 1) 3.
Example C96_bad_view : forall (TF : Trig b64) (M L Med : Type) (nm n2 fb : M) (s : spec b64 M L Med),
  viewApplyTo nm n2 fb askew s = Panic.
Proof. intros TF M L Med nm n2 fb s. unfold viewApplyTo. destruct (spCamera s); reflexivity. Qed.
