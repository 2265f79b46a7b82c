(** * Facts about the number instances of Num.v *)
From Coq Require Import ZArith Reals Bool List Lra Lia.
From Flocq Require Import Core.
From Flocq Require IEEE754.BinarySingleNaN.
Import IEEE754.BinarySingleNaN.
From Verif Require Import Num.

(** ** Booleans of the real instance *)
Lemma Rltb_true x y : Rltb x y = true <-> (x < y)%R.
Proof. unfold Rltb; destruct (Rlt_dec x y); split; intros; try lra; congruence. Qed.
Lemma Rltb_false x y : Rltb x y = false <-> (y <= x)%R.
Proof. unfold Rltb; destruct (Rlt_dec x y); split; intros; try lra; congruence. Qed.
Lemma Rleb_true x y : Rleb x y = true <-> (x <= y)%R.
Proof. unfold Rleb; destruct (Rle_dec x y); split; intros; try lra; congruence. Qed.
Lemma Rleb_false x y : Rleb x y = false <-> (y < x)%R.
Proof. unfold Rleb; destruct (Rle_dec x y); split; intros; try lra; congruence. Qed.
Lemma Reqb_true x y : Reqb x y = true <-> x = y.
Proof. unfold Reqb; destruct (Req_EM_T x y); split; intros; try lra; congruence. Qed.
Lemma Reqb_false x y : Reqb x y = false <-> x <> y.
Proof. unfold Reqb; destruct (Req_EM_T x y); split; intros; try lra; congruence. Qed.

Lemma Rltb_spec x y : BoolSpec (x < y)%R (y <= x)%R (Rltb x y).
Proof. unfold Rltb; destruct (Rlt_dec x y); constructor; lra. Qed.
Lemma Rleb_spec x y : BoolSpec (x <= y)%R (y < x)%R (Rleb x y).
Proof. unfold Rleb; destruct (Rle_dec x y); constructor; lra. Qed.
Lemma Reqb_spec x y : BoolSpec (x = y)%R (x <> y)%R (Reqb x y).
Proof. unfold Reqb; destruct (Req_EM_T x y); constructor; lra. Qed.

(** Destruct every comparison of reals in the goal. *)
Ltac rcase :=
  repeat match goal with
  | |- context [Rltb ?a ?b] => destruct (Rltb_spec a b)
  | |- context [Rleb ?a ?b] => destruct (Rleb_spec a b)
  | |- context [Reqb ?a ?b] => destruct (Reqb_spec a b)
  end.

(** ** Order on extended reals *)
Definition xnan (x : xr) : bool := match x with XNaN => true | _ => false end.

Lemma xltb_irrefl x : xltb x x = false.
Proof. destruct x; simpl; auto. apply Rltb_false; lra. Qed.

Lemma xltb_trans x y z : xltb x y = true -> xltb y z = true -> xltb x z = true.
Proof.
  destruct x, y, z; simpl; try congruence; auto.
  rewrite !Rltb_true; lra.
Qed.

Lemma xltb_nan_l x : xltb XNaN x = false.
Proof. reflexivity. Qed.
Lemma xltb_nan_r x : xltb x XNaN = false.
Proof. destruct x; reflexivity. Qed.
Lemma xleb_nan_l x : xleb XNaN x = false.
Proof. destruct x; reflexivity. Qed.
Lemma xleb_nan_r x : xleb x XNaN = false.
Proof. destruct x; reflexivity. Qed.

Lemma xleb_ltb x y : xnan x = false -> xnan y = false -> xleb x y = negb (xltb y x).
Proof.
  destruct x, y; simpl; try congruence; intros _ _; unfold xleb; simpl; auto.
  destruct (Rltb_spec r r0), (Reqb_spec r r0), (Rltb_spec r0 r); simpl; auto; lra.
Qed.

Lemma xleb_refl x : xnan x = false -> xleb x x = true.
Proof. intros H. rewrite xleb_ltb by auto. now rewrite xltb_irrefl. Qed.

Lemma xleb_not_nan x y : xleb x y = true -> xnan x = false /\ xnan y = false.
Proof. destruct x, y; cbn; intros; split; auto; discriminate. Qed.
Lemma xltb_not_nan x y : xltb x y = true -> xnan x = false /\ xnan y = false.
Proof. destruct x, y; cbn; intros; split; auto; discriminate. Qed.

Lemma xltb_leb x y : xltb x y = true -> xleb x y = true.
Proof. unfold xleb; now intros ->. Qed.

Lemma xltb_asym x y : xltb x y = true -> xltb y x = false.
Proof.
  intros H. destruct (xltb y x) eqn:E; auto.
  generalize (xltb_trans _ _ _ H E). now rewrite xltb_irrefl.
Qed.

Lemma xle_lt_trans x y z : xleb x y = true -> xltb y z = true -> xltb x z = true.
Proof.
  destruct x, y, z; cbn; try congruence; auto.
  all: unfold xleb; cbn; rewrite ?orb_true_iff, ?Rltb_true, ?Reqb_true; try lra; auto.
Qed.
Lemma xlt_le_trans x y z : xltb x y = true -> xleb y z = true -> xltb x z = true.
Proof.
  destruct x, y, z; cbn; try congruence; auto.
  all: unfold xleb; cbn; rewrite ?orb_true_iff, ?Rltb_true, ?Reqb_true; try lra; auto.
Qed.
Lemma xle_trans x y z : xleb x y = true -> xleb y z = true -> xleb x z = true.
Proof.
  destruct x, y, z; cbn; try congruence; auto.
  all: unfold xleb; cbn; rewrite ?orb_true_iff, ?Rltb_true, ?Reqb_true; try lra; auto.
Qed.
Lemma xle_antisym x y : xleb x y = true -> xleb y x = true -> x = y.
Proof.
  destruct x, y; cbn; try congruence; auto.
  unfold xleb; cbn; rewrite ?orb_true_iff, ?Rltb_true, ?Reqb_true.
  intros; f_equal; lra.
Qed.
Lemma xeqb_true x y : xeqb x y = true -> x = y.
Proof. destruct x, y; cbn; try congruence. rewrite Reqb_true. congruence. Qed.

(** ** Every instance compares through a position on the extended real line *)
Class NumKey (F : Type) `{Num F} : Type := {
  nkey : F -> xr;
  nkey_ltb : forall x y, nltb x y = xltb (nkey x) (nkey y);
  nkey_leb : forall x y, nleb x y = xleb (nkey x) (nkey y);
  nkey_eqb : forall x y, neqb x y = xeqb (nkey x) (nkey y);
  nkey_nan : forall x, nisnan x = xnan (nkey x);
  nkey_ofZ0 : nkey (nofZ 0) = XF 0
}.

#[export] Instance NumKeyX : NumKey xr.
Proof. refine {| nkey := fun x => x |}; reflexivity. Defined.

Lemma Rleb_ltb_eqb x y : Rleb x y = Rltb x y || Reqb x y.
Proof. destruct (Rltb_spec x y), (Reqb_spec x y), (Rleb_spec x y); simpl; auto; lra. Qed.

#[export] Instance NumKeyR : NumKey R.
Proof.
  refine {| nkey := XF |}; try reflexivity.
  intros; unfold xleb; cbn. apply Rleb_ltb_eqb.
Defined.

Definition b64_key (x : b64) : xr :=
  match x with
  | B754_zero _ => XF 0
  | B754_infinity false => XP
  | B754_infinity true => XN
  | B754_nan => XNaN
  | B754_finite _ _ _ _ => XF (B2R x)
  end.

Lemma b64_key_finite x : is_finite x = true -> b64_key x = XF (B2R x).
Proof. destruct x as [s|[]| |]; simpl; auto; discriminate. Qed.

Lemma Bltb_finite (x y : b64) : is_finite x = true -> is_finite y = true ->
  Bltb x y = Rltb (B2R x) (B2R y).
Proof.
  intros Hx Hy. rewrite Bltb_correct by auto.
  destruct (Rlt_bool_spec (B2R x) (B2R y)), (Rltb_spec (B2R x) (B2R y)); auto; lra.
Qed.
Lemma Bleb_finite (x y : b64) : is_finite x = true -> is_finite y = true ->
  Bleb x y = Rleb (B2R x) (B2R y).
Proof.
  intros Hx Hy. rewrite Bleb_correct by auto.
  destruct (Rle_bool_spec (B2R x) (B2R y)), (Rleb_spec (B2R x) (B2R y)); auto; lra.
Qed.
Lemma Beqb_finite (x y : b64) : is_finite x = true -> is_finite y = true ->
  Beqb x y = Reqb (B2R x) (B2R y).
Proof.
  intros Hx Hy. rewrite Beqb_correct by auto.
  destruct (Req_bool_spec (B2R x) (B2R y)), (Reqb_spec (B2R x) (B2R y)); auto; lra.
Qed.

Lemma b64_key_ltb (x y : b64) : Bltb x y = xltb (b64_key x) (b64_key y).
Proof.
  destruct (is_finite x) eqn:Fx, (is_finite y) eqn:Fy.
  - rewrite !b64_key_finite by auto. simpl. now apply Bltb_finite.
  - rewrite (b64_key_finite x) by auto.
    destruct y as [s|[]| |s m e p]; try discriminate; destruct x as [s'|s'| |[] m' e' p']; try discriminate; reflexivity.
  - rewrite (b64_key_finite y) by auto.
    destruct x as [s|[]| |s m e p]; try discriminate; destruct y as [s'|s'| |[] m' e' p']; try discriminate; reflexivity.
  - destruct x as [s|[]| |s m e p]; try discriminate; destruct y as [s'|[]| |[] m' e' p']; try discriminate; reflexivity.
Qed.
Lemma b64_key_eqb (x y : b64) : Beqb x y = xeqb (b64_key x) (b64_key y).
Proof.
  destruct (is_finite x) eqn:Fx, (is_finite y) eqn:Fy.
  - rewrite !b64_key_finite by auto. simpl. now apply Beqb_finite.
  - rewrite (b64_key_finite x) by auto.
    destruct y as [s|[]| |s m e p]; try discriminate; destruct x as [s'|s'| |[] m' e' p']; try discriminate; reflexivity.
  - rewrite (b64_key_finite y) by auto.
    destruct x as [s|[]| |s m e p]; try discriminate; destruct y as [s'|s'| |[] m' e' p']; try discriminate; reflexivity.
  - destruct x as [s|[]| |s m e p]; try discriminate; destruct y as [s'|[]| |[] m' e' p']; try discriminate; reflexivity.
Qed.
Lemma b64_key_leb (x y : b64) : Bleb x y = xleb (b64_key x) (b64_key y).
Proof.
  destruct (is_finite x) eqn:Fx, (is_finite y) eqn:Fy.
  - rewrite !b64_key_finite by auto. unfold xleb; simpl. rewrite <- Rleb_ltb_eqb. now apply Bleb_finite.
  - rewrite (b64_key_finite x) by auto.
    destruct y as [s|[]| |s m e p]; try discriminate; destruct x as [s'|s'| |[] m' e' p']; try discriminate; reflexivity.
  - rewrite (b64_key_finite y) by auto.
    destruct x as [s|[]| |s m e p]; try discriminate; destruct y as [s'|s'| |[] m' e' p']; try discriminate; reflexivity.
  - destruct x as [s|[]| |s m e p]; try discriminate; destruct y as [s'|[]| |[] m' e' p']; try discriminate; reflexivity.
Qed.

#[export] Instance NumKeyB : NumKey b64.
Proof.
  refine {| nkey := b64_key |}.
  - exact b64_key_ltb.
  - exact b64_key_leb.
  - exact b64_key_eqb.
  - intros x; destruct x as [s|[]| |]; reflexivity.
  - reflexivity.
Defined.

(** ** Order laws at every instance *)
Section Laws.
  Context {F : Type} `{NF : Num F} {K : NumKey F}.
  Implicit Types x y z : F.

  Lemma nltb_irrefl x : nltb x x = false.
  Proof. rewrite nkey_ltb. apply xltb_irrefl. Qed.
  Lemma nltb_trans x y z : nltb x y = true -> nltb y z = true -> nltb x z = true.
  Proof. rewrite !nkey_ltb. apply xltb_trans. Qed.
  Lemma nltb_asym x y : nltb x y = true -> nltb y x = false.
  Proof. rewrite !nkey_ltb. apply xltb_asym. Qed.
  Lemma nltb_leb x y : nltb x y = true -> nleb x y = true.
  Proof. rewrite nkey_ltb, nkey_leb. apply xltb_leb. Qed.
  Lemma nleb_ltb x y : nisnan x = false -> nisnan y = false -> nleb x y = negb (nltb y x).
  Proof. rewrite !nkey_nan, nkey_ltb, nkey_leb. apply xleb_ltb. Qed.
  Lemma nleb_refl x : nisnan x = false -> nleb x x = true.
  Proof. rewrite nkey_nan, nkey_leb. apply xleb_refl. Qed.
  Lemma nleb_trans x y z : nleb x y = true -> nleb y z = true -> nleb x z = true.
  Proof. rewrite !nkey_leb. apply xle_trans. Qed.
  Lemma nlt_le_trans x y z : nltb x y = true -> nleb y z = true -> nltb x z = true.
  Proof. rewrite !nkey_ltb, !nkey_leb. apply xlt_le_trans. Qed.
  Lemma nle_lt_trans x y z : nleb x y = true -> nltb y z = true -> nltb x z = true.
  Proof. rewrite !nkey_ltb, !nkey_leb. apply xle_lt_trans. Qed.
  Lemma nltb_not_nan x y : nltb x y = true -> nisnan x = false /\ nisnan y = false.
  Proof. rewrite nkey_ltb, !nkey_nan. apply xltb_not_nan. Qed.
  Lemma nleb_not_nan x y : nleb x y = true -> nisnan x = false /\ nisnan y = false.
  Proof. rewrite nkey_leb, !nkey_nan. apply xleb_not_nan. Qed.
  Lemma nltb_nan_l x y : nisnan x = true -> nltb x y = false.
  Proof. intros H. destruct (nltb x y) eqn:E; auto. apply nltb_not_nan in E. destruct E; congruence. Qed.
  Lemma nltb_nan_r x y : nisnan y = true -> nltb x y = false.
  Proof. intros H. destruct (nltb x y) eqn:E; auto. apply nltb_not_nan in E. destruct E; congruence. Qed.
  Lemma nleb_nan_l x y : nisnan x = true -> nleb x y = false.
  Proof. intros H. destruct (nleb x y) eqn:E; auto. apply nleb_not_nan in E. destruct E; congruence. Qed.
  Lemma nleb_nan_r x y : nisnan y = true -> nleb x y = false.
  Proof. intros H. destruct (nleb x y) eqn:E; auto. apply nleb_not_nan in E. destruct E; congruence. Qed.
  Lemma nltb_false_leb x y : nisnan x = false -> nisnan y = false -> nltb x y = false -> nleb y x = true.
  Proof. intros Hx Hy H. rewrite nleb_ltb by auto. now rewrite H. Qed.
  Lemma nleb_false_ltb x y : nisnan x = false -> nisnan y = false -> nleb x y = false -> nltb y x = true.
  Proof. intros Hx Hy H. rewrite nleb_ltb in H by auto. now destruct (nltb y x). Qed.
  Lemma nisnan_0 : nisnan (nofZ 0) = false.
  Proof. rewrite nkey_nan, nkey_ofZ0. reflexivity. Qed.
End Laws.
