(** Reflection lemmas for the real instance. *)
From Coq Require Import ZArith Reals Lra Bool.
From Verif Require Import Num.
Open Scope R_scope.

Lemma Rltb_true x y : Rltb x y = true <-> x < y.
Proof. unfold Rltb; destruct (Rlt_dec x y); split; intros; auto; discriminate || lra. Qed.
Lemma Rltb_false x y : Rltb x y = false <-> y <= x.
Proof. unfold Rltb; destruct (Rlt_dec x y); split; intros; auto; try discriminate; lra. Qed.
Lemma Rleb_true x y : Rleb x y = true <-> x <= y.
Proof. unfold Rleb; destruct (Rle_dec x y); split; intros; auto; discriminate || lra. Qed.
Lemma Rleb_false x y : Rleb x y = false <-> y < x.
Proof. unfold Rleb; destruct (Rle_dec x y); split; intros; auto; try discriminate; lra. Qed.
Lemma Reqb_true x y : Reqb x y = true <-> x = y.
Proof. unfold Reqb; destruct (Req_EM_T x y); split; intros; auto; discriminate || lra. Qed.
Lemma Reqb_false x y : Reqb x y = false <-> x <> y.
Proof. unfold Reqb; destruct (Req_EM_T x y); split; intros; auto; try discriminate; contradiction. Qed.

Lemma Rltb_spec x y : BoolSpec (x < y) (y <= x) (Rltb x y).
Proof. unfold Rltb; destruct (Rlt_dec x y); constructor; lra. Qed.
Lemma Rleb_spec x y : BoolSpec (x <= y) (y < x) (Rleb x y).
Proof. unfold Rleb; destruct (Rle_dec x y); constructor; lra. Qed.
Lemma Reqb_spec x y : BoolSpec (x = y) (x <> y) (Reqb x y).
Proof. unfold Reqb; destruct (Req_EM_T x y); constructor; auto. Qed.

Global Instance OrdLaws_R : OrdLaws R.
Proof.
  refine {| ok := fun _ => True |}; cbn.
  - intros x y _ _. rewrite !Rleb_true. lra.
  - intros x y z. rewrite !Rleb_true. lra.
  - intros x y _ _. destruct (Rltb_spec x y), (Rleb_spec y x); auto; lra.
  - intros x y _ _. destruct (Reqb_spec x y), (Rleb_spec x y), (Rleb_spec y x); cbn; auto; try lra.
  - auto.
  - auto.
Defined.

Lemma n0_R : (n0 : R) = 0. Proof. reflexivity. Qed.
Lemma n1_R : (n1 : R) = 1. Proof. reflexivity. Qed.
Lemma n2_R : (n2 : R) = 2. Proof. reflexivity. Qed.
Lemma nhalf_R : (nhalf : R) = 1/2. Proof. reflexivity. Qed.
Lemma nlit_R n d : (nlit n d : R) = IZR n / IZR (Zpos d).
Proof. destruct d; cbn; try reflexivity. lra. Qed.

(** Turn a real-instance boolean test into a case split. *)
Ltac rcase :=
  match goal with
  | |- context [Rltb ?x ?y] => destruct (Rltb_spec x y)
  | |- context [Rleb ?x ?y] => destruct (Rleb_spec x y)
  | |- context [Reqb ?x ?y] => destruct (Reqb_spec x y)
  end.
Ltac rcase_in H :=
  match type of H with
  | context [Rltb ?x ?y] => destruct (Rltb_spec x y)
  | context [Rleb ?x ?y] => destruct (Rleb_spec x y)
  | context [Reqb ?x ?y] => destruct (Reqb_spec x y)
  end.
(** Expose real operations. *)
Ltac rsimpl :=
  unfold n0, n1, n2, nhalf in *;
  change (@nadd R Num_R) with Rplus in *; change (@nsub R Num_R) with Rminus in *; change (@nmul R Num_R) with Rmult in *;
  change (@ndiv R Num_R) with Rdiv in *; change (@nneg R Num_R) with Ropp in *; change (@nabs R Num_R) with Rabs in *;
  change (@nsqrt R Num_R) with sqrt in *; change (@nltb R Num_R) with Rltb in *; change (@nleb R Num_R) with Rleb in *;
  change (@neqb R Num_R) with Reqb in *; change (@nlit R Num_R) with Rlit in *; cbn [Rlit] in *.
