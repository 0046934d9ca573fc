(** Exact arithmetic with infinities: the real numbers extended by +-infinity and NaN, with the IEEE 754 rules for them but no
    rounding and one unsigned zero.  Used where the code computes with FLOAT_INF and rounding is not the point (C56). *)
From Coq Require Import Reals Lra ZArith Bool.
From Verif Require Import Num NumR.
Open Scope R_scope.

Inductive xr := XNaN | X (x : R) | XP | XM.
Definition xsgn (x : R) : xr := if Rlt_dec 0 x then XP else if Rlt_dec x 0 then XM else XNaN.
Definition xneg a := match a with XNaN => XNaN | X x => X (- x) | XP => XM | XM => XP end.
Definition xadd a b :=
  match a, b with
  | X x, X y => X (x + y)
  | XNaN, _ | _, XNaN | XP, XM | XM, XP => XNaN
  | XP, _ | _, XP => XP
  | XM, _ | _, XM => XM
  end.
Definition xmul a b :=
  match a, b with
  | X x, X y => X (x * y)
  | XNaN, _ | _, XNaN => XNaN
  | X x, XP | XP, X x => xsgn x
  | X x, XM | XM, X x => xneg (xsgn x)
  | XP, XP | XM, XM => XP
  | XP, XM | XM, XP => XM
  end.
Definition xdiv a b :=
  match a, b with
  | X x, X y => if Req_EM_T y 0 then xsgn x else X (x / y)
  | XNaN, _ | _, XNaN => XNaN
  | X _, _ => X 0
  | XP, X y => if Rle_dec 0 y then XP else XM
  | XM, X y => if Rle_dec 0 y then XM else XP
  | _, _ => XNaN
  end.
Definition xle a b : Prop :=
  match a, b with X x, X y => x <= y | XNaN, _ | _, XNaN => False | XM, _ | _, XP => True | _, _ => False end.
Definition xleb a b : bool :=
  match a, b with X x, X y => Rleb x y | XNaN, _ | _, XNaN => false | XM, _ | _, XP => true | _, _ => false end.
Definition xltb a b : bool :=
  match a, b with X x, X y => Rltb x y | XNaN, _ | _, XNaN | XM, XM | XP, _ => false | XM, _ | _, XP => true | _, _ => false end.
Definition xeqb a b : bool :=
  match a, b with X x, X y => Reqb x y | XP, XP | XM, XM => true | _, _ => false end.
Definition xabs a := match a with X x => X (Rabs x) | XM => XP | _ => a end.
Definition xsqrt a := match a with X x => if Rlt_dec x 0 then XNaN else X (sqrt x) | XP => XP | _ => XNaN end.

Global Instance Num_X : Num xr := {
  nlit n d := X (Rlit n d); nadd := xadd; nsub a b := xadd a (xneg b); nmul := xmul; ndiv := xdiv; nneg := xneg; nabs := xabs;
  nsqrt := xsqrt; nltb := xltb; nleb := xleb; neqb := xeqb }.
Global Instance NumInf_X : NumInf xr := { ninf := XP }.

Lemma xleb_true a b : xleb a b = true <-> xle a b.
Proof. destruct a, b; cbn; try rewrite Rleb_true; split; auto; discriminate || tauto. Qed.
Global Instance OrdLaws_X : OrdLaws xr.
Proof.
  refine {| ok := fun a => a <> XNaN |}; cbn.
  - intros [| | |] [| | |] H1 H2; cbn; try congruence; auto. rewrite !Rleb_true. lra.
  - intros [| | |] [| | |] [| | |]; cbn; try congruence. rewrite !Rleb_true. lra.
  - intros [| | |] [| | |] H1 H2; cbn; try congruence. destruct (Rltb_spec x x0), (Rleb_spec x0 x); auto; lra.
  - intros [| | |] [| | |] H1 H2; cbn; try congruence.
    destruct (Reqb_spec x x0), (Rleb_spec x x0), (Rleb_spec x0 x); cbn; auto; lra.
  - intros [| | |] [| | |]; cbn; try congruence; split; congruence.
  - intros [| | |] [| | |]; cbn; try congruence; split; congruence.
Defined.
