(** Scalar interface shared by the whole geometry model.

    The C++ code computes with [float].  Every geometric definition of the
    model is polymorphic in the record [Num] below and is instantiated with
    the real numbers ([Num_R], here) and with IEEE-754 binary32
    ([Num_F32], file F32.v). *)
From Coq Require Import ZArith Reals Lra Bool.

(** Arithmetic on [float] as the C++ uses it (scalar path; /repo/src/MathBuildConfig.h,
    /repo/src/MathGeoLibFwd.h: vec = float3).  [nlit n d] is the literal n/d. *)
Class Num (T : Type) : Type := {
  nlit : Z -> positive -> T;
  nadd : T -> T -> T;
  nsub : T -> T -> T;
  nmul : T -> T -> T;
  ndiv : T -> T -> T;
  nneg : T -> T;
  nabs : T -> T;
  nsqrt : T -> T;
  nltb : T -> T -> bool;
  nleb : T -> T -> bool;
  neqb : T -> T -> bool
}.

Declare Scope num_scope.
Delimit Scope num_scope with num.
Infix "+" := nadd : num_scope.
Infix "-" := nsub : num_scope.
Infix "*" := nmul : num_scope.
Infix "/" := ndiv : num_scope.
Notation "- x" := (nneg x) : num_scope.
Infix "<?" := nltb : num_scope.
Infix "<=?" := nleb : num_scope.
Infix "=?" := neqb : num_scope.
Notation "x >? y" := (nltb y x) (only parsing) : num_scope.
Notation "x >=? y" := (nleb y x) (only parsing) : num_scope.

Definition n0 {T} `{Num T} : T := nlit 0 1.
Definition n1 {T} `{Num T} : T := nlit 1 1.
Definition n2 {T} `{Num T} : T := nlit 2 1.
Definition nhalf {T} `{Num T} : T := nlit 1 2.

(** ** Real instance *)

Definition Rltb (x y : R) : bool := if Rlt_dec x y then true else false.
Definition Rleb (x y : R) : bool := if Rle_dec x y then true else false.
Definition Reqb (x y : R) : bool := if Req_EM_T x y then true else false.

(** The literal n/d. *)
Definition Rlit (n : Z) (d : positive) : R := match d with xH => IZR n | _ => (IZR n / IZR (Zpos d))%R end.

Global Instance Num_R : Num R := {
  nlit n d := Rlit n d;
  nadd := Rplus;
  nsub := Rminus;
  nmul := Rmult;
  ndiv := Rdiv;
  nneg := Ropp;
  nabs := Rabs;
  nsqrt := sqrt;
  nltb := Rltb;
  nleb := Rleb;
  neqb := Reqb
}.

(** ** Infinity: only where the code uses FLOAT_INF (/repo/src/Math/MathConstants.h:59). *)
Class NumInf (T : Type) `{Num T} : Type := { ninf : T }.

(** ** Ordered-scalar laws

    What comparison-only code needs.  [ok] is "not NaN": R satisfies the laws
    with every number ok, binary32 with every non-NaN number ok (infinities and
    both zeroes included). *)
Class OrdLaws (T : Type) `{Num T} : Type := {
  ok : T -> Prop;
  leb_total : forall x y, ok x -> ok y -> nleb x y = true \/ nleb y x = true;
  leb_trans : forall x y z, nleb x y = true -> nleb y z = true -> nleb x z = true;
  ltb_leb : forall x y, ok x -> ok y -> nltb x y = negb (nleb y x);
  eqb_leb : forall x y, ok x -> ok y -> neqb x y = (nleb x y && nleb y x)%bool;
  leb_ok : forall x y, nleb x y = true -> ok x /\ ok y;
  ltb_ok : forall x y, nltb x y = true -> ok x /\ ok y
}.
