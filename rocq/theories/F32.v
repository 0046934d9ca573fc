(** IEEE-754 binary32 instance of the scalar interface, on Flocq's
    [BinarySingleNaN] (round to nearest, ties to even; one NaN). *)
From Coq Require Import ZArith Reals Lra Lia Bool.
From Coq Require Import Floats.SpecFloat.
From Flocq Require Import Core.Core IEEE754.BinarySingleNaN.
From Verif Require Import Num.

Global Instance prec24_gt_0 : Prec_gt_0 24 := eq_refl.
Global Instance prec24_lt_128 : Prec_lt_emax 24 128 := eq_refl.

(** C++ float (IEEE-754 single precision). *)
Definition f32 : Type := binary_float 24 128.

Definition f32_ofZ (z : Z) : f32 := binary_normalize 24 128 _ _ mode_NE z 0 false.
Definition f32_lit (n : Z) (d : positive) : f32 :=
  match d with
  | xH => f32_ofZ n
  | _ => Bdiv mode_NE (f32_ofZ n) (f32_ofZ (Zpos d))
  end.

Global Instance Num_F32 : Num f32 := {
  nlit := f32_lit;
  nadd := Bplus mode_NE;
  nsub := Bminus mode_NE;
  nmul := Bmult mode_NE;
  ndiv := Bdiv mode_NE;
  nneg := Bopp;
  nabs := Babs;
  nsqrt := Bsqrt mode_NE;
  nltb := Bltb;
  nleb := Bleb;
  neqb := Beqb
}.

Global Instance NumInf_F32 : NumInf f32 := { ninf := B754_infinity false }.

Definition f32_nan : f32 := B754_nan.

(** Reinterpretation of a 32-bit word as float and back
    (/repo/src/Math/Reinterpret.h:30-45 ReinterpretAsFloat/ReinterpretAsU32);
    NaN payloads are not kept. *)
Definition f32_of_bits (w : Z) : f32 :=
  let s := Z.testbit w 31 in
  let e := ((w / 2^23) mod 256)%Z in
  let m := (w mod 2^23)%Z in
  if Z.eqb e 255 then (if Z.eqb m 0 then B754_infinity s else B754_nan)
  else if Z.eqb e 0 then
    (match m with
     | Zpos p => binary_normalize 24 128 _ _ mode_NE (if s then Zneg p else Zpos p) (-149) s
     | _ => B754_zero s end)
  else binary_normalize 24 128 _ _ mode_NE (if s then - (m + 2^23) else m + 2^23)%Z (e - 150) s.

Definition f32_not_nan (x : f32) : Prop := is_nan x = false.
