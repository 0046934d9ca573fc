(** Model of the scalar helper functions (/repo/src/Math/MathFunc.h, MathFunc.cpp, MathOps.cpp,
    Interpolate.h, Polynomial.cpp). *)
From Coq Require Import ZArith Bool Reals.
From Coq Require Import Floats.SpecFloat.
From Flocq Require Import Core.Core IEEE754.BinarySingleNaN.
From Verif Require Import Num F32 BitModel.

(** floorf and fmod of the C library. *)
Class NumRound (T : Type) `{Num T} : Type := { nfloor : T -> T; nfmod : T -> T -> T }.

Global Instance NumRound_R : NumRound R := {
  nfloor x := IZR (Zfloor x);
  nfmod x y := (x - IZR (Ztrunc (x / y)) * y)%R
}.

(** fmod is exact in binary floating point; the sign of the result is the sign of x. *)
Definition f32_fmod (x y : f32) : f32 :=
  match x, y with
  | B754_nan, _ | _, B754_nan | B754_infinity _, _ | _, B754_zero _ => B754_nan
  | B754_zero _, _ | _, B754_infinity _ => x
  | B754_finite sx mx ex _, B754_finite _ my ey _ =>
      let e := Z.min ex ey in
      let r := Z.rem (Zpos mx * 2^(ex - e)) (Zpos my * 2^(ey - e)) in
      binary_normalize 24 128 _ _ mode_NE (if sx then - r else r)%Z e sx
  end.
Global Instance NumRound_F32 : NumRound f32 := {
  nfloor := Bnearbyint mode_DN;
  nfmod := f32_fmod
}.

Section Scalar.
  Context {T : Type} `{NT : Num T}.
  Open Scope num_scope.

  (** MathFunc.h:329-334 [Clamp]. *)
  Definition Clamp (val floor ceil : T) : T :=
    if val <=? ceil then (if val >=? floor then val else floor) else ceil.
  (** MathFunc.h:338-339 [Clamp01]. *)
  Definition Clamp01 (val : T) : T := Clamp val n0 n1.
  (** MathFunc.h:343-347 [Min], 350-355 [Max] and the float specialisations 357-365, 375-383. *)
  Definition Min (a b : T) : T := if a <=? b then a else b.
  Definition Max (a b : T) : T := if a >=? b then a else b.
  (** MathFunc.h:367-373 [Min] of three, 385-391 [Max] of three, 393-399 and 401-407 of four. *)
  Definition Min3 (a b c : T) : T := Min (Min a b) c.
  Definition Max3 (a b c : T) : T := Max (Max a b) c.
  Definition Min4 (a b c d : T) : T := Min (Min a b) (Min c d).
  Definition Max4 (a b c d : T) : T := Max (Max a b) (Max c d).
  (** MathFunc.h:424-438 [Abs]. *)
  Definition Abs (a : T) : T := if a >=? n0 then a else - a.

  (** MathOps.cpp:24-27 [EqualAbs], 29-33 [RelativeError], 35-39 [EqualRel]. *)
  Definition EqualAbs (a b epsilon : T) : bool := Abs (a - b) <? epsilon.
  Definition RelativeError (a b : T) : T := if a =? b then n0 else Abs ((a - b) / Max (Abs a) (Abs b)).
  Definition EqualRel (a b maxRelError : T) : bool :=
    if a =? b then true else Abs (a - b) <=? maxRelError * Max (Abs a) (Abs b).

  (** MathFunc.cpp:461-469 [Sign], [SignOrZero]. *)
  Definition Sign (x : T) : T := if x >=? n0 then n1 else - n1.
  Definition SignOrZero (x epsilon : T) : T := if Abs x <=? epsilon then n0 else Sign x.
  (** MathFunc.cpp:471-474 [Lerp], 491-495 [InvLerp], 497-500 [Step], 502-505 [Ramp]. *)
  Definition Lerp (a b t : T) : T := a + t * (b - a).
  Definition InvLerp (a b x : T) : T := (x - a) / (b - a).
  Definition Step (y x : T) : T := if x >=? y then n1 else n0.
  Definition Ramp (min max x : T) : T := if x <=? min then n0 else if x >=? max then n1 else (x - min) / (max - min).

  (** Polynomial.cpp:23-41 [SolveQuadratic]: number of roots and the roots written. *)
  Definition SolveQuadratic (a b c : T) : Z * option T * option T :=
    let radicand := b * b - nlit 4 1 * a * c in
    if radicand <? nlit (-1) 1000000 then (0%Z, None, None)
    else
      let denom := n1 / (n2 * a) in
      if radicand <? nlit 1 1000000 then (1%Z, Some (- b * denom), None)
      else
        let radicand := nsqrt radicand in
        (2%Z, Some ((- b + radicand) * denom), Some ((- b - radicand) * denom)).

  (** Interpolate.h:29-140. *)
  Definition SmoothStart (t : T) : T := t * t.
  Definition SmoothStart3 (t : T) : T := t * t * t.
  Definition SmoothStart4 (t : T) : T := let tt := t * t in tt * tt.
  Definition SmoothStart5 (t : T) : T := let tt := t * t in tt * tt * t.
  Definition SmoothStop (t : T) : T := let oneT := n1 - t in n1 - oneT * oneT.
  Definition SmoothStop3 (t : T) : T := let oneT := n1 - t in n1 - oneT * oneT * oneT.
  Definition SmoothStop4 (t : T) : T := let oneT := n1 - t in let oneT := oneT * oneT in n1 - oneT * oneT.
  Definition SmoothStop5 (t : T) : T := let oneT := n1 - t in let oneT2 := oneT * oneT in n1 - oneT2 * oneT2 * oneT.
  Definition SharpStep (t : T) : T := let tt := t * t in t * (n2 * tt + n2 - nlit 3 1 * t).
  Definition SmoothStep (t : T) : T := let tt := t * t in nlit 3 1 * tt - n2 * tt * t.
  Definition SmoothStep5 (t : T) : T := let tt := t * t in tt * t * (nlit 6 1 * tt - nlit 15 1 * t + nlit 10 1).
  Definition SmoothStep7 (t : T) : T :=
    let tt := t * t in let tttt := tt * tt in
    tttt * (nlit (-20) 1 * tt * t + nlit 70 1 * tt - nlit 84 1 * t + nlit 35 1).

  Context `{NR : !NumRound T}.
  (** MathFunc.cpp:441-444 [Floor], 451-454 [Round]. *)
  Definition Floor (x : T) : T := nfloor x.
  Definition Round (x : T) : T := Floor (x + nhalf).
  (** MathFunc.cpp:513-516 [Mod], 524-528 [ModPos], 507-511 [PingPongMod], 536-539 [Frac]. *)
  Definition Mod (x md : T) : T := nfmod x md.
  Definition ModPos (x md : T) : T := let m := nfmod x md in if m >=? n0 then m else m + md.
  Definition PingPongMod (x md : T) : T :=
    let x := Mod x (md * n2) in if x >=? md then n2 * md - x else x.
  Definition Frac (x : T) : T := x - Floor x.
  (** MathFunc.cpp:476-489 [LerpMod]. *)
  Definition LerpMod (a b md t : T) : T :=
    let a := ModPos a md in
    let b := ModPos b md in
    if Abs (b - a) * n2 <=? md then Lerp a b t
    else if a <? b then ModPos (Lerp (a + md) b t) md
    else ModPos (Lerp a (b + md) t) md.
End Scalar.

Open Scope Z_scope.
(** MathOps.cpp:41-66 [EqualUlps] on the bit patterns; the final subtraction is signed (None on overflow).
    [0x80000000 - intA] is computed in unsigned arithmetic and converted back to int. *)
Definition s32 (z : Z) : Z := let m := z mod 2^32 in if m <? 2^31 then m else m - 2^32.
Definition ulp_key (w : Z) : Z := let i := s32 w in if i <? 0 then s32 (0x80000000 - i) else i.
Definition EqualUlps (a b maxUlps : Z) : option bool :=
  let d := ulp_key a - ulp_key b in
  if (d <? - 2^31) || (2^31 <=? d) then None
  else if d =? - 2^31 then None (* Abs(INT_MIN) overflows *)
  else Some (Z.abs d <=? maxUlps).
