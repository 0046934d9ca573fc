(** Model of the bit utilities and power-of-two helpers
    (/repo/src/Math/BitOps.h, /repo/src/Math/BitOps.cpp, /repo/src/Math/MathFunc.cpp). *)
From Coq Require Import ZArith List Bool.
Import ListNotations.
Open Scope Z_scope.

(** Unsigned wrap-around of u32 and u64 (/repo/src/Math/MathTypes.h). *)
Definition u32 (z : Z) : Z := z mod 2^32.
Definition u64 (z : Z) : Z := z mod 2^64.

(** Signed ranges; an int expression outside its range is undefined behaviour. *)
Definition s32_ok (z : Z) : bool := (-(2^31) <=? z) && (z <? 2^31).
Definition s64_ok (z : Z) : bool := (-(2^63) <=? z) && (z <? 2^63).

(** BitOps.h:30-39 [CountBitsSet].  [None] would mean the while loop was still running
    after [fuel] iterations. *)
Fixpoint CountBitsSet_loop (fuel : nat) (value bits : Z) : option Z :=
  if value =? 0 then Some bits
  else match fuel with
       | O => None
       | S f => CountBitsSet_loop f (Z.land value (u32 (value - 1))) (bits + 1)
       end.
Definition CountBitsSet (value : Z) : option Z := CountBitsSet_loop 32 value 0.

(** BitOps.h:42-51 [ExtractLSB] for a 64-bit unsigned long: [1 << i] is an int, so for i = 31 it
    is INT_MIN and is sign-extended when combined with the unsigned long. Result: index and new word. *)
Definition int_bit (i : Z) : Z := if i =? 31 then 2^64 - 2^31 else 2^i.
Fixpoint ExtractLSB_loop (k : nat) (i : Z) (value : Z) : Z * Z :=
  match k with
  | O => (-1, value)
  | S k' =>
    if negb (Z.land value (int_bit i) =? 0)
    then (i, Z.land value (u64 (Z.lnot (int_bit i))))
    else ExtractLSB_loop k' (i + 1) value
  end.
Definition ExtractLSB (value : Z) : Z * Z := ExtractLSB_loop 32 0 value.

(** BitOps.h:89-95 [LSB], BitOps.h:97-103 [LSB64]. *)
Definition LSB (bits : Z) : Z := if 32 <=? bits then 0xFFFFFFFF else u32 (u32 (Z.shiftl 1 bits) - 1).
Definition LSB64 (bits : Z) : Z := if 64 <=? bits then 0xFFFFFFFFFFFFFFFF else u64 (u64 (Z.shiftl 1 bits) - 1).
(** BitOps.h:123-126 [BitMask], BitOps.h:128-131 [BitMask64]; complement of an unsigned word. *)
Definition BitMask (pos bits : Z) : Z := Z.land (LSB (u32 (pos + bits))) (u32 (Z.lnot (LSB pos))).
Definition BitMask64 (pos bits : Z) : Z := Z.land (LSB64 (u64 (pos + bits))) (u64 (Z.lnot (LSB64 pos))).

(** BitOps.h:147-158 [PackBits], ResultType = u32. *)
Definition PackBits (APos ABits RPos RBits GPos GBits BPos BBits a r g b : Z) : Z :=
  Z.lor (Z.lor (Z.lor
    (Z.land (u32 (Z.shiftl a APos)) (BitMask APos ABits))
    (Z.land (u32 (Z.shiftl r RPos)) (BitMask RPos RBits)))
    (Z.land (u32 (Z.shiftl g GPos)) (BitMask GPos GBits)))
    (Z.land (u32 (Z.shiftl b BPos)) (BitMask BPos BBits)).
(** BitOps.h:172-176 [ExtractBits], u32 in, u32 out. *)
Definition ExtractBits (pos bits inp : Z) : Z := Z.land (Z.shiftr inp pos) (BitMask 0 bits).

(** BitOps.cpp:24-32 [BinaryStringToValue]: the string is given as the list of
    "character is not '0'" flags, first character first. *)
Fixpoint BinaryStringToValue_loop (rev_str : list bool) (i : nat) (val : Z) : Z :=
  match rev_str with
  | nil => val
  | c :: rest =>
    if (Nat.ltb i 32) then BinaryStringToValue_loop rest (S i) (if c then Z.lor val (u32 (Z.shiftl 1 (Z.of_nat i))) else val)
    else val
  end.
Definition BinaryStringToValue (str : list bool) : Z := BinaryStringToValue_loop (rev str) 0 0.

(** MathFunc.cpp:327-335 [IsPow2]. *)
Definition IsPow2_32 (number : Z) : bool := Z.land number (u32 (number - 1)) =? 0.
Definition IsPow2_64 (number : Z) : bool := Z.land number (u64 (number - 1)) =? 0.

(** The repeated [x |= x >> k] of MathFunc.cpp:341-345 etc. *)
Definition or_shift (k x : Z) : Z := Z.lor x (Z.shiftr x k).
Definition smear32 (x : Z) : Z := or_shift 16 (or_shift 8 (or_shift 4 (or_shift 2 (or_shift 1 x)))).
Definition smear64 (x : Z) : Z := or_shift 32 (smear32 x).

(** MathFunc.cpp:337-364 [RoundUpPow2]. *)
Definition RoundUpPow2_32 (x : Z) : Z := u32 (smear32 (u32 (x - 1)) + 1).
Definition RoundUpPow2_64 (x : Z) : Z := u64 (smear64 (u64 (x - 1)) + 1).
(** MathFunc.cpp:366-387 [RoundDownPow2]. *)
Definition RoundDownPow2_32 (x : Z) : Z := let x := smear32 x in u32 (x - Z.shiftr x 1).
Definition RoundDownPow2_64 (x : Z) : Z := let x := smear64 x in u64 (x - Z.shiftr x 1).

(** MathFunc.cpp:389-399 [RoundIntUpToMultipleOfPow2]; [None]: signed overflow of x + n or x + n - 1. *)
Definition RoundIntUpToMultipleOfPow2_32 (x n : Z) : option Z :=
  if s32_ok (x + n) && s32_ok (x + n - 1) then Some (Z.land (x + n - 1) (Z.lnot (n - 1))) else None.
Definition RoundIntUpToMultipleOfPow2_64 (x n : Z) : option Z :=
  if s64_ok (x + n) && s64_ok (x + n - 1) then Some (Z.land (x + n - 1) (Z.lnot (n - 1))) else None.
