(** Model of the reduced-precision float conversions (/repo/src/Math/MiniFloat.cpp).
    A float is represented by its 32-bit pattern (ReinterpretAsU32 / ReinterpretAsFloat,
    /repo/src/Math/Reinterpret.h:24-47, are then identities). *)
From Coq Require Import ZArith Bool.
From Verif Require Import BitModel.
Open Scope Z_scope.

(** uint16_t truncation. *)
Definition u16 (z : Z) : Z := z mod 2^16.

(** MiniFloat.cpp:5-24 [Float16ToFloat32]. *)
Definition Float16ToFloat32 (float16 : Z) : Z :=
  let sign := u32 (Z.shiftl (Z.land float16 0x8000) 16) in
  let exponent := Z.land float16 0x7C00 in
  let mantissa := Z.land float16 0x03FF in
  let mantissa := u32 (Z.shiftl mantissa 13) in
  let exponent :=
    if exponent =? 0x7C00 then 0xFF
    else if negb (exponent =? 0) then u32 (Z.shiftr exponent 10 - 15 + 127)
    else exponent in
  Z.lor (Z.lor sign (u32 (Z.shiftl exponent 23))) mantissa.

(** MiniFloat.cpp:26-96 [Float32ToFloat16].  The int [trueExponent] is the u32 difference
    converted to int; no int overflow is possible. *)
Definition Float32ToFloat16 (v : Z) : Z :=
  let biasedExponent := Z.shiftr (Z.land v 0x7F800000) 23 in
  let mantissa := Z.land v 0x7FFFFF in
  let sign := Z.shiftr (Z.land v 0x80000000) 16 in
  let maxBiasedExponent := 31 in
  let trueExponent := biasedExponent - 127 in
  let '(newBiasedExponent, mantissa1) :=
    if negb (biasedExponent =? 0xFF) && negb (biasedExponent =? 0) then
      let n := trueExponent + 15 in
      let '(n, m) := if maxBiasedExponent <=? n then (maxBiasedExponent, 0) else (n, mantissa) in
      if n <=? 0 then (0, 0) else (n, m)
    else (biasedExponent, mantissa) in
  let newMantissa := Z.shiftr mantissa1 13 in
  let newMantissa := if (biasedExponent =? 0xFF) && negb (mantissa1 =? 0) && (newMantissa =? 0) then 1 else newMantissa in
  u16 (Z.lor (Z.lor sign (Z.shiftl newBiasedExponent 10)) newMantissa).

(** MiniFloat.cpp:98-151 [Float32ToMiniFloat]. *)
Definition Float32ToMiniFloat (signBit : bool) (exponentBits mantissaBits exponentBias v : Z) : Z :=
  let biasedExponent := Z.shiftr (Z.land v 0x7F800000) 23 in
  let mantissa := Z.land v 0x7FFFFF in
  let sign := negb (Z.land v 0x80000000 =? 0) in
  let '(miniFloat, biasedExponent, mantissa) :=
    if signBit && sign then (u32 (Z.shiftl 1 (exponentBits + mantissaBits)), biasedExponent, mantissa)
    else if sign && negb (biasedExponent =? 0) then (0, 0, 0)
    else (0, biasedExponent, mantissa) in
  let maxBiasedExponent := Z.shiftl 1 exponentBits - 1 in
  let trueExponent := biasedExponent - 127 in
  let '(newBiasedExponent, mantissa1) :=
    if negb (biasedExponent =? 0xFF) && negb (biasedExponent =? 0) then
      let n := trueExponent + exponentBias in
      let '(n, m) := if maxBiasedExponent <=? n then (maxBiasedExponent, 0) else (n, mantissa) in
      if n <=? 0 then (0, 0) else (n, m)
    else (biasedExponent, mantissa) in
  let newMantissa := Z.shiftr mantissa1 (23 - mantissaBits) in
  let newMantissa := if (biasedExponent =? 0xFF) && negb (mantissa1 =? 0) && (newMantissa =? 0) then 1 else newMantissa in
  u32 (Z.lor (Z.lor miniFloat (Z.shiftl newBiasedExponent mantissaBits)) newMantissa).

(** MiniFloat.cpp:153-178 [MiniFloatToFloat32]. *)
Definition MiniFloatToFloat32 (signBit : bool) (exponentBits mantissaBits exponentBias miniFloat : Z) : Z :=
  let sign := if signBit then Z.land miniFloat (u32 (Z.shiftl 1 (exponentBits + mantissaBits))) else 0 in
  let exponent := Z.land (Z.shiftr miniFloat mantissaBits) (u32 (Z.shiftl 1 exponentBits - 1)) in
  let mantissa := Z.land miniFloat (u32 (Z.shiftl 1 mantissaBits - 1)) in
  let mantissa := u32 (Z.shiftl mantissa (23 - mantissaBits)) in
  let exponent :=
    if exponent =? u32 (Z.shiftl 1 exponentBits - 1) then 0xFF
    else if negb (exponent =? 0) then u32 (exponent - exponentBias + 127)
    else exponent in
  Z.lor (Z.lor (if negb (sign =? 0) then 0x80000000 else 0) (u32 (Z.shiftl exponent 23))) mantissa.
