(** Specification: what a bit pattern of a binary interchange format denotes (IEEE-754, 3.4). *)
From Coq Require Import ZArith Reals Bool.
From Flocq Require Import Core.Core.
Open Scope Z_scope.

(** What a pattern denotes. *)
Inductive fpval : Type := FpNan | FpInf (negative : bool) | FpReal (negative : bool) (magnitude : R).

(** Pattern with a sign bit, [eb] exponent bits, [mb] mantissa bits and the given bias, from its fields. *)
Definition fields_val (eb mb bias : Z) (s : bool) (e m : Z) : fpval :=
  if e =? 2^eb - 1 then (if m =? 0 then FpInf s else FpNan)
  else if e =? 0 then FpReal s (IZR m * bpow radix2 (1 - bias - mb))
  else FpReal s (IZR (2^mb + m) * bpow radix2 (e - bias - mb)).

Definition sign_of (eb mb w : Z) : bool := Z.testbit w (eb + mb).
Definition expo_of (eb mb w : Z) : Z := (w / 2^mb) mod 2^eb.
Definition mant_of (mb w : Z) : Z := w mod 2^mb.
Definition pattern_val (eb mb bias w : Z) : fpval :=
  fields_val eb mb bias (sign_of eb mb w) (expo_of eb mb w) (mant_of mb w).

(** binary16 and binary32. *)
Definition half_val (w : Z) : fpval := pattern_val 5 10 15 w.
Definition float_val (w : Z) : fpval := pattern_val 8 23 127 w.

Definition magnitude (v : fpval) : option R := match v with FpReal _ x => Some x | _ => None end.
