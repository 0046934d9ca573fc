(** Model of the random number generator
    (/repo/src/Algorithm/Random/LCG.h, /repo/src/Algorithm/Random/LCG.cpp). *)
From Coq Require Import ZArith List Bool.
From Flocq Require Import Core.Core IEEE754.BinarySingleNaN.
From Verif Require Import Num F32.
Open Scope Z_scope.

(** LCG.h:120-124, the four public u32 fields. *)
Record lcg : Type := mkLcg {
  lastNumber : Z; multiplier : Z; increment : Z; modulus : Z }.

Definition u32_max : Z := 4294967295.
Definition is_u32 (x : Z) : Prop := 0 <= x <= u32_max.
Definition wf_lcg (g : lcg) : Prop :=
  is_u32 (lastNumber g) /\ is_u32 (multiplier g) /\ is_u32 (increment g) /\ is_u32 (modulus g).

(** LCG.cpp:49-63 [LCG::Seed]; the log message and the assumes are dropped. *)
Definition Seed (seed mul inc mod_ : Z) : lcg :=
  let seed' := if (seed =? 0) && (inc =? 0) then 1 else seed in
  mkLcg seed' mul inc mod_.

(** LCG.h:69-70 / LCG.h:76: the default parameters. *)
Definition defaultMul : Z := 69621.
Definition defaultMod : Z := 2147483647.
Definition SeedDefault (seed : Z) : lcg := Seed seed defaultMul 0 defaultMod.

(** LCG.h:82 *)
Definition MaxInt (g : lcg) : Z := (modulus g - 1) mod 2^32.

(** LCG.cpp:65-74 [LCG::IntFast]; u32 arithmetic wraps. *)
Definition IntFast (g : lcg) : Z * lcg :=
  let mul := (lastNumber g * multiplier g) mod 2^32 in
  let last := (mul + (if mul <=? lastNumber g then 1 else 0)) mod 2^32 in
  (last, mkLcg last (multiplier g) (increment g) (modulus g)).

(** LCG.cpp:76-105 [LCG::Int] (non-Emscripten); u64 arithmetic, then truncation to u32.
    [None] models the division by a zero modulus (undefined behaviour). *)
Definition Int (g : lcg) : option (Z * lcg) :=
  if modulus g =? 0 then None else
  let newNum := ((lastNumber g * multiplier g + increment g) mod 2^64) mod (modulus g) in
  let last := newNum mod 2^32 in
  Some (last, mkLcg last (multiplier g) (increment g) (modulus g)).

(** A history: the generator after n draws of Int(). *)
Fixpoint draws (n : nat) (g : lcg) : option lcg :=
  match n with
  | O => Some g
  | S n' => match Int g with None => None | Some (_, g') => draws n' g' end
  end.
(** The value returned by the (n+1)-st draw. *)
Definition nth_draw (n : nat) (g : lcg) : option Z :=
  match draws n g with
  | None => None
  | Some g' => match Int g' with None => None | Some (v, _) => Some v end
  end.

(** LCG.cpp:123-131 [LCG::Float]. *)
Definition Float (g : lcg) : option (f32 * lcg) :=
  match Int g with
  | None => None
  | Some (v, g') =>
    let i := Z.lor (Z.land v 0x007FFFFF) 0x3F800000 in
    let f := f32_of_bits i in
    Some (nsub f n1, g')
  end.

(** LCG.cpp:133-152 [LCG::Float01Incl]: [k] loop iterations left. *)
Fixpoint Float01Incl_loop (k : nat) (g : lcg) : option (f32 * lcg) :=
  match k with
  | O => Float g
  | S k' =>
    match Int g with
    | None => None
    | Some (v, g') =>
      let val := Z.land v 0x00FFFFFF in
      if 0x800000 <? val then Float01Incl_loop k' g'
      else if val =? 0x800000 then Some (n1, g')
      else Some (nsub (f32_of_bits (Z.lor val 0x3F800000)) n1, g')
    end
  end.
Definition Float01Incl (g : lcg) : option (f32 * lcg) := Float01Incl_loop 100 g.

(** LCG.cpp:154-165 [LCG::FloatNeg1_1]. *)
Definition FloatNeg1_1 (g : lcg) : option (f32 * lcg) :=
  match Int g with
  | None => None
  | Some (v, g') =>
    let one := Z.lor (Z.shiftl (Z.land v 0x00800000) 8 mod 2^32) 0x3F800000 in
    let i := Z.lor one (Z.land v 0x007FFFFF) in
    Some (nsub (f32_of_bits i) (f32_of_bits one), g')
  end.

(** int range and (int)float conversion; out-of-range conversion is undefined behaviour. *)
Definition int_min : Z := -2147483648.
Definition int_max : Z := 2147483647.
Definition in_int (z : Z) : bool := (int_min <=? z) && (z <=? int_max).
Definition f32_to_int (x : f32) : option Z :=
  if is_finite x then (if in_int (Btrunc x) then Some (Btrunc x) else None) else None.
Definition chk_int (z : Z) : option Z := if in_int z then Some z else None.

(** LCG.cpp:107-121 [LCG::Int(int,int)]: the number before the clamping, and the result.
    Signed overflow in b-a, b-a+1 or a+... is undefined behaviour ([None]). *)
Definition IntRange_raw (a b : Z) (g : lcg) : option (Z * lcg) :=
  match chk_int (b - a) with
  | None => None
  | Some d =>
    match chk_int (d + 1) with
    | None => None
    | Some w =>
      match Float g with
      | None => None
      | Some (f, g') =>
        match f32_to_int (nmul f (f32_ofZ w)) with
        | None => None
        | Some k => match chk_int (a + k) with None => None | Some num => Some (num, g') end
        end
      end
    end
  end.
Definition IntRange (a b : Z) (g : lcg) : option (Z * lcg) :=
  match IntRange_raw a b g with
  | None => None
  | Some (num, g') =>
    let num := if num <? a then a else num in
    let num := if b <? num then b else num in
    Some (num, g')
  end.

(** LCG.cpp:167-185 [LCG::Float(float,float)]. *)
Fixpoint FloatRange_loop (k : nat) (a b : f32) (g : lcg) : option (f32 * lcg) :=
  match k with
  | O => Some (a, g)
  | S k' =>
    match Float g with
    | None => None
    | Some (u, g') =>
      let f := nadd a (nmul u (nsub b a)) in
      if negb (neqb f b) then Some (f, g') else FloatRange_loop k' a b g'
    end
  end.
Definition FloatRange (a b : f32) (g : lcg) : option (f32 * lcg) :=
  if neqb a b then Some (a, g) else FloatRange_loop 10 a b g.

(** LCG.cpp:187-195 [LCG::FloatIncl]. *)
Definition FloatIncl (a b : f32) (g : lcg) : option (f32 * lcg) :=
  match Float g with
  | None => None
  | Some (u, g') => Some (nadd a (nmul u (nsub b a)), g')
  end.

(** A use of the public API of class LCG (LCG.h:31-125), to speak about histories of calls. *)
Inductive lcg_op : Type :=
  | OpSeed (seed mul inc mod_ : Z)
  | OpInt | OpIntFast | OpFloat | OpFloat01Incl | OpFloatNeg1_1
  | OpIntRange (a b : Z) | OpFloatRange (a b : f32) | OpFloatIncl (a b : f32).
(** The generator after one call; [None]: undefined behaviour. *)
Definition step (o : lcg_op) (g : lcg) : option lcg :=
  match o with
  | OpSeed s m i d => Some (Seed s m i d)
  | OpInt => option_map snd (Int g)
  | OpIntFast => Some (snd (IntFast g))
  | OpFloat => option_map snd (Float g)
  | OpFloat01Incl => option_map snd (Float01Incl g)
  | OpFloatNeg1_1 => option_map snd (FloatNeg1_1 g)
  | OpIntRange a b => option_map snd (IntRange a b g)
  | OpFloatRange a b => option_map snd (FloatRange a b g)
  | OpFloatIncl a b => option_map snd (FloatIncl a b g)
  end.
Fixpoint run (h : list lcg_op) (g : lcg) : option lcg :=
  match h with
  | nil => Some g
  | cons o h' => match step o g with None => None | Some g' => run h' g' end
  end.
