(** Model of the integer and repeated-squaring functions of /repo/src/Math/MathFunc.cpp.
    int is 32-bit; a signed overflow, an out-of-bounds table access or running out of loop fuel
    is [None] (the fuel given is always the exact bound of the loop). *)
From Coq Require Import ZArith List Bool.
From Verif Require Import Num BitModel.
Import ListNotations.
Open Scope Z_scope.

Definition INT_MAX : Z := 2^31 - 1.
Definition in_i32 (z : Z) : bool := (- 2^31 <=? z) && (z <=? INT_MAX).
(** A signed 32-bit operation: undefined on overflow. *)
Definition i32 (z : Z) : option Z := if in_i32 z then Some z else None.

Definition bind {A B} (o : option A) (f : A -> option B) : option B := match o with Some a => f a | None => None end.
Notation "x <- a ;; b" := (bind a (fun x => b)) (at level 61, a at next level, right associativity).

(** for(int i = i0; i <= n; ++i) body *)
Fixpoint for_le {S : Type} (fuel : nat) (i n : Z) (body : Z -> S -> option S) (s : S) : option S :=
  if i <=? n then
    match fuel with
    | O => None
    | Datatypes.S f => s' <- body i s ;; i' <- i32 (i + 1) ;; for_le f i' n body s'
    end
  else Some s.

(** MathFunc.cpp:544-550 [Factorial]. *)
Definition Factorial (n : Z) : option Z :=
  for_le (Z.to_nat n) 2 n (fun i result => i32 (result * i)) 1.

(** MathFunc.cpp:553-565 [CombinatorialRec].  The recursion depth is bounded by n. *)
Fixpoint CombinatorialRec_fuel (fuel : nat) (n k : Z) : option Z :=
  if (k <=? 0) || (n <=? k) then Some 1
  else match fuel with
       | O => None
       | S f =>
           n1 <- i32 (n - 1) ;; k1 <- i32 (k - 1) ;;
           a <- CombinatorialRec_fuel f n1 k1 ;; b <- CombinatorialRec_fuel f n1 k ;; i32 (a + b)
       end.
Definition CombinatorialRec (n k : Z) : option Z := CombinatorialRec_fuel (Z.to_nat n) n k.

(** Bounds-checked array accesses. *)
Definition get (l : list Z) (i : Z) : option Z := if i <? 0 then None else nth_error l (Z.to_nat i).
Fixpoint upd (l : list Z) (i : nat) (v : Z) : list Z :=
  match l, i with
  | [], _ => []
  | _ :: t, O => v :: t
  | h :: t, S j => h :: upd t j v
  end.
Definition set (l : list Z) (i v : Z) : option (list Z) :=
  if (i <? 0) || (Z.of_nat (length l) <=? i) then None else Some (upd l (Z.to_nat i) v).

Definition MinZ (a b : Z) : Z := if a <=? b then a else b.   (* MathFunc.h:346 [Min] at int *)
Definition MaxZ (a b : Z) : Z := if b <=? a then a else b.   (* MathFunc.h:354 [Max] at int *)

(** MathFunc.cpp:568-589 [CombinatorialTab].  The two halves of [table] are the rows t1 and t2. *)
Definition CombinatorialTab (n k : Z) : option Z :=
  if (k =? 0) || (k =? n) then Some 1
  else if (k <? 0) || (n <? k) then Some 0
  else
    _ <- i32 (2 * (k + 1)) ;;
    let row := repeat 1 (Z.to_nat (k + 1)) in
    r <- for_le (Z.to_nat n) 2 n (fun i '(t1, t2) =>
           t1' <- for_le (Z.to_nat (k + 1)) (MaxZ 1 (i - n + k)) (MinZ k (i - 1)) (fun j t1 =>
                    x <- get t2 j ;; y <- get t2 (j - 1) ;; v <- i32 (x + y) ;; set t1 j v) t1 ;;
           Some (t2, t1')) (row, row) ;;
    get (snd r) k.

(** MathFunc.cpp:591-610 [PowUInt].  The first loop (597-599). *)
Fixpoint find_high (fuel : nat) (exponent e : Z) : Z :=
  match fuel with
  | O => e
  | S f => if (Z.land exponent e =? 0) && (0 <? e) then find_high f exponent (Z.shiftr e 1) else e
  end.
Section Pow.
  Context {T : Type} `{Num T}.
  Open Scope num_scope.
  (** The do-while loop (602-607): [e] has at most 32 bits. *)
  Fixpoint pow_loop (fuel : nat) (base : T) (exponent e : Z) (val : T) : option T :=
    let val := val * val in
    let val := val * (if negb (Z.land exponent e =? 0)%Z then base else n1) in
    let e := Z.shiftr e 1 in
    if (0 <? e)%Z then match fuel with O => None | S f => pow_loop f base exponent e val end
    else Some val.
  Definition PowUInt (base : T) (exponent : Z) : option T :=
    pow_loop 32 base exponent (find_high 33 exponent 0x80000000) n1.
  (** MathFunc.cpp:615-623 [PowInt]; [-exponent] overflows for INT_MIN. *)
  Definition PowInt (base : T) (exponent : Z) : option T :=
    if (exponent =? 0)%Z then Some n1
    else if (exponent <? 0)%Z then
      m <- i32 (- exponent)%Z ;; v <- PowUInt base m ;; Some (n1 / v)
    else PowUInt base exponent.
End Pow.

(** FixedPoint.h, for a signed base type of [w] >= 32 bits (so that no integer promotion happens).
    Left shifts are modelled as multiplication by a power of two, undefined on overflow. *)
Section Fixed.
  Context (w : Z).
  Definition iw (z : Z) : option Z := if (- 2^(w-1) <=? z) && (z <? 2^(w-1)) then Some z else None.
  (** FixedPoint.h:53-70: the three constructors. *)
  Definition fp_of_int (F v : Z) : option Z := iw (v * 2^F).
  Definition fp_of_pair (F whole frac : Z) : option Z := a <- iw (whole * 2^F) ;; iw (a + frac).
  Definition fp_of_ratio (F whole nomin denom : Z) : option Z :=
    if denom =? 0 then None else
    a <- iw (whole * 2^F) ;; b <- iw (nomin * 2^F) ;; q <- iw (Z.quot b denom) ;; iw (a + q).
  (** FixedPoint.h:83-85 [Int], [Frac]. *)
  Definition fp_Int (F a : Z) : Z := Z.shiftr a F.
  Definition fp_Frac (F a : Z) : Z := Z.land a (2^F - 1).
  (** FixedPoint.h:88-97 [Add] with different numbers of fraction bits. *)
  Definition fp_Add (F F2 a b : Z) : option Z :=
    if F2 <? F then s <- iw (b * 2^(F - F2)) ;; iw (a + s)
    else if F <? F2 then iw (a + Z.shiftr b (F2 - F))
    else iw (a + b).
  (** FixedPoint.h:99-103 [Add] of an integer. *)
  Definition fp_AddT (F a v : Z) : option Z := s <- iw (v * 2^F) ;; iw (a + s).
  (** FixedPoint.h:105-114 [Sub]. *)
  Definition fp_Sub (F F2 a b : Z) : option Z :=
    if F2 <? F then s <- iw (b * 2^(F - F2)) ;; iw (a - s)
    else if F <? F2 then iw (a - Z.shiftr b (F2 - F))
    else iw (a - b).
  (** FixedPoint.h:122-126 [Mul] by an integer. *)
  Definition fp_MulT (a v : Z) : option Z := iw (a * v).
  (** FixedPoint.h:130-134 [MulExtraFast]. *)
  Definition fp_MulExtraFast (F2 a b : Z) : option Z := p <- iw (a * b) ;; Some (Z.shiftr p F2).
  (** FixedPoint.h:138-143 [MulFast]. *)
  Definition fp_MulFast (F2 a b : Z) : option Z := iw (Z.shiftr a ((F2 + 1) / 2) * Z.shiftr b (F2 / 2)).
  (** FixedPoint.h:147-153 [MulPrecise]. *)
  Definition fp_MulPrecise (F a b : Z) : option Z :=
    ii <- iw (fp_Int F a * fp_Int F b) ;; hi <- iw (ii * 2^F) ;;
    m1 <- iw (fp_Int F a * fp_Frac F b) ;; m2 <- iw (fp_Frac F a * fp_Int F b) ;; mid <- iw (m1 + m2) ;;
    ff <- iw (fp_Frac F a * fp_Frac F b) ;;
    s <- iw (hi + mid) ;; iw (s + Z.shiftr ff F).
  (** FixedPoint.h:196-200 [Div] by an integer. *)
  Definition fp_DivT (a v : Z) : option Z := if v =? 0 then None else iw (Z.quot a v).
  (** FixedPoint.h:202-206 [DivExtraFast]. *)
  Definition fp_DivExtraFast (F2 a b : Z) : option Z := if b =? 0 then None else n <- iw (a * 2^F2) ;; iw (Z.quot n b).
  (** FixedPoint.h:268-290 comparisons. *)
  Definition fp_ltT (F a v : Z) : bool := fp_Int F a <? v.
  Definition fp_lt (a b : Z) : bool := a <? b.
  Definition fp_eqT (F a v : Z) : bool := a =? v * 2^F.
  Definition fp_eq (a b : Z) : bool := a =? b.
End Fixed.

(** MathFunc.h:471-480: classification of float and double by their bit patterns. *)
Definition IsFinite_f (w : Z) : bool := u32 (Z.shiftl w 1) <? 0xFF000000.
Definition IsNan_f (w : Z) : bool := 0xFF000000 <? u32 (Z.shiftl w 1).
Definition IsInf_f (w : Z) : bool := u32 (Z.shiftl w 1) =? 0xFF000000.
Definition IsFinite_d (w : Z) : bool := u64 (Z.shiftl w 1) <? 0xFFE0000000000000.
Definition IsNan_d (w : Z) : bool := 0xFFE0000000000000 <? u64 (Z.shiftl w 1).
Definition IsInf_d (w : Z) : bool := u64 (Z.shiftl w 1) =? 0xFFE0000000000000.
