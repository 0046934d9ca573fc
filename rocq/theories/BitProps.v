(** Properties C10 (powers of two) and C11 (bit utilities). *)
From Coq Require Import ZArith List Bool Lia.
From Verif Require Import BitModel BitSpec BitProofs.
Import ListNotations.
Open Scope Z_scope.

(** ** C10 *)
Theorem C10_is_pow2 : forall n,
  (0 <= n < 2^32 -> (IsPow2_32 n = true <-> n = 0 \/ is_pow2 n)) /\
  (0 <= n < 2^64 -> (IsPow2_64 n = true <-> n = 0 \/ is_pow2 n)).
Proof. intros n. split; intros H; [apply (IsPow2_gen 32)|apply (IsPow2_gen 64)]; lia. Qed.
Print Assumptions C10_is_pow2.

Lemma up_spec w sm x : 0 < w -> (forall x, 0 <= x -> window x w (sm x)) -> 0 < x <= 2^(w-1) ->
  least_pow2_above x ((sm ((x - 1) mod 2^w) + 1) mod 2^w).
Proof.
  intros Hw W [H0 H1]. destruct (round_up_val w sm x Hw W H0 H1) as (k & K & E & A & B). rewrite E.
  split; [exists k; auto|]. split; [exact A|]. intros q (j & J & ->) Q. now apply B.
Qed.
Lemma down_spec w sm x : 0 < w -> (forall x, 0 <= x -> window x w (sm x)) -> 0 < x < 2^w ->
  greatest_pow2_below x ((sm x - Z.shiftr (sm x) 1) mod 2^w).
Proof.
  intros Hw W H. destruct (round_down_val w sm x Hw W H) as (k & K & E & A & B). rewrite E.
  split; [exists k; auto|]. split; [exact A|]. intros q (j & J & ->) Q. now apply B.
Qed.

(** RoundUpPow2: least power of two >= x whenever that fits (x <= 2^31 resp. 2^63), documented 0 otherwise. *)
Theorem C10_round_up : forall x,
  (0 < x <= 2^31 -> least_pow2_above x (RoundUpPow2_32 x)) /\
  (x = 0 \/ 2^31 < x < 2^32 -> RoundUpPow2_32 x = 0) /\
  (0 < x <= 2^63 -> least_pow2_above x (RoundUpPow2_64 x)) /\
  (x = 0 \/ 2^63 < x < 2^64 -> RoundUpPow2_64 x = 0).
Proof.
  intros x. split; [|split; [|split]].
  - intros H. apply (up_spec 32 smear32); [lia|exact smear32_window|exact H].
  - intros [->|H]; [reflexivity|]. apply (round_up_overflow 32 smear32); [lia|exact smear32_window|exact H].
  - intros H. apply (up_spec 64 smear64); [lia|exact smear64_window|exact H].
  - intros [->|H]; [reflexivity|]. apply (round_up_overflow 64 smear64); [lia|exact smear64_window|exact H].
Qed.
Print Assumptions C10_round_up.

Theorem C10_round_down : forall x,
  (0 < x < 2^32 -> greatest_pow2_below x (RoundDownPow2_32 x)) /\
  (0 < x < 2^64 -> greatest_pow2_below x (RoundDownPow2_64 x)) /\
  RoundDownPow2_32 0 = 0 /\ RoundDownPow2_64 0 = 0.
Proof.
  intros x. split; [|split; [|split; reflexivity]].
  - intros H. apply (down_spec 32 smear32); [lia|exact smear32_window|exact H].
  - intros H. apply (down_spec 64 smear64); [lia|exact smear64_window|exact H].
Qed.
Print Assumptions C10_round_down.

Lemma multiple_spec x n : is_pow2 n -> least_multiple_above x n (Z.land (x + n - 1) (Z.lnot (n - 1))).
Proof.
  intros (k & K & ->). destruct (round_multiple x k K) as [D [A B]].
  split; [exact D|]. split; [exact A|]. intros q [t ->] Q. destruct D as [u D]. rewrite D in *.
  assert (P : 0 < 2^k) by (apply Z.pow_pos_nonneg; lia).
  assert (L : (u - t) * 2^k < 1 * 2^k) by lia. apply Z.mul_lt_mono_pos_r in L; [|exact P].
  apply Z.mul_le_mono_nonneg_r; lia.
Qed.
(** For a power of two n (negative x too), when x+n and x+n-1 do not overflow. *)
Theorem C10_round_multiple : forall x n, is_pow2 n ->
  (-(2^31) <= x -> x + n < 2^31 ->
     exists r, RoundIntUpToMultipleOfPow2_32 x n = Some r /\ least_multiple_above x n r) /\
  (-(2^63) <= x -> x + n < 2^63 ->
     exists r, RoundIntUpToMultipleOfPow2_64 x n = Some r /\ least_multiple_above x n r).
Proof.
  intros x n P. assert (N : 0 < n) by (destruct P as (k & K & ->); apply Z.pow_pos_nonneg; lia).
  split; intros A B; eexists; (split; [|apply multiple_spec; exact P]).
  - unfold RoundIntUpToMultipleOfPow2_32, s32_ok.
    replace ((-(2^31) <=? x + n) && (x + n <? 2^31)) with true by (symmetry; apply andb_true_iff; lia).
    replace ((-(2^31) <=? x + n - 1) && (x + n - 1 <? 2^31)) with true by (symmetry; apply andb_true_iff; lia). reflexivity.
  - unfold RoundIntUpToMultipleOfPow2_64, s64_ok.
    replace ((-(2^63) <=? x + n) && (x + n <? 2^63)) with true by (symmetry; apply andb_true_iff; lia).
    replace ((-(2^63) <=? x + n - 1) && (x + n - 1 <? 2^63)) with true by (symmetry; apply andb_true_iff; lia). reflexivity.
Qed.
Print Assumptions C10_round_multiple.

Example C10_witness : RoundUpPow2_32 1000000001 = 2^30 /\ RoundDownPow2_64 (2^40 + 5) = 2^40 /\
  RoundUpPow2_32 (2^31 + 1) = 0 /\ RoundIntUpToMultipleOfPow2_32 (-37) 16 = Some (-32) /\
  IsPow2_32 (2^31) = true /\ IsPow2_32 12 = false /\ is_pow2 16.
Proof. repeat split; try (vm_compute; reflexivity). exists 4. split; [lia|reflexivity]. Qed.

(** ** C11 *)

Theorem C11_count_bits : forall v, 0 <= v < 2^32 -> CountBitsSet v = Some (popcount 32 v).
Proof.
  exact CountBits_ok.
Qed.
Print Assumptions C11_count_bits.

Theorem C11_masks : forall pos bits i, 0 <= pos -> 0 <= bits -> pos + bits <= 32 -> 0 <= i ->
  Z.testbit (LSB bits) i = (i <? bits) /\
  Z.testbit (BitMask pos bits) i = ((pos <=? i) && (i <? pos + bits))%bool.
Proof.
  intros p n i Hp Hn Hb Hi. rewrite LSB_bits, BitMask_bits by lia. split.
  - destruct (Z.ltb_spec i n), (Z.ltb_spec i 32); auto; lia.
  - destruct (Z.leb_spec p i), (Z.ltb_spec i (p + n)), (Z.ltb_spec i 32); auto; lia.
Qed.
Print Assumptions C11_masks.
Theorem C11_masks64 : forall pos bits i, 0 <= pos -> 0 <= bits -> pos + bits <= 64 -> 0 <= i ->
  Z.testbit (LSB64 bits) i = (i <? bits) /\
  Z.testbit (BitMask64 pos bits) i = ((pos <=? i) && (i <? pos + bits))%bool.
Proof.
  intros p n i Hp Hn Hb Hi. rewrite LSB64_bits, BitMask64_bits by lia. split.
  - destruct (Z.ltb_spec i n), (Z.ltb_spec i 64); auto; lia.
  - destruct (Z.leb_spec p i), (Z.ltb_spec i (p + n)), (Z.ltb_spec i 64); auto; lia.
Qed.
Print Assumptions C11_masks64.
Example C11_masks64_witness : LSB64 64 = 2^64 - 1 /\ BitMask64 40 8 = 0xFF0000000000 /\ LSB64 0 = 0.
Proof. repeat split. Qed.

(** Two bit fields do not overlap. *)
Definition disjoint_fields (p n q m : Z) : Prop := p + n <= q \/ q + m <= p.
Definition field_ok (p n : Z) : Prop := 0 <= p /\ 0 <= n /\ p + n <= 32.

(** Extracting a field of a packed word gives the packed value reduced to the field's width, and the
    packed word has no bit outside the fields. *)
Theorem C11_pack_extract : forall ap an rp rn gp gn bp bn a r g b,
  field_ok ap an -> field_ok rp rn -> field_ok gp gn -> field_ok bp bn ->
  disjoint_fields ap an rp rn -> disjoint_fields ap an gp gn -> disjoint_fields ap an bp bn ->
  disjoint_fields rp rn gp gn -> disjoint_fields rp rn bp bn -> disjoint_fields gp gn bp bn ->
  let w := PackBits ap an rp rn gp gn bp bn a r g b in
  ExtractBits ap an w = a mod 2^an /\ ExtractBits rp rn w = r mod 2^rn /\
  ExtractBits gp gn w = g mod 2^gn /\ ExtractBits bp bn w = b mod 2^bn /\
  (forall i, 0 <= i -> Z.testbit w i = true ->
     ap <= i < ap + an \/ rp <= i < rp + rn \/ gp <= i < gp + gn \/ bp <= i < bp + bn).
Proof.
  intros ap an rp rn gp gn bp bn a r g b (A1&A2&A3) (R1&R2&R3) (G1&G2&G3) (B1&B2&B3) D1 D2 D3 D4 D5 D6 w.
  unfold disjoint_fields in *.
  assert (WB : forall i, 0 <= i -> Z.testbit w i =
    (((ap <=? i) && (i <? ap + an) && Z.testbit a (i - ap)) || ((rp <=? i) && (i <? rp + rn) && Z.testbit r (i - rp)) ||
     ((gp <=? i) && (i <? gp + gn) && Z.testbit g (i - gp)) || ((bp <=? i) && (i <? bp + bn) && Z.testbit b (i - bp)))%bool).
  { intros i Hi. unfold w, PackBits. rewrite !Z.lor_spec, !field_bits by lia. reflexivity. }
  repeat match goal with |- _ /\ _ => split end.
  1-4: apply Z.bits_inj'; intros i Hi; rewrite Extract_bits, mod_pow2_bits, WB by lia;
    match goal with |- _ = (Z.testbit ?v ?i && (?i <? ?n))%bool =>
      destruct (Z.ltb_spec i n); [|now rewrite !andb_false_r]; rewrite !andb_true_r end;
    repeat match goal with |- context [?x <=? ?y] => destruct (Z.leb_spec x y); try lia end;
    repeat match goal with |- context [?x <? ?y] => destruct (Z.ltb_spec x y); try lia end; cbn;
    rewrite ?orb_false_r, ?Z.add_simpl_r; auto.
  intros i Hi E. rewrite WB in E by exact Hi. rewrite !orb_true_iff, !andb_true_iff in E.
  repeat rewrite Z.leb_le in E. repeat rewrite Z.ltb_lt in E. tauto.
Qed.
Print Assumptions C11_pack_extract.

Example C11_witness : CountBitsSet 0xF0F0F0F1 = Some 17 /\
  PackBits 24 8 16 8 8 8 0 8 0x12 0x34 0x156 0x78 = 0x12345678 /\ ExtractBits 8 8 0x12345678 = 0x56 /\
  field_ok 24 8 /\ disjoint_fields 24 8 16 8.
Proof. repeat split; try (vm_compute; reflexivity); try lia. unfold disjoint_fields. lia. Qed.

(** ExtractLSB on a word below 2^32: index of the lowest set bit, which is cleared; -1 for zero. *)
Lemma int_bit_land v i : 0 <= v < 2^32 -> 0 <= i < 32 ->
  (Z.land v (int_bit i) =? 0) = negb (Z.testbit v i) /\
  Z.land v (u64 (Z.lnot (int_bit i))) = Z.ldiff v (2^i).
Proof.
  intros Hv Hi.
  assert (BI : forall j, 0 <= j < 32 -> Z.testbit (int_bit i) j = (j =? i)).
  { intros j Hj. unfold int_bit. destruct (Z.eqb_spec i 31) as [->|N].
    - assert (Z.testbit (2^64 - 2^31) j = (j =? 31)) as ->; [|reflexivity].
      replace (2^64 - 2^31) with (Z.ones 33 * 2^31) by reflexivity.
      destruct (Z.eqb_spec j 31) as [->|]; [reflexivity|]. apply Z.mul_pow2_bits_low. lia.
    - rewrite Z.pow2_bits_eqb by lia. apply Z.eqb_sym. }
  split.
  - destruct (Z.testbit v i) eqn:E; cbn.
    + apply Z.eqb_neq. intros Z0. assert (Z.testbit (Z.land v (int_bit i)) i = true)
        by (rewrite Z.land_spec, E, BI, Z.eqb_refl by lia; reflexivity). rewrite Z0, Z.bits_0 in H. discriminate.
    + apply Z.eqb_eq. apply Z.bits_inj'. intros j Hj. rewrite Z.land_spec, Z.bits_0.
      destruct (Z.lt_ge_cases j 32); [|rewrite (testbit_out 32 v j) by lia; reflexivity].
      rewrite BI by lia. destruct (Z.eqb_spec j i); [subst; rewrite E; reflexivity|apply andb_false_r].
  - apply Z.bits_inj'. intros j Hj. rewrite Z.land_spec, Z.ldiff_spec. unfold u64. rewrite mod_pow2_bits, Z.lnot_spec by lia.
    destruct (Z.lt_ge_cases j 32); [|rewrite (testbit_out 32 v j) by lia; reflexivity].
    rewrite BI, Z.pow2_bits_eqb by lia. destruct (Z.ltb_spec j 64); [|lia]. rewrite andb_true_r.
    now rewrite Z.eqb_sym.
Qed.
Lemma ExtractLSB_loop_ok k : forall i v, 0 <= v < 2^32 -> 0 <= i -> i + Z.of_nat k = 32 ->
  (forall j, 0 <= j < i -> Z.testbit v j = false) ->
  (exists n, ExtractLSB_loop k i v = (n, Z.ldiff v (2^n)) /\ 0 <= n < 32 /\ Z.testbit v n = true /\ forall j, 0 <= j < n -> Z.testbit v j = false)
  \/ (v = 0 /\ ExtractLSB_loop k i v = (-1, 0)).
Proof.
  induction k as [|k IH]; intros i v Hv Hi E L.
  - right. assert (v = 0) as ->; [|auto]. apply Z.bits_inj'. intros j Hj. rewrite Z.bits_0.
    destruct (Z.lt_ge_cases j 32); [apply L; lia|apply (testbit_out 32 v j); lia].
  - cbn [ExtractLSB_loop]. destruct (int_bit_land v i Hv ltac:(lia)) as [A B]. rewrite A, negb_involutive.
    destruct (Z.testbit v i) eqn:T.
    + left. exists i. rewrite B. repeat split; auto; lia.
    + apply IH; auto; try lia. intros j J. destruct (Z.eq_dec j i); [subst; exact T|apply L; lia].
Qed.
Theorem C11_extract_lsb : forall v, 0 <= v < 2^32 ->
  (v = 0 /\ ExtractLSB v = (-1, 0)) \/
  exists n, ExtractLSB v = (n, Z.ldiff v (2^n)) /\ 0 <= n < 32 /\ Z.testbit v n = true /\
    forall j, 0 <= j < n -> Z.testbit v j = false.
Proof.
  intros v H. destruct (ExtractLSB_loop_ok 32 0 v H) as [E|E]; try lia; auto.
Qed.
Print Assumptions C11_extract_lsb.

(** Finding (LP64): for an unsigned long with bits only above bit 31, ExtractLSB reports index 31
    although bit 31 is clear, and wipes all the high bits. *)
Theorem C11_extract_lsb_high_refuted : Z.testbit (2^40 + 2^50) 31 = false /\ ExtractLSB (2^40 + 2^50) = (31, 0).
Proof. split; vm_compute; reflexivity. Qed.
Print Assumptions C11_extract_lsb_high_refuted.

(** BinaryStringToValue: bit i of the value is the i-th character from the end (of the last 32). *)
Lemma BSV_loop l : forall i val, (forall j, Z.of_nat i <= j -> Z.testbit val j = false) ->
  forall j : nat, Z.testbit (BinaryStringToValue_loop l i val) (Z.of_nat j) =
    if (j <? i)%nat then Z.testbit val (Z.of_nat j) else ((j <? 32)%nat && nth (j - i) l false)%bool.
Proof.
  induction l as [|c l IH]; intros i val H j; cbn [BinaryStringToValue_loop].
  - destruct (Nat.ltb_spec j i) as [L|L]; [reflexivity|]. rewrite H by lia. destruct (j - i)%nat; cbn; now rewrite andb_false_r.
  - destruct (Nat.ltb_spec i 32) as [L|L].
    + set (val' := if c then Z.lor val (u32 (Z.shiftl 1 (Z.of_nat i))) else val).
      assert (V : forall j, 0 <= j -> Z.testbit val' j = if j =? Z.of_nat i then c else Z.testbit val j).
      { intros k Hk. unfold val'. assert (X : Z.testbit val (Z.of_nat i) = false) by (apply H; lia). destruct c.
        - rewrite Z.lor_spec, u32_bits, Z.shiftl_1_l, Z.pow2_bits_eqb by lia.
          rewrite (Z.eqb_sym (Z.of_nat i) k).
          destruct (Z.eqb_spec k (Z.of_nat i)) as [E|E].
          + rewrite E. destruct (Z.ltb_spec (Z.of_nat i) 32); [cbn; now rewrite orb_true_r|lia].
          + cbn. now rewrite orb_false_r.
        - destruct (Z.eqb_spec k (Z.of_nat i)); [subst; exact X|reflexivity]. }
      rewrite IH.
      * destruct (Nat.ltb_spec j (S i)), (Nat.ltb_spec j i); try lia.
        -- rewrite V by lia. destruct (Z.eqb_spec (Z.of_nat j) (Z.of_nat i)); [lia|reflexivity].
        -- assert (j = i) by lia. subst j. rewrite V, Z.eqb_refl, Nat.sub_diag by lia.
           destruct (Nat.ltb_spec i 32); [reflexivity|lia].
        -- replace (j - i)%nat with (S (j - S i)) by lia. reflexivity.
      * intros k Hk. rewrite V by lia. destruct (Z.eqb_spec k (Z.of_nat i)); [lia|apply H; lia].
    + destruct (Nat.ltb_spec j i) as [L2|L2]; [reflexivity|]. rewrite H by lia.
      destruct (Nat.ltb_spec j 32); [lia|reflexivity].
Qed.
Theorem C11_binary_string : forall (str : list bool) (j : nat),
  Z.testbit (BinaryStringToValue str) (Z.of_nat j) =
    ((j <? 32)%nat && (j <? length str)%nat && nth (length str - 1 - j) str false)%bool.
Proof.
  intros str j. unfold BinaryStringToValue. rewrite BSV_loop by (intros; apply Z.bits_0).
  replace (j <? 0)%nat with false by (destruct j; reflexivity). rewrite Nat.sub_0_r. destruct (Nat.ltb_spec j (length str)) as [L|L].
  - rewrite rev_nth by exact L. rewrite andb_true_r. do 2 f_equal. lia.
  - rewrite nth_overflow by (rewrite rev_length; lia). rewrite !andb_false_r. reflexivity.
Qed.
Print Assumptions C11_binary_string.
Example C11_binary_witness : BinaryStringToValue [true;false;true;true;false] = 22.
Proof. reflexivity. Qed.
