(** Proofs about the bit utilities. *)
From Coq Require Import ZArith List Bool Lia.
From Verif Require Import BitModel BitSpec.
Import ListNotations.
Open Scope Z_scope.

Ltac Zify.zify_post_hook ::= idtac.

Lemma u32_small x : 0 <= x < 2^32 -> u32 x = x.
Proof. intros. now apply Z.mod_small. Qed.
Lemma u64_small x : 0 <= x < 2^64 -> u64 x = x.
Proof. intros. now apply Z.mod_small. Qed.

Lemma testbit_out n x i : 0 <= x < 2^n -> n <= i -> Z.testbit x i = false.
Proof.
  intros [H0 H1] Hi. assert (0 <= n) by (destruct (Z.neg_nonneg_cases n); [rewrite Z.pow_neg_r in H1; lia|lia]).
  apply Z.testbit_false; [lia|]. rewrite Z.div_small; [reflexivity|].
  split; [lia|]. apply Z.lt_le_trans with (2^n); [lia|]. apply Z.pow_le_mono_r; lia.
Qed.

Lemma mod_pow2_bits x n i : 0 <= n -> Z.testbit (x mod 2^n) i = (Z.testbit x i && (i <? n))%bool.
Proof.
  intros Hn. destruct (Z.ltb_spec i n).
  - rewrite Z.mod_pow2_bits_low by lia. now rewrite andb_true_r.
  - rewrite Z.mod_pow2_bits_high by lia. now rewrite andb_false_r.
Qed.

(** ** Powers of two *)
Lemma land_pred_zero n : 0 < n -> (Z.land n (n - 1) = 0 <-> exists k, 0 <= k /\ n = 2^k).
Proof.
  intros Hn. set (k := Z.log2 n).
  destruct (Z.log2_spec n Hn) as [L U]. fold k in L, U.
  assert (K0 : 0 <= k) by apply Z.log2_nonneg.
  split.
  - intros E. exists k. split; [exact K0|].
    destruct (Z.eq_dec n (2^k)) as [|N]; [assumption|exfalso].
    assert (B1 : Z.testbit n k = true) by (apply Z.bit_log2; lia).
    assert (B2 : Z.testbit (n - 1) k = true).
    { assert (Z.log2 (n - 1) = k) as <- by (apply Z.log2_unique; lia). apply Z.bit_log2. lia. }
    assert (Z.testbit (Z.land n (n-1)) k = true) by (rewrite Z.land_spec, B1, B2; reflexivity).
    rewrite E, Z.bits_0 in H. discriminate.
  - intros (j & Hj & E). rewrite E.
    replace (2^j - 1) with (Z.ones j) by (rewrite Z.ones_equiv; lia).
    rewrite Z.land_ones by lia. apply Z.mod_same. lia.
Qed.

Lemma IsPow2_gen w n : 0 < w -> 0 <= n < 2^w ->
  ((Z.land n ((n - 1) mod 2^w) =? 0) = true <-> n = 0 \/ exists k, 0 <= k /\ n = 2^k).
Proof.
  intros Hw Hn. rewrite Z.eqb_eq. destruct (Z.eq_dec n 0) as [->|N].
  - rewrite Z.land_0_l. tauto.
  - rewrite Z.mod_small by lia. rewrite land_pred_zero by lia. intuition lia.
Qed.

(** ** Smearing *)
Definition window (x : Z) (w : Z) (r : Z) : Prop :=
  0 <= r /\ forall i, 0 <= i -> (Z.testbit r i = true <-> exists j, i <= j < i + w /\ Z.testbit x j = true).

Lemma window_init x : 0 <= x -> window x 1 x.
Proof.
  intros H. split; [exact H|]. intros i Hi. split.
  - intros B. exists i. split; [lia|exact B].
  - intros (j & J & B). assert (j = i) as -> by lia. exact B.
Qed.
Lemma window_step x w s r : 0 <= s <= w -> window x w r -> window x (w + s) (or_shift s r).
Proof.
  intros Hs [R0 W]. unfold or_shift. split.
  - apply Z.lor_nonneg. split; [exact R0|]. now apply Z.shiftr_nonneg.
  - intros i Hi. rewrite Z.lor_spec, Z.shiftr_spec by exact Hi. rewrite orb_true_iff, W, W by lia. split.
    + intros [(j & J & B)|(j & J & B)]; exists j; split; auto; lia.
    + intros (j & J & B). destruct (Z.lt_ge_cases j (i + w)).
      * left. exists j. split; auto; lia.
      * right. exists j. split; auto; lia.
Qed.
Lemma window_full n x r : 0 < x < 2^n -> window x n r -> r = 2^(Z.log2 x + 1) - 1.
Proof.
  intros Hx [R0 W].
  replace (2^(Z.log2 x + 1) - 1) with (Z.ones (Z.log2 x + 1)) by (rewrite Z.ones_equiv; lia).
  assert (LN : Z.log2 x < n) by (apply Z.log2_lt_pow2; lia).
  pose proof (Z.log2_nonneg x) as L0.
  apply Z.bits_inj'. intros i Hi.
  apply eq_true_iff_eq. rewrite W by exact Hi. rewrite Z.ones_spec_iff by lia. split.
  - intros (j & J & B). destruct (Z.lt_ge_cases (Z.log2 x) j) as [G|G].
    + rewrite Z.bits_above_log2 in B by lia. discriminate.
    + lia.
  - intros H. exists (Z.log2 x). split; [lia|]. apply Z.bit_log2. lia.
Qed.
Lemma window_zero w r : window 0 w r -> r = 0.
Proof.
  intros [R0 W]. apply Z.bits_inj'. intros i Hi. rewrite Z.bits_0.
  destruct (Z.testbit r i) eqn:E; [|reflexivity]. apply W in E; [|exact Hi].
  destruct E as (j & _ & B). rewrite Z.bits_0 in B. discriminate.
Qed.

Lemma smear32_window x : 0 <= x -> window x 32 (smear32 x).
Proof.
  intros H. unfold smear32.
  apply (window_step x 16 16); [lia|]. apply (window_step x 8 8); [lia|]. apply (window_step x 4 4); [lia|].
  apply (window_step x 2 2); [lia|]. apply (window_step x 1 1); [lia|]. now apply window_init.
Qed.
Lemma smear64_window x : 0 <= x -> window x 64 (smear64 x).
Proof. intros H. unfold smear64. apply (window_step x 32 32); [lia|]. now apply smear32_window. Qed.

Lemma smear_val n sm x : (forall x, 0 <= x -> window x n (sm x)) -> 0 <= x < 2^n ->
  sm x = if x =? 0 then 0 else 2^(Z.log2 x + 1) - 1.
Proof.
  intros W Hx. destruct (Z.eqb_spec x 0) as [->|N].
  - apply (window_zero n). apply W. lia.
  - apply (window_full n); [lia|]. apply W. lia.
Qed.

(** Least power of two above, in terms of log2. *)
Lemma round_up_val n (sm : Z -> Z) x : 0 < n -> (forall x, 0 <= x -> window x n (sm x)) -> 0 < x -> x <= 2^(n-1) ->
  exists k, 0 <= k /\ (sm ((x - 1) mod 2^n) + 1) mod 2^n = 2^k /\ x <= 2^k /\ forall j, 0 <= j -> x <= 2^j -> 2^k <= 2^j.
Proof.
  intros Hn W Hx Hx2.
  assert (P : 2^n = 2 * 2^(n-1)) by (rewrite <- Z.pow_succ_r by lia; f_equal; lia).
  assert (Q : 0 < 2^(n-1)) by (apply Z.pow_pos_nonneg; lia).
  rewrite (Z.mod_small (x-1)) by lia.
  rewrite (smear_val n sm) by (auto; lia).
  destruct (Z.eqb_spec (x - 1) 0) as [E|N].
  - exists 0. rewrite Z.mod_small by lia. split; [lia|]. split; [lia|]. split; [lia|].
    intros j Hj _. apply Z.pow_le_mono_r; lia.
  - assert (X : 0 < x - 1) by lia.
    destruct (Z.log2_spec (x - 1) X) as [L U].
    pose proof (Z.log2_nonneg (x - 1)) as L0.
    set (l := Z.log2 (x - 1)) in *. rewrite <- Z.add_1_r in U.
    assert (l + 1 <= n - 1).
    { assert (l < n - 1); [|lia]. apply Z.log2_lt_pow2; lia. }
    assert (2^(l+1) <= 2^(n-1)) by (apply Z.pow_le_mono_r; lia).
    assert (0 < 2^(l+1)) by (apply Z.pow_pos_nonneg; lia).
    exists (l + 1). rewrite Z.mod_small by lia. split; [lia|]. split; [lia|]. split; [lia|].
    intros j Hj J. apply Z.pow_le_mono_r; [lia|].
    destruct (Z.lt_ge_cases l j); [lia|]. exfalso.
    assert (2^j <= 2^l) by (apply Z.pow_le_mono_r; lia). lia.
Qed.

Lemma round_up_overflow n (sm : Z -> Z) x : 0 < n -> (forall x, 0 <= x -> window x n (sm x)) -> 2^(n-1) < x < 2^n ->
  (sm ((x - 1) mod 2^n) + 1) mod 2^n = 0.
Proof.
  intros Hn W Hx.
  assert (P : 2^n = 2 * 2^(n-1)) by (rewrite <- Z.pow_succ_r by lia; f_equal; lia).
  assert (Q : 0 < 2^(n-1)) by (apply Z.pow_pos_nonneg; lia).
  rewrite (Z.mod_small (x-1)) by lia.
  rewrite (smear_val n sm) by (auto; lia).
  destruct (Z.eqb_spec (x - 1) 0) as [E|N]; [lia|].
  assert (Z.log2 (x-1) = n - 1) as ->.
  { apply Z.log2_unique; [lia|]. rewrite <- Z.add_1_r. replace (n - 1 + 1) with n by lia. lia. }
  replace (n - 1 + 1) with n by lia. replace (2^n - 1 + 1) with (2^n) by lia. apply Z.mod_same. lia.
Qed.

Lemma round_down_val n (sm : Z -> Z) x : 0 < n -> (forall x, 0 <= x -> window x n (sm x)) -> 0 < x < 2^n ->
  exists k, 0 <= k /\ (sm x - Z.shiftr (sm x) 1) mod 2^n = 2^k /\ 2^k <= x /\ forall j, 0 <= j -> 2^j <= x -> 2^j <= 2^k.
Proof.
  intros Hn W Hx. rewrite (smear_val n sm) by (auto; lia).
  destruct (Z.eqb_spec x 0) as [E|N]; [lia|].
  destruct (Z.log2_spec x ltac:(lia)) as [L U]. rewrite <- Z.add_1_r in U.
  pose proof (Z.log2_nonneg x) as L0. set (l := Z.log2 x) in *.
  exists l.
  assert (E : Z.shiftr (2^(l+1) - 1) 1 = 2^l - 1).
  { rewrite Z.shiftr_div_pow2 by lia. rewrite Z.pow_add_r by lia. change (2^1) with 2.
    symmetry. apply (Z.div_unique_pos _ _ _ 1); lia. }
  rewrite E. rewrite Z.pow_add_r by lia. change (2^1) with 2.
  assert (2^l < 2^n) by lia.
  rewrite Z.mod_small by lia. split; [lia|]. split; [lia|]. split; [lia|].
  intros j Hj J. apply Z.pow_le_mono_r; [lia|].
  destruct (Z.lt_ge_cases l j); [|lia]. exfalso.
  assert (2^(l+1) <= 2^j) by (apply Z.pow_le_mono_r; lia). lia.
Qed.

(** ** Rounding to multiples *)
Lemma land_lnot_ones y k : 0 <= k -> Z.land y (Z.lnot (2^k - 1)) = y - y mod 2^k.
Proof.
  intros Hk. replace (2^k - 1) with (Z.ones k) by (rewrite Z.ones_equiv; lia).
  rewrite <- Z.ldiff_land, Z.ldiff_ones_r by lia. rewrite Z.shiftl_mul_pow2, Z.shiftr_div_pow2 by lia.
  pose proof (Z.div_mod y (2^k)). lia.
Qed.
Lemma round_multiple x k : 0 <= k ->
  let r := Z.land (x + 2^k - 1) (Z.lnot (2^k - 1)) in (2^k | r) /\ x <= r < x + 2^k.
Proof.
  intros Hk r. unfold r. rewrite land_lnot_ones by exact Hk.
  assert (P : 0 < 2^k) by (apply Z.pow_pos_nonneg; lia).
  set (y := x + 2^k - 1). pose proof (Z.div_mod y (2^k) ltac:(lia)) as D. pose proof (Z.mod_pos_bound y (2^k) P).
  split; [exists (y / 2^k); lia|unfold y in *; lia].
Qed.

(** ** Population count *)
Lemma popcount_0 w : popcount w 0 = 0.
Proof.
  unfold popcount. replace (filter _ _) with (@nil nat); [reflexivity|].
  symmetry. induction (seq 0 w) as [|a l IH]; [reflexivity|]. cbn [filter]. rewrite Z.bits_0. exact IH.
Qed.

(** Clearing the lowest set bit. *)
Lemma lowest_bit v : 0 < v -> exists k, 0 <= k /\ Z.testbit v k = true /\ forall j, 0 <= j < k -> Z.testbit v j = false.
Proof.
  intros Hv. assert (Z.testbit v (Z.log2 v) = true) by (apply Z.bit_log2; lia).
  assert (G : forall n : nat, (exists k, 0 <= k < Z.of_nat n /\ Z.testbit v k = true) ->
    exists k, 0 <= k /\ Z.testbit v k = true /\ forall j, 0 <= j < k -> Z.testbit v j = false).
  { induction n as [|n IH]; intros (k & Hk & B); [lia|].
    destruct (existsb (fun i => Z.testbit v (Z.of_nat i)) (seq 0 n)) eqn:E.
    - apply existsb_exists in E. destruct E as (i & I & B'). apply in_seq in I. apply IH. exists (Z.of_nat i). split; [lia|exact B'].
    - assert (N : forall j, 0 <= j < Z.of_nat n -> Z.testbit v j = false).
      { intros j J. destruct (Z.testbit v j) eqn:EB; [|reflexivity]. exfalso.
        assert (existsb (fun i => Z.testbit v (Z.of_nat i)) (seq 0 n) = true).
        { apply existsb_exists. exists (Z.to_nat j). split; [apply in_seq; lia|]. rewrite Z2Nat.id by lia. exact EB. }
        congruence. }
      exists k. split; [lia|]. split; [exact B|]. intros j J. apply N. destruct (Z.lt_ge_cases k (Z.of_nat n)); [|lia].
      rewrite N in B by lia. discriminate. }
  apply (G (S (Z.to_nat (Z.log2 v)))). exists (Z.log2 v). pose proof (Z.log2_nonneg v). split; [lia|assumption].
Qed.

Lemma land_pred_bits v k : 0 < v -> 0 <= k -> Z.testbit v k = true -> (forall j, 0 <= j < k -> Z.testbit v j = false) ->
  forall i, 0 <= i -> Z.testbit (Z.land v (v - 1)) i = (Z.testbit v i && negb (i =? k))%bool.
Proof.
  intros Hv Hk B L.
  (* v = h * 2^(k+1) + 2^k *)
  assert (E : v mod 2^k = 0).
  { apply Z.bits_inj'. intros i Hi. rewrite Z.bits_0, mod_pow2_bits by lia.
    destruct (Z.ltb_spec i k); [rewrite L by lia; reflexivity|apply andb_false_r]. }
  assert (P : 0 < 2^k) by (apply Z.pow_pos_nonneg; lia).
  set (h := v / 2^k). assert (V : v = h * 2^k) by (pose proof (Z.div_mod v (2^k)); unfold h; lia).
  assert (O : Z.odd h = true).
  { rewrite <- Z.bit0_odd. unfold h. rewrite Z.div_pow2_bits by lia. exact B. }
  assert (V1 : v - 1 = (h - 1) * 2^k + Z.ones k) by (rewrite Z.ones_equiv; lia).
  assert (LD : Z.land (Z.ones k) ((h-1) * 2^k) = 0).
  { apply Z.bits_inj'. intros i Hi. rewrite Z.land_spec, Z.bits_0. destruct (Z.lt_ge_cases i k).
    - rewrite Z.mul_pow2_bits_low by lia. apply andb_false_r.
    - rewrite Z.ones_spec_high by lia. reflexivity. }
  assert (V2 : v - 1 = Z.lor ((h-1) * 2^k) (Z.ones k)).
  { rewrite V1. rewrite Z.land_comm in LD. rewrite Z.add_nocarry_lxor by exact LD. now apply Z.lxor_lor. }
  intros i Hi. rewrite Z.land_spec, V2, Z.lor_spec.
  destruct (Z.lt_trichotomy i k) as [C|[C|C]].
  - rewrite L by lia. reflexivity.
  - subst i. rewrite B, Z.ones_spec_high, Z.eqb_refl by lia. cbn.
    rewrite Z.mul_pow2_bits by lia. rewrite Z.sub_diag, Z.bit0_odd. rewrite <- Z.negb_even, Z.even_sub.
    rewrite <- Z.negb_odd, O. reflexivity.
  - rewrite Z.ones_spec_high by lia. rewrite orb_false_r.
    destruct (Z.eqb_spec i k); [lia|]. rewrite andb_true_r.
    rewrite V at 1 2. rewrite !Z.mul_pow2_bits by lia.
    assert (Q : Z.testbit (h - 1) (i - k) = Z.testbit h (i - k)).
    { apply Z.odd_spec in O. destruct O as [q O]. rewrite O.
      replace (2 * q + 1 - 1) with (2 * q) by lia.
      replace (i - k) with (Z.succ (i - k - 1)) by lia.
      rewrite Z.testbit_even_succ, Z.testbit_odd_succ by lia. reflexivity. }
    rewrite Q. apply andb_diag.
Qed.

Lemma filter_remove_one (f g : nat -> bool) k w : f k = true -> (k < w)%nat ->
  (forall i, g i = (f i && negb (Nat.eqb i k))%bool) ->
  length (filter f (seq 0 w)) = S (length (filter g (seq 0 w))).
Proof.
  intros Fk Hk G.
  assert (GEN : forall l, NoDup l -> length (filter f l) = ((if in_dec Nat.eq_dec k l then 1 else 0) + length (filter g l))%nat).
  { induction l as [|a l IH]; intros ND; [reflexivity|]. inversion ND; subst. specialize (IH H2).
    cbn [filter]. rewrite G. destruct (in_dec Nat.eq_dec k (a :: l)) as [I|I]; destruct (in_dec Nat.eq_dec k l) as [J|J].
    - destruct (Nat.eqb_spec a k); [subst; contradiction|]. rewrite andb_true_r. destruct (f a); cbn; lia.
    - destruct I as [->|I]; [|contradiction]. rewrite Nat.eqb_refl, Fk. cbn. lia.
    - exfalso. apply I. now right.
    - destruct (Nat.eqb_spec a k); [subst; exfalso; apply I; now left|]. rewrite andb_true_r. destruct (f a); cbn; lia. }
  rewrite GEN by apply seq_NoDup. destruct (in_dec Nat.eq_dec k (seq 0 w)) as [|N]; [reflexivity|].
  exfalso. apply N. apply in_seq. lia.
Qed.

Lemma popcount_clear v (w : nat) : 0 < v < 2^(Z.of_nat w) -> popcount w v = popcount w (Z.land v (v - 1)) + 1.
Proof.
  intros Hv. destruct (lowest_bit v ltac:(lia)) as (k & K0 & B & L).
  assert (KW : k < Z.of_nat w).
  { destruct (Z.lt_ge_cases k (Z.of_nat w)); [assumption|]. rewrite (testbit_out (Z.of_nat w) v k) in B by lia. discriminate. }
  unfold popcount. rewrite (filter_remove_one (fun i => Z.testbit v (Z.of_nat i))
    (fun i => Z.testbit (Z.land v (v - 1)) (Z.of_nat i)) (Z.to_nat k) w).
  - rewrite Nat2Z.inj_succ. lia.
  - rewrite Z2Nat.id by lia. exact B.
  - lia.
  - intros i. rewrite (land_pred_bits v k) by (auto; lia). f_equal. f_equal.
    destruct (Z.eqb_spec (Z.of_nat i) k), (Nat.eqb_spec i (Z.to_nat k)); auto; lia.
Qed.

Lemma land_nonneg_le a b : 0 <= a -> 0 <= Z.land a b <= a.
Proof.
  intros H. split; [apply Z.land_nonneg; now left|].
  pose proof (Z.add_nocarry_lxor (Z.land a b) (Z.ldiff a b)) as E.
  assert (D : Z.land (Z.land a b) (Z.ldiff a b) = 0).
  { apply Z.bits_inj'. intros i Hi. rewrite !Z.land_spec, Z.ldiff_spec, Z.bits_0. destruct (Z.testbit a i), (Z.testbit b i); reflexivity. }
  specialize (E D). rewrite <- (Z.lxor_lor _ _ D) in E || idtac.
  assert (S : Z.lxor (Z.land a b) (Z.ldiff a b) = a).
  { apply Z.bits_inj'. intros i Hi. rewrite Z.lxor_spec, Z.land_spec, Z.ldiff_spec. destruct (Z.testbit a i), (Z.testbit b i); reflexivity. }
  assert (0 <= Z.ldiff a b) by (apply Z.ldiff_nonneg; now left).
  rewrite S in E. lia.
Qed.

(** Any function that counts like this is what the loop computes (kept abstract so that no
    conversion unfolds the count of 32 symbolic bits). *)
Lemma CountBits_loop_gen (P : Z -> Z) (P0 : P 0 = 0) (Pn : forall v, 0 <= P v)
  (Pc : forall v, 0 < v < 2^32 -> P v = P (Z.land v (v - 1)) + 1) :
  forall fuel v b, 0 <= v < 2^32 -> P v <= Z.of_nat fuel -> CountBitsSet_loop fuel v b = Some (b + P v).
Proof.
  induction fuel as [|fuel IH]; intros v b Hv Hp; cbn [CountBitsSet_loop].
  - destruct (Z.eqb_spec v 0) as [E|N]; [subst v; rewrite P0, Z.add_0_r; reflexivity|].
    rewrite (Pc v) in Hp by lia. pose proof (Pn (Z.land v (v - 1))). lia.
  - destruct (Z.eqb_spec v 0) as [E|N]; [subst v; rewrite P0, Z.add_0_r; reflexivity|].
    rewrite u32_small by lia. pose proof (land_nonneg_le v (v - 1) ltac:(lia)).
    pose proof (Pc v ltac:(lia)) as E.
    rewrite IH; [f_equal; lia|lia|lia].
Qed.
Lemma CountBits_gen (P : Z -> Z) (P0 : P 0 = 0) (Pn : forall v, 0 <= P v <= 32)
  (Pc : forall v, 0 < v < 2^32 -> P v = P (Z.land v (v - 1)) + 1) :
  forall v, 0 <= v < 2^32 -> CountBitsSet v = Some (P v).
Proof.
  intros v H. unfold CountBitsSet. rewrite (CountBits_loop_gen P P0 (fun v => proj1 (Pn v)) Pc 32 v 0 H (proj2 (Pn v))).
  now rewrite Z.add_0_l.
Qed.

Lemma popcount_le w v : popcount w v <= Z.of_nat w.
Proof.
  unfold popcount.
  assert (G : forall l : list nat, (length (filter (fun i => Z.testbit v (Z.of_nat i)) l) <= length l)%nat).
  { induction l as [|a l IH]; cbn; [lia|]. destruct (Z.testbit v (Z.of_nat a)); cbn; lia. }
  specialize (G (seq 0 w)). rewrite seq_length in G. lia.
Qed.

(** ** Masks and fields *)
Lemma LSB_bits n i : 0 <= n -> 0 <= i -> Z.testbit (LSB n) i = ((i <? n) && (i <? 32))%bool.
Proof.
  intros Hn Hi. unfold LSB. destruct (Z.leb_spec 32 n).
  - change 0xFFFFFFFF with (Z.ones 32). rewrite Z.testbit_ones_nonneg by lia.
    destruct (Z.ltb_spec i 32), (Z.ltb_spec i n); auto; lia.
  - rewrite Z.shiftl_1_l. assert (2^n < 2^32) by (apply Z.pow_lt_mono_r; lia).
    assert (0 < 2^n) by (apply Z.pow_pos_nonneg; lia).
    rewrite !u32_small; try (rewrite ?u32_small; lia).
    replace (2^n - 1) with (Z.ones n) by (rewrite Z.ones_equiv; lia).
    rewrite Z.testbit_ones_nonneg by lia. destruct (Z.ltb_spec i 32), (Z.ltb_spec i n); auto; lia.
Qed.

Lemma LSB64_bits n i : 0 <= n -> 0 <= i -> Z.testbit (LSB64 n) i = ((i <? n) && (i <? 64))%bool.
Proof.
  intros Hn Hi. unfold LSB64. destruct (Z.leb_spec 64 n).
  - change 0xFFFFFFFFFFFFFFFF with (Z.ones 64). rewrite Z.testbit_ones_nonneg by lia.
    destruct (Z.ltb_spec i 64), (Z.ltb_spec i n); auto; lia.
  - rewrite Z.shiftl_1_l. assert (2^n < 2^64) by (apply Z.pow_lt_mono_r; lia).
    assert (0 < 2^n) by (apply Z.pow_pos_nonneg; lia).
    unfold u64. rewrite (Z.mod_small (2^n)) by lia. rewrite Z.mod_small by lia.
    replace (2^n - 1) with (Z.ones n) by (rewrite Z.ones_equiv; lia).
    rewrite Z.testbit_ones_nonneg by lia. destruct (Z.ltb_spec i 64), (Z.ltb_spec i n); auto; lia.
Qed.
Lemma BitMask64_bits p n i : 0 <= p -> 0 <= n -> p + n < 2^64 -> 0 <= i ->
  Z.testbit (BitMask64 p n) i = ((p <=? i) && (i <? p + n) && (i <? 64))%bool.
Proof.
  intros Hp Hn Hb Hi. unfold BitMask64. rewrite Z.land_spec. unfold u64. rewrite (Z.mod_small (p + n)) by lia.
  rewrite mod_pow2_bits, Z.lnot_spec by lia. rewrite !LSB64_bits by lia.
  destruct (Z.ltb_spec i (p+n)), (Z.ltb_spec i 64), (Z.ltb_spec i p), (Z.leb_spec p i); auto; lia.
Qed.

Lemma u32_bits x i : Z.testbit (u32 x) i = (Z.testbit x i && (i <? 32))%bool.
Proof. apply mod_pow2_bits. lia. Qed.

Lemma BitMask_bits p n i : 0 <= p -> 0 <= n -> p + n < 2^32 -> 0 <= i ->
  Z.testbit (BitMask p n) i = ((p <=? i) && (i <? p + n) && (i <? 32))%bool.
Proof.
  intros Hp Hn Hb Hi. unfold BitMask. rewrite Z.land_spec, u32_bits, Z.lnot_spec by lia.
  rewrite (u32_small (p + n)) by lia. rewrite !LSB_bits by lia.
  destruct (Z.ltb_spec i (p+n)), (Z.ltb_spec i 32), (Z.ltb_spec i p), (Z.leb_spec p i); auto; lia.
Qed.

Lemma field_bits p n v i : 0 <= p -> 0 <= n -> p + n <= 32 -> 0 <= i ->
  Z.testbit (Z.land (u32 (Z.shiftl v p)) (BitMask p n)) i =
    ((p <=? i) && (i <? p + n) && Z.testbit v (i - p))%bool.
Proof.
  intros. rewrite Z.land_spec, u32_bits, BitMask_bits, Z.shiftl_spec by lia.
  destruct (Z.leb_spec p i), (Z.ltb_spec i (p+n)), (Z.ltb_spec i 32); cbn; try lia;
  rewrite ?andb_true_r, ?andb_false_r; auto.
Qed.

Lemma Extract_bits p n x i : 0 <= p -> 0 <= n <= 32 -> 0 <= i ->
  Z.testbit (ExtractBits p n x) i = (Z.testbit x (i + p) && (i <? n))%bool.
Proof.
  intros. unfold ExtractBits. rewrite Z.land_spec, Z.shiftr_spec, BitMask_bits by lia.
  destruct (Z.leb_spec 0 i), (Z.ltb_spec i (0+n)), (Z.ltb_spec i n), (Z.ltb_spec i 32); cbn; try lia; auto.
Qed.

Lemma popcount_nonneg w v : 0 <= popcount w v.
Proof. apply Zle_0_nat. Qed.
Lemma CountBits_ok v : 0 <= v < 2^32 -> CountBitsSet v = Some (popcount 32 v).
Proof.
  apply (CountBits_gen (popcount 32) (popcount_0 32)
    (fun v => conj (popcount_nonneg 32 v) (popcount_le 32 v)) (fun v => popcount_clear v 32)).
Qed.
