(** Proofs about the integer functions. *)
From Coq Require Import ZArith List Bool Lia Arith Reals Lra.
From Flocq Require Import Core.Core.
From Verif Require Import Num NumR BitModel BitProofs IntFuncModel MiniFloatSpec MiniFloatProofs.
Import ListNotations.
Open Scope Z_scope.
Ltac Zify.zify_post_hook ::= idtac.

Lemma i32_some z : - 2^31 <= z <= INT_MAX -> i32 z = Some z.
Proof. intros H. unfold i32, in_i32. destruct (Z.leb_spec (- 2^31) z), (Z.leb_spec z INT_MAX); try lia. reflexivity. Qed.
Lemma i32_inv z r : i32 z = Some r -> r = z /\ - 2^31 <= z <= INT_MAX.
Proof.
  unfold i32, in_i32. destruct (Z.leb_spec (- 2^31) z), (Z.leb_spec z INT_MAX); cbn [andb]; intros E; try discriminate.
  split; [congruence|lia].
Qed.

(** Invariant rule for the counting loop. *)
Lemma for_le_inv {S} (P : Z -> S -> Prop) body n : n < INT_MAX ->
  forall fuel i s, - 2^31 <= i -> i <= n + 1 -> (Z.to_nat (n + 1 - i) <= fuel)%nat ->
  P i s -> (forall j s, i <= j <= n -> P j s -> exists s', body j s = Some s' /\ P (j + 1) s') ->
  exists s', for_le fuel i n body s = Some s' /\ P (n + 1) s'.
Proof.
  intros Hn. induction fuel as [|fuel IH]; intros i s H0 Hi Hf HP Hb.
  - assert (i = n + 1) by lia. subst i. cbn. destruct (Z.leb_spec (n + 1) n); [lia|]. eauto.
  - cbn [for_le]. destruct (Z.leb_spec i n).
    + destruct (Hb i s ltac:(lia) HP) as (s' & E & P'). rewrite E. cbn [bind].
      rewrite i32_some by (unfold INT_MAX in *; lia). cbn [bind].
      apply IH; try lia; auto. intros j t Hj. apply Hb. lia.
    + assert (i = n + 1) by lia. subst i. eauto.
Qed.
(** A loop that does not run. *)
Lemma for_le_skip {S} fuel i n body (s : S) : n < i -> for_le fuel i n body s = Some s.
Proof. intros. destruct fuel; cbn; destruct (Z.leb_spec i n); try lia; reflexivity. Qed.

(** ** Factorial *)
Fixpoint zfact (n : nat) : Z := match n with O => 1 | S m => Z.of_nat (S m) * zfact m end.
Lemma zfact_pos n : 1 <= zfact n.
Proof. induction n; cbn [zfact]; nia. Qed.
Lemma zfact_mono m n : (m <= n)%nat -> zfact m <= zfact n.
Proof. induction 1; [lia|]. cbn [zfact]. pose proof (zfact_pos m0). nia. Qed.

Lemma Factorial_correct n : n < INT_MAX -> zfact (Z.to_nat n) <= INT_MAX -> Factorial n = Some (zfact (Z.to_nat n)).
Proof.
  intros Hn Hf. unfold Factorial.
  destruct (Z.le_gt_cases 2 n) as [G|L].
  2:{ rewrite for_le_skip by lia. destruct (Z.le_gt_cases n 0).
      - destruct n; try lia; reflexivity.
      - replace n with 1 by lia. reflexivity. }
  destruct (for_le_inv (fun i r => r = zfact (Z.to_nat (i - 1))) (fun i result => i32 (result * i)) n Hn (Z.to_nat n) 2 1)
    as (s' & E & P); try lia.
  - reflexivity.
  - intros j s Hj ->. eexists. rewrite i32_some.
    + split; [reflexivity|]. replace (Z.to_nat (j + 1 - 1)) with (S (Z.to_nat (j - 1))) by lia. cbn [zfact]. rewrite Z.mul_comm. f_equal. lia.
    + replace (zfact (Z.to_nat (j - 1)) * j) with (zfact (S (Z.to_nat (j - 1)))).
      2:{ cbn [zfact]. rewrite Z.mul_comm. f_equal. lia. }
      pose proof (zfact_pos (S (Z.to_nat (j-1)))). pose proof (zfact_mono (S (Z.to_nat (j-1))) (Z.to_nat n) ltac:(lia)).
      lia.
  - rewrite E. subst s'. do 2 f_equal. lia.
Qed.

(** ** Binomial coefficients *)
Fixpoint binom (n k : nat) : Z :=
  match n, k with
  | _, O => 1
  | O, S _ => 0
  | S n', S k' => binom n' k' + binom n' k
  end.
Lemma binom_nonneg n k : 0 <= binom n k.
Proof. revert k; induction n; intros [|k]; cbn [binom]; try lia. pose proof (IHn k). pose proof (IHn (S k)). lia. Qed.
Lemma binom_n_0 n : binom n 0 = 1. Proof. now destruct n. Qed.
Lemma binom_gt n k : (n < k)%nat -> binom n k = 0.
Proof. revert k; induction n; intros [|k] H; try lia; cbn [binom]; try lia. rewrite !IHn by lia. lia. Qed.
Lemma binom_n_n n : binom n n = 1.
Proof. induction n; [reflexivity|]. cbn [binom]. rewrite IHn, binom_gt by lia. lia. Qed.
Lemma binom_pos n k : (k <= n)%nat -> 1 <= binom n k.
Proof. revert k; induction n; intros [|k] H; cbn [binom]; try lia. pose proof (IHn k ltac:(lia)). pose proof (binom_nonneg n (S k)). lia. Qed.
(** The characterisation by factorials. *)
Lemma binom_fact n k : (k <= n)%nat -> binom n k * (zfact k * zfact (n - k)) = zfact n.
Proof.
  revert k; induction n; intros [|k] H; try lia.
  - reflexivity.
  - rewrite binom_n_0, Nat.sub_0_r. cbn [zfact]. lia.
  - destruct (Nat.eq_dec k n) as [->|N].
    + rewrite binom_n_n, Nat.sub_diag. cbn [zfact]. lia.
    + cbn [binom]. pose proof (IHn k ltac:(lia)) as A. pose proof (IHn (S k) ltac:(lia)) as B.
      replace (S n - S k)%nat with (n - k)%nat by lia. replace (n - k)%nat with (S (n - S k)) in * by lia.
      set (p := (n - S k)%nat) in *.
      change (zfact (S k)) with (Z.of_nat (S k) * zfact k) in *.
      change (zfact (S p)) with (Z.of_nat (S p) * zfact p) in *.
      change (zfact (S n)) with (Z.of_nat (S n) * zfact n).
      replace (Z.of_nat (S n)) with (Z.of_nat (S k) + Z.of_nat (S p)) by lia.
      transitivity (Z.of_nat (S k) * (binom n k * (zfact k * (Z.of_nat (S p) * zfact p))) + Z.of_nat (S p) * (binom n (S k) * (Z.of_nat (S k) * zfact k * zfact p))); [ring|].
      rewrite A, B. ring.
Qed.
(** Steps in Pascal's triangle do not decrease. *)
Lemma binom_mono i j d t : (t <= d)%nat -> (j <= i)%nat -> binom i j <= binom (i + d) (j + t).
Proof.
  revert t; induction d as [|d IH]; intros t Ht Hj.
  - assert (t = 0)%nat by lia. subst. rewrite !Nat.add_0_r. lia.
  - destruct t as [|t].
    + rewrite Nat.add_0_r. pose proof (IH 0%nat ltac:(lia) Hj) as A. rewrite Nat.add_0_r in A.
      replace (i + S d)%nat with (S (i + d)) by lia. destruct j as [|j]; [rewrite !binom_n_0; lia|].
      cbn [binom]. pose proof (binom_nonneg (i + d) j). lia.
    + pose proof (IH t ltac:(lia) Hj) as A. replace (i + S d)%nat with (S (i + d)) by lia.
      replace (j + S t)%nat with (S (j + t)) by lia. cbn [binom]. pose proof (binom_nonneg (i + d) (S (j + t))). lia.
Qed.

Definition binomZ (n k : Z) : Z := binom (Z.to_nat n) (Z.to_nat k).
Lemma binomZ_pascal n k : 1 <= n -> 1 <= k -> binomZ n k = binomZ (n-1) (k-1) + binomZ (n-1) k.
Proof.
  intros. unfold binomZ. replace (Z.to_nat n) with (S (Z.to_nat (n-1))) by lia. replace (Z.to_nat k) with (S (Z.to_nat (k-1))) by lia.
  reflexivity.
Qed.
Lemma binomZ_mono i j n k : 0 <= j <= i -> i <= n -> j <= k -> k - j <= n - i -> binomZ i j <= binomZ n k.
Proof.
  intros. unfold binomZ.
  replace (Z.to_nat n) with (Z.to_nat i + Z.to_nat (n - i))%nat by lia.
  replace (Z.to_nat k) with (Z.to_nat j + Z.to_nat (k - j))%nat by lia. apply binom_mono; lia.
Qed.
Lemma binomZ_0 n : binomZ n 0 = 1. Proof. apply binom_n_0. Qed.
Lemma binomZ_nn n : binomZ n n = 1. Proof. apply binom_n_n. Qed.
Lemma binomZ_nonneg n k : 0 <= binomZ n k. Proof. apply binom_nonneg. Qed.

Lemma CombinatorialRec_fuel_correct fuel : forall n k, (Z.to_nat n <= fuel)%nat -> 0 <= k <= n -> n <= INT_MAX ->
  binomZ n k <= INT_MAX -> CombinatorialRec_fuel fuel n k = Some (binomZ n k).
Proof.
  induction fuel as [|fuel IH]; intros n k Hf Hk Hn Hb.
  - assert (n = 0) by lia. subst. assert (k = 0) by lia. subst. reflexivity.
  - cbn [CombinatorialRec_fuel]. destruct (Z.leb_spec k 0).
    { cbn [orb]. assert (k = 0) by lia. subst. now rewrite binomZ_0. }
    destruct (Z.leb_spec n k); cbn [orb].
    { assert (k = n) by lia. subst. now rewrite binomZ_nn. }
    rewrite binomZ_pascal in Hb by lia. pose proof (binomZ_nonneg (n-1) (k-1)). pose proof (binomZ_nonneg (n-1) k).
    rewrite !i32_some by (unfold INT_MAX in *; lia). cbn [bind].
    rewrite !IH by lia. cbn [bind]. rewrite <- binomZ_pascal in Hb by lia. rewrite (binomZ_pascal n k) by lia.
    apply i32_some. rewrite <- binomZ_pascal by lia. pose proof (binomZ_nonneg n k). unfold INT_MAX in *; lia.
Qed.
Lemma CombinatorialRec_correct n k : 0 <= k <= n -> n <= INT_MAX -> binomZ n k <= INT_MAX -> CombinatorialRec n k = Some (binomZ n k).
Proof. intros. apply CombinatorialRec_fuel_correct; lia. Qed.

(** Arrays *)
Lemma upd_length l i v : length (upd l i v) = length l.
Proof. revert i; induction l; intros [|i]; cbn; auto. Qed.
Lemma nth_upd l i j v : (i < length l)%nat -> nth_error (upd l i v) j = if Nat.eqb i j then Some v else nth_error l j.
Proof.
  revert i j; induction l as [|a l IH]; intros i j H; cbn in H; [lia|].
  destruct i, j; cbn; auto. now rewrite IH by lia.
Qed.
Lemma get_set l i j v l' : set l i v = Some l' -> get l' j = if i =? j then Some v else get l j.
Proof.
  unfold set, get. destruct (Z.ltb_spec i 0); cbn [orb]; [discriminate|].
  destruct (Z.leb_spec (Z.of_nat (length l)) i); [discriminate|]. intros E. injection E as <-.
  destruct (Z.ltb_spec j 0).
  - destruct (Z.eqb_spec i j); [lia|reflexivity].
  - rewrite nth_upd by lia. destruct (Nat.eqb_spec (Z.to_nat i) (Z.to_nat j)), (Z.eqb_spec i j); try reflexivity; lia.
Qed.
Lemma set_some l i v : 0 <= i < Z.of_nat (length l) -> exists l', set l i v = Some l' /\ length l' = length l.
Proof.
  intros H. unfold set. destruct (Z.ltb_spec i 0); [lia|]. destruct (Z.leb_spec (Z.of_nat (length l)) i); [lia|]. cbn.
  eexists. split; [reflexivity|]. apply upd_length.
Qed.
Lemma get_repeat n j : 0 <= j < Z.of_nat n -> get (repeat 1 n) j = Some 1.
Proof. intros H. unfold get. destruct (Z.ltb_spec j 0); [lia|]. apply nth_error_repeat. lia. Qed.

(** State of the tables before iteration [i]: t2 is row i-1 of Pascal's triangle where it matters. *)
Definition tab_inv (n k i : Z) (s : list Z * list Z) : Prop :=
  let '(t1, t2) := s in
  length t1 = Z.to_nat (k + 1) /\ length t2 = Z.to_nat (k + 1) /\
  get t1 0 = Some 1 /\ get t2 0 = Some 1 /\
  (forall j, i <= j <= k -> get t1 j = Some 1) /\ (forall j, i - 1 <= j <= k -> get t2 j = Some 1) /\
  (forall j, Z.max 1 (i - 1 - n + k) <= j <= Z.min k (i - 1) -> get t2 j = Some (binomZ (i - 1) j)).

Lemma MaxZ_max a b : MaxZ a b = Z.max a b.
Proof. unfold MaxZ. destruct (Z.leb_spec b a); lia. Qed.
Lemma MinZ_min a b : MinZ a b = Z.min a b.
Proof. unfold MinZ. destruct (Z.leb_spec a b); lia. Qed.

Lemma tab_step n k i t1 t2 : 0 < k < n -> 2 <= i <= n -> n < INT_MAX -> k + 1 < 2^30 -> binomZ n k <= INT_MAX ->
  tab_inv n k i (t1, t2) ->
  exists t1', for_le (Z.to_nat (k + 1)) (MaxZ 1 (i - n + k)) (MinZ k (i - 1)) (fun j t1 =>
                    bind (get t2 j) (fun x => bind (get t2 (j - 1)) (fun y => bind (i32 (x + y)) (fun v => set t1 j v)))) t1 = Some t1'
    /\ tab_inv n k (i + 1) (t2, t1').
Proof.
  intros Hk Hi Hn Hk2 Hb (L1 & L2 & Z1 & Z2 & O1 & O2 & B).
  rewrite MaxZ_max, MinZ_min. set (lo := Z.max 1 (i - n + k)). set (hi := Z.min k (i - 1)).
  set (body := fun j t1 => bind (get t2 j) (fun x => bind (get t2 (j - 1)) (fun y => bind (i32 (x + y)) (fun v => set t1 j v)))).
  assert (Hlohi : lo <= hi + 1) by (unfold lo, hi; lia).
  destruct (for_le_inv (fun j t => length t = Z.to_nat (k + 1) /\ (forall m, m < lo \/ hi < m -> get t m = get t1 m) /\
      (forall m, lo <= m < j -> get t m = Some (binomZ i m))) body hi ltac:(unfold hi, INT_MAX in *; lia) (Z.to_nat (k+1)) lo t1)
    as (t1' & E & Lt & Out & In); try (unfold lo, hi in *; lia).
  { split; [assumption|]. split; [auto|]. intros; lia. }
  { intros j t Hj (Lt & Out & In).
    assert (Hx : get t2 j = Some (binomZ (i - 1) j)).
    { destruct (Z.eq_dec j (i - 1)) as [->|]; [rewrite binomZ_nn; apply O2; lia|]. apply B. unfold lo, hi in *. lia. }
    assert (Hy : get t2 (j - 1) = Some (binomZ (i - 1) (j - 1))).
    { destruct (Z.eq_dec j 1) as [->|]; [rewrite Z.sub_diag, binomZ_0; exact Z2|]. apply B. unfold lo, hi in *. lia. }
    unfold body. rewrite Hx, Hy. cbn [bind].
    assert (Ev : binomZ (i - 1) j + binomZ (i - 1) (j - 1) = binomZ i j) by (rewrite (binomZ_pascal i j) by (unfold lo in *; lia); lia).
    rewrite Ev.
    assert (binomZ i j <= binomZ n k) by (apply binomZ_mono; unfold lo, hi in *; lia).
    rewrite i32_some by (pose proof (binomZ_nonneg i j); unfold INT_MAX in *; lia). cbn [bind].
    destruct (set_some t j (binomZ i j)) as (t' & Es & Lt'); [unfold lo, hi in *; lia|].
    exists t'. split; [exact Es|]. split; [lia|]. split.
    - intros m Hm. rewrite (get_set _ _ _ _ _ Es). destruct (Z.eqb_spec j m); [lia|]. auto.
    - intros m Hm. rewrite (get_set _ _ _ _ _ Es). destruct (Z.eqb_spec j m); [now subst|]. apply In. lia. }
  exists t1'. split; [exact E|]. unfold tab_inv.
  split; [assumption|]. split; [assumption|]. split; [assumption|]. split.
  { rewrite Out by (unfold lo; lia). assumption. }
  split; [intros j Hj; apply O2; lia|]. split.
  { intros j Hj. rewrite Out by (unfold hi; lia). apply O1. lia. }
  intros j Hj. replace (i + 1 - 1) with i in * by lia.
  destruct (Z.eq_dec j i) as [->|].
  - rewrite Out by (unfold hi; lia). rewrite binomZ_nn. apply O1. lia.
  - apply In. unfold lo, hi in *. lia.
Qed.

Lemma CombinatorialTab_correct n k : 0 <= k <= n -> n < INT_MAX -> k + 1 < 2^30 -> binomZ n k <= INT_MAX ->
  CombinatorialTab n k = Some (binomZ n k).
Proof.
  intros Hk Hn Hk2 Hb. unfold CombinatorialTab.
  destruct (Z.eqb_spec k 0); cbn [orb]; [subst; now rewrite binomZ_0|].
  destruct (Z.eqb_spec k n); cbn [orb]; [subst; now rewrite binomZ_nn|].
  destruct (Z.ltb_spec k 0); [lia|]. destruct (Z.ltb_spec n k); [lia|]. cbn [orb].
  rewrite i32_some by (unfold INT_MAX; lia). cbn [bind].
  set (row := repeat 1 (Z.to_nat (k + 1))).
  match goal with |- context [for_le _ _ _ ?b _] => set (body := b) end.
  destruct (for_le_inv (tab_inv n k) body n Hn (Z.to_nat n) 2 (row, row)) as ([t1 t2] & E & P); try lia.
  { unfold tab_inv. assert (R : forall j, 0 <= j <= k -> get row j = Some 1) by (intros; apply get_repeat; lia).
    split; [apply repeat_length|]. split; [apply repeat_length|]. split; [apply R; lia|]. split; [apply R; lia|].
    split; [intros; apply R; lia|]. split; [intros; apply R; lia|].
    intros j Hj. assert (j = 1) by lia. subst. apply R. lia. }
  { intros j [t1 t2] Hj I. destruct (tab_step n k j t1 t2 ltac:(lia) Hj Hn Hk2 Hb I) as (t1' & E & I').
    exists (t2, t1'). split; [|exact I']. unfold body. rewrite E. reflexivity. }
  rewrite E. cbn [bind snd]. destruct P as (_ & _ & _ & _ & _ & _ & B).
  replace (n + 1 - 1) with n in B by lia. apply B. lia.
Qed.

(** ** Repeated squaring *)
Lemma land_pow2 x p : 0 <= p -> Z.land x (2^p) = if Z.testbit x p then 2^p else 0.
Proof.
  intros Hp. apply Z.bits_inj'. intros i Hi. rewrite Z.land_spec, Z.pow2_bits_eqb by lia.
  destruct (Z.eqb_spec p i).
  - subst. rewrite andb_true_r. destruct (Z.testbit x i); [now rewrite Z.pow2_bits_true|now rewrite Z.bits_0].
  - rewrite andb_false_r. destruct (Z.testbit x p); [now rewrite Z.pow2_bits_false by lia|now rewrite Z.bits_0].
Qed.
Lemma shiftr_pow2 p : 0 <= p -> Z.shiftr (2^p) 1 = if p =? 0 then 0 else 2^(p-1).
Proof.
  intros Hp. rewrite Z.shiftr_div_pow2 by lia. destruct (Z.eqb_spec p 0); [subst; reflexivity|].
  replace p with (p - 1 + 1) at 1 by lia. rewrite Z.pow_add_r by lia. apply Z.div_mul. lia.
Qed.
Lemma find_high_spec : forall fuel x p, 0 <= p -> 0 <= x < 2^(p+1) -> (Z.to_nat p + 2 <= fuel)%nat ->
  find_high fuel x (2^p) = if x =? 0 then 0 else 2^(Z.log2 x).
Proof.
  induction fuel as [|fuel IH]; intros x p Hp Hx Hf; [lia|].
  cbn [find_high]. rewrite land_pow2 by lia. pose proof (Z.pow_pos_nonneg 2 p ltac:(lia) Hp).
  destruct (Z.testbit x p) eqn:B.
  - destruct (Z.eqb_spec (2^p) 0); [lia|]. cbn [andb].
    destruct (Z.eqb_spec x 0); [subst; rewrite Z.bits_0 in B; discriminate|].
    f_equal. symmetry. apply Z.log2_unique; [lia|]. split; [|replace (Z.succ p) with (p+1) by lia; lia].
    destruct (Z.le_gt_cases (2^p) x); [assumption|]. rewrite (testbit_out p x p) in B by lia. discriminate.
  - rewrite Z.eqb_refl. destruct (Z.ltb_spec 0 (2^p)); [|lia]. cbn [andb]. rewrite shiftr_pow2 by lia.
    destruct (Z.eqb_spec p 0).
    + subst p. change (2^(0+1)) with 2 in Hx. assert (x = 0 \/ x = 1) as [->| ->] by lia; [|discriminate].
      cbn [Z.eqb]. destruct fuel; [reflexivity|]. cbn [find_high]. rewrite Z.land_0_l. reflexivity.
    + apply IH; try lia. replace (p - 1 + 1) with p by lia. split; [lia|].
      destruct (Z.le_gt_cases (2^p) x); [|assumption]. exfalso.
      rewrite Z.testbit_eqb in B by lia. replace (x / 2^p) with 1 in B; [discriminate|].
      symmetry. apply Z.le_antisymm; [|apply Z.div_le_lower_bound; lia].
      apply Z.lt_succ_r. apply Z.div_lt_upper_bound; [lia|]. replace (p + 1) with (Z.succ p) in Hx by lia. rewrite Z.pow_succ_r in Hx by lia. lia.
Qed.

Lemma pow_loop_spec : forall fuel (b : R) x p, 0 <= p -> 0 <= x -> (Z.to_nat p <= fuel)%nat ->
  forall v, v = (b ^ Z.to_nat (x / 2^(p+1)))%R ->
  pow_loop fuel b x (2^p) v = Some (b ^ Z.to_nat x)%R.
Proof.
  induction fuel as [|fuel IH]; intros b x p Hp Hx Hf v Hv.
  - assert (p = 0) by lia. subst p. cbn [pow_loop]. change (Z.shiftr (2^0) 1) with 0. cbn [Z.ltb Z.compare]. f_equal.
    rsimpl. rewrite land_pow2 by lia. rewrite Z.bit0_odd. subst v. change (2^(0+1)) with 2.
    rewrite <- Rpow_mult_distr || idtac.
    assert (E : x = 2 * (x / 2) + (if Z.odd x then 1 else 0)).
    { pose proof (Z.div_mod x 2). rewrite Zmod_odd in H. lia. }
    assert (0 <= x / 2) by (apply Z.div_pos; lia).
    replace (Z.to_nat x) with (Z.to_nat (x/2) + Z.to_nat (x/2) + (if Z.odd x then 1 else 0))%nat by (destruct (Z.odd x); lia).
    rewrite !pow_add, ?Rpow_mult_distr. destruct (Z.odd x); cbn; lra.
  - cbn [pow_loop]. rewrite shiftr_pow2 by lia. rewrite land_pow2 by lia.
    pose proof (Z.pow_pos_nonneg 2 p ltac:(lia) Hp).
    assert (E : (v * v * (if negb ((if Z.testbit x p then 2^p else 0) =? 0)%Z then b else (n1 : R)))%R = (b ^ Z.to_nat (x / 2^p))%R).
    { subst v. assert (D : x / 2^p = 2 * (x / 2^(p+1)) + (if Z.testbit x p then 1 else 0)).
      { rewrite Z.pow_add_r, <- Z.div_div by lia. change (2^1) with 2. pose proof (Z.div_mod (x / 2^p) 2).
        rewrite Z.testbit_eqb by lia. pose proof (Z.mod_pos_bound (x / 2^p) 2). destruct (Z.eqb_spec ((x / 2^p) mod 2) 1); lia. }
      assert (0 <= x / 2^(p+1)) by (apply Z.div_pos; [lia|apply Z.pow_pos_nonneg; lia]).
      rewrite D. set (q := x / 2^(p+1)) in *. rewrite n1_R.
      destruct (Z.testbit x p).
      - destruct (Z.eqb_spec (2^p) 0); [lia|]. cbn [negb]. replace (Z.to_nat (2 * q + 1)) with (Z.to_nat q + Z.to_nat q + 1)%nat by lia.
        rewrite !pow_add, pow_1. reflexivity.
      - cbn [Z.eqb negb]. replace (Z.to_nat (2 * q + 0)) with (Z.to_nat q + Z.to_nat q)%nat by lia. rewrite pow_add. lra. }
    destruct (Z.eqb_spec p 0) as [->|].
    + cbn [Z.ltb Z.compare]. f_equal. rsimpl. rewrite E. do 2 f_equal. apply Z.div_1_r.
    + pose proof (Z.pow_pos_nonneg 2 (p-1) ltac:(lia) ltac:(lia)). destruct (Z.ltb_spec 0 (2^(p-1))); [|lia].
      apply IH; try lia. replace (p - 1 + 1) with p by lia. exact E.
Qed.

Lemma PowUInt_R (b : R) x : 0 <= x < 2^32 -> PowUInt b x = Some (b ^ Z.to_nat x)%R.
Proof.
  intros Hx. unfold PowUInt. change 0x80000000 with (2^31). rewrite find_high_spec by lia.
  destruct (Z.eqb_spec x 0).
  - subst. cbn. f_equal. rsimpl. field.
  - assert (H := Z.log2_spec x ltac:(lia)). assert (0 <= Z.log2 x) by apply Z.log2_nonneg.
    assert (Z.log2 x < 32) by (apply Z.log2_lt_pow2; lia).
    apply pow_loop_spec; try lia. replace (Z.log2 x + 1) with (Z.succ (Z.log2 x)) by lia.
    rewrite Z.div_small by lia. cbn. apply n1_R.
Qed.

(** ** Fixed point *)
Section FixedProofs.
  Context (w : Z).
  Lemma iw_some z : - 2^(w-1) <= z < 2^(w-1) -> iw w z = Some z.
  Proof. intros H. unfold iw. destruct (Z.leb_spec (- 2^(w-1)) z), (Z.ltb_spec z (2^(w-1))); try lia. reflexivity. Qed.
  Lemma iw_inv z r : iw w z = Some r -> r = z /\ - 2^(w-1) <= z < 2^(w-1).
  Proof.
    unfold iw. destruct (Z.leb_spec (- 2^(w-1)) z), (Z.ltb_spec z (2^(w-1))); cbn [andb]; intros E; try discriminate.
    split; [congruence|lia].
  Qed.
  Lemma int_frac F a : 0 <= F -> a = fp_Int F a * 2^F + fp_Frac F a /\ 0 <= fp_Frac F a < 2^F.
  Proof.
    intros HF. unfold fp_Int, fp_Frac. rewrite land_mask, Z.shiftr_div_pow2 by lia.
    pose proof (Z.pow_pos_nonneg 2 F ltac:(lia) HF). pose proof (Z.div_mod a (2^F)). pose proof (Z.mod_pos_bound a (2^F)). lia.
  Qed.
  Lemma precise_value F a b : 0 <= F ->
    fp_Int F a * fp_Int F b * 2^F + (fp_Int F a * fp_Frac F b + fp_Frac F a * fp_Int F b) + fp_Frac F a * fp_Frac F b / 2^F
    = a * b / 2^F.
  Proof.
    intros HF. destruct (int_frac F a HF) as [Ea Ra], (int_frac F b HF) as [Eb Rb].
    set (ai := fp_Int F a) in *. set (af := fp_Frac F a) in *. set (bi := fp_Int F b) in *. set (bf := fp_Frac F b) in *.
    clearbody ai af bi bf. subst a b. pose proof (Z.pow_pos_nonneg 2 F ltac:(lia) HF).
    replace ((ai * 2^F + af) * (bi * 2^F + bf)) with (af * bf + (ai * bi * 2^F + (ai * bf + af * bi)) * 2^F) by ring.
    rewrite Z.div_add by lia. ring.
  Qed.
End FixedProofs.

(** ** Classification *)
Lemma shl1_mod eb mb (s : bool) e m : 0 <= eb -> 0 <= mb -> 0 <= e < 2^eb -> 0 <= m < 2^mb ->
  Z.shiftl (word eb mb s e m) 1 mod 2^(1 + eb + mb) = (e * 2^mb + m) * 2.
Proof.
  intros Heb Hmb He Hm. rewrite Z.shiftl_mul_pow2 by lia. change (2^1) with 2. unfold word.
  replace (1 + eb + mb) with (Z.succ (eb + mb)) by lia. rewrite Z.pow_succ_r by lia.
  replace ((b2z s * 2^(eb+mb) + e * 2^mb + m) * 2) with ((e * 2^mb + m) * 2 + b2z s * (2 * 2^(eb+mb))) by ring.
  pose proof (Z.pow_pos_nonneg 2 (eb+mb) ltac:(lia) ltac:(lia)).
  rewrite Z.mod_add by lia. apply Z.mod_small. rewrite Z.pow_add_r in * by lia.
  pose proof (Z.pow_pos_nonneg 2 mb ltac:(lia) ltac:(lia)). nia.
Qed.
