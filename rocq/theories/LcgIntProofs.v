(** Proofs about the integer part of the random number generator. *)
From Coq Require Import ZArith List Bool Lia Znumtheory Zpow_facts.
From Verif Require Import LcgModel.
Import ListNotations.
Open Scope Z_scope.

Ltac Zify.zify_post_hook ::= Z.div_mod_to_equations.

Lemma Int_spec g : wf_lcg g -> 0 < modulus g ->
  exists g', Int g = Some ((lastNumber g * multiplier g + increment g) mod modulus g, g') /\
    g' = mkLcg ((lastNumber g * multiplier g + increment g) mod modulus g) (multiplier g) (increment g) (modulus g).
Proof.
  intros ((L0&L1)&(M0&M1)&(I0&I1)&(D0&D1)) Hm. unfold u32_max in *.
  unfold Int. destruct (Z.eqb_spec (modulus g) 0); [lia|].
  assert (B : 0 <= lastNumber g * multiplier g + increment g < 2^64).
  { split; [apply Z.add_nonneg_nonneg; [apply Z.mul_nonneg_nonneg|]; lia|].
    assert (lastNumber g * multiplier g <= 4294967295 * 4294967295)
      by (apply Z.mul_le_mono_nonneg; lia).
    change (2^64) with 18446744073709551616. lia. }
  rewrite (Z.mod_small _ (2^64)) by exact B.
  rewrite (Z.mod_small _ (2^32)).
  2:{ pose proof (Z.mod_pos_bound (lastNumber g * multiplier g + increment g) (modulus g) Hm).
      change (2^32) with 4294967296. lia. }
  eexists; split; reflexivity.
Qed.

Lemma Int_wf g v g' : wf_lcg g -> Int g = Some (v, g') ->
  wf_lcg g' /\ 0 <= v < modulus g /\ lastNumber g' = v /\
  multiplier g' = multiplier g /\ increment g' = increment g /\ modulus g' = modulus g.
Proof.
  intros W E.
  assert (Hm : 0 < modulus g).
  { destruct W as (_&_&_&D). unfold is_u32 in D. unfold Int in E.
    destruct (Z.eqb_spec (modulus g) 0); [discriminate|lia]. }
  destruct (Int_spec g W Hm) as (g1 & E1 & ->). rewrite E1 in E. injection E as <- <-. cbn.
  pose proof (Z.mod_pos_bound (lastNumber g * multiplier g + increment g) (modulus g) Hm) as B.
  destruct W as (L&M&I&D). repeat split; cbn; try lia; unfold is_u32 in *; try lia.
Qed.

Lemma draws_wf n : forall g g', wf_lcg g -> draws n g = Some g' ->
  wf_lcg g' /\ multiplier g' = multiplier g /\ increment g' = increment g /\ modulus g' = modulus g.
Proof.
  induction n as [|n IH]; intros g g' W E; cbn in E.
  - injection E as <-. auto.
  - destruct (Int g) as [[v g1]|] eqn:EI; [|discriminate].
    destruct (Int_wf _ _ _ W EI) as (W1 & _ & _ & A & B & C).
    destruct (IH _ _ W1 E) as (W' & A' & B' & C'). repeat split; try apply W'; congruence.
Qed.

Lemma draws_some n : forall g, wf_lcg g -> 0 < modulus g -> exists g', draws n g = Some g'.
Proof.
  induction n as [|n IH]; intros g W Hm; cbn; [eauto|].
  destruct (Int_spec g W Hm) as (g1 & E1 & E2). rewrite E1.
  destruct (Int_wf _ _ _ W E1) as (W1 & _ & _ & _ & _ & C). apply IH; auto. lia.
Qed.

Lemma Seed_wf s m i d : is_u32 s -> is_u32 m -> is_u32 i -> is_u32 d -> wf_lcg (Seed s m i d).
Proof.
  intros. unfold Seed, wf_lcg; cbn. destruct ((s =? 0) && (i =? 0)); unfold is_u32, u32_max in *; lia.
Qed.

Lemma nth_draw_range s m i d n v :
  is_u32 s -> is_u32 m -> is_u32 i -> is_u32 d ->
  nth_draw n (Seed s m i d) = Some v -> 0 <= v <= d - 1.
Proof.
  intros Hs Hm Hi Hd E. unfold nth_draw in E.
  destruct (draws n (Seed s m i d)) as [g|] eqn:D; [|discriminate].
  destruct (Int g) as [[v' g']|] eqn:EI; [|discriminate]. injection E as ->.
  destruct (draws_wf _ _ _ (Seed_wf _ _ _ _ Hs Hm Hi Hd) D) as (W & _ & _ & C).
  destruct (Int_wf _ _ _ W EI) as (_ & B & _). cbn in C. lia.
Qed.

Lemma nth_draw_some s m i d n :
  is_u32 s -> is_u32 m -> is_u32 i -> is_u32 d -> d <> 0 ->
  exists v, nth_draw n (Seed s m i d) = Some v.
Proof.
  intros Hs Hm Hi Hd N. pose proof (Seed_wf _ _ _ _ Hs Hm Hi Hd) as W.
  assert (P : 0 < modulus (Seed s m i d)) by (cbn; unfold is_u32 in Hd; lia).
  destruct (draws_some n _ W P) as (g & E). unfold nth_draw. rewrite E.
  destruct (draws_wf _ _ _ W E) as (W' & _ & _ & C).
  destruct (Int_spec g W') as (g' & E' & _); [lia|]. rewrite E'. eauto.
Qed.

(** ** IntFast *)
Lemma IntFast_nonzero g : wf_lcg g -> multiplier g <> 1 -> fst (IntFast g) <> 0.
Proof.
  intros ((L0&L1)&(M0&M1)&_) N. unfold u32_max in *. unfold IntFast. cbn [fst].
  change (2^32) with 4294967296.
  set (mul := (lastNumber g * multiplier g) mod 4294967296).
  assert (B : 0 <= mul < 4294967296) by (apply Z.mod_pos_bound; lia).
  destruct (Z.leb_spec mul (lastNumber g)) as [L|L].
  - intro E. assert (mul = 4294967295) by lia.
    assert (lastNumber g = 4294967295) by lia.
    assert (E2 : mul = (- multiplier g) mod 4294967296).
    { unfold mul. rewrite H0. replace (4294967295 * multiplier g) with (- multiplier g + multiplier g * 4294967296) by ring.
      now rewrite Z.mod_add by lia. }
    lia.
  - rewrite Z.add_0_r, Z.mod_small by lia. lia.
Qed.

(** ** Full period of the default parameters *)

Fixpoint no_divisor_from (p : Z) (k : nat) (d : Z) : bool :=
  match k with
  | O => true
  | S k' => if Z.eqb (p mod d) 0 then false else no_divisor_from p k' (d + 1)
  end.

Lemma no_divisor_from_spec p k : forall d, 0 < d -> no_divisor_from p k d = true ->
  forall x, d <= x < d + Z.of_nat k -> ~ (x | p).
Proof.
  induction k as [|k IH]; intros d Hd H x Hx.
  - lia.
  - cbn in H. destruct (Z.eqb_spec (p mod d) 0) as [E|E]; [discriminate|].
    destruct (Z.eq_dec x d) as [->|NE].
    + intro D. apply E. apply Z.mod_divide; [lia|exact D].
    + apply (IH (d+1)); [lia|exact H|lia].
Qed.

Lemma prime_by_trial p (k : nat) : 1 < p -> p < (2 + Z.of_nat k) * (2 + Z.of_nat k) ->
  no_divisor_from p k 2 = true -> prime p.
Proof.
  intros Hp Hk H. apply prime_alt. split; [exact Hp|].
  intros n Hn D.
  pose proof (no_divisor_from_spec p k 2 ltac:(lia) H) as N.
  destruct (Z_lt_le_dec n (2 + Z.of_nat k)) as [L|L].
  - apply (N n); [lia|exact D].
  - destruct D as [q E].
    assert (1 < q) by nia. assert (q < 2 + Z.of_nat k) by nia.
    apply (N q); [lia|]. exists n. lia.
Qed.

Notation PM := 2147483647.
Notation GEN := 69621.
Notation ORD := 2147483646.

Lemma PM_prime : prime PM.
Proof.
  apply (prime_by_trial PM (Z.to_nat 46400)).
  - lia.
  - rewrite Z2Nat.id; lia.
  - vm_compute. reflexivity.
Qed.

Definition ord_primes : list Z := [2;3;7;11;31;151;331].
Lemma ord_primes_prime q : In q ord_primes -> prime q.
Proof.
  intros H. cbn in H.
  destruct H as [<-|[<-|[<-|[<-|[<-|[<-|[<-|[]]]]]]]].
  - exact prime_2.
  - exact prime_3.
  - apply (prime_by_trial _ 1); [lia|lia|vm_compute; reflexivity].
  - apply (prime_by_trial _ 2); [lia|lia|vm_compute; reflexivity].
  - apply (prime_by_trial _ 4); [lia|lia|vm_compute; reflexivity].
  - apply (prime_by_trial _ 11); [lia|lia|vm_compute; reflexivity].
  - apply (prime_by_trial _ 17); [lia|lia|vm_compute; reflexivity].
Qed.

(** Powers of the multiplier modulo the modulus, kept folded so that no tactic evaluates them. *)
Definition gpow (k : Z) : Z := (GEN ^ k) mod PM.

Lemma pow_ORD : gpow ORD = 1.
Proof. unfold gpow. rewrite <- Zpow_mod_correct by discriminate. vm_compute. reflexivity. Qed.
Lemma pow_ORD_q q : In q ord_primes -> gpow (ORD / q) <> 1.
Proof.
  intros H. cbn [In ord_primes] in H.
  repeat (destruct H as [<-|H]; [unfold gpow; rewrite <- Zpow_mod_correct by discriminate; vm_compute; discriminate|]).
  destruct H.
Qed.

Lemma pow1_mul a b : 0 <= a -> 0 <= b -> gpow a = 1 -> gpow (a*b) = 1.
Proof.
  unfold gpow. intros Ha Hb H. rewrite Z.pow_mul_r by assumption. rewrite Zpower_mod, H by reflexivity.
  rewrite Z.pow_1_l by assumption. reflexivity.
Qed.

Lemma pow1_sub a b : 0 <= b -> 0 <= a -> gpow (a+b) = 1 -> gpow b = 1 -> gpow a = 1.
Proof.
  unfold gpow. intros Hb Ha H1 H2. rewrite Z.pow_add_r in H1 by assumption.
  rewrite Z.mul_mod, H2, Z.mul_1_r, Z.mod_mod in H1 by discriminate. exact H1.
Qed.

Lemma pow1_gcd_aux (n : nat) : forall a b, 0 <= a -> 0 <= b -> (Z.to_nat b < n)%nat ->
  gpow a = 1 -> gpow b = 1 -> gpow (Z.gcd a b) = 1.
Proof.
  induction n as [|n IH]; intros a b Ha Hb L H1 H2; [lia|].
  destruct (Z.eq_dec b 0) as [->|N].
  - rewrite Z.gcd_0_r, Z.abs_eq by lia. exact H1.
  - replace (Z.gcd a b) with (Z.gcd b (a mod b))
      by (rewrite Z.gcd_comm, Z.gcd_mod by exact N; apply Z.gcd_comm).
    pose proof (Z.mod_pos_bound a b ltac:(lia)).
    assert (0 <= a / b) by (apply Z.div_pos; lia).
    assert (0 <= b * (a / b)) by (apply Z.mul_nonneg_nonneg; lia).
    apply IH; [lia|lia|clear -L H Hb; lia|exact H2|].
    apply (pow1_sub _ (b * (a / b))); [assumption|lia| |].
    + rewrite Z.add_comm, <- Z.div_mod by lia. exact H1.
    + apply pow1_mul; assumption.
Qed.

Lemma coprime_ORD c : (c | ORD) -> 1 < c -> exists q, In q ord_primes /\ (q | c).
Proof.
  intros D Hc.
  assert (A : (exists q, In q ord_primes /\ (q | c)) \/ forall q, In q ord_primes -> ~ (q | c)).
  { generalize ord_primes. intro l. induction l as [|q l IH].
    - right. intros q [].
    - destruct (Zdivide_dec q c) as [Y|N].
      + left. exists q. split; [now left|exact Y].
      + destruct IH as [(q' & I & Y)|IH]; [left; exists q'; split; [now right|exact Y]|].
        right. intros q' [<-|I]; auto. }
  destruct A as [A|A]; [exact A|]. exfalso.
  assert (R : forall q, In q ord_primes -> rel_prime c q).
  { intros q I. apply rel_prime_sym. apply prime_rel_prime; [apply ord_primes_prime, I|apply A, I]. }
  assert (R2 : rel_prime c (2 * (3 * (3 * (7 * (11 * (31 * (151 * 331)))))))).
  { repeat (apply rel_prime_mult; [apply R; cbn; tauto|]). apply R; cbn; tauto. }
  change (2 * (3 * (3 * (7 * (11 * (31 * (151 * 331))))))) with ORD in R2.
  assert (c | 1).
  { apply (Gauss c ORD 1); [now rewrite Z.mul_1_r|exact R2]. }
  apply Z.divide_1_r_nonneg in H; lia.
Qed.

Lemma pow1_iff k : 0 <= k -> (gpow k = 1 <-> (ORD | k)).
Proof.
  intros Hk. split.
  - intros H.
    assert (G : gpow (Z.gcd ORD k) = 1).
    { apply (pow1_gcd_aux (S (Z.to_nat k))); [discriminate|assumption|apply Nat.lt_succ_diag_r|exact pow_ORD|exact H]. }
    set (d := Z.gcd ORD k) in *.
    assert (Dd : (d | ORD)) by apply Z.gcd_divide_l.
    assert (Dk : (d | k)) by apply Z.gcd_divide_r.
    assert (Pd : 0 <= d) by apply Z.gcd_nonneg.
    clearbody d.
    destruct Dd as [c E].
    assert (0 < d) by (destruct (Z.eq_dec d 0) as [Z0|]; [rewrite Z0 in E; lia|lia]).
    assert (0 < c) by nia.
    destruct (Z.eq_dec c 1) as [->|NC].
    + rewrite Z.mul_1_l in E. rewrite E. exact Dk.
    + destruct (coprime_ORD c) as (q & I & [t Et]); [exists d; lia|lia|].
      exfalso. apply (pow_ORD_q q I).
      assert (Hq : 0 < q) by (pose proof (prime_ge_2 q (ord_primes_prime q I)); lia).
      assert (0 < t) by nia.
      replace (ORD / q) with (d * t).
      2:{ rewrite E, Et. replace (t * q * d) with (d * t * q) by ring. rewrite Z.div_mul by lia. reflexivity. }
      apply pow1_mul; [lia|lia|assumption].
  - intros [t E]. assert (0 <= t) by lia. rewrite E, Z.mul_comm. apply pow1_mul; [discriminate|assumption|exact pow_ORD].
Qed.

(** The state after n draws of the default generator. *)
Lemma draws_last n : forall g, wf_lcg g -> multiplier g = GEN -> increment g = 0 -> modulus g = PM ->
  exists g', draws n g = Some g' /\ (n <> O -> lastNumber g' = (lastNumber g * GEN ^ Z.of_nat n) mod PM) /\
     lastNumber g' mod PM = (lastNumber g * GEN ^ Z.of_nat n) mod PM.
Proof.
  induction n as [|n IH]; intros g W Hm Hi Hd.
  - exists g. cbn. split; [reflexivity|]. split; [congruence|]. now rewrite Z.mul_1_r.
  - cbn [draws]. destruct (Int_spec g W) as (g1 & E & E1); [lia|]. rewrite E.
    destruct (Int_wf _ _ _ W E) as (W1 & B & L1 & A1 & A2 & A3).
    destruct (IH g1 W1) as (g' & E' & H1 & H2); try congruence.
    exists g'. split; [exact E'|].
    assert (X : (lastNumber g1 * GEN ^ Z.of_nat n) mod PM = (lastNumber g * GEN ^ Z.of_nat (S n)) mod PM).
    { rewrite L1, Hm, Hi, Hd, Z.add_0_r. rewrite Z.mul_mod_idemp_l by lia.
      f_equal. rewrite Nat2Z.inj_succ, Z.pow_succ_r by lia. ring. }
    split; [|now rewrite H2].
    intros _. destruct n as [|n].
    + cbn in E'. injection E' as <-. rewrite <- X. cbn [Z.of_nat]. rewrite Z.pow_0_r, Z.mul_1_r.
      rewrite L1, Hm, Hi, Hd. now rewrite Z.mod_mod by lia.
    + rewrite H1 by discriminate. exact X.
Qed.

Lemma default_draw seed n : is_u32 seed ->
  nth_draw n (SeedDefault seed) =
    Some ((if seed =? 0 then 1 else seed) * GEN ^ (Z.of_nat n + 1) mod PM).
Proof.
  intros Hs. assert (W : wf_lcg (SeedDefault seed)).
  { apply Seed_wf; auto; unfold is_u32, u32_max, defaultMul, defaultMod; lia. }
  destruct (draws_last n _ W) as (g & E & _ & H2); try reflexivity.
  unfold nth_draw. rewrite E. destruct (draws_wf _ _ _ W E) as (W' & A & B & C).
  change (multiplier (SeedDefault seed)) with GEN in A.
  change (increment (SeedDefault seed)) with 0 in B. change (modulus (SeedDefault seed)) with PM in C.
  destruct (Int_spec g W') as (g' & E' & _); [lia|]. rewrite E'. f_equal.
  rewrite A, B, C, Z.add_0_r, <- Z.mul_mod_idemp_l, H2, Z.mul_mod_idemp_l by lia.
  unfold SeedDefault, Seed. cbn [lastNumber]. change (0 =? 0) with true. rewrite andb_true_r.
  f_equal. rewrite Z.add_1_r, Z.pow_succ_r by lia. ring.
Qed.

Lemma GEN_pow_coprime k : 0 <= k -> rel_prime (GEN^k) PM.
Proof.
  intros Hk. apply rel_prime_sym. apply rel_prime_Zpower_r; [lia|].
  apply prime_rel_prime; [exact PM_prime|]. intros [q E]. assert (q = 0 \/ 1 <= q \/ q <= -1) by lia. nia.
Qed.

Lemma mod_nonzero_coprime x : x mod PM <> 0 -> rel_prime x PM.
Proof.
  intros H. apply rel_prime_sym, prime_rel_prime; [exact PM_prime|].
  intro D. apply H. apply Z.mod_divide; [lia|exact D].
Qed.

Lemma seed_fix_nonzero seed : is_u32 seed -> seed <> PM -> seed <> 2 * PM ->
  (if seed =? 0 then 1 else seed) mod PM <> 0.
Proof.
  intros [H0 H1] N1 N2. unfold u32_max in H1. destruct (Z.eqb_spec seed 0); lia.
Qed.

Lemma default_draw_pos seed n v : is_u32 seed -> seed <> PM -> seed <> 2*PM ->
  nth_draw n (SeedDefault seed) = Some v -> 1 <= v <= PM - 1.
Proof.
  intros Hs N1 N2 E. rewrite default_draw in E by exact Hs.
  pose proof (seed_fix_nonzero seed Hs N1 N2) as NZ.
  set (s := if seed =? 0 then 1 else seed) in *. injection E as <-.
  pose proof (Z.mod_pos_bound (s * GEN ^ (Z.of_nat n + 1)) PM ltac:(lia)).
  assert (s * GEN ^ (Z.of_nat n + 1) mod PM <> 0); [|lia].
  intro Z0. apply Z.mod_divide in Z0; [|lia].
  apply Gauss in Z0.
  - assert (R := GEN_pow_coprime (Z.of_nat n + 1) ltac:(lia)).
    destruct R as [_ _ R]. specialize (R PM Z0 (Z.divide_refl _)).
    apply Z.divide_1_r_nonneg in R; [discriminate R|discriminate].
  - apply rel_prime_sym, mod_nonzero_coprime, NZ.
Qed.

Lemma mod_eq_divide a b m : 0 < m -> a mod m = b mod m -> (m | a - b).
Proof.
  intros Hm E. exists (a / m - b / m).
  pose proof (Z.div_mod a m ltac:(lia)) as A. pose proof (Z.div_mod b m ltac:(lia)) as B.
  rewrite E in A. transitivity (m * (a / m) + b mod m - (m * (b / m) + b mod m)); [|ring].
  rewrite <- A, <- B. reflexivity.
Qed.

Lemma default_period seed n k : is_u32 seed -> seed <> PM -> seed <> 2*PM ->
  (nth_draw (n + k) (SeedDefault seed) = nth_draw n (SeedDefault seed) <-> (ORD | Z.of_nat k)).
Proof.
  intros Hs N1 N2. rewrite !default_draw by exact Hs.
  pose proof (seed_fix_nonzero seed Hs N1 N2) as NZ.
  set (s := if seed =? 0 then 1 else seed) in *.
  rewrite <- pow1_iff by lia. unfold gpow.
  replace (Z.of_nat (n + k) + 1) with ((Z.of_nat n + 1) + Z.of_nat k) by lia.
  rewrite Z.pow_add_r by lia. rewrite Z.mul_assoc.
  set (y := s * GEN ^ (Z.of_nat n + 1)).
  assert (RY : rel_prime PM y).
  { apply rel_prime_mult; apply rel_prime_sym; [apply mod_nonzero_coprime, NZ|apply GEN_pow_coprime; lia]. }
  split.
  - intros E. injection E as E. apply mod_eq_divide in E; [|lia].
    replace (y * GEN ^ Z.of_nat k - y) with (y * (GEN ^ Z.of_nat k - 1)) in E by ring.
    apply Gauss in E; [|exact RY].
    destruct E as [q E]. replace (GEN ^ Z.of_nat k) with (1 + q * PM) by lia.
    rewrite Z.mod_add by lia. reflexivity.
  - intros E. f_equal. rewrite Z.mul_mod, E, Z.mul_1_r, Z.mod_mod by lia. reflexivity.
Qed.

Lemma IntFast_wf g : wf_lcg g -> wf_lcg (snd (IntFast g)) /\ modulus (snd (IntFast g)) = modulus g.
Proof.
  intros (WL&WM&WI&WD). split; [|reflexivity]. split; [|auto]. unfold IntFast. cbn [snd lastNumber].
  unfold is_u32, u32_max. set (x := _ + _). pose proof (Z.mod_pos_bound x (2^32) ltac:(lia)). lia.
Qed.
