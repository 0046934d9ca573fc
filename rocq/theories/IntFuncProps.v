(** Properties C12 (binomials, factorial), C13 (integer powers), C14 (classification), C15 (fixed point). *)
From Coq Require Import ZArith List Bool Lia Arith Factorial Reals Lra.
From Flocq Require Import Core.Core.
From Verif Require Import Num NumR BitModel BitProofs IntFuncModel MiniFloatSpec MiniFloatProofs IntFuncProofs.
Import ListNotations.
Open Scope Z_scope.
Ltac Zify.zify_post_hook ::= idtac.

(** ** C12.  Specification: [r] is n choose k when r * k! * (n-k)! = n! (standard library factorial). *)
Definition is_choose (n k r : Z) : Prop :=
  r * (Z.of_nat (fact (Z.to_nat k)) * Z.of_nat (fact (Z.to_nat (n - k)))) = Z.of_nat (fact (Z.to_nat n)).

Lemma zfact_fact n : zfact n = Z.of_nat (fact n).
Proof. induction n; [reflexivity|]. cbn [zfact fact]. rewrite IHn. replace (fact n + n * fact n)%nat with (S n * fact n)%nat by reflexivity. lia. Qed.
Lemma is_choose_binom n k r : 0 <= k <= n -> is_choose n k r -> r = binomZ n k.
Proof.
  intros Hk H. unfold is_choose in H. rewrite <- !zfact_fact in H.
  pose proof (binom_fact (Z.to_nat n) (Z.to_nat k) ltac:(lia)) as B. fold (binomZ n k) in B.
  replace (Z.to_nat n - Z.to_nat k)%nat with (Z.to_nat (n - k)) in B by lia.
  pose proof (zfact_pos (Z.to_nat k)). pose proof (zfact_pos (Z.to_nat (n - k))).
  apply Z.mul_reg_r with (zfact (Z.to_nat k) * zfact (Z.to_nat (n - k))); [nia|]. congruence.
Qed.
Lemma binom_is_choose n k : 0 <= k <= n -> is_choose n k (binomZ n k).
Proof.
  intros Hk. unfold is_choose. rewrite <- !zfact_fact. replace (Z.to_nat (n - k)) with (Z.to_nat n - Z.to_nat k)%nat by lia.
  unfold binomZ. apply binom_fact. lia.
Qed.

Theorem C12_tab : forall n k r, 0 <= k <= n -> n < INT_MAX -> k + 1 < 2^30 -> is_choose n k r -> r <= INT_MAX ->
  CombinatorialTab n k = Some r.
Proof.
  intros n k r Hk Hn Hk2 Hr Hb. rewrite (is_choose_binom n k r Hk Hr) in *. now apply CombinatorialTab_correct.
Qed.
Print Assumptions C12_tab.
Example C12_tab_witness : is_choose 30 7 2035800 /\ CombinatorialTab 30 7 = Some 2035800.
Proof. split; [|vm_compute; reflexivity]. exact (binom_is_choose 30 7 ltac:(lia)). Qed.

(** Outside 0..n the value is 0; the result is always a binomial coefficient when it is defined and k is in range. *)
Theorem C12_tab_outside : forall n k, 0 <= n -> k < 0 \/ n < k -> CombinatorialTab n k = Some 0.
Proof.
  intros n k Hz H. unfold CombinatorialTab. destruct (Z.eqb_spec k 0); [lia|]. destruct (Z.eqb_spec k n); [lia|]. cbn [orb].
  destruct (Z.ltb_spec k 0); cbn [orb]; [reflexivity|]. destruct (Z.ltb_spec n k); [reflexivity|lia].
Qed.
Print Assumptions C12_tab_outside.

Theorem C12_rec : forall n k r, 0 <= k <= n -> n <= INT_MAX -> is_choose n k r -> r <= INT_MAX ->
  CombinatorialRec n k = Some r.
Proof.
  intros n k r Hk Hn Hr Hb. rewrite (is_choose_binom n k r Hk Hr) in *. now apply CombinatorialRec_correct.
Qed.
Print Assumptions C12_rec.
Example C12_rec_witness : is_choose 12 5 792 /\ CombinatorialRec 12 5 = Some 792.
Proof. split; [|vm_compute; reflexivity]. exact (binom_is_choose 12 5 ltac:(lia)). Qed.

(** CombinatorialRec and CombinatorialTab disagree outside 0..n: the recursive one answers 1 instead of 0. *)
Theorem C12_rec_outside_refuted : forall n k, 0 <= n -> k < 0 \/ n < k ->
  CombinatorialRec n k = Some 1 /\ CombinatorialTab n k = Some 0.
Proof.
  intros n k Hz H. split; [|now apply C12_tab_outside]. unfold CombinatorialRec.
  assert (E : (k <=? 0) || (n <=? k) = true) by (destruct (Z.leb_spec k 0), (Z.leb_spec n k); try reflexivity; lia).
  destruct (Z.to_nat n); cbn [CombinatorialRec_fuel]; rewrite E; reflexivity.
Qed.
Print Assumptions C12_rec_outside_refuted.

(** Factorial is exact up to 12 and overflows (undefined behaviour) from 13 on. *)
Theorem C12_factorial : forall n, 0 <= n <= 12 -> Factorial n = Some (Z.of_nat (fact (Z.to_nat n))).
Proof.
  intros n Hn. rewrite <- zfact_fact. apply Factorial_correct; [unfold INT_MAX; lia|].
  eapply Z.le_trans; [apply (zfact_mono _ 12); lia|]. vm_compute. discriminate.
Qed.
Print Assumptions C12_factorial.
Theorem C12_factorial_overflow : forall n, 13 <= n -> Factorial n = None.
Proof.
  intros n Hn. unfold Factorial. replace (Z.to_nat n) with (12 + Z.to_nat (n - 12))%nat by lia.
  generalize (Z.to_nat (n - 12)) as f. intros f. cbn [plus].
  do 12 (cbn [for_le]; match goal with |- context [?i <=? n] => destruct (Z.leb_spec i n); [|lia] end;
         match goal with |- context [i32 (?a * ?b)] => let r := eval vm_compute in (i32 (a * b)) in change (i32 (a * b)) with r end; cbn [bind];
         try match goal with |- context [i32 (?a + ?b)] => let r := eval vm_compute in (i32 (a + b)) in change (i32 (a + b)) with r end; cbn [bind]).
  reflexivity.
Qed.
Print Assumptions C12_factorial_overflow.

(** ** C13 *)
Theorem C13_pow_uint : forall (b : R) (e : Z), 0 <= e < 2^32 -> PowUInt b e = Some (powerRZ b e).
Proof.
  intros b e He. rewrite PowUInt_R by assumption. f_equal. destruct e; try lia; [reflexivity|]. cbn [powerRZ]. f_equal.
Qed.
Print Assumptions C13_pow_uint.
Theorem C13_pow_int : forall (b : R) (e : Z), - 2^31 < e < 2^31 -> (b <> 0)%R \/ 0 <= e -> PowInt b e = Some (powerRZ b e).
Proof.
  intros b e He Hb. unfold PowInt. destruct (Z.eqb_spec e 0); [subst; cbn; f_equal; rsimpl; lra|].
  destruct (Z.ltb_spec e 0).
  - rewrite i32_some by (unfold INT_MAX; lia). cbn [bind]. rewrite PowUInt_R by lia. cbn [bind]. f_equal. rsimpl.
    destruct e; try lia. cbn [powerRZ]. change (Z.to_nat (- Z.neg p)) with (Pos.to_nat p).
    assert (b <> 0)%R by (destruct Hb; [assumption|lia]). field. now apply pow_nonzero.
  - rewrite PowUInt_R by lia. f_equal. destruct e; try lia; reflexivity.
Qed.
Print Assumptions C13_pow_int.
Example C13_pow_int_witness : (3 <> 0)%R /\ PowInt 3%R (-2) = Some (/ 9)%R.
Proof. split; [lra|]. rewrite C13_pow_int by (try lia; left; lra). f_equal. change (powerRZ 3 (-2)) with (/ (3 * (3 * 1)))%R. f_equal. ring. Qed.
(** The one excluded exponent is undefined behaviour. *)
Theorem C13_pow_int_min : forall b : R, PowInt b (- 2^31) = None.
Proof. intros. reflexivity. Qed.
Print Assumptions C13_pow_int_min.

(** ** C14.  The denotation of a pattern is MiniFloatSpec.pattern_val. *)
Definition is_real (v : fpval) : bool := match v with FpReal _ _ => true | _ => false end.
Definition is_inf (v : fpval) : bool := match v with FpInf _ => true | _ => false end.
Definition is_nan (v : fpval) : bool := match v with FpNan => true | _ => false end.

Theorem C14_float : forall w, 0 <= w < 2^32 ->
  IsFinite_f w = is_real (float_val w) /\ IsInf_f w = is_inf (float_val w) /\ IsNan_f w = is_nan (float_val w).
Proof.
  intros w Hw. destruct (word_of_fields 8 23 w ltac:(lia) ltac:(lia) ltac:(lia)) as (W & He & Hm).
  set (s := sign_of 8 23 w) in *; set (e := expo_of 8 23 w) in *; set (m := mant_of 23 w) in *; clearbody s e m; subst w.
  unfold IsFinite_f, IsInf_f, IsNan_f, u32, float_val. change 32 with (1 + 8 + 23). rewrite shl1_mod by lia. rewrite pattern_word by lia.
  unfold fields_val. change (2^8 - 1) with 255.
  destruct (Z.eqb_spec e 255) as [->|Ne].
  - destruct (Z.eqb_spec m 0) as [->|Nm]; [repeat split; reflexivity|].
    destruct (Z.ltb_spec ((255 * 2^23 + m) * 2) 0xFF000000); [lia|].
    destruct (Z.eqb_spec ((255 * 2^23 + m) * 2) 0xFF000000); [lia|].
    destruct (Z.ltb_spec 0xFF000000 ((255 * 2^23 + m) * 2)); [|lia]. repeat split; reflexivity.
  - destruct (Z.ltb_spec ((e * 2^23 + m) * 2) 0xFF000000); [|lia].
    destruct (Z.eqb_spec ((e * 2^23 + m) * 2) 0xFF000000); [lia|].
    destruct (Z.ltb_spec 0xFF000000 ((e * 2^23 + m) * 2)); [lia|]. destruct (e =? 0); repeat split; reflexivity.
Qed.
Print Assumptions C14_float.
Example C14_float_witness : IsNan_f 0xFFC00001 = true /\ IsInf_f 0xFF800000 = true /\ IsFinite_f 0x00000001 = true.
Proof. repeat split. Qed.
Theorem C14_double : forall w, 0 <= w < 2^64 ->
  let v := pattern_val 11 52 1023 w in
  IsFinite_d w = is_real v /\ IsInf_d w = is_inf v /\ IsNan_d w = is_nan v.
Proof.
  intros w Hw. cbv zeta. destruct (word_of_fields 11 52 w ltac:(lia) ltac:(lia) ltac:(lia)) as (W & He & Hm).
  set (s := sign_of 11 52 w) in *; set (e := expo_of 11 52 w) in *; set (m := mant_of 52 w) in *; clearbody s e m; subst w.
  unfold IsFinite_d, IsInf_d, IsNan_d, u64. change 64 with (1 + 11 + 52). rewrite shl1_mod by lia. rewrite pattern_word by lia.
  unfold fields_val. change (2^11 - 1) with 2047.
  destruct (Z.eqb_spec e 2047) as [->|Ne].
  - destruct (Z.eqb_spec m 0) as [->|Nm]; [repeat split; reflexivity|].
    destruct (Z.ltb_spec ((2047 * 2^52 + m) * 2) 0xFFE0000000000000); [lia|].
    destruct (Z.eqb_spec ((2047 * 2^52 + m) * 2) 0xFFE0000000000000); [lia|].
    destruct (Z.ltb_spec 0xFFE0000000000000 ((2047 * 2^52 + m) * 2)); [|lia]. repeat split; reflexivity.
  - destruct (Z.ltb_spec ((e * 2^52 + m) * 2) 0xFFE0000000000000); [|lia].
    destruct (Z.eqb_spec ((e * 2^52 + m) * 2) 0xFFE0000000000000); [lia|].
    destruct (Z.ltb_spec 0xFFE0000000000000 ((e * 2^52 + m) * 2)); [lia|]. destruct (e =? 0); repeat split; reflexivity.
Qed.
Print Assumptions C14_double.

(** ** C15.  The number a stored value with F fraction bits represents. *)
Definition fval (F a : Z) : R := (IZR a / IZR (2^F))%R.

Lemma IZR_pow2_pos F : 0 <= F -> (0 < IZR (2^F))%R.
Proof. intros. apply IZR_lt. apply Z.pow_pos_nonneg; lia. Qed.
Lemma fval_scale F d a : 0 <= F -> 0 <= d -> fval (F + d) (a * 2^d) = fval F a.
Proof.
  intros. unfold fval. rewrite Z.pow_add_r, !mult_IZR by lia. pose proof (IZR_pow2_pos F H). pose proof (IZR_pow2_pos d H0). field. lra.
Qed.
Lemma fval_shiftr F d b : 0 <= F -> 0 <= d -> (fval (F + d) b - fval F 1 < fval F (Z.shiftr b d) <= fval (F + d) b)%R.
Proof.
  intros HF Hd. rewrite Z.shiftr_div_pow2 by lia. pose proof (IZR_pow2_pos F HF) as P. pose proof (IZR_pow2_pos d Hd) as Q.
  unfold fval. rewrite Z.pow_add_r, mult_IZR by lia.
  pose proof (Z.pow_pos_nonneg 2 d ltac:(lia) Hd). pose proof (Z.div_mod b (2^d) ltac:(lia)) as D. pose proof (Z.mod_pos_bound b (2^d) ltac:(lia)) as M.
  set (q := b / 2^d) in *. set (r := b mod 2^d) in *.
  assert (E : IZR b = (IZR (2^d) * IZR q + IZR r)%R) by (rewrite D, plus_IZR, mult_IZR; reflexivity).
  assert (0 <= IZR r < IZR (2^d))%R by (split; [apply (IZR_le 0)|apply IZR_lt]; lia).
  rewrite E. set (X := IZR (2^F)) in *. set (Y := IZR (2^d)) in *.
  replace ((Y * IZR q + IZR r) / (X * Y))%R with (IZR q / X + (IZR r / Y) / X)%R by (field; lra).
  assert (0 <= IZR r / Y < 1)%R.
  { split; [apply Rmult_le_pos; [lra|apply Rlt_le, Rinv_0_lt_compat; lra]|]. apply Rmult_lt_reg_r with Y; [lra|]. unfold Rdiv. rewrite Rmult_assoc, Rinv_l by lra. lra. }
  assert (0 < / X)%R by (apply Rinv_0_lt_compat; lra).
  unfold Rdiv in *. split; nra.
Qed.

Theorem C15_add : forall w F F2 a b r, 0 <= F2 -> F2 <= F -> fp_Add w F F2 a b = Some r ->
  fval F r = (fval F a + fval F2 b)%R.
Proof.
  intros w F F2 a b r H2 HF H. unfold fp_Add in H. pose proof (IZR_pow2_pos F ltac:(lia)).
  destruct (Z.ltb_spec F2 F).
  - unfold bind in H. destruct (iw w (b * 2^(F-F2))) eqn:E; [|discriminate]. apply iw_inv in E, H. destruct E as [-> _], H as [-> _].
    rewrite <- (fval_scale F2 (F - F2) b) by lia. replace (F2 + (F - F2)) with F by lia.
    unfold fval. rewrite plus_IZR. field. lra.
  - destruct (Z.ltb_spec F F2); [lia|]. apply iw_inv in H. destruct H as [-> _]. assert (F2 = F) by lia. subst.
    unfold fval. rewrite plus_IZR. field. lra.
Qed.
Print Assumptions C15_add.
(** Adding an operand with more fraction bits rounds its value down. *)
Theorem C15_add_narrow : forall w F F2 a b r, 0 <= F -> F < F2 -> fp_Add w F F2 a b = Some r ->
  (fval F a + fval F2 b - fval F 1 < fval F r <= fval F a + fval F2 b)%R.
Proof.
  intros w F F2 a b r H2 HF H. unfold fp_Add in H. pose proof (IZR_pow2_pos F ltac:(lia)).
  destruct (Z.ltb_spec F2 F); [lia|]. destruct (Z.ltb_spec F F2); [|lia]. apply iw_inv in H. destruct H as [-> _].
  pose proof (fval_shiftr F (F2 - F) b ltac:(lia) ltac:(lia)) as S. replace (F + (F2 - F)) with F2 in S by lia.
  assert (E : fval F (a + Z.shiftr b (F2 - F)) = (fval F a + fval F (Z.shiftr b (F2 - F)))%R) by (unfold fval; rewrite plus_IZR; field; lra).
  rewrite E. lra.
Qed.
Print Assumptions C15_add_narrow.
Theorem C15_sub : forall w F F2 a b r, 0 <= F2 -> F2 <= F -> fp_Sub w F F2 a b = Some r ->
  fval F r = (fval F a - fval F2 b)%R.
Proof.
  intros w F F2 a b r H2 HF H. unfold fp_Sub in H. pose proof (IZR_pow2_pos F ltac:(lia)).
  destruct (Z.ltb_spec F2 F).
  - unfold bind in H. destruct (iw w (b * 2^(F-F2))) eqn:E; [|discriminate]. apply iw_inv in E, H. destruct E as [-> _], H as [-> _].
    rewrite <- (fval_scale F2 (F - F2) b) by lia. replace (F2 + (F - F2)) with F by lia.
    unfold fval. rewrite minus_IZR. field. lra.
  - destruct (Z.ltb_spec F F2); [lia|]. apply iw_inv in H. destruct H as [-> _]. assert (F2 = F) by lia. subst.
    unfold fval. rewrite minus_IZR. field. lra.
Qed.
Print Assumptions C15_sub.
(** With equal formats the operation is defined exactly when the exact result is representable. *)
Theorem C15_add_sub_defined : forall w F a b,
  (exists r, fp_Add w F F a b = Some r) <-> - 2^(w-1) <= a + b < 2^(w-1).
Proof.
  intros. unfold fp_Add. rewrite Z.ltb_irrefl. split.
  - intros [r H]. apply iw_inv in H. lia.
  - intros H. exists (a + b). now apply iw_some.
Qed.
Print Assumptions C15_add_sub_defined.
Example C15_add_witness : fp_Add 32 16 8 0x18000 0x280 = Some 0x40000.
Proof. reflexivity. Qed.

Theorem C15_compare : forall F a b, 0 <= F -> (fp_lt a b = true <-> (fval F a < fval F b)%R) /\ (fp_eq a b = true <-> fval F a = fval F b).
Proof.
  intros F a b HF. pose proof (IZR_pow2_pos F HF) as P. assert (0 < / IZR (2^F))%R by (now apply Rinv_0_lt_compat).
  unfold fp_lt, fp_eq, fval. rewrite Z.ltb_lt, Z.eqb_eq. split; split; intros H0.
  - apply Rmult_lt_compat_r; [lra|]. now apply IZR_lt.
  - apply lt_IZR. apply Rmult_lt_reg_r with (/ IZR (2^F))%R; lra.
  - now subst.
  - apply eq_IZR. apply Rmult_eq_reg_r with (/ IZR (2^F))%R; [exact H0|lra].
Qed.
Print Assumptions C15_compare.
(** Comparing with an integer is exact too, although only the integer part is looked at. *)
Theorem C15_compare_int : forall F a v, 0 <= F -> (fp_ltT F a v = true <-> (fval F a < IZR v)%R) /\ (fp_eqT F a v = true <-> fval F a = IZR v).
Proof.
  intros F a v HF. pose proof (IZR_pow2_pos F HF) as P. unfold fp_ltT, fp_eqT, fval, fp_Int. rewrite Z.shiftr_div_pow2 by lia.
  rewrite Z.ltb_lt, Z.eqb_eq. pose proof (Z.pow_pos_nonneg 2 F ltac:(lia) HF) as PF.
  assert (L : (IZR a / IZR (2^F) < IZR v <-> IZR a < IZR v * IZR (2^F))%R).
  { split; intros H.
    - apply Rmult_lt_compat_r with (r := IZR (2^F)) in H; [|lra]. unfold Rdiv in H. rewrite Rmult_assoc, Rinv_l in H by lra. lra.
    - apply Rmult_lt_reg_r with (IZR (2^F)); [lra|]. unfold Rdiv. rewrite Rmult_assoc, Rinv_l by lra. lra. }
  split.
  - rewrite L, <- mult_IZR. split; intros H.
    + apply IZR_lt. pose proof (Z.div_mod a (2^F) ltac:(lia)). pose proof (Z.mod_pos_bound a (2^F) PF). nia.
    + apply lt_IZR in H. apply Z.div_lt_upper_bound; lia.
  - split; intros H.
    + subst a. rewrite mult_IZR. field. lra.
    + apply eq_IZR. rewrite mult_IZR. rewrite <- H. field. lra.
Qed.
Print Assumptions C15_compare_int.

Theorem C15_int_frac : forall F a, 0 <= F ->
  fp_Int F a = Zfloor (fval F a) /\ (fval F (fp_Frac F a) = fval F a - IZR (Zfloor (fval F a)))%R.
Proof.
  intros F a HF. destruct (int_frac F a HF) as [E Rg]. pose proof (IZR_pow2_pos F HF) as P.
  assert (V : (fval F a = IZR (fp_Int F a) + fval F (fp_Frac F a))%R).
  { unfold fval. rewrite E at 1. rewrite plus_IZR, mult_IZR. field. lra. }
  assert (Rf : (0 <= fval F (fp_Frac F a) < 1)%R).
  { unfold fval. assert (0 <= IZR (fp_Frac F a) < IZR (2^F))%R by (split; [apply (IZR_le 0)|apply IZR_lt]; lia).
    split; [apply Rmult_le_pos; [lra|apply Rlt_le, Rinv_0_lt_compat; lra]|].
    apply Rmult_lt_reg_r with (IZR (2^F)); [lra|]. unfold Rdiv. rewrite Rmult_assoc, Rinv_l by lra. lra. }
  assert (Zf : Zfloor (fval F a) = fp_Int F a).
  { apply Zfloor_imp. rewrite plus_IZR. lra. }
  split; [now symmetry|]. rewrite Zf. lra.
Qed.
Print Assumptions C15_int_frac.

(** MulPrecise, when nothing overflows, is the exact product rounded down to a multiple of 2^-F. *)
Lemma MulPrecise_Z w F a b r : 0 <= F -> fp_MulPrecise w F a b = Some r -> r = a * b / 2^F.
Proof.
  intros HF H. unfold fp_MulPrecise, bind in H.
  repeat match type of H with context [match iw w ?x with _ => _ end] => let E := fresh "E" in destruct (iw w x) eqn:E; [|discriminate]; apply iw_inv in E; destruct E as [-> _] end.
  apply iw_inv in H. destruct H as [-> _]. rewrite Z.shiftr_div_pow2 by lia. now apply precise_value.
Qed.
Theorem C15_mul_precise : forall w F a b r, 0 <= F -> fp_MulPrecise w F a b = Some r ->
  (fval F a * fval F b - fval F 1 < fval F r <= fval F a * fval F b)%R.
Proof.
  intros w F a b r HF H. apply MulPrecise_Z in H; [|assumption]. subst r. pose proof (IZR_pow2_pos F HF) as P.
  rewrite <- Z.shiftr_div_pow2 by lia. pose proof (fval_shiftr F F (a * b) HF HF) as S.
  replace (fval (F + F) (a * b)) with (fval F a * fval F b)%R in S; [exact S|].
  unfold fval. rewrite Z.pow_add_r, !mult_IZR by lia. field. lra.
Qed.
Print Assumptions C15_mul_precise.
(** A sufficient condition for it to be defined: at most (w-1)/2 fraction bits and moderate integer parts. *)
Theorem C15_mul_precise_defined : forall w F a b A B, 0 <= F -> 2 * F <= w - 1 ->
  0 <= A -> 0 <= B -> - A * 2^F <= a < A * 2^F -> - B * 2^F <= b < B * 2^F -> (A * B + A + B + 1) * 2^F <= 2^(w-1) ->
  exists r, fp_MulPrecise w F a b = Some r.
Proof.
  intros w F a b A B HF Hw HA HB Ha Hb Hab.
  destruct (int_frac F a HF) as [Ea Ra], (int_frac F b HF) as [Eb Rb].
  unfold fp_MulPrecise, bind.
  set (ai := fp_Int F a) in *. set (af := fp_Frac F a) in *. set (bi := fp_Int F b) in *. set (bf := fp_Frac F b) in *.
  pose proof (Z.pow_pos_nonneg 2 F ltac:(lia) HF) as PF.
  assert (Hai : - A <= ai <= A - 1) by nia. assert (Hbi : - B <= bi <= B - 1) by nia. clearbody ai af bi bf. clear Ea Eb Ha Hb.
  assert (FF : 2^F * 2^F <= 2^(w-1)) by (rewrite <- Z.pow_add_r by lia; apply Z.pow_le_mono_r; lia).
  remember (2^(w-1)) as M eqn:EM. remember (2^F) as X eqn:EX.
  assert (P1 : - (A * B) <= ai * bi <= A * B) by nia.
  assert (P2 : - (A * X) <= ai * bf <= A * X) by nia.
  assert (P3 : - (B * X) <= af * bi <= B * X) by nia.
  assert (P4 : 0 <= af * bf < X * X) by nia.
  assert (Q : 0 <= A * B) by nia. assert (Q2 : 0 <= A * X) by nia. assert (Q3 : 0 <= B * X) by nia. assert (Q4 : A * B <= A * B * X) by nia.
  assert (P1' : - (A * B * X) <= ai * bi * X <= A * B * X) by nia.
  assert (D4 : 0 <= af * bf / X < X) by (split; [apply Z.div_pos; lia|apply Z.div_lt_upper_bound; lia]).
  replace ((A * B + A + B + 1) * X) with (A * B * X + A * X + B * X + X) in Hab by ring.
  rewrite (iw_some w (ai * bi)) by (rewrite <- EM; lia). rewrite (iw_some w (ai * bi * X)) by (rewrite <- EM; lia).
  rewrite (iw_some w (ai * bf)) by (rewrite <- EM; lia). rewrite (iw_some w (af * bi)) by (rewrite <- EM; lia).
  rewrite (iw_some w (ai * bf + af * bi)) by (rewrite <- EM; lia). rewrite (iw_some w (af * bf)) by (rewrite <- EM; lia).
  rewrite (iw_some w (ai * bi * X + (ai * bf + af * bi))) by (rewrite <- EM; lia).
  rewrite Z.shiftr_div_pow2 by lia. rewrite <- EX. eexists. apply iw_some. rewrite <- EM. lia.
Qed.
Print Assumptions C15_mul_precise_defined.
Example C15_mul_precise_witness : fp_MulPrecise 32 8 (3 * 256 + 64) (- (5 * 256 + 128)) = Some (- 4576).
Proof. reflexivity. Qed.
(** The header's claim that MulPrecise cannot overflow in its intermediate results is false: for the common 16.16
    format the product of two fractions overflows although the exact product is representable. *)
Theorem C15_mul_precise_overflow_refuted :
  fp_MulPrecise 32 16 0xFFFF 0xFFFF = None /\ 0 <= 0xFFFF * 0xFFFF / 2^16 < 2^31.
Proof. split; [reflexivity|]. vm_compute. split; [discriminate|reflexivity]. Qed.
Print Assumptions C15_mul_precise_overflow_refuted.

Theorem C15_mul_extra_fast : forall w F F2 a b r, 0 <= F -> 0 <= F2 -> fp_MulExtraFast w F2 a b = Some r ->
  (fval F a * fval F2 b - fval F 1 < fval F r <= fval F a * fval F2 b)%R.
Proof.
  intros w F F2 a b r HF HF2 H. unfold fp_MulExtraFast, bind in H. destruct (iw w (a * b)) eqn:E; [|discriminate].
  apply iw_inv in E. destruct E as [-> _]. injection H as <-. pose proof (IZR_pow2_pos F HF). pose proof (IZR_pow2_pos F2 HF2).
  pose proof (fval_shiftr F F2 (a * b) HF HF2) as S.
  replace (fval (F + F2) (a * b)) with (fval F a * fval F2 b)%R in S; [exact S|].
  unfold fval. rewrite Z.pow_add_r, !mult_IZR by lia. field. lra.
Qed.
Print Assumptions C15_mul_extra_fast.

(** Division and the ratio constructor truncate toward zero: off by less than one unit in the last place. *)
Lemma quot_close n d : d <> 0 -> (Rabs (IZR (Z.quot n d) - IZR n / IZR d) < 1)%R.
Proof.
  intros Hd. pose proof (Z.quot_rem' n d) as E. pose proof (Z.rem_bound_abs n d Hd) as Rb.
  assert (D : IZR d <> 0%R) by (now apply not_0_IZR).
  replace (IZR (Z.quot n d) - IZR n / IZR d)%R with (- (IZR (Z.rem n d) / IZR d))%R.
  2:{ assert (EE : IZR n = (IZR d * IZR (Z.quot n d) + IZR (Z.rem n d))%R) by (rewrite <- mult_IZR, <- plus_IZR; now f_equal).
      rewrite EE. field. assumption. }
  rewrite Rabs_Ropp. unfold Rdiv. rewrite Rabs_mult, Rabs_inv.
  assert (0 < Rabs (IZR d))%R by (now apply Rabs_pos_lt).
  apply Rmult_lt_reg_r with (Rabs (IZR d)); [assumption|]. rewrite Rmult_assoc, Rinv_l by lra.
  rewrite Rmult_1_r, Rmult_1_l, <- !abs_IZR. now apply IZR_lt.
Qed.
Theorem C15_div_extra_fast : forall w F F2 a b r, 0 <= F -> 0 <= F2 -> fp_DivExtraFast w F2 a b = Some r ->
  (Rabs (fval F r - fval F a / fval F2 b) < fval F 1)%R.
Proof.
  intros w F F2 a b r HF HF2 H. unfold fp_DivExtraFast, bind in H. destruct (Z.eqb_spec b 0); [discriminate|].
  destruct (iw w (a * 2^F2)) eqn:E; [|discriminate]. apply iw_inv in E. destruct E as [-> _]. apply iw_inv in H. destruct H as [-> _].
  pose proof (quot_close (a * 2^F2) b n) as Q. rewrite mult_IZR in Q.
  pose proof (IZR_pow2_pos F HF). pose proof (IZR_pow2_pos F2 HF2). assert (IZR b <> 0%R) by (now apply not_0_IZR).
  assert (0 < / IZR (2^F))%R by (now apply Rinv_0_lt_compat).
  unfold fval. set (q := IZR (Z.quot (a * 2^F2) b)) in *.
  replace (q / IZR (2^F) - IZR a / IZR (2^F) / (IZR b / IZR (2^F2)))%R with ((q - IZR a * IZR (2^F2) / IZR b) * / IZR (2^F))%R by (field; lra).
  rewrite Rabs_mult, (Rabs_pos_eq (/ IZR (2^F))) by lra. unfold Rdiv at 2. apply Rmult_lt_compat_r; lra.
Qed.
Print Assumptions C15_div_extra_fast.
Theorem C15_ratio_constructor : forall w F whole nomin denom r, 0 <= F -> fp_of_ratio w F whole nomin denom = Some r ->
  denom <> 0 /\ (Rabs (fval F r - (IZR whole + IZR nomin / IZR denom)) < fval F 1)%R.
Proof.
  intros w F whole nomin denom r HF H. unfold fp_of_ratio, bind in H. destruct (Z.eqb_spec denom 0) as [|Hd]; [discriminate|]. split; [assumption|].
  repeat match type of H with context [match iw w ?x with _ => _ end] => let E := fresh "E" in destruct (iw w x) eqn:E; [|discriminate]; apply iw_inv in E; destruct E as [-> _] end.
  apply iw_inv in H. destruct H as [-> _].
  pose proof (quot_close (nomin * 2^F) denom Hd) as Q. rewrite mult_IZR in Q.
  pose proof (IZR_pow2_pos F HF). assert (IZR denom <> 0%R) by (now apply not_0_IZR).
  assert (0 < / IZR (2^F))%R by (now apply Rinv_0_lt_compat).
  unfold fval. rewrite plus_IZR, mult_IZR. set (q := IZR (Z.quot (nomin * 2^F) denom)) in *.
  replace ((IZR whole * IZR (2^F) + q) / IZR (2^F) - (IZR whole + IZR nomin / IZR denom))%R
    with ((q - IZR nomin * IZR (2^F) / IZR denom) * / IZR (2^F))%R by (field; lra).
  rewrite Rabs_mult, (Rabs_pos_eq (/ IZR (2^F))) by lra. unfold Rdiv at 2. apply Rmult_lt_compat_r; lra.
Qed.
Print Assumptions C15_ratio_constructor.
Example C15_ratio_constructor_witness : fp_of_ratio 32 16 2 1 3 = Some 0x25555.
Proof. reflexivity. Qed.

(** The remaining constructors and integer operands: exact whenever they are defined. *)
Theorem C15_int_operands : forall w F a v r, 0 <= F ->
  (fp_of_int w F v = Some r -> fval F r = IZR v) /\
  (forall frac, fp_of_pair w F v frac = Some r -> fval F r = IZR v + fval F frac)%R /\
  (fp_AddT w F a v = Some r -> fval F r = fval F a + IZR v)%R /\
  (fp_MulT w a v = Some r -> fval F r = fval F a * IZR v)%R /\
  (fp_DivT w a v = Some r -> v <> 0%Z /\ Rabs (fval F r - fval F a / IZR v) < fval F 1)%R.
Proof.
  intros w F a v r HF. pose proof (IZR_pow2_pos F HF) as P. unfold fval.
  split; [|split; [|split; [|split]]].
  - unfold fp_of_int. intros H. apply iw_inv in H. destruct H as [-> _]. rewrite mult_IZR. field. lra.
  - intros frac. unfold fp_of_pair, bind. destruct (iw w (v * 2^F)) eqn:E; [|discriminate]. apply iw_inv in E. destruct E as [-> _].
    intros H. apply iw_inv in H. destruct H as [-> _]. rewrite plus_IZR, mult_IZR. field. lra.
  - unfold fp_AddT, bind. destruct (iw w (v * 2^F)) eqn:E; [|discriminate]. apply iw_inv in E. destruct E as [-> _].
    intros H. apply iw_inv in H. destruct H as [-> _]. rewrite plus_IZR, mult_IZR. field. lra.
  - unfold fp_MulT. intros H. apply iw_inv in H. destruct H as [-> _]. rewrite mult_IZR. field. lra.
  - unfold fp_DivT. destruct (Z.eqb_spec v 0) as [|Hv]; [discriminate|]. intros H. apply iw_inv in H. destruct H as [-> _]. split; [assumption|].
    pose proof (quot_close a v Hv) as Q. assert (IZR v <> 0%R) by (now apply not_0_IZR).
    assert (0 < / IZR (2^F))%R by (now apply Rinv_0_lt_compat). set (q := IZR (Z.quot a v)) in *.
    replace (q / IZR (2^F) - IZR a / IZR (2^F) / IZR v)%R with ((q - IZR a / IZR v) * / IZR (2^F))%R by (field; lra).
    rewrite Rabs_mult, (Rabs_pos_eq (/ IZR (2^F))) by lra. unfold Rdiv at 2. apply Rmult_lt_compat_r; lra.
Qed.
Print Assumptions C15_int_operands.
(** MulFast drops the low half of the fraction bits of both operands first: the error is bounded by the operands' own sizes. *)
Theorem C15_mul_fast : forall w F F2 a b r, 0 <= F -> 0 <= F2 -> fp_MulFast w F2 a b = Some r ->
  (Rabs (fval F r - fval F a * fval F2 b) <= (Rabs (IZR a) / IZR (2^((F2+1)/2)) + Rabs (IZR b) / IZR (2^(F2/2)) + 1) * fval F 1)%R.
Proof.
  intros w F F2 a b r HF HF2 H. unfold fp_MulFast in H. apply iw_inv in H. destruct H as [-> _].
  set (s := (F2 + 1) / 2). set (t := F2 / 2).
  assert (ST : s + t = F2). { unfold s, t. pose proof (Z.div_mod F2 2 ltac:(lia)). pose proof (Z.mod_pos_bound F2 2 ltac:(lia)).
    pose proof (Z.div_mod (F2+1) 2 ltac:(lia)). pose proof (Z.mod_pos_bound (F2+1) 2 ltac:(lia)). lia. }
  assert (Hs : 0 <= s) by (apply Z.div_pos; lia). assert (Ht : 0 <= t) by (apply Z.div_pos; lia).
  rewrite !Z.shiftr_div_pow2 by assumption. unfold fval.
  pose proof (IZR_pow2_pos F HF) as PF. pose proof (IZR_pow2_pos s Hs) as Ps. pose proof (IZR_pow2_pos t Ht) as Pt.
  pose proof (Z.div_mod a (2^s) ltac:(assert (0 < 2^s) by (apply lt_IZR; exact Ps); lia)) as Ea.
  pose proof (Z.mod_pos_bound a (2^s) ltac:(apply lt_IZR; exact Ps)) as Ba.
  pose proof (Z.div_mod b (2^t) ltac:(assert (0 < 2^t) by (apply lt_IZR; exact Pt); lia)) as Eb.
  pose proof (Z.mod_pos_bound b (2^t) ltac:(apply lt_IZR; exact Pt)) as Bb.
  set (qa := a / 2^s) in *. set (qb := b / 2^t) in *. set (ra := a mod 2^s) in *. set (rb := b mod 2^t) in *.
  rewrite <- ST, Z.pow_add_r, !mult_IZR by assumption.
  apply (f_equal IZR) in Ea, Eb. rewrite plus_IZR, mult_IZR in Ea, Eb.
  destruct Ba as [Ba1 Ba2], Bb as [Bb1 Bb2]. apply IZR_le in Ba1, Bb1. apply IZR_lt in Ba2, Bb2.
  set (A := IZR a) in *. set (B := IZR b) in *. set (S := IZR (2^s)) in *. set (U := IZR (2^t)) in *.
  set (x := IZR qa) in *. set (y := IZR qb) in *. set (u := IZR ra) in *. set (v := IZR rb) in *.
  assert (Hu : (0 <= u / S < 1)%R) by (split; [apply Rmult_le_pos; [assumption|left; now apply Rinv_0_lt_compat]|apply Rmult_lt_reg_r with S; [assumption|]; unfold Rdiv; rewrite Rmult_assoc, Rinv_l; lra]).
  assert (Hv : (0 <= v / U < 1)%R) by (split; [apply Rmult_le_pos; [assumption|left; now apply Rinv_0_lt_compat]|apply Rmult_lt_reg_r with U; [assumption|]; unfold Rdiv; rewrite Rmult_assoc, Rinv_l; lra]).
  assert (0 < / IZR (2^F))%R by (now apply Rinv_0_lt_compat).
  replace (x * y / IZR (2 ^ F) - A / IZR (2 ^ F) * (B / (S * U)))%R
    with ((- (A / S * (v / U)) - (B / U * (u / S)) + (u / S) * (v / U)) * / IZR (2^F))%R.
  2:{ replace x with ((A - u) / S)%R by (rewrite Ea; field; lra). replace y with ((B - v) / U)%R by (rewrite Eb; field; lra). field. lra. }
  replace (1 / IZR (2^F))%R with (/ IZR (2^F))%R by (unfold Rdiv; ring). rewrite Rabs_mult, (Rabs_pos_eq (/ IZR (2^F))) by lra.
  apply Rmult_le_compat_r; [lra|].
  assert (K1 : (Rabs (A / S * (v / U)) <= Rabs A / S)%R).
  { rewrite Rabs_mult, (Rabs_pos_eq (v / U)) by lra. replace (Rabs A / S)%R with (Rabs (A / S)) by (unfold Rdiv; rewrite Rabs_mult, Rabs_inv, (Rabs_pos_eq S); lra).
    pose proof (Rabs_pos (A / S)). nra. }
  assert (K2 : (Rabs (B / U * (u / S)) <= Rabs B / U)%R).
  { rewrite Rabs_mult, (Rabs_pos_eq (u / S)) by lra. replace (Rabs B / U)%R with (Rabs (B / U)) by (unfold Rdiv; rewrite Rabs_mult, Rabs_inv, (Rabs_pos_eq U); lra).
    pose proof (Rabs_pos (B / U)). nra. }
  assert (K3 : (0 <= (u / S) * (v / U) <= 1)%R) by (split; nra).
  unfold Rabs in *. repeat destruct Rcase_abs; lra.
Qed.
Print Assumptions C15_mul_fast.
Example C15_mul_fast_witness : fp_MulFast 32 16 0x28000 0x18000 = Some 0x3C000 /\ fp_of_pair 32 16 2 0x8000 = Some 0x28000 /\
  fp_AddT 32 16 0x28000 3 = Some 0x58000 /\ fp_MulT 32 0x28000 (-3) = Some (-0x78000) /\ fp_DivT 32 0x28000 2 = Some 0x14000.
Proof. repeat split. Qed.
