(** Properties C01-C05: the random number generator. *)
From Coq Require Import ZArith Reals Lra Lia Bool List.
From Flocq Require Import Core.Core IEEE754.BinarySingleNaN.
From Verif Require Import Num F32 F32Laws F32Lemmas LcgModel LcgIntProofs LcgFloatProofs.
Import ListNotations.
Open Scope Z_scope.

(** ** Specification vocabulary *)

(** The arguments of a call are 32-bit words and the modulus given to Seed is not zero. *)
Definition legal_op (o : lcg_op) : Prop :=
  match o with
  | OpSeed s m i d => is_u32 s /\ is_u32 m /\ is_u32 i /\ is_u32 d /\ d <> 0
  | _ => True
  end.
(** A generator state that some history of calls produces, starting from a legal construction. *)
Definition reachable (g : lcg) : Prop :=
  exists s m i d h, is_u32 s /\ is_u32 m /\ is_u32 i /\ is_u32 d /\ d <> 0 /\
    Forall legal_op h /\ run h (Seed s m i d) = Some g.

Definition finite_in (lo hi : R) (f : f32) : Prop := is_finite f = true /\ (lo <= B2R f <= hi)%R.
Definition multiple_of (q : R) (x : R) : Prop := exists m : Z, x = (IZR m * q)%R.

Lemma step_wf o g g' : legal_op o -> wf_lcg g /\ modulus g <> 0 -> step o g = Some g' ->
  wf_lcg g' /\ modulus g' <> 0.
Proof.
  assert (INT : forall g v g', wf_lcg g /\ modulus g <> 0 -> Int g = Some (v, g') -> wf_lcg g' /\ modulus g' <> 0).
  { intros g0 v g1 [W N] E. destruct (Int_wf _ _ _ W E) as (W' & _ & _ & _ & _ & M). split; [exact W'|congruence]. }
  assert (FL : forall g f g', wf_lcg g /\ modulus g <> 0 -> Float g = Some (f, g') -> wf_lcg g' /\ modulus g' <> 0).
  { intros g0 v g1 W E. apply Float_grid in E. destruct E as (? & E & _). eapply INT; eauto. }
  intros L W E. destruct o; cbn [step] in E.
  - injection E as <-. destruct L as (A & B & C & D & N). split; [now apply Seed_wf|exact N].
  - destruct (Int g) as [[v g1]|] eqn:EI; [|discriminate]. injection E as <-. eapply INT; eauto.
  - assert (g' = snd (IntFast g)) as -> by congruence. destruct W as [W N].
    destruct (IntFast_wf g W) as [W' M]. split; [exact W'|congruence].
  - destruct (Float g) as [[v g1]|] eqn:EI; [|discriminate]. injection E as <-. eapply FL; eauto.
  - unfold Float01Incl in E. revert g W E. generalize 100%nat as k. induction k as [|k IH]; intros g W E; cbn [Float01Incl_loop] in E.
    + destruct (Float g) as [[v g1]|] eqn:EI; [|discriminate]. injection E as <-. eapply FL; eauto.
    + destruct (Int g) as [[v g1]|] eqn:EI; [|discriminate]. pose proof (INT _ _ _ W EI) as W1.
      destruct (0x800000 <? _) eqn:?; [exact (IH _ W1 E)|].
      destruct (_ =? 0x800000); injection E as <-; exact W1.
  - unfold FloatNeg1_1 in E. destruct (Int g) as [[v g1]|] eqn:EI; [|discriminate]. injection E as <-. eapply INT; eauto.
  - unfold IntRange, IntRange_raw in E.
    destruct (chk_int (b - a)); [|discriminate]. destruct (chk_int (z + 1)); [|discriminate].
    destruct (Float g) as [[v g1]|] eqn:EI; [|discriminate]. pose proof (FL _ _ _ W EI) as W1.
    destruct (f32_to_int _); [|discriminate]. destruct (chk_int _); [|discriminate]. injection E as <-. exact W1.
  - unfold FloatRange in E. destruct (neqb a b); [injection E as <-; exact W|].
    revert g W E. generalize 10%nat as k. induction k as [|k IH]; intros g W E; cbn [FloatRange_loop] in E.
    + injection E as <-. exact W.
    + destruct (Float g) as [[v g1]|] eqn:EI; [|discriminate]. pose proof (FL _ _ _ W EI) as W1.
      destruct (negb _); [injection E as <-; exact W1|exact (IH _ W1 E)].
  - unfold FloatIncl in E. destruct (Float g) as [[v g1]|] eqn:EI; [|discriminate]. injection E as <-. eapply FL; eauto.
Qed.

Lemma reachable_wf g : reachable g -> wf_lcg g /\ modulus g <> 0.
Proof.
  intros (s & m & i & d & h & A & B & C & D & N & L & E).
  assert (W : wf_lcg (Seed s m i d) /\ modulus (Seed s m i d) <> 0) by (split; [now apply Seed_wf|exact N]).
  revert W E. generalize (Seed s m i d) as g0. induction L as [|o h Lo Lh IH]; intros g0 W E; cbn [run] in E.
  - now injection E as <-.
  - destruct (step o g0) as [g1|] eqn:ES; [|discriminate]. eapply IH; [|exact E]. eapply step_wf; eauto.
Qed.

Lemma reach0 s m i d : is_u32 s -> is_u32 m -> is_u32 i -> is_u32 d -> d <> 0 -> reachable (Seed s m i d).
Proof. intros. exists s, m, i, d, nil. repeat (split; [assumption|]). split; [constructor|reflexivity]. Qed.

(** ** C01 *)

(** After any history of calls, LCG::Int() is defined and returns a value in [0, modulus-1] = [0, MaxInt()]. *)
Lemma int_in_range g : reachable g -> exists v g', Int g = Some (v, g') /\ 0 <= v <= MaxInt g /\ MaxInt g = modulus g - 1.
Proof.
  intros H. destruct (reachable_wf g H) as [W N].
  assert (P : 0 < modulus g) by (destruct W as (_&_&_&D); unfold is_u32 in D; lia).
  destruct (Int_spec g W P) as (g' & E & _). exists ((lastNumber g * multiplier g + increment g) mod modulus g), g'.
  split; [exact E|]. destruct (Int_wf _ _ _ W E) as (_ & B & _).
  assert (M : MaxInt g = modulus g - 1).
  { unfold MaxInt. apply Z.mod_small. destruct W as (_&_&_&D). unfold is_u32, u32_max in D. lia. }
  split; [lia|exact M].
Qed.
Theorem C01_draws_in_range : forall g, reachable g ->
  exists v g', Int g = Some (v, g') /\ 0 <= v <= MaxInt g /\ MaxInt g = modulus g - 1.
Proof. exact int_in_range. Qed.
Print Assumptions C01_draws_in_range.

(** The n-th draw after Seed, as a closed formula for every n. *)
Theorem C01_stream_in_range : forall s m i d n, is_u32 s -> is_u32 m -> is_u32 i -> is_u32 d -> d <> 0 ->
  exists v, nth_draw n (Seed s m i d) = Some v /\ 0 <= v <= d - 1.
Proof.
  intros s m i d n A B C D N. destruct (nth_draw_some s m i d n A B C D N) as [v E].
  exists v. split; [exact E|exact (nth_draw_range s m i d n v A B C D E)].
Qed.
Print Assumptions C01_stream_in_range.

Example C01_witness : let g := mkLcg 1309871534 4000000001 7 4294967291 in
  reachable g /\ option_map fst (Int g) = Some 796931620.
Proof.
  split; [|vm_compute; reflexivity].
  exists 3000000000, 4000000001, 7, 4294967291, [OpInt; OpIntFast; OpFloat; OpInt].
  repeat apply conj; try (unfold is_u32, u32_max; lia).
  - repeat constructor.
  - vm_compute. reflexivity.
Qed.

(** ** C02 *)

(** Default parameters, any seed not divisible by 2^31-1: no draw is zero and the stream of draws
    repeats after k more draws exactly if k is a multiple of 2^31-2, from the very first draw on. *)
Theorem C02_full_period : forall seed, is_u32 seed -> seed <> 0x7FFFFFFF -> seed <> 0xFFFFFFFE ->
  (forall n, exists v, nth_draw n (SeedDefault seed) = Some v /\ 1 <= v <= 2^31 - 2) /\
  (forall n k, nth_draw (n + k) (SeedDefault seed) = nth_draw n (SeedDefault seed) <-> (2^31 - 2 | Z.of_nat k)).
Proof.
  intros seed H N1 N2. split.
  - intros n. assert (D : exists v, nth_draw n (SeedDefault seed) = Some v).
    { apply nth_draw_some; try exact H; unfold is_u32, u32_max, defaultMul, defaultMod; lia. }
    destruct D as [v E]. exists v. split; [exact E|]. eapply (default_draw_pos seed n v H N1 N2 E).
  - intros n k. exact (default_period seed n k H N1 N2).
Qed.
Print Assumptions C02_full_period.

Example C02_witness : is_u32 12345 /\ 12345 <> 0x7FFFFFFF /\ 12345 <> 0xFFFFFFFE /\
  nth_draw 0 (SeedDefault 12345) = Some 859471245.
Proof. split; [unfold is_u32, u32_max; lia|]. split; [discriminate|]. split; [discriminate|]. vm_compute. reflexivity. Qed.

(** Finding: the two excluded seeds, which Seed() accepts, give the constant zero stream. *)
Theorem C02_bad_seeds_refuted : forall seed, seed = 0x7FFFFFFF \/ seed = 0xFFFFFFFE ->
  is_u32 seed /\ forall n, nth_draw n (SeedDefault seed) = Some 0.
Proof.
  intros seed H. assert (U : is_u32 seed) by (unfold is_u32, u32_max; lia). split; [exact U|].
  intros n. rewrite default_draw by exact U.
  destruct H as [-> | ->]; f_equal; cbn [Z.eqb]; rewrite <- Z.mul_mod_idemp_l by discriminate; apply Z.mod_0_l; discriminate.
Qed.
Print Assumptions C02_bad_seeds_refuted.

(** ** C03 *)

(** Float() in [0,1), Float01Incl() in [0,1], FloatNeg1_1() in (-1,1), all finite multiples of 2^-23. *)
Lemma float_ranges g : reachable g ->
  (exists f g', Float g = Some (f, g') /\ finite_in 0 (1 - / 2^23) f /\ multiple_of (/ 2^23) (B2R f)) /\
  (exists f g', Float01Incl g = Some (f, g') /\ finite_in 0 1 f /\ multiple_of (/ 2^23) (B2R f)) /\
  (exists f g', FloatNeg1_1 g = Some (f, g') /\ finite_in (-(1 - / 2^23)) (1 - / 2^23) f /\ multiple_of (/ 2^23) (B2R f)).
Proof.
  intros H. destruct (reachable_wf g H) as [W N]. repeat split.
  - destruct (Float_total g W N) as (f & g' & E). exists f, g'. split; [exact E|].
    destruct (Float_grid _ _ _ E) as (v & _ & G).
    assert (M : 0 <= v mod 2^23 < 2^23) by (apply Z.mod_pos_bound; lia).
    destruct (grid_range 0 (2^23 - 1) f (v mod 2^23) ltac:(lia) G) as (A & B & C).
    split; [split; [exact A|cbn in B; lra]|exact C].
  - destruct (Float01Incl_total 100 g W N) as (f & g' & E). exists f, g'. split; [exact E|].
    destruct (Float01Incl_grid 100 g f g' E) as (m & M & G).
    destruct (grid_range 0 (2^23) _ _ M G) as (A & B & C).
    split; [split; [exact A|cbn in B; lra]|exact C].
  - destruct (FloatNeg1_1_total g W N) as (f & g' & E). exists f, g'. split; [exact E|].
    destruct (FloatNeg1_1_grid g f g' E) as (m & M & G).
    destruct (grid_range (- (2^23 - 1)) (2^23 - 1) f m ltac:(lia) G) as (A & B & C).
    split; [split; [exact A|cbn in B; lra]|exact C].
Qed.
Theorem C03_float_ranges : forall g, reachable g ->
  (exists f g', Float g = Some (f, g') /\ finite_in 0 (1 - / 2^23) f /\ multiple_of (/ 2^23) (B2R f)) /\
  (exists f g', Float01Incl g = Some (f, g') /\ finite_in 0 1 f /\ multiple_of (/ 2^23) (B2R f)) /\
  (exists f g', FloatNeg1_1 g = Some (f, g') /\ finite_in (-(1 - / 2^23)) (1 - / 2^23) f /\ multiple_of (/ 2^23) (B2R f)).
Proof. exact float_ranges. Qed.
Print Assumptions C03_float_ranges.

(** Float(a,b) in [a,b) and finite, for finite a < b whose difference does not overflow. *)
Theorem C03_float_range_ab : forall g (a b : f32), reachable g -> is_finite a = true -> is_finite b = true ->
  (B2R a < B2R b)%R -> is_finite (nsub b a) = true ->
  exists f g', FloatRange a b g = Some (f, g') /\ is_finite f = true /\ (B2R a <= B2R f < B2R b)%R.
Proof.
  intros g a b H Fa Fb L Fw. destruct (reachable_wf g H) as [W N]. unfold FloatRange.
  replace (neqb a b) with false.
  - now apply FloatRange_loop_ok.
  - symmetry. cbn [neqb Num_F32]. rewrite eqb_finite by assumption. apply Req_bool_false. lra.
Qed.
Print Assumptions C03_float_range_ab.

(** FloatIncl(a,b) in [a,b] and finite. *)
Theorem C03_float_incl_ab : forall g (a b : f32), reachable g -> is_finite a = true -> is_finite b = true ->
  (B2R a < B2R b)%R -> is_finite (nsub b a) = true ->
  exists f g', FloatIncl a b g = Some (f, g') /\ is_finite f = true /\ (B2R a <= B2R f <= B2R b)%R.
Proof.
  intros g a b H Fa Fb L Fw. destruct (reachable_wf g H) as [W N]. unfold FloatIncl.
  destruct (Float_total g W N) as (u & g' & E). rewrite E.
  destruct (Float_grid _ _ _ E) as (v & _ & G). eexists _, g'. split; [reflexivity|].
  apply (interp_bounds a b u _ Fa Fb L Fw G). apply Z.mod_pos_bound. lia.
Qed.
Print Assumptions C03_float_incl_ab.

Example C03_witness : reachable (SeedDefault 1) /\
  is_finite (f32_ofZ (-5)) = true /\ is_finite (f32_ofZ 7) = true /\ is_finite (nsub (f32_ofZ 7) (f32_ofZ (-5))) = true /\
  nltb (f32_ofZ (-5)) (f32_ofZ 7) = true.
Proof.
  split; [|vm_compute; auto].
  apply reach0; unfold is_u32, u32_max, defaultMul, defaultMod; lia.
Qed.

(** Finding: when b-a overflows, Float(a,b) leaves the interval (it returns infinity or NaN):
    here a = -FLT_MAX, b = FLT_MAX and the first draw of the generator seeded by 1. *)
Definition flt_max : f32 := f32_of_bits 0x7F7FFFFF.
Theorem C03_overflow_refuted : exists f g', FloatRange (nneg flt_max) flt_max (SeedDefault 1) = Some (f, g') /\
  nleb f flt_max = false.
Proof. eexists _, _. split; [vm_compute; reflexivity|]. vm_compute. reflexivity. Qed.
Print Assumptions C03_overflow_refuted.

(** ** C04 *)

(** Int(a,b) is defined (no undefined behaviour) and in [a,b]; the clamping code after the
    computation ("Some bug here") never changes the value. *)
Theorem C04_int_range : forall g a b, reachable g ->
  int_min <= a -> a <= b -> b <= int_max -> b - a + 1 <= int_max ->
  exists k g', IntRange a b g = Some (k, g') /\ a <= k <= b /\ IntRange_raw a b g = Some (k, g').
Proof.
  intros g a b H A B C D. destruct (reachable_wf g H) as [W N].
  destruct (IntRange_ok a b g A B C D W N) as (k & g' & E1 & E2 & E3). exists k, g'. auto.
Qed.
Print Assumptions C04_int_range.

Example C04_witness : reachable (SeedDefault 7) /\ int_min <= -2147483648 /\ -2147483648 <= -3 /\ -3 <= int_max /\
  -3 - -2147483648 + 1 <= int_max /\ option_map fst (IntRange (-2147483648) (-3) (SeedDefault 7)) = Some (-2022722816).
Proof.
  split.
  - apply reach0; unfold is_u32, u32_max, defaultMul, defaultMod; lia.
  - repeat (split; [unfold int_min, int_max; lia|]). vm_compute. reflexivity.
Qed.

(** Outside the precondition the code has undefined behaviour (signed overflow of b-a+1). *)
Theorem C04_overflow_undefined : forall g a b, int_max < b - a + 1 -> IntRange a b g = None.
Proof.
  intros g a b H. unfold IntRange, IntRange_raw, chk_int, in_int.
  destruct ((int_min <=? b - a) && (b - a <=? int_max)); [|reflexivity].
  replace (b - a + 1 <=? int_max) with false by (symmetry; apply Z.leb_gt; exact H). now rewrite andb_false_r.
Qed.
Print Assumptions C04_overflow_undefined.

(** ** C05 *)

(** IntFast() never returns zero, whatever the state, unless the multiplier is 1. *)
Theorem C05_intfast_nonzero : forall g, reachable g -> multiplier g <> 1 ->
  fst (IntFast g) <> 0 /\ lastNumber (snd (IntFast g)) <> 0.
Proof.
  intros g H N. destruct (reachable_wf g H) as [W _].
  pose proof (IntFast_nonzero g W N). split; exact H0.
Qed.
Print Assumptions C05_intfast_nonzero.

Example C05_witness : reachable (SeedDefault 0xFFFFFFFF) /\ multiplier (SeedDefault 0xFFFFFFFF) <> 1 /\
  fst (IntFast (SeedDefault 0xFFFFFFFF)) = 4294897676.
Proof.
  split.
  - apply reach0; unfold is_u32, u32_max, defaultMul, defaultMod; lia.
  - split; [discriminate|vm_compute; reflexivity].
Qed.

(** Finding: with the odd multiplier 1 the state 0xFFFFFFFF is followed by zero. *)
Theorem C05_multiplier_one_refuted :
  reachable (Seed 0xFFFFFFFF 1 0 0x7FFFFFFF) /\ Z.odd 1 = true /\ fst (IntFast (Seed 0xFFFFFFFF 1 0 0x7FFFFFFF)) = 0.
Proof.
  split.
  - apply reach0; unfold is_u32, u32_max, defaultMul, defaultMod; lia.
  - split; reflexivity.
Qed.
Print Assumptions C05_multiplier_one_refuted.
