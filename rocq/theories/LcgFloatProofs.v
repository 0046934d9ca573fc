(** Proofs about the floating-point part of the random number generator. *)
From Coq Require Import ZArith Reals Lra Lia Bool.
From Coq Require Import Floats.SpecFloat.
From Flocq Require Import Core.Core IEEE754.BinarySingleNaN.
From Verif Require Import Num F32 F32Laws F32Lemmas LcgModel LcgIntProofs.
Open Scope R_scope.

Ltac Zify.zify_post_hook ::= idtac.

Lemma some_pair_inj {A B} (a c : A) (b d : B) : Some (a, b) = Some (c, d) -> a = c /\ b = d.
Proof. intros H. now injection H. Qed.

(** ** Bit assembly *)
Lemma land_mask v k : (0 <= k)%Z -> Z.land v (2^k - 1) = (v mod 2^k)%Z.
Proof. intros H. rewrite <- Z.land_ones by exact H. f_equal. rewrite Z.ones_equiv. lia. Qed.

Lemma land_23 v : Z.land v 0x007FFFFF = (v mod 2^23)%Z.
Proof. exact (land_mask v 23 ltac:(lia)). Qed.
Lemma land_24 v : Z.land v 0x00FFFFFF = (v mod 2^24)%Z.
Proof. exact (land_mask v 24 ltac:(lia)). Qed.

Lemma lor_disjoint_add a b : Z.land a b = 0%Z -> Z.lor a b = (a + b)%Z.
Proof. intros H. rewrite Z.add_nocarry_lxor by exact H. symmetry. now apply Z.lxor_lor. Qed.

Lemma land_low_high m h k : (0 <= k)%Z -> (0 <= m < 2^k)%Z -> Z.land m (h * 2^k) = 0%Z.
Proof.
  intros Hk Hm. apply Z.bits_inj'. intros i Hi. rewrite Z.land_spec, Z.bits_0.
  destruct (Z.lt_ge_cases i k).
  - rewrite Z.mul_pow2_bits_low by lia. apply andb_false_r.
  - replace (Z.testbit m i) with false; [reflexivity|]. symmetry. apply Z.testbit_false; [lia|].
    rewrite Z.div_small; [reflexivity|].
    split; [lia|]. apply Z.lt_le_trans with (2^k)%Z; [lia|]. apply Z.pow_le_mono_r; lia.
Qed.

Lemma lor_low_high m h k : (0 <= k)%Z -> (0 <= m < 2^k)%Z -> Z.lor m (h * 2^k) = (h * 2^k + m)%Z.
Proof. intros. rewrite lor_disjoint_add by now apply land_low_high. lia. Qed.

Lemma assemble m : (0 <= m < 2^23)%Z -> Z.lor m 0x3F800000 = (127 * 2^23 + m)%Z.
Proof. intros H. change 0x3F800000%Z with (127 * 2^23)%Z. apply lor_low_high; lia. Qed.

(** ** Float() *)
Lemma bits_minus_one m : (0 <= m < 2^23)%Z ->
  let f := Bminus mode_NE (f32_of_bits (127 * 2^23 + m)) (n1 : f32) in
  B2R f = IZR m * bpow radix2 (-23) /\ is_finite f = true.
Proof.
  intros Hm f.
  destruct (of_bits_normal false 127 m Hm ltac:(lia)) as [A B].
  change (0 + 127 * 2^23 + m)%Z with (127 * 2^23 + m)%Z in A, B.
  destruct B2R_n1 as [C D].
  assert (E : B2R (f32_of_bits (127 * 2 ^ 23 + m)) - B2R (n1 : f32) = IZR m * bpow radix2 (-23)).
  { rewrite A, C. rewrite plus_IZR. change (127 - 150)%Z with (-23)%Z.
    change (IZR (2^23)) with (bpow radix2 23).
    assert (bpow radix2 23 * bpow radix2 (-23) = 1) by (rewrite <- bpow_plus; reflexivity). lra. }
  assert (F : fmt (IZR m * bpow radix2 (-23))) by (apply fmt_F2R; lia).
  rewrite <- (rnd_id _ F), <- E. apply minus_ok; auto. rewrite E, (rnd_id _ F).
  rewrite Rabs_pos_eq.
  - apply Rlt_le_trans with (bpow radix2 23 * bpow radix2 (-23)).
    + apply Rmult_lt_compat_r; [apply bpow_gt_0|]. change (bpow radix2 23) with (IZR (2^23)). apply IZR_lt; lia.
    + rewrite <- bpow_plus. apply bpow_le. lia.
  - apply Rmult_le_pos; [apply IZR_le; lia|apply bpow_ge_0].
Qed.

Definition in_grid (f : f32) (m : Z) : Prop := is_finite f = true /\ B2R f = IZR m * bpow radix2 (-23).

Lemma Float_grid g f g' : Float g = Some (f, g') ->
  exists v, Int g = Some (v, g') /\ in_grid f (v mod 2^23).
Proof.
  unfold Float. destruct (Int g) as [[v g1]|] eqn:E; [|discriminate].
  intros H. injection H as <- <-. exists v. split; [reflexivity|].
  rewrite land_23, assemble by (apply Z.mod_pos_bound; lia).
  destruct (bits_minus_one (v mod 2^23) ltac:(apply Z.mod_pos_bound; lia)) as [A B]. split; assumption.
Qed.

Lemma Float_total g : wf_lcg g -> modulus g <> 0%Z -> exists f g', Float g = Some (f, g').
Proof.
  intros W N. destruct (Int_spec g W) as (g' & E & _).
  { destruct W as (_&_&_&D). unfold is_u32 in D. lia. }
  unfold Float. rewrite E. eauto.
Qed.

Lemma grid_bounds m : (0 <= m < 2^23)%Z -> 0 <= IZR m * bpow radix2 (-23) <= 1 - bpow radix2 (-23).
Proof.
  intros H. split.
  - apply Rmult_le_pos; [apply IZR_le; lia|apply bpow_ge_0].
  - assert (E : bpow radix2 23 * bpow radix2 (-23) = 1) by (rewrite <- bpow_plus; reflexivity).
    pose proof (bpow_gt_0 radix2 (-23)).
    assert (IZR m <= bpow radix2 23 - 1).
    { change (bpow radix2 23) with (IZR (2^23)). rewrite <- minus_IZR. apply IZR_le. lia. }
    assert (IZR m * bpow radix2 (-23) <= (bpow radix2 23 - 1) * bpow radix2 (-23)) by (apply Rmult_le_compat_r; lra).
    lra.
Qed.

Lemma Float01Incl_grid k : forall g f g', Float01Incl_loop k g = Some (f, g') ->
  exists m, (0 <= m <= 2^23)%Z /\ in_grid f m.
Proof.
  induction k as [|k IH]; intros g f g' H.
  - apply Float_grid in H. destruct H as (v & _ & G). exists (v mod 2^23)%Z. split; [|exact G].
    pose proof (Z.mod_pos_bound v (2^23)). lia.
  - cbn [Float01Incl_loop] in H. destruct (Int g) as [[v g1]|] eqn:E; [|discriminate].
    rewrite land_24 in H. set (val := (v mod 2^24)%Z) in *.
    assert (0 <= val < 2^24)%Z by (apply Z.mod_pos_bound; lia).
    destruct (Z.ltb_spec 0x800000 val); [eapply IH; exact H|].
    destruct (Z.eqb_spec val 0x800000) as [EV|NV].
    + injection H as <- <-. exists (2^23)%Z. split; [lia|].
      destruct B2R_n1 as [A B]. split; [exact B|]. transitivity 1; [exact A|].
      change (IZR (2^23)) with (bpow radix2 23). rewrite <- bpow_plus. reflexivity.
    + injection H as <- <-. exists val. split; [lia|].
      rewrite assemble by lia. destruct (bits_minus_one val ltac:(lia)) as [A B]. split; assumption.
Qed.

Lemma FloatNeg1_1_grid g f g' : FloatNeg1_1 g = Some (f, g') ->
  exists m, (- (2^23) < m < 2^23)%Z /\ in_grid f m.
Proof.
  unfold FloatNeg1_1. destruct (Int g) as [[v g1]|] eqn:E; [|discriminate].
  intros H. apply some_pair_inj in H. destruct H as [<- <-].
  set (m := (v mod 2^23)%Z). assert (Hm : (0 <= m < 2^23)%Z) by (apply Z.mod_pos_bound; lia).
  rewrite land_23. fold m.
  assert (S : exists s : bool, (Z.shiftl (Z.land v 0x00800000) 8 mod 2^32 = if s then 2^31 else 0)%Z).
  { exists (Z.testbit v 23).
    assert (L : Z.land v 0x00800000 = (if Z.testbit v 23 then 2^23 else 0)%Z).
    { apply Z.bits_inj'. intros i Hi. change 0x00800000%Z with (2^23)%Z.
      rewrite Z.land_spec, Z.pow2_bits_eqb by lia.
      destruct (Z.eqb_spec 23 i) as [<-|N].
      - destruct (Z.testbit v 23); reflexivity.
      - rewrite andb_false_r. destruct (Z.testbit v 23).
        + rewrite Z.pow2_bits_eqb by lia. symmetry. now apply Z.eqb_neq.
        + now rewrite Z.bits_0. }
    rewrite L. destruct (Z.testbit v 23); reflexivity. }
  destruct S as (s & S). rewrite S.
  assert (L1 : Z.lor (if s then 2^31 else 0) 0x3F800000 = ((if s then 2^31 else 0) + 127 * 2^23)%Z)
    by (destruct s; reflexivity).
  assert (L2 : Z.lor (Z.lor (if s then 2^31 else 0) 0x3F800000) m = ((if s then 2^31 else 0) + 127 * 2^23 + m)%Z).
  { rewrite L1. rewrite Z.lor_comm. replace ((if s then 2^31 else 0) + 127 * 2^23)%Z
      with ((if s then 2^8 + 127 else 127) * 2^23)%Z by (destruct s; reflexivity).
    apply lor_low_high; [discriminate|exact Hm]. }
  rewrite L2, L1.
  destruct (of_bits_normal s 127 m Hm ltac:(lia)) as [A B].
  destruct (of_bits_normal s 127 0 ltac:(lia) ltac:(lia)) as [C D].
  rewrite Z.add_0_r in C, D.
  set (x := f32_of_bits ((if s then 2^31 else 0) + 127 * 2^23 + m)) in *.
  set (y := f32_of_bits ((if s then 2^31 else 0) + 127 * 2^23)) in *.
  exists (if s then - m else m)%Z. split; [destruct s; lia|].
  assert (EE : B2R x - B2R y = IZR (if s then - m else m) * bpow radix2 (-23)).
  { rewrite A, C, !plus_IZR. change (127 - 150)%Z with (-23)%Z. destruct s; [rewrite opp_IZR|]; ring. }
  assert (F : fmt (IZR (if s then - m else m) * bpow radix2 (-23))) by (apply fmt_F2R; destruct s; lia).
  unfold in_grid. rewrite <- (rnd_id _ F), <- EE.
  cut (Rabs (rnd (B2R x - B2R y)) < MAXP).
  { intros K. destruct (minus_ok x y B D K). split; assumption. }
  rewrite EE, (rnd_id _ F), Rabs_mult, (Rabs_pos_eq (bpow radix2 (-23))) by apply bpow_ge_0.
  rewrite <- abs_IZR.
  apply Rlt_le_trans with (bpow radix2 23 * bpow radix2 (-23)).
  - apply Rmult_lt_compat_r; [apply bpow_gt_0|]. change (bpow radix2 23) with (IZR (2^23)). apply IZR_lt. destruct s; lia.
  - rewrite <- bpow_plus. apply bpow_le. lia.
Qed.

(** ** Int(a,b) *)
Lemma trunc_bounds (x : f32) (w : Z) : 0 <= B2R x < IZR w -> (0 <= Btrunc x < w)%Z.
Proof.
  intros [H0 H1]. pose proof (Btrunc_correct 24 128 _ x) as C.
  unfold round, F2R, scaled_mantissa, cexp, FIX_exp in C. cbn [Fnum Fexp bpow Z.opp] in C.
  rewrite !Rmult_1_r in C. apply eq_IZR in C. rewrite C.
  rewrite Ztrunc_floor by exact H0. split.
  - apply Zfloor_lub. exact H0.
  - apply lt_IZR. apply Rle_lt_trans with (B2R x); [apply Zfloor_lb|exact H1].
Qed.

Lemma rnd_pos_ge1 w : (1 <= w)%Z -> 1 <= rnd (IZR w).
Proof. intros H. apply rnd_ge_fmt; [apply (fmt_IZR 1); lia|]. apply IZR_le. exact H. Qed.

Lemma scaled_trunc u m w : in_grid u m -> (0 <= m < 2^23)%Z -> (1 <= w < 2^31)%Z ->
  exists k, f32_to_int (Bmult mode_NE u (f32_ofZ w)) = Some k /\ (0 <= k < w)%Z.
Proof.
  intros [Fu Eu] Hm Hw.
  destruct (ofZ_rnd w) as [EW FW]; [lia|].
  set (W := f32_ofZ w) in *.
  assert (W1 : 1 <= B2R W) by (rewrite EW; apply rnd_pos_ge1; lia).
  assert (N126 : bpow radix2 (-126) <= B2R W).
  { apply Rle_trans with 1; [|exact W1]. change 1 with (bpow radix2 0). apply bpow_le; lia. }
  pose proof (grid_bounds m Hm) as GB. rewrite <- Eu in GB.
  destruct (rnd_scale_down (B2R u) (B2R W) GB (fmt_B2R W) N126) as [R0 R1].
  assert (U0 : 0 < ulp radix2 fexp32 (B2R W)).
  { rewrite ulp_neq_0 by lra. apply bpow_gt_0. }
  pose proof (B2R_lt W) as BW. rewrite Rabs_pos_eq in BW by lra.
  destruct (mult_ok u W Fu FW) as [EM FM].
  { rewrite Rabs_pos_eq by exact R0. lra. }
  assert (LT : B2R (Bmult mode_NE u W) < IZR w).
  { rewrite EM. pose proof (rnd_err (IZR w)) as ER. rewrite <- EW in ER.
    apply Rabs_le_inv in ER. lra. }
  destruct (trunc_bounds (Bmult mode_NE u W) w) as [K0 K1]; [rewrite EM in *; lra|].
  unfold f32_to_int. rewrite FM. unfold in_int, int_min, int_max.
  replace ((-2147483648 <=? Btrunc (Bmult mode_NE u W))%Z) with true by (symmetry; apply Z.leb_le; lia).
  replace ((Btrunc (Bmult mode_NE u W) <=? 2147483647)%Z) with true by (symmetry; apply Z.leb_le; lia).
  cbn [andb]. eauto.
Qed.

Lemma IntRange_ok a b g : (int_min <= a)%Z -> (a <= b)%Z -> (b <= int_max)%Z -> (b - a + 1 <= int_max)%Z ->
  wf_lcg g -> modulus g <> 0%Z ->
  exists k g', IntRange_raw a b g = Some (k, g') /\ IntRange a b g = Some (k, g') /\ (a <= k <= b)%Z.
Proof.
  unfold int_min, int_max. intros Ha Hab Hb Hw W N.
  unfold IntRange, IntRange_raw, chk_int, in_int, int_min, int_max.
  replace ((-2147483648 <=? b - a) && (b - a <=? 2147483647))%Z with true by (symmetry; apply andb_true_iff; lia).
  replace ((-2147483648 <=? b - a + 1) && (b - a + 1 <=? 2147483647))%Z with true by (symmetry; apply andb_true_iff; lia).
  destruct (Float_total g W N) as (f & g' & E). rewrite E.
  destruct (Float_grid _ _ _ E) as (v & _ & G).
  destruct (scaled_trunc f (v mod 2^23) (b - a + 1) G) as (k & EK & K0 & K1).
  - apply Z.mod_pos_bound; lia.
  - lia.
  - cbn [nmul Num_F32]. rewrite EK.
    replace ((-2147483648 <=? a + k) && (a + k <=? 2147483647))%Z with true by (symmetry; apply andb_true_iff; lia).
    exists (a + k)%Z, g'. split; [reflexivity|]. split; [|lia].
    destruct (Z.ltb_spec (a + k) a); [lia|]. destruct (Z.ltb_spec b (a + k)); [lia|]. reflexivity.
Qed.

(** ** Float(a,b), FloatIncl(a,b) *)
Lemma fmt_small_diff a b : fmt a -> fmt b -> Rabs (a - b) < bpow radix2 (-126) -> fmt (a - b).
Proof.
  intros Fa Fb H.
  assert (X : exists ka, a = IZR ka * bpow radix2 (-149)).
  { destruct (FLT_format_generic radix2 (-149) 24 a Fa) as [[m e] E1 E2 E3]. cbn in E1, E2, E3.
    exists (m * 2^(e + 149))%Z. rewrite mult_IZR, E1. unfold F2R; cbn [Fnum Fexp].
    change 2%Z with (radix_val radix2). rewrite IZR_Zpower by lia. rewrite Rmult_assoc, <- bpow_plus. do 2 f_equal. lia. }
  assert (Y : exists kb, b = IZR kb * bpow radix2 (-149)).
  { destruct (FLT_format_generic radix2 (-149) 24 b Fb) as [[m e] E1 E2 E3]. cbn in E1, E2, E3.
    exists (m * 2^(e + 149))%Z. rewrite mult_IZR, E1. unfold F2R; cbn [Fnum Fexp].
    change 2%Z with (radix_val radix2). rewrite IZR_Zpower by lia. rewrite Rmult_assoc, <- bpow_plus. do 2 f_equal. lia. }
  destruct X as [ka Ea], Y as [kb Eb].
  assert (E : a - b = IZR (ka - kb) * bpow radix2 (-149)) by (rewrite Ea, Eb, minus_IZR; ring).
  rewrite E in *. apply fmt_F2R; [|lia].
  apply lt_IZR. rewrite abs_IZR. rewrite Rabs_mult, (Rabs_pos_eq (bpow radix2 (-149))) in H by apply bpow_ge_0.
  apply Rmult_lt_reg_r with (bpow radix2 (-149)); [apply bpow_gt_0|].
  apply Rlt_le_trans with (1:=H). change (IZR (2^24)) with (bpow radix2 24). rewrite <- bpow_plus. apply bpow_le. lia.
Qed.

Lemma interp_bounds (a b u : f32) m : is_finite a = true -> is_finite b = true -> B2R a < B2R b ->
  is_finite (Bminus mode_NE b a) = true -> in_grid u m -> (0 <= m < 2^23)%Z ->
  let f := Bplus mode_NE a (Bmult mode_NE u (Bminus mode_NE b a)) in
  is_finite f = true /\ B2R a <= B2R f <= B2R b.
Proof.
  intros Fa Fb Lab Fw [Fu Eu] Hm f.
  pose proof (minus_finite b a Fb Fa Fw) as Ew.
  set (w := Bminus mode_NE b a) in *.
  pose proof (grid_bounds m Hm) as GB. rewrite <- Eu in GB.
  pose proof (bpow_gt_0 radix2 (-23)) as P23.
  assert (W0 : 0 <= B2R w).
  { rewrite Ew. rewrite <- rnd_0. apply rnd_mono. lra. }
  assert (MP : 0 <= rnd (B2R u * B2R w) <= B2R w).
  { split.
    - rewrite <- rnd_0. apply rnd_mono. apply Rmult_le_pos; lra.
    - apply rnd_le_fmt; [apply fmt_B2R|].
      rewrite <- (Rmult_1_l (B2R w)) at 2. apply Rmult_le_compat_r; lra. }
  pose proof (B2R_lt w) as Bw. rewrite Rabs_pos_eq in Bw by exact W0.
  destruct (mult_ok u w Fu Fw) as [EM FM].
  { rewrite Rabs_pos_eq by apply MP. lra. }
  set (p := Bmult mode_NE u w) in *.
  assert (UB : B2R a + B2R p <= B2R b).
  { rewrite EM. destruct (Rlt_or_le (B2R b - B2R a) (bpow radix2 (-126))) as [S|S].
    - assert (E : B2R w = B2R b - B2R a).
      { rewrite Ew. apply rnd_id. apply fmt_small_diff; try apply fmt_B2R. rewrite Rabs_pos_eq; lra. }
      lra.
    - assert (N : bpow radix2 (-126) <= B2R w).
      { rewrite Ew. apply rnd_ge_fmt; [apply generic_format_bpow; cbn; lia|exact S]. }
      destruct (rnd_scale_down (B2R u) (B2R w) GB (fmt_B2R w) N) as [_ R1].
      pose proof (rnd_err (B2R b - B2R a)) as ER. rewrite <- Ew in ER. apply Rabs_le_inv in ER.
      pose proof (ulp_ge_0 radix2 fexp32 (B2R w)). lra. }
  assert (LB : B2R a <= B2R a + B2R p) by (rewrite EM; lra).
  pose proof (rnd_ge_fmt _ _ (fmt_B2R a) LB) as LB'.
  pose proof (rnd_le_fmt _ _ (fmt_B2R b) UB) as UB'.
  pose proof (Rabs_def2 _ _ (B2R_lt a)). pose proof (Rabs_def2 _ _ (B2R_lt b)).
  destruct (plus_ok a p Fa FM) as [EP FP].
  { apply Rabs_def1; lra. }
  unfold f. rewrite EP. split; [exact FP|]. split; assumption.
Qed.

Lemma FloatRange_loop_ok k (a b : f32) : is_finite a = true -> is_finite b = true -> B2R a < B2R b ->
  is_finite (Bminus mode_NE b a) = true ->
  forall g, wf_lcg g -> modulus g <> 0%Z ->
  exists f g', FloatRange_loop k a b g = Some (f, g') /\ is_finite f = true /\ B2R a <= B2R f < B2R b.
Proof.
  intros Fa Fb L Fw. induction k as [|k IH]; intros g W N.
  - exists a, g. cbn. repeat split; auto; lra.
  - cbn [FloatRange_loop]. destruct (Float_total g W N) as (u & g' & E). rewrite E.
    destruct (Float_grid _ _ _ E) as (v & EI & G).
    destruct (interp_bounds a b u _ Fa Fb L Fw G) as [Ff [L1 L2]]; [apply Z.mod_pos_bound; lia|].
    cbn [nadd nmul nsub neqb Num_F32].
    set (f := Bplus mode_NE a (Bmult mode_NE u (Bminus mode_NE b a))) in *.
    rewrite eqb_finite by assumption.
    case Req_bool_spec; intros EQ; cbn [negb].
    + destruct (Int_wf _ _ _ W EI) as (W' & _ & _ & _ & _ & M'). apply IH; [exact W'|congruence].
    + exists f, g'. split; [reflexivity|]. split; [exact Ff|]. lra.
Qed.

(** ** Totality *)
Lemma Int_total g : wf_lcg g -> modulus g <> 0%Z -> exists v g', Int g = Some (v, g') /\ wf_lcg g' /\ modulus g' <> 0%Z.
Proof.
  intros W N. destruct (Int_spec g W) as (g' & E & _).
  { destruct W as (_&_&_&D). unfold is_u32 in D. lia. }
  destruct (Int_wf _ _ _ W E) as (W' & _ & _ & _ & _ & M). eexists _, g'. repeat split; try exact E; try apply W'. congruence.
Qed.
Lemma Float01Incl_total k : forall g, wf_lcg g -> modulus g <> 0%Z -> exists f g', Float01Incl_loop k g = Some (f, g').
Proof.
  induction k as [|k IH]; intros g W N; cbn [Float01Incl_loop].
  - now apply Float_total.
  - destruct (Int_total g W N) as (v & g' & E & W' & N'). rewrite E.
    destruct (_ <? _)%Z; [now apply IH|]. destruct (_ =? _)%Z; eauto.
Qed.
Lemma FloatNeg1_1_total g : wf_lcg g -> modulus g <> 0%Z -> exists f g', FloatNeg1_1 g = Some (f, g').
Proof. intros W N. destruct (Int_total g W N) as (v & g' & E & _). unfold FloatNeg1_1. rewrite E. eauto. Qed.

Lemma e23 : bpow radix2 (-23) = / 2^23.
Proof. cbn; lra. Qed.
Lemma grid_range lo hi f m : (lo <= m <= hi)%Z -> in_grid f m ->
  is_finite f = true /\ IZR lo * / 2^23 <= B2R f <= IZR hi * / 2^23 /\ exists k, B2R f = IZR k * / 2^23.
Proof.
  intros H [F E]. rewrite e23 in E. split; [exact F|]. rewrite E.
  assert (P : 0 < / 2^23) by (rewrite <- e23; apply bpow_gt_0).
  split; [|eauto]. split; apply Rmult_le_compat_r; try lra; apply IZR_le; lia.
Qed.
