(** Properties C06-C09 and C61 of the reduced-precision float conversions. *)
From Coq Require Import ZArith Reals Bool Lia Lra.
From Flocq Require Import Core.Core.
From Verif Require Import BitModel BitProofs MiniFloatModel MiniFloatSpec MiniFloatProofs.
Open Scope Z_scope.

Ltac Zify.zify_post_hook ::= idtac.

Ltac half_split h Hh s e m He Hm :=
  let W := fresh "W" in
  destruct (word_of_fields 5 10 h ltac:(lia) ltac:(lia) ltac:(lia)) as (W & He & Hm);
  set (s := sign_of 5 10 h) in *; set (e := expo_of 5 10 h) in *; set (m := mant_of 10 h) in *;
  clearbody s e m; subst h.
Ltac float_split v Hv s e m He Hm :=
  let W := fresh "W" in
  destruct (word_of_fields 8 23 v ltac:(lia) ltac:(lia) ltac:(lia)) as (W & He & Hm);
  set (s := sign_of 8 23 v) in *; set (e := expo_of 8 23 v) in *; set (m := mant_of 23 v) in *;
  clearbody s e m; subst v.

Lemma mag_inj s x z : magnitude (FpReal s x) = Some z -> z = x.
Proof. intros H. now injection H. Qed.

Lemma fpreal_inj s x s' x' : FpReal s x = FpReal s' x' -> s' = s /\ x' = x.
Proof. intros H. now injection H. Qed.

Lemma dec_enc_half h : 0 <= h < 2^16 ->
  Float32ToFloat16 (Float16ToFloat32 h) = if expo_of 5 10 h =? 31 then Z.lor h 0x8000 else h.
Proof.
  intros Hh. half_split h Hh s e m He Hm.
  rewrite decode_half by lia. unfold dec_expo.
  destruct (Z.eqb_spec e 31) as [E|N].
  - subst e. rewrite enc_half_special by lia. rewrite Z.div_mul by lia.
    replace (negb (m * 2^13 =? 0) && (m =? 0)) with false.
    2:{ destruct (Z.eqb_spec m 0); [subst; reflexivity|]. now rewrite andb_false_r. }
    symmetry. rewrite <- assemble by lia. rewrite Z.lor_comm, Z.lor_assoc. rewrite <- (assemble 5 10 true) by lia.
    f_equal. destruct s; reflexivity.
  - destruct (Z.eqb_spec e 0) as [E0|N0].
    + subst e. rewrite enc_half_zero by lia. now rewrite Z.div_mul by lia.
    + rewrite enc_half_normal by lia. rewrite Z.div_mul by lia. f_equal. lia.
Qed.

(** C06: decoding a half and encoding it again gives back the pattern for every half that is not a
    positive infinity or NaN; for those the sign bit is set. *)
Theorem C06_half_round_trip : forall h, 0 <= h < 2^16 ->
  (half_val h = FpNan \/ half_val h = FpInf false -> 0x8000 <= h) ->
  Float32ToFloat16 (Float16ToFloat32 h) = h.
Proof.
  intros h Hh Hs. rewrite dec_enc_half by lia. destruct (Z.eqb_spec (expo_of 5 10 h) 31) as [E|N]; [|reflexivity].
  assert (H : 0x8000 <= h \/ sign_of 5 10 h = true).
  { unfold half_val, pattern_val, fields_val in Hs. rewrite E in Hs. cbn [Z.eqb Z.sub Z.pow Z.pow_pos Pos.eqb] in Hs.
    change (31 =? 2^5 - 1) with true in Hs. cbv iota in Hs. destruct (sign_of 5 10 h); [now right|].
    left. destruct (mant_of 10 h =? 0); apply Hs; [now right|now left]. }
  assert (S : Z.testbit h 15 = true).
  { destruct H as [H|H]; [|exact H].
    rewrite Z.testbit_eqb by lia. change (2^15) with 0x8000. assert (h / 0x8000 = 1) as ->; [|reflexivity].
    apply Z.le_antisymm; [|apply Z.div_le_lower_bound; lia]. apply Z.lt_succ_r. apply Z.div_lt_upper_bound; lia. }
  apply Z.bits_inj'. intros i Hi. rewrite Z.lor_spec. change 0x8000 with (2^15). rewrite Z.pow2_bits_eqb by lia.
  destruct (Z.eqb_spec 15 i); [subst; now rewrite S|now rewrite orb_false_r].
Qed.
Print Assumptions C06_half_round_trip.
Example C06_half_round_trip_witness :
  Float32ToFloat16 (Float16ToFloat32 0x3555) = 0x3555 /\ half_val 0x3555 <> FpNan /\ half_val 0x3555 <> FpInf false /\
  Float32ToFloat16 (Float16ToFloat32 0xFC00) = 0xFC00.
Proof. repeat split; try reflexivity; unfold half_val, pattern_val, fields_val; cbn; discriminate. Qed.

(** The unrestricted claim is false: every positive infinity or NaN comes back negative. *)
Theorem C06_half_round_trip_refuted : forall h, 0 <= h < 0x8000 -> half_val h = FpNan \/ half_val h = FpInf false ->
  Float32ToFloat16 (Float16ToFloat32 h) = h + 0x8000.
Proof.
  intros h Hh Hs. rewrite dec_enc_half by lia.
  assert (E : expo_of 5 10 h = 31).
  { unfold half_val, pattern_val, fields_val in Hs. change (2^5 - 1) with 31 in Hs.
    destruct (Z.eqb_spec (expo_of 5 10 h) 31); [assumption|]. destruct (expo_of 5 10 h =? 0); destruct Hs; discriminate. }
  rewrite E. cbn [Z.eqb Pos.eqb]. rewrite Z.lor_comm, (lor_add 0x8000 h 15); [lia|lia|exists 1; reflexivity|lia].
Qed.
Print Assumptions C06_half_round_trip_refuted.
(** Observable consequence: encoding +infinity gives the half for minus infinity. *)
Theorem C06_positive_infinity_becomes_negative_refuted :
  float_val 0x7F800000 = FpInf false /\ half_val (Float32ToFloat16 0x7F800000) = FpInf true.
Proof. split; reflexivity. Qed.
Print Assumptions C06_positive_infinity_becomes_negative_refuted.

(** C07: the float decoded from a half denotes the same value, unless the half is a denormal. *)
Theorem C07_half_decode_value : forall h, 0 <= h < 2^16 ->
  (expo_of 5 10 h = 0 -> mant_of 10 h = 0) ->
  float_val (Float16ToFloat32 h) = half_val h.
Proof.
  intros h Hh Hd. half_split h Hh s e m He Hm.
  rewrite decode_half by lia. pose proof (dec_expo_range e He). unfold float_val, half_val. rewrite !pattern_word by lia.
  unfold fields_val, dec_expo in *. change (2^5 - 1) with 31. change (2^8 - 1) with 255.
  destruct (Z.eqb_spec e 31); [subst e; cbn [Z.eqb Pos.eqb]|].
  - destruct (Z.eqb_spec m 0); destruct (Z.eqb_spec (m * 2^13) 0); try reflexivity; lia.
  - destruct (Z.eqb_spec e 0) as [E0|N0].
    + rewrite (Hd E0). cbn [Z.eqb Z.mul]. f_equal. lra.
    + destruct (Z.eqb_spec (e + 112) 255); [lia|]. destruct (Z.eqb_spec (e + 112) 0); [lia|]. f_equal.
      replace (2^23 + m * 2^13) with ((2^10 + m) * 2^13) by lia. rewrite mult_IZR.
      change (IZR (2^13)) with (bpow radix2 13). rewrite Rmult_assoc, <- bpow_plus. do 2 f_equal. lia.
Qed.
Print Assumptions C07_half_decode_value.
Example C07_half_decode_value_witness : expo_of 5 10 0x3C01 <> 0 /\ half_val 0x3C01 = FpReal false (IZR 1025 * bpow radix2 (-10)).
Proof. split; [discriminate|reflexivity]. Qed.

(** Every half denormal is decoded to a wrong value: 2^112 times too small. *)
Theorem C07_half_denormal_refuted : forall h, 0 <= h < 2^16 -> expo_of 5 10 h = 0 -> mant_of 10 h <> 0 ->
  exists s x, half_val h = FpReal s x /\ (x <> 0)%R /\ float_val (Float16ToFloat32 h) = FpReal s (x * bpow radix2 (-112)).
Proof.
  intros h Hh H0 Hn. half_split h Hh s e m He Hm.
  subst e.
  rewrite decode_half by lia. unfold float_val, half_val. change (dec_expo 0) with 0. rewrite !pattern_word by lia.
  unfold fields_val. change (0 =? 2^5 - 1) with false. change (0 =? 2^8 - 1) with false. change (0 =? 0) with true. cbv iota.
  exists s, (IZR m * bpow radix2 (1 - 15 - 10))%R. split; [reflexivity|]. split.
  - apply Rmult_integral_contrapositive_currified; [now apply not_0_IZR|]. apply Rgt_not_eq, bpow_gt_0.
  - f_equal. rewrite mult_IZR. change (IZR (2^13)) with (bpow radix2 13). rewrite !Rmult_assoc, <- !bpow_plus. do 2 f_equal. 
Qed.
Print Assumptions C07_half_denormal_refuted.

(** C08: in the normal range of halves, encoding keeps the sign and gives the largest half magnitude not above. *)
Theorem C08_half_truncates : forall v, 0 <= v < 2^32 -> 113 <= expo_of 8 23 v <= 142 ->
  exists s x y, float_val v = FpReal s x /\ half_val (Float32ToFloat16 v) = FpReal s y /\
    0 <= Float32ToFloat16 v < 2^16 /\ (y <= x)%R /\
    forall h z, 0 <= h < 2^16 -> magnitude (half_val h) = Some z -> (z <= x)%R -> (z <= y)%R.
Proof.
  intros v Hv Hr. float_split v Hv s e m He Hm.
  rewrite enc_half_normal by lia.
  pose proof (mant_shift_range 10 m ltac:(lia) Hm) as Hq. change (23 - 10) with 13 in Hq.
  unfold float_val, half_val. rewrite !pattern_word by lia. unfold fields_val. change (2^5 - 1) with 31. change (2^8 - 1) with 255.
  destruct (Z.eqb_spec e 255); [lia|]. destruct (Z.eqb_spec e 0); [lia|].
  destruct (Z.eqb_spec (e - 112) 31); [lia|]. destruct (Z.eqb_spec (e - 112) 0); [lia|].
  destruct (trunc_value 10 (e - 127 - 23) m ltac:(lia) Hm) as [T1 T2]. change (23 - 10) with 13 in T1, T2.
  replace (e - 127 - 23 + 13) with (e - 112 - 15 - 10) in T1, T2 by lia.
  eexists s, _, _. split; [reflexivity|]. split; [reflexivity|]. split; [|split; [exact T1|]].
  { pose proof (word_range 5 10 s (e - 112) (m / 2^13)). lia. }
  intros h z Hh Hz Hle. half_split h Hh s' e' m' He' Hm'. rewrite pattern_word in Hz by lia.
  unfold fields_val in Hz. change (2^5 - 1) with 31 in Hz. destruct (Z.eqb_spec e' 31).
  { destruct (m' =? 0); discriminate. }
  destruct (Z.eqb_spec e' 0); apply mag_inj in Hz; subst z; apply (no_between 10 _ _ _ _ _ ltac:(lia)) with (3 := T2); try assumption; lia.
Qed.
Print Assumptions C08_half_truncates.
Example C08_half_truncates_witness : 113 <= expo_of 8 23 0x3EAAAAAB <= 142 /\ Float32ToFloat16 0x3EAAAAAB = 0x3555.
Proof. split; [now vm_compute|reflexivity]. Qed.

(** Outside the normal range: magnitudes of 65536 and more become the infinity of the same sign, magnitudes below 2^-14
    become the zero of the same sign (float denormals keep their top mantissa bits, see the witness). *)
Theorem C08_half_out_of_range : forall v s x, 0 <= v < 2^32 -> float_val v = FpReal s x ->
  ((65536 <= x)%R -> half_val (Float32ToFloat16 v) = FpInf s) /\
  ((bpow radix2 (-126) <= x < bpow radix2 (-14))%R -> half_val (Float32ToFloat16 v) = FpReal s 0).
Proof.
  intros v s0 x Hv Hx. float_split v Hv s e m He Hm.
  unfold float_val in Hx. rewrite pattern_word in Hx by lia. unfold fields_val in Hx. change (2^8 - 1) with 255 in Hx.
  destruct (Z.eqb_spec e 255); [destruct (m =? 0); discriminate|].
  destruct (Z.eqb_spec e 0) as [E0|N0].
  - apply fpreal_inj in Hx; destruct Hx as [-> ->].
    assert (U : (IZR m * bpow radix2 (1 - 127 - 23) < bpow radix2 (-126))%R).
    { apply Rlt_le_trans with (IZR (2^23) * bpow radix2 (1 - 127 - 23))%R.
      - apply Rmult_lt_compat_r; [apply bpow_gt_0|]. apply IZR_lt. lia.
      - rewrite (IZR_Zpower radix2) by lia. rewrite <- bpow_plus. apply bpow_le. lia. }
    split; intros H; [|lra].
    exfalso. assert (bpow radix2 (-126) <= 1)%R by (change 1%R with (bpow radix2 0); apply bpow_le; lia). lra.
  - apply fpreal_inj in Hx; destruct Hx as [-> ->]. split; intros H.
    + assert (143 <= e).
      { destruct (Z.lt_ge_cases e 143); [|lia]. exfalso.
        assert (IZR (2^23 + m) * bpow radix2 (e - 127 - 23) < 65536)%R; [|lra].
        apply Rlt_le_trans with (IZR (2^24) * bpow radix2 (e - 127 - 23))%R.
        - apply Rmult_lt_compat_r; [apply bpow_gt_0|]. apply IZR_lt. lia.
        - rewrite (IZR_Zpower radix2) by lia. rewrite <- bpow_plus. change 65536%R with (bpow radix2 16). apply bpow_le. lia. }
      rewrite enc_half_overflow by lia. unfold half_val. now rewrite pattern_word by lia.
    + assert (e <= 112).
      { destruct (Z.lt_ge_cases 112 e); [|lia]. exfalso.
        assert (bpow radix2 (-14) <= IZR (2^23 + m) * bpow radix2 (e - 127 - 23))%R; [|lra].
        apply Rle_trans with (IZR (2^23) * bpow radix2 (e - 127 - 23))%R.
        - rewrite (IZR_Zpower radix2) by lia. rewrite <- bpow_plus. apply bpow_le. lia.
        - apply Rmult_le_compat_r; [apply Rlt_le, bpow_gt_0|]. apply IZR_le. lia. }
      rewrite enc_half_underflow by lia. unfold half_val. rewrite pattern_word by lia. unfold fields_val. cbn [Z.eqb].
      change (0 =? 2^5 - 1) with false. cbv iota. now rewrite Rmult_0_l.
Qed.
Print Assumptions C08_half_out_of_range.
Example C08_half_out_of_range_witness :
  float_val 0x47800000 = FpReal false (IZR 8388608 * bpow radix2 (-7)) /\ Float32ToFloat16 0x47800000 = 0x7C00 /\
  (** the largest float denormal (about 2^-126) is encoded as the half 1023*2^-24, more than 2^111 times larger *)
  Float32ToFloat16 0x007FFFFF = 0x03FF.
Proof. repeat split; reflexivity. Qed.

(** C09: for every layout, a pattern with exponent field zero or a normal exponent whose value is a normal float survives. *)
Theorem C09_minifloat_round_trip : forall (signBit : bool) eb mb bias w,
  1 <= eb <= 8 -> 1 <= mb <= 23 -> 0 <= w < 2^(b2z signBit + eb + mb) ->
  expo_of eb mb w = 0 \/ (expo_of eb mb w < 2^eb - 1 /\ 1 <= expo_of eb mb w - bias + 127 <= 254) ->
  Float32ToMiniFloat signBit eb mb bias (MiniFloatToFloat32 signBit eb mb bias w) = w.
Proof.
  intros sb eb mb bias w Heb Hmb Hw Hn.
  assert (Hw' : 0 <= w < 2^(1 + eb + mb)).
  { split; [lia|]. eapply Z.lt_le_trans; [apply Hw|]. apply Z.pow_le_mono_r; [lia|]. destruct sb; cbn [b2z]; lia. }
  destruct (word_of_fields eb mb w ltac:(lia) ltac:(lia) Hw') as (W & He & Hm).
  assert (Hs : sign_of eb mb w = true -> sb = true).
  { destruct sb; [reflexivity|]. intros T. unfold sign_of in T. cbn [b2z] in Hw.
    rewrite Z.add_0_l in Hw. rewrite (testbit_out (eb+mb) w (eb+mb)) in T by lia. discriminate. }
  set (s := sign_of eb mb w) in *; set (e := expo_of eb mb w) in *; set (m := mant_of mb w) in *.
  clearbody s e m. subst w.
  assert (P : 0 < 2^(23-mb)) by (apply Z.pow_pos_nonneg; lia).
  assert (P2 : 2^mb * 2^(23-mb) = 2^23) by (rewrite <- Z.pow_add_r by lia; f_equal; lia).
  assert (D : mini_dec_expo eb bias e = if e =? 0 then 0 else e - bias + 127).
  { unfold mini_dec_expo. destruct (Z.eqb_spec e (2^eb - 1)) as [E|N]; [|reflexivity].
    assert (2^1 <= 2^eb) by (apply Z.pow_le_mono_r; lia). lia. }
  rewrite decode_mini; try assumption.
  2:{ rewrite D. destruct (Z.eqb_spec e 0); lia. }
  rewrite D. destruct (Z.eqb_spec e 0) as [E0|N0].
  - subst e. rewrite enc_mini_zero by (try lia; nia). rewrite Z.div_mul by lia. f_equal.
    destruct s, sb; try reflexivity. discriminate (Hs eq_refl).
  - rewrite enc_mini_normal; try assumption; try lia; [|nia]. rewrite Z.div_mul by lia. f_equal. lia.
Qed.
Print Assumptions C09_minifloat_round_trip.
Example C09_minifloat_round_trip_witness :
  expo_of 6 5 0x2F5 = 23 /\ 1 <= 23 - 31 + 127 <= 254 /\ Float32ToMiniFloat false 6 5 31 (MiniFloatToFloat32 false 6 5 31 0x2F5) = 0x2F5 /\
  MiniFloatToFloat32 false 6 5 31 0x2F5 = 0x3BD40000.
Proof. repeat split; try reflexivity; lia. Qed.

(** The all-ones exponent does not survive when it has fewer than 8 bits: 255 is written into the narrower field. *)
Theorem C09_minifloat_infinity_refuted : forall (signBit : bool) eb mb bias, 1 <= eb <= 7 -> 1 <= mb <= 23 ->
  Float32ToMiniFloat signBit eb mb bias (MiniFloatToFloat32 signBit eb mb bias ((2^eb - 1) * 2^mb)) = 255 * 2^mb /\
  (2^eb - 1) * 2^mb <> 255 * 2^mb.
Proof.
  intros sb eb mb bias Heb Hmb.
  assert (Peb : 2 <= 2^eb <= 2^7) by (split; [change 2 with (2^1) at 1|]; apply Z.pow_le_mono_r; lia).
  assert (Pmb : 2 <= 2^mb <= 2^23) by (split; [change 2 with (2^1) at 1|]; apply Z.pow_le_mono_r; lia).
  split; [|nia].
  assert (W : (2^eb - 1) * 2^mb = word eb mb false (2^eb - 1) 0) by (unfold word, b2z; lia).
  assert (D : mini_dec_expo eb bias (2^eb - 1) = 255) by (unfold mini_dec_expo; now rewrite Z.eqb_refl).
  rewrite W, decode_mini; try lia; try discriminate.
  rewrite D. rewrite enc_mini by (try lia). cbn [andb negb]. unfold enc_fields. rewrite Z.mul_0_l.
  cbn [Z.eqb Pos.eqb orb andb negb]. rewrite Z.shiftr_0_l. rewrite ?andb_false_r. cbn [b2z andb]. rewrite Z.mul_0_l, Z.lor_0_l, Z.lor_0_r. apply u32_small. lia.
Qed.
Print Assumptions C09_minifloat_infinity_refuted.

(** C61: for every layout and bias, decoding a normal pattern (or zero) gives its value. *)
Theorem C61_minifloat_decode_value : forall (signBit : bool) eb mb bias w,
  1 <= eb <= 8 -> 1 <= mb <= 23 -> 0 <= w < 2^(b2z signBit + eb + mb) ->
  (expo_of eb mb w = 0 /\ mant_of mb w = 0) \/
  (0 < expo_of eb mb w < 2^eb - 1 /\ 1 <= expo_of eb mb w - bias + 127 <= 254) ->
  float_val (MiniFloatToFloat32 signBit eb mb bias w) = pattern_val eb mb bias w.
Proof.
  intros sb eb mb bias w Heb Hmb Hw Hn.
  assert (Hw' : 0 <= w < 2^(1 + eb + mb)).
  { split; [lia|]. eapply Z.lt_le_trans; [apply Hw|]. apply Z.pow_le_mono_r; [lia|]. destruct sb; cbn [b2z]; lia. }
  destruct (word_of_fields eb mb w ltac:(lia) ltac:(lia) Hw') as (W & He & Hm).
  assert (Hs : sign_of eb mb w = true -> sb = true).
  { destruct sb; [reflexivity|]. intros T. unfold sign_of in T. cbn [b2z] in Hw.
    rewrite Z.add_0_l in Hw. rewrite (testbit_out (eb+mb) w (eb+mb)) in T by lia. discriminate. }
  set (s := sign_of eb mb w) in *; set (e := expo_of eb mb w) in *; set (m := mant_of mb w) in *.
  clearbody s e m. subst w.
  assert (P : 0 < 2^(23-mb)) by (apply Z.pow_pos_nonneg; lia).
  assert (P2 : 2^mb * 2^(23-mb) = 2^23) by (rewrite <- Z.pow_add_r by lia; f_equal; lia).
  assert (Hlt : 2^1 <= 2^eb) by (apply Z.pow_le_mono_r; lia).
  assert (D : mini_dec_expo eb bias e = if e =? 0 then 0 else e - bias + 127).
  { unfold mini_dec_expo. destruct (Z.eqb_spec e (2^eb - 1)) as [E|N]; [lia|reflexivity]. }
  assert (R8 : 0 <= mini_dec_expo eb bias e < 2^8) by (rewrite D; destruct (Z.eqb_spec e 0); lia).
  rewrite decode_mini by assumption.
  unfold float_val. rewrite !pattern_word by (try assumption; try lia; nia). rewrite D. unfold fields_val. change (2^8 - 1) with 255.
  destruct (Z.eqb_spec e (2^eb - 1)); [lia|].
  destruct (Z.eqb_spec e 0) as [E0|N0].
  - destruct Hn as [[_ Hm0]|]; [|lia]. subst m. cbn [Z.eqb]. now rewrite Z.mul_0_l, !Rmult_0_l.
  - destruct (Z.eqb_spec (e - bias + 127) 255); [lia|]. destruct (Z.eqb_spec (e - bias + 127) 0); [lia|]. f_equal.
    replace (2^23 + m * 2^(23-mb)) with ((2^mb + m) * 2^(23-mb)) by lia. rewrite mult_IZR.
    assert (Q : IZR (2^(23-mb)) = bpow radix2 (23 - mb)) by (apply (IZR_Zpower radix2); lia). rewrite Q. rewrite Rmult_assoc, <- bpow_plus. do 2 f_equal. lia.
Qed.
Print Assumptions C61_minifloat_decode_value.
Example C61_minifloat_decode_value_witness :
  expo_of 6 5 0x2F5 = 23 /\ pattern_val 6 5 31 0x2F5 = FpReal false (IZR 53 * bpow radix2 (-13)).
Proof. split; reflexivity. Qed.

(** C61: encoding a float whose exponent fits gives the largest magnitude of the layout not above it. *)
Theorem C61_minifloat_truncates : forall (signBit : bool) eb mb bias v,
  1 <= eb <= 8 -> 1 <= mb <= 23 -> 0 <= v < 2^32 -> 1 <= expo_of 8 23 v <= 254 ->
  1 <= expo_of 8 23 v - 127 + bias < 2^eb - 1 -> (sign_of 8 23 v = true -> signBit = true) ->
  exists s x y, float_val v = FpReal s x /\ pattern_val eb mb bias (Float32ToMiniFloat signBit eb mb bias v) = FpReal s y /\
    0 <= Float32ToMiniFloat signBit eb mb bias v < 2^(b2z signBit + eb + mb) /\ (y <= x)%R /\
    forall w z, 0 <= w < 2^(1 + eb + mb) -> magnitude (pattern_val eb mb bias w) = Some z -> (z <= x)%R -> (z <= y)%R.
Proof.
  intros sb eb mb bias v Heb Hmb Hv Hr1 Hr2 Hs. float_split v Hv s e m He Hm.
  rewrite enc_mini_normal by (try assumption; lia).
  pose proof (mant_shift_range mb m ltac:(lia) Hm) as Hq.
  unfold float_val. rewrite !pattern_word by (try assumption; lia). unfold fields_val. change (2^8 - 1) with 255.
  destruct (Z.eqb_spec e 255); [lia|]. destruct (Z.eqb_spec e 0); [lia|].
  destruct (Z.eqb_spec (e - 127 + bias) (2^eb - 1)); [lia|]. destruct (Z.eqb_spec (e - 127 + bias) 0); [lia|].
  destruct (trunc_value mb (e - 127 - 23) m ltac:(lia) Hm) as [T1 T2].
  replace (e - 127 - 23 + (23 - mb)) with (e - 127 + bias - bias - mb) in T1, T2 by lia.
  eexists s, _, _. split; [reflexivity|]. split; [reflexivity|]. split; [|split; [exact T1|]].
  { pose proof (word_range eb mb s (e - 127 + bias) (m / 2^(23-mb))) as Wr. destruct sb; cbn [b2z]; [apply Wr; lia|].
    destruct s; [discriminate (Hs eq_refl)|]. unfold word, b2z. rewrite Z.add_0_l, Z.pow_add_r by lia.
    assert (Pm : 0 < 2^mb) by (apply Z.pow_pos_nonneg; lia).
    pose proof (Z.mul_le_mono_nonneg_r (e - 127 + bias + 1) (2^eb) (2^mb) ltac:(lia) ltac:(lia)).
    pose proof (Z.mul_nonneg_nonneg (e - 127 + bias) (2^mb) ltac:(lia) ltac:(lia)). rewrite !Z.add_0_l. lia. }
  intros h z Hh Hz Hle.
  destruct (word_of_fields eb mb h ltac:(lia) ltac:(lia) ltac:(lia)) as (W & He' & Hm').
  set (s' := sign_of eb mb h) in *; set (e' := expo_of eb mb h) in *; set (m' := mant_of mb h) in *. clearbody s' e' m'. subst h.
  rewrite pattern_word in Hz by lia.
  assert (P1 : 2^(mb+1) = 2 * 2^mb) by (rewrite Z.pow_add_r by lia; lia).
  unfold fields_val in Hz. destruct (Z.eqb_spec e' (2^eb - 1)).
  { destruct (m' =? 0); discriminate. }
  destruct (Z.eqb_spec e' 0); apply mag_inj in Hz; subst z; apply (no_between mb _ _ _ _ _ ltac:(lia)) with (3 := T2); try assumption; lia.
Qed.
Print Assumptions C61_minifloat_truncates.
Example C61_minifloat_truncates_witness : expo_of 8 23 0x40490FDB = 128 /\ Float32ToMiniFloat false 5 6 15 0x40490FDB = 0x424.
Proof. split; reflexivity. Qed.

(** C61: an unsigned layout turns every negative normal number and minus infinity into zero ... *)
Theorem C61_unsigned_clamps_negative : forall eb mb bias v, 1 <= eb <= 8 -> 1 <= mb <= 23 ->
  0 <= v < 2^32 -> sign_of 8 23 v = true -> expo_of 8 23 v <> 0 -> Float32ToMiniFloat false eb mb bias v = 0.
Proof.
  intros eb mb bias v Heb Hmb Hv Hs He0. float_split v Hv s e m He Hm. subst s. apply enc_mini_negative; lia.
Qed.
Print Assumptions C61_unsigned_clamps_negative.
Example C61_unsigned_clamps_negative_witness : sign_of 8 23 0xC0490FDB = true /\ expo_of 8 23 0xC0490FDB <> 0.
Proof. split; [reflexivity|discriminate]. Qed.
(** ... but negative denormals become positive numbers (and, being NaN-safe was intended, negative NaNs become zero). *)
Theorem C61_unsigned_negative_denormal_refuted : forall eb mb bias m, 1 <= eb <= 8 -> 1 <= mb <= 23 ->
  2^(23 - mb) <= m < 2^23 -> exists v, 0 <= v < 2^32 /\ float_val v = FpReal true (IZR m * bpow radix2 (-149)) /\
  0 < Float32ToMiniFloat false eb mb bias v < 2^mb.
Proof.
  intros eb mb bias m Heb Hmb Hm.
  assert (P : 0 < 2^(23-mb)) by (apply Z.pow_pos_nonneg; lia).
  exists (word 8 23 true 0 m). pose proof (word_range 8 23 true 0 m). split; [lia|]. split.
  - unfold float_val. rewrite pattern_word by lia. reflexivity.
  - rewrite enc_mini_zero by lia. cbn [andb]. pose proof (mant_shift_range mb m ltac:(lia) ltac:(lia)).
    assert (1 <= m / 2^(23-mb)) by (apply Z.div_le_lower_bound; lia). unfold word, b2z. lia.
Qed.
Print Assumptions C61_unsigned_negative_denormal_refuted.
