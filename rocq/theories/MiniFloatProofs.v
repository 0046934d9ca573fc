(** Proofs about the reduced-precision conversions: everything is reduced to the sign, exponent
    and mantissa fields of the patterns. *)
From Coq Require Import ZArith Reals Bool Lia Lra.
From Flocq Require Import Core.Core.
From Verif Require Import BitModel BitProofs MiniFloatModel MiniFloatSpec.
Open Scope Z_scope.

Ltac Zify.zify_post_hook ::= idtac.

Definition b2z (b : bool) : Z := if b then 1 else 0.
(** A pattern assembled from fields. *)
Definition word (eb mb : Z) (s : bool) (e m : Z) : Z := b2z s * 2^(eb + mb) + e * 2^mb + m.

Section Fields.
  Context (eb mb : Z) (s : bool) (e m : Z).
  Context (Heb : 0 <= eb) (Hmb : 0 <= mb) (He : 0 <= e < 2^eb) (Hm : 0 <= m < 2^mb).

  Lemma word_mant : mant_of mb (word eb mb s e m) = m.
  Proof.
    unfold mant_of, word. rewrite Z.pow_add_r by lia.
    replace (b2z s * (2^eb * 2^mb) + e * 2^mb + m) with (m + (b2z s * 2^eb + e) * 2^mb) by ring.
    rewrite Z.mod_add by lia. apply Z.mod_small. lia.
  Qed.
  Lemma word_div : word eb mb s e m / 2^mb = b2z s * 2^eb + e.
  Proof.
    unfold word. rewrite Z.pow_add_r by lia.
    replace (b2z s * (2^eb * 2^mb) + e * 2^mb + m) with (m + (b2z s * 2^eb + e) * 2^mb) by ring.
    rewrite Z.div_add by lia. rewrite Z.div_small by lia. lia.
  Qed.
  Lemma word_expo : expo_of eb mb (word eb mb s e m) = e.
  Proof.
    unfold expo_of. rewrite word_div. rewrite Z.add_comm, Z.mod_add by lia. apply Z.mod_small. lia.
  Qed.
  Lemma word_sign : sign_of eb mb (word eb mb s e m) = s.
  Proof.
    unfold sign_of. replace (eb + mb) with (mb + eb) by lia.
    rewrite Z.add_comm, <- Z.div_pow2_bits by lia. rewrite word_div.
    rewrite <- (Z.add_0_l eb) at 2. rewrite <- Z.div_pow2_bits by lia.
    rewrite Z.div_add_l by lia. rewrite (Z.div_small e) by lia. rewrite Z.add_0_r. destruct s; reflexivity.
  Qed.
  Lemma word_range : 0 <= word eb mb s e m < 2^(1 + eb + mb).
  Proof.
    unfold word. replace (1 + eb + mb) with (Z.succ (eb + mb)) by lia. rewrite Z.pow_succ_r by lia.
    assert (e * 2^mb + m < 2^eb * 2^mb) by nia. rewrite <- Z.pow_add_r in H by lia.
    assert (0 < 2^(eb+mb)) by (apply Z.pow_pos_nonneg; lia). destruct s; cbn [b2z]; nia.
  Qed.
  Lemma pattern_word bias : pattern_val eb mb bias (word eb mb s e m) = fields_val eb mb bias s e m.
  Proof. unfold pattern_val. now rewrite word_sign, word_expo, word_mant. Qed.
End Fields.

(** Every pattern is assembled from its fields. *)
Lemma word_of_fields eb mb w : 0 <= eb -> 0 <= mb -> 0 <= w < 2^(1 + eb + mb) ->
  w = word eb mb (sign_of eb mb w) (expo_of eb mb w) (mant_of mb w) /\
  0 <= expo_of eb mb w < 2^eb /\ 0 <= mant_of mb w < 2^mb.
Proof.
  intros Heb Hmb Hw.
  assert (P : 0 < 2^mb) by (apply Z.pow_pos_nonneg; lia). assert (Q : 0 < 2^eb) by (apply Z.pow_pos_nonneg; lia).
  split; [|split; apply Z.mod_pos_bound; lia].
  unfold word, mant_of, expo_of.
  assert (S : b2z (sign_of eb mb w) = w / 2^mb / 2^eb).
  { rewrite Z.div_div by lia. rewrite <- Z.pow_add_r by lia. unfold sign_of.
    rewrite (Z.add_comm mb eb).
    assert (0 <= w / 2^(eb+mb) < 2).
    { split; [apply Z.div_pos; lia|]. apply Z.div_lt_upper_bound; [apply Z.pow_pos_nonneg; lia|].
      replace (1 + eb + mb) with (Z.succ (eb + mb)) in Hw by lia. rewrite Z.pow_succ_r in Hw by lia. lia. }
    rewrite Z.testbit_eqb by lia. rewrite Z.mod_small by lia. destruct (Z.eqb_spec (w / 2^(eb+mb)) 1); cbn [b2z]; lia. }
  rewrite S. rewrite Z.pow_add_r by lia.
  pose proof (Z.div_mod w (2^mb)). pose proof (Z.div_mod (w / 2^mb) (2^eb)).
  replace (w / 2^mb / 2^eb * (2^eb * 2^mb) + (w / 2^mb) mod 2^eb * 2^mb + w mod 2^mb)
    with ((2^eb * (w / 2^mb / 2^eb) + (w / 2^mb) mod 2^eb) * 2^mb + w mod 2^mb) by ring.
  rewrite <- H0 by lia. lia.
Qed.

(** ** Masks *)
Lemma land_field v p k : 0 <= p -> 0 <= k -> Z.land v (Z.ones k * 2^p) = ((v / 2^p) mod 2^k) * 2^p.
Proof.
  intros Hp Hk. apply Z.bits_inj'. intros i Hi. rewrite Z.land_spec.
  destruct (Z.lt_ge_cases i p).
  - rewrite !Z.mul_pow2_bits_low by lia. apply andb_false_r.
  - rewrite !Z.mul_pow2_bits by lia. rewrite mod_pow2_bits, Z.div_pow2_bits by lia.
    replace (i - p + p) with i by lia. f_equal.
    rewrite Z.testbit_ones by lia. destruct (Z.leb_spec 0 (i - p)); [reflexivity|lia].
Qed.
Lemma land_mask v k : 0 <= k -> Z.land v (2^k - 1) = v mod 2^k.
Proof. intros H. replace (2^k - 1) with (Z.ones k) by (rewrite Z.ones_equiv; lia). now apply Z.land_ones. Qed.
Lemma shiftr_mul x p : 0 <= p -> Z.shiftr (x * 2^p) p = x.
Proof. intros. rewrite Z.shiftr_div_pow2 by lia. apply Z.div_mul. apply Z.pow_nonzero; lia. Qed.

Lemma lor_add a b k : 0 <= k -> (2^k | a) -> 0 <= b < 2^k -> Z.lor a b = a + b.
Proof.
  intros Hk [h ->] Hb.
  assert (D : Z.land (h * 2^k) b = 0).
  { apply Z.bits_inj'. intros i Hi. rewrite Z.land_spec, Z.bits_0. destruct (Z.lt_ge_cases i k).
    - rewrite Z.mul_pow2_bits_low by lia. reflexivity.
    - rewrite (testbit_out k b i) by lia. apply andb_false_r. }
  rewrite Z.add_nocarry_lxor by exact D. symmetry. now apply Z.lxor_lor.
Qed.

(** Assembling a pattern with bitwise or. *)
Lemma assemble eb mb s e m : 0 <= eb -> 0 <= mb -> 0 <= e < 2^eb -> 0 <= m < 2^mb ->
  Z.lor (Z.lor (b2z s * 2^(eb + mb)) (e * 2^mb)) m = word eb mb s e m.
Proof.
  intros. unfold word.
  assert (P : 0 < 2^mb) by (apply Z.pow_pos_nonneg; lia). assert (Q : 0 < 2^eb) by (apply Z.pow_pos_nonneg; lia).
  rewrite (lor_add (b2z s * 2^(eb+mb)) (e * 2^mb) (eb + mb)); [|lia|exists (b2z s); reflexivity|].
  2:{ rewrite Z.pow_add_r by lia. nia. }
  apply (lor_add _ _ mb); [lia| |lia].
  rewrite Z.pow_add_r by lia. exists (b2z s * 2^eb + e). ring.
Qed.

(** The fields the code reads from a float word. *)
Lemma float_fields s e m : 0 <= e < 2^8 -> 0 <= m < 2^23 -> let v := word 8 23 s e m in
  Z.shiftr (Z.land v 0x7F800000) 23 = e /\ Z.land v 0x7FFFFF = m /\ Z.land v 0x80000000 = b2z s * 2^31.
Proof.
  intros He Hm v.
  assert (E := word_expo 8 23 s e m ltac:(lia) ltac:(lia) He Hm). assert (M := word_mant 8 23 s e m ltac:(lia) ltac:(lia) Hm).
  assert (S := word_div 8 23 s e m ltac:(lia) ltac:(lia) Hm). fold v in E, M, S. unfold expo_of in E. unfold mant_of in M.
  split; [|split].
  - change 0x7F800000 with (Z.ones 8 * 2^23). rewrite land_field by lia. rewrite E. apply shiftr_mul. lia.
  - change 0x7FFFFF with (2^23 - 1). rewrite land_mask by lia. exact M.
  - change 0x80000000 with (Z.ones 1 * 2^31). rewrite land_field by lia. f_equal.
    change 31 with (23 + 8). rewrite Z.pow_add_r, <- Z.div_div by lia. rewrite S.
    rewrite Z.div_add_l by lia. rewrite (Z.div_small e) by lia. rewrite Z.add_0_r. destruct s; reflexivity.
Qed.

Lemma half_fields s e m : 0 <= e < 2^5 -> 0 <= m < 2^10 -> let v := word 5 10 s e m in
  Z.land v 0x7C00 = e * 2^10 /\ Z.land v 0x03FF = m /\ Z.land v 0x8000 = b2z s * 2^15.
Proof.
  intros He Hm v.
  assert (E := word_expo 5 10 s e m ltac:(lia) ltac:(lia) He Hm). assert (M := word_mant 5 10 s e m ltac:(lia) ltac:(lia) Hm).
  assert (S := word_div 5 10 s e m ltac:(lia) ltac:(lia) Hm). fold v in E, M, S. unfold expo_of in E. unfold mant_of in M.
  split; [|split].
  - change 0x7C00 with (Z.ones 5 * 2^10). rewrite land_field by lia. now rewrite E.
  - change 0x03FF with (2^10 - 1). rewrite land_mask by lia. exact M.
  - change 0x8000 with (Z.ones 1 * 2^15). rewrite land_field by lia. f_equal.
    change 15 with (10 + 5). rewrite Z.pow_add_r, <- Z.div_div by lia. rewrite S.
    rewrite Z.div_add_l by lia. rewrite (Z.div_small e) by lia. rewrite Z.add_0_r. destruct s; reflexivity.
Qed.

(** ** Half floats *)
Definition dec_expo (e : Z) : Z := if e =? 31 then 255 else if e =? 0 then 0 else e + 112.
Lemma dec_expo_range e : 0 <= e < 2^5 -> 0 <= dec_expo e < 2^8.
Proof. unfold dec_expo. destruct (Z.eqb_spec e 31), (Z.eqb_spec e 0); lia. Qed.

Lemma decode_half s e m : 0 <= e < 2^5 -> 0 <= m < 2^10 ->
  Float16ToFloat32 (word 5 10 s e m) = word 8 23 s (dec_expo e) (m * 2^13).
Proof.
  intros He Hm. destruct (half_fields s e m He Hm) as (A & B & C).
  unfold Float16ToFloat32. cbv zeta. rewrite A, B, C.
  assert (E1 : u32 (Z.shiftl (b2z s * 2^15) 16) = b2z s * 2^(8+23)) by (destruct s; reflexivity). rewrite E1.
  assert (E2 : u32 (Z.shiftl m 13) = m * 2^13) by (rewrite Z.shiftl_mul_pow2 by lia; apply u32_small; lia). rewrite E2.
  assert (E3 : (if e * 2^10 =? 0x7C00 then 0xFF else if negb (e * 2^10 =? 0) then u32 (Z.shiftr (e * 2^10) 10 - 15 + 127) else e * 2^10) = dec_expo e).
  { unfold dec_expo. rewrite shiftr_mul by lia.
    destruct (Z.eqb_spec (e * 2^10) 0x7C00), (Z.eqb_spec e 31); try lia.
    destruct (Z.eqb_spec (e * 2^10) 0), (Z.eqb_spec e 0); cbn [negb]; try lia. rewrite u32_small; lia. }
  rewrite E3. pose proof (dec_expo_range e He).
  assert (E4 : u32 (Z.shiftl (dec_expo e) 23) = dec_expo e * 2^23) by (rewrite Z.shiftl_mul_pow2 by lia; apply u32_small; lia).
  rewrite E4. apply assemble; lia.
Qed.

(** Exponent and mantissa fields computed by the encoder ([nb] may be 255 for infinities and NaNs). *)
Definition enc_fields (maxe bias sh e m : Z) : Z * Z :=
  if (e =? 255) || (e =? 0) then
    (e, if (e =? 255) && negb (m =? 0) && (Z.shiftr m sh =? 0) then 1 else Z.shiftr m sh)
  else
    let n := e - 127 + bias in
    if maxe <=? n then (if maxe <=? 0 then (0, 0) else (maxe, 0))
    else if n <=? 0 then (0, 0) else (n, Z.shiftr m sh).

Lemma enc_half s e m : 0 <= e < 2^8 -> 0 <= m < 2^23 ->
  Float32ToFloat16 (word 8 23 s e m) =
  let '(n, nm) := enc_fields 31 15 13 e m in u16 (Z.lor (Z.lor (b2z s * 2^15) (n * 2^10)) nm).
Proof.
  intros He Hm. destruct (float_fields s e m He Hm) as (A & B & C).
  unfold Float32ToFloat16. cbv zeta. rewrite A, B, C.
  assert (E1 : Z.shiftr (b2z s * 2^31) 16 = b2z s * 2^15) by (destruct s; reflexivity). rewrite E1.
  unfold enc_fields.
  destruct (Z.eqb_spec e 0xFF) as [EF|NF]; cbn [negb andb orb].
  - rewrite Z.shiftl_mul_pow2 by lia. reflexivity.
  - destruct (Z.eqb_spec e 0) as [E0|N0]; cbn [negb andb orb].
    + rewrite Z.shiftl_mul_pow2 by lia. reflexivity.
    + destruct (Z.leb_spec 31 (e - 127 + 15)); cbn [Z.leb Z.compare].
      * reflexivity.
      * destruct (Z.leb_spec (e - 127 + 15) 0); rewrite Z.shiftl_mul_pow2 by lia; reflexivity.
Qed.

Lemma enc_half_normal s e m : 1 <= e - 112 <= 30 -> 0 <= m < 2^23 ->
  Float32ToFloat16 (word 8 23 s e m) = word 5 10 s (e - 112) (m / 2^13).
Proof.
  intros He Hm. rewrite enc_half by lia. unfold enc_fields.
  destruct (Z.eqb_spec e 255); [lia|]. destruct (Z.eqb_spec e 0); [lia|]. cbn [orb].
  destruct (Z.leb_spec 31 (e - 127 + 15)); [lia|]. destruct (Z.leb_spec (e - 127 + 15) 0); [lia|].
  replace (e - 127 + 15) with (e - 112) by lia. rewrite Z.shiftr_div_pow2 by lia.
  assert (0 <= m / 2^13 < 2^10).
  { split; [apply Z.div_pos; lia|]. apply Z.div_lt_upper_bound; lia. }
  change (2^15) with (2^(5+10)). rewrite assemble by lia. unfold u16. apply Z.mod_small.
  pose proof (word_range 5 10 s (e - 112) (m / 2^13) ltac:(lia) ltac:(lia) ltac:(lia) ltac:(lia)). lia.
Qed.
Lemma enc_half_zero s m : 0 <= m < 2^23 -> Float32ToFloat16 (word 8 23 s 0 m) = word 5 10 s 0 (m / 2^13).
Proof.
  intros Hm. rewrite enc_half by lia. unfold enc_fields. cbn [Z.eqb orb andb].
  rewrite Z.shiftr_div_pow2 by lia.
  assert (0 <= m / 2^13 < 2^10).
  { split; [apply Z.div_pos; lia|]. apply Z.div_lt_upper_bound; lia. }
  change (2^15) with (2^(5+10)). rewrite assemble by lia. unfold u16. apply Z.mod_small.
  pose proof (word_range 5 10 s 0 (m / 2^13) ltac:(lia) ltac:(lia) ltac:(lia) ltac:(lia)). lia.
Qed.
(** Infinities and NaNs: the exponent written is 255, whose overflow sets the sign bit. *)
Lemma enc_half_special s m : 0 <= m < 2^23 ->
  Float32ToFloat16 (word 8 23 s 255 m) =
    word 5 10 true 31 (if negb (m =? 0) && (m / 2^13 =? 0) then 1 else m / 2^13).
Proof.
  intros Hm. rewrite enc_half by lia. unfold enc_fields. cbn [Z.eqb Pos.eqb orb andb].
  rewrite Z.shiftr_div_pow2 by lia.
  set (nm := if negb (m =? 0) && (m / 2^13 =? 0) then 1 else m / 2^13).
  assert (0 <= nm < 2^10).
  { assert (0 <= m / 2^13 < 2^10) by (split; [apply Z.div_pos; lia|apply Z.div_lt_upper_bound; lia]).
    unfold nm. destruct (negb _ && _); lia. }
  rewrite (lor_add _ nm 10); [|lia| |lia].
  2:{ apply Z.mod_divide; [lia|]. destruct s; reflexivity. }
  unfold word, b2z, u16.
  assert (E : Z.lor ((if s then 1 else 0) * 2^15) (255 * 2^10) = (if s then 261120 else 261120)) by (destruct s; reflexivity).
  rewrite E. replace (if s then 261120 else 261120) with (3 * 2^16 + 64512) by (destruct s; reflexivity).
  rewrite <- Z.add_assoc, Z.add_comm, Z.mod_add by lia. apply Z.mod_small. lia.
Qed.

(** ** Generic layouts *)
Definition mini_dec_expo (eb bias e : Z) : Z := if e =? 2^eb - 1 then 255 else if e =? 0 then 0 else e - bias + 127.

Lemma decode_mini (sb s : bool) eb mb bias e m : 1 <= eb <= 8 -> 1 <= mb <= 23 -> 0 <= e < 2^eb -> 0 <= m < 2^mb ->
  0 <= mini_dec_expo eb bias e < 2^8 -> (s = true -> sb = true) ->
  MiniFloatToFloat32 sb eb mb bias (word eb mb s e m) = word 8 23 s (mini_dec_expo eb bias e) (m * 2^(23 - mb)).
Proof.
  intros Heb Hmb He Hm Hd Hs. set (w := word eb mb s e m).
  assert (E := word_expo eb mb s e m ltac:(lia) ltac:(lia) He Hm). assert (M := word_mant eb mb s e m ltac:(lia) ltac:(lia) Hm).
  assert (S := word_div eb mb s e m ltac:(lia) ltac:(lia) Hm). fold w in E, M, S. unfold expo_of in E. unfold mant_of in M.
  assert (Peb : 2 <= 2^eb <= 2^8) by (split; [change 2 with (2^1) at 1|]; apply Z.pow_le_mono_r; lia).
  assert (Pmb : 2 <= 2^mb <= 2^23) by (split; [change 2 with (2^1) at 1|]; apply Z.pow_le_mono_r; lia).
  assert (Pp : 0 < 2^(eb+mb) <= 2^31) by (split; [apply Z.pow_pos_nonneg; lia|apply Z.pow_le_mono_r; lia]).
  unfold MiniFloatToFloat32. cbv zeta. rewrite !Z.shiftl_1_l.
  rewrite (u32_small (2^eb - 1)), (u32_small (2^mb - 1)), (u32_small (2^(eb+mb))) by lia.
  rewrite !land_mask by lia. rewrite Z.shiftr_div_pow2 by lia. rewrite E, M.
  assert (Sg : (if sb then Z.land w (2^(eb+mb)) else 0) = b2z s * 2^(eb+mb)).
  { destruct sb.
    - assert (H : Z.land w (Z.ones 1 * 2^(eb+mb)) = Z.land w (2^(eb+mb))) by (f_equal; change (Z.ones 1) with 1; lia).
      rewrite <- H, land_field by lia. f_equal. replace (eb + mb) with (mb + eb) by lia.
      rewrite Z.pow_add_r, <- Z.div_div by lia. rewrite S. rewrite Z.div_add_l by lia. rewrite (Z.div_small e) by lia.
      rewrite Z.add_0_r. destruct s; reflexivity.
    - destruct s; [discriminate (Hs eq_refl)|]. reflexivity. }
  rewrite Sg.
  assert (Sg2 : (if negb (b2z s * 2^(eb+mb) =? 0) then 0x80000000 else 0) = b2z s * 2^(8+23)).
  { destruct s; cbn [b2z]; [|reflexivity]. destruct (Z.eqb_spec (1 * 2^(eb+mb)) 0); [lia|reflexivity]. }
  rewrite Sg2.
  assert (Em : u32 (Z.shiftl m (23 - mb)) = m * 2^(23-mb)).
  { rewrite Z.shiftl_mul_pow2 by lia. apply u32_small.
    assert (2^mb * 2^(23-mb) = 2^23) by (rewrite <- Z.pow_add_r by lia; f_equal; lia).
    assert (0 < 2^(23-mb)) by (apply Z.pow_pos_nonneg; lia). nia. }
  rewrite Em.
  assert (Ee : (if e =? 2^eb - 1 then 0xFF else if negb (e =? 0) then u32 (e - bias + 127) else e) = mini_dec_expo eb bias e).
  { unfold mini_dec_expo in *. destruct (Z.eqb_spec e (2^eb-1)); [reflexivity|]. destruct (Z.eqb_spec e 0); cbn [negb]; [lia|].
    apply u32_small. lia. }
  rewrite Ee.
  assert (Es : u32 (Z.shiftl (mini_dec_expo eb bias e) 23) = mini_dec_expo eb bias e * 2^23).
  { rewrite Z.shiftl_mul_pow2 by lia. apply u32_small. lia. }
  rewrite Es. apply assemble; try lia.
  assert (2^mb * 2^(23-mb) = 2^23) by (rewrite <- Z.pow_add_r by lia; f_equal; lia).
  assert (0 < 2^(23-mb)) by (apply Z.pow_pos_nonneg; lia). nia.
Qed.

Lemma enc_mini (sb s : bool) eb mb bias e m : 1 <= eb <= 8 -> 1 <= mb <= 23 -> 0 <= e < 2^8 -> 0 <= m < 2^23 ->
  Float32ToMiniFloat sb eb mb bias (word 8 23 s e m) =
  let '(e', m') := if s && negb sb && negb (e =? 0) then (0, 0) else (e, m) in
  let '(n, nm) := enc_fields (2^eb - 1) bias (23 - mb) e' m' in
  u32 (Z.lor (Z.lor (b2z (sb && s) * 2^(eb+mb)) (n * 2^mb)) nm).
Proof.
  intros Heb Hmb He Hm. destruct (float_fields s e m He Hm) as (A & B & C).
  assert (Peb : 2 <= 2^eb <= 2^8) by (split; [change 2 with (2^1) at 1|]; apply Z.pow_le_mono_r; lia).
  assert (Pp : 0 < 2^(eb+mb) <= 2^31) by (split; [apply Z.pow_pos_nonneg; lia|apply Z.pow_le_mono_r; lia]).
  unfold Float32ToMiniFloat. cbv zeta. rewrite A, B, C.
  replace (negb (b2z s * 2^31 =? 0)) with s by (destruct s; reflexivity).
  rewrite !Z.shiftl_1_l. rewrite (u32_small (2^(eb+mb))) by lia.
  assert (H : (if sb && s then (2^(eb+mb), e, m) else if s && negb (e =? 0) then (0, 0, 0) else (0, e, m))
    = let '(e', m') := if s && negb sb && negb (e =? 0) then (0, 0) else (e, m) in (b2z (sb && s) * 2^(eb+mb), e', m')).
  { destruct sb, s; cbn [andb negb b2z]; try reflexivity.
    - now rewrite Z.mul_1_l.
    - destruct (negb (e =? 0)); reflexivity. }
  rewrite H. destruct (if s && negb sb && negb (e =? 0) then (0, 0) else (e, m)) as [e' m'].
  unfold enc_fields.
  destruct (Z.eqb_spec e' 0xFF) as [EF|NF]; cbn [negb andb orb].
  - rewrite Z.shiftl_mul_pow2 by lia. reflexivity.
  - destruct (Z.eqb_spec e' 0) as [E0|N0]; cbn [negb andb orb].
    + rewrite Z.shiftl_mul_pow2 by lia. reflexivity.
    + destruct (Z.leb_spec (2^eb - 1) (e' - 127 + bias)).
      * destruct (Z.leb_spec (2^eb - 1) 0); [lia|]. rewrite Z.shiftl_mul_pow2 by lia. rewrite Z.shiftr_0_l. reflexivity.
      * destruct (Z.leb_spec (e' - 127 + bias) 0); rewrite Z.shiftl_mul_pow2, ?Z.shiftr_0_l by lia; reflexivity.
Qed.

Lemma mant_shift_range mb m : 1 <= mb <= 23 -> 0 <= m < 2^23 -> 0 <= m / 2^(23 - mb) < 2^mb.
Proof.
  intros Hmb Hm.
  assert (2^mb * 2^(23-mb) = 2^23) by (rewrite <- Z.pow_add_r by lia; f_equal; lia).
  assert (0 < 2^(23-mb)) by (apply Z.pow_pos_nonneg; lia).
  split; [apply Z.div_pos; lia|]. apply Z.div_lt_upper_bound; lia.
Qed.

(** A float whose exponent is representable in the layout. *)
Lemma enc_mini_normal (sb s : bool) eb mb bias e m : 1 <= eb <= 8 -> 1 <= mb <= 23 -> 1 <= e <= 254 -> 0 <= m < 2^23 ->
  1 <= e - 127 + bias < 2^eb - 1 -> (s = true -> sb = true) ->
  Float32ToMiniFloat sb eb mb bias (word 8 23 s e m) = word eb mb s (e - 127 + bias) (m / 2^(23 - mb)).
Proof.
  intros Heb Hmb He Hm Hn Hs. rewrite enc_mini by lia.
  replace (s && negb sb && negb (e =? 0)) with false by (destruct s, sb; try reflexivity; discriminate (Hs eq_refl)).
  cbv iota beta. unfold enc_fields.
  destruct (Z.eqb_spec e 255); [lia|]. destruct (Z.eqb_spec e 0); [lia|]. cbn [orb].
  destruct (Z.leb_spec (2^eb - 1) (e - 127 + bias)); [lia|]. destruct (Z.leb_spec (e - 127 + bias) 0); [lia|].
  rewrite Z.shiftr_div_pow2 by lia. pose proof (mant_shift_range mb m Hmb Hm).
  replace (sb && s) with s by (destruct s, sb; try reflexivity; discriminate (Hs eq_refl)).
  rewrite assemble by lia. apply u32_small.
  pose proof (word_range eb mb s (e - 127 + bias) (m / 2^(23-mb)) ltac:(lia) ltac:(lia) ltac:(lia) ltac:(lia)).
  assert (2^(1+eb+mb) <= 2^32) by (apply Z.pow_le_mono_r; lia). lia.
Qed.
Lemma enc_mini_zero (sb s : bool) eb mb bias m : 1 <= eb <= 8 -> 1 <= mb <= 23 -> 0 <= m < 2^23 ->
  Float32ToMiniFloat sb eb mb bias (word 8 23 s 0 m) = word eb mb (sb && s) 0 (m / 2^(23 - mb)).
Proof.
  intros Heb Hmb Hm. rewrite enc_mini by lia. rewrite andb_false_r. cbv iota beta. unfold enc_fields.
  cbn [Z.eqb orb andb]. rewrite Z.shiftr_div_pow2 by lia. pose proof (mant_shift_range mb m Hmb Hm).
  assert (0 < 2^eb) by (apply Z.pow_pos_nonneg; lia).
  rewrite assemble by lia. apply u32_small.
  pose proof (word_range eb mb (sb && s) 0 (m / 2^(23-mb)) ltac:(lia) ltac:(lia) ltac:(lia) ltac:(lia)).
  assert (2^(1+eb+mb) <= 2^32) by (apply Z.pow_le_mono_r; lia). lia.
Qed.
(** Unsigned layouts: every negative normal number, infinity and NaN becomes zero. *)
Lemma enc_mini_negative eb mb bias e m : 1 <= eb <= 8 -> 1 <= mb <= 23 -> 1 <= e < 2^8 -> 0 <= m < 2^23 ->
  Float32ToMiniFloat false eb mb bias (word 8 23 true e m) = 0.
Proof.
  intros Heb Hmb He Hm. rewrite enc_mini by lia. destruct (Z.eqb_spec e 0); [lia|]. cbn [andb negb]. cbv iota beta.
  unfold enc_fields. cbn [Z.eqb orb andb b2z]. rewrite Z.shiftr_0_l. reflexivity.
Qed.
(** Overflow and underflow of the exponent. *)
Lemma enc_mini_overflow (sb s : bool) eb mb bias e m : 1 <= eb <= 8 -> 1 <= mb <= 23 -> 1 <= e <= 254 -> 0 <= m < 2^23 ->
  2^eb - 1 <= e - 127 + bias -> (s = true -> sb = true) ->
  Float32ToMiniFloat sb eb mb bias (word 8 23 s e m) = word eb mb s (2^eb - 1) 0.
Proof.
  intros Heb Hmb He Hm Hn Hs. rewrite enc_mini by lia.
  assert (Peb : 2 <= 2^eb <= 2^8) by (split; [change 2 with (2^1) at 1|]; apply Z.pow_le_mono_r; lia).
  assert (Pmb : 0 < 2^mb) by (apply Z.pow_pos_nonneg; lia).
  replace (s && negb sb && negb (e =? 0)) with false by (destruct s, sb; try reflexivity; discriminate (Hs eq_refl)).
  cbv iota beta. unfold enc_fields.
  destruct (Z.eqb_spec e 255); [lia|]. destruct (Z.eqb_spec e 0); [lia|]. cbn [orb].
  destruct (Z.leb_spec (2^eb - 1) (e - 127 + bias)); [|lia]. destruct (Z.leb_spec (2^eb - 1) 0); [lia|].
  replace (sb && s) with s by (destruct s, sb; try reflexivity; discriminate (Hs eq_refl)).
  rewrite assemble by lia. apply u32_small.
  pose proof (word_range eb mb s (2^eb - 1) 0 ltac:(lia) ltac:(lia) ltac:(lia) ltac:(lia)).
  assert (2^(1+eb+mb) <= 2^32) by (apply Z.pow_le_mono_r; lia). lia.
Qed.
Lemma enc_mini_underflow (sb s : bool) eb mb bias e m : 1 <= eb <= 8 -> 1 <= mb <= 23 -> 1 <= e <= 254 -> 0 <= m < 2^23 ->
  e - 127 + bias <= 0 -> (s = true -> sb = true) ->
  Float32ToMiniFloat sb eb mb bias (word 8 23 s e m) = word eb mb s 0 0.
Proof.
  intros Heb Hmb He Hm Hn Hs. rewrite enc_mini by lia.
  assert (Peb : 2 <= 2^eb <= 2^8) by (split; [change 2 with (2^1) at 1|]; apply Z.pow_le_mono_r; lia).
  assert (Pmb : 0 < 2^mb) by (apply Z.pow_pos_nonneg; lia).
  replace (s && negb sb && negb (e =? 0)) with false by (destruct s, sb; try reflexivity; discriminate (Hs eq_refl)).
  cbv iota beta. unfold enc_fields.
  destruct (Z.eqb_spec e 255); [lia|]. destruct (Z.eqb_spec e 0); [lia|]. cbn [orb].
  destruct (Z.leb_spec (2^eb - 1) (e - 127 + bias)); [lia|]. destruct (Z.leb_spec (e - 127 + bias) 0); [|lia].
  replace (sb && s) with s by (destruct s, sb; try reflexivity; discriminate (Hs eq_refl)).
  rewrite assemble by lia. apply u32_small.
  pose proof (word_range eb mb s 0 0 ltac:(lia) ltac:(lia) ltac:(lia) ltac:(lia)).
  assert (2^(1+eb+mb) <= 2^32) by (apply Z.pow_le_mono_r; lia). lia.
Qed.
Lemma enc_half_overflow s e m : 143 <= e <= 254 -> 0 <= m < 2^23 -> Float32ToFloat16 (word 8 23 s e m) = word 5 10 s 31 0.
Proof.
  intros He Hm. rewrite enc_half by lia. unfold enc_fields.
  destruct (Z.eqb_spec e 255); [lia|]. destruct (Z.eqb_spec e 0); [lia|]. cbn [orb].
  destruct (Z.leb_spec 31 (e - 127 + 15)); [|lia]. destruct s; reflexivity.
Qed.
Lemma enc_half_underflow s e m : 1 <= e <= 112 -> 0 <= m < 2^23 -> Float32ToFloat16 (word 8 23 s e m) = word 5 10 s 0 0.
Proof.
  intros He Hm. rewrite enc_half by lia. unfold enc_fields.
  destruct (Z.eqb_spec e 255); [lia|]. destruct (Z.eqb_spec e 0); [lia|]. cbn [orb].
  destruct (Z.leb_spec 31 (e - 127 + 15)); [lia|]. destruct (Z.leb_spec (e - 127 + 15) 0); [|lia]. destruct s; reflexivity.
Qed.

(** ** Truncation: dropping low mantissa bits gives the largest representable magnitude below. *)
Lemma trunc_value mb E m : 0 <= mb <= 23 -> 0 <= m < 2^23 ->
  (IZR (2^mb + m / 2^(23-mb)) * bpow radix2 (E + (23 - mb)) <= IZR (2^23 + m) * bpow radix2 E)%R /\
  (IZR (2^23 + m) * bpow radix2 E < IZR (2^mb + m / 2^(23-mb) + 1) * bpow radix2 (E + (23 - mb)))%R.
Proof.
  intros Hmb Hm.
  assert (P : 2^mb * 2^(23-mb) = 2^23) by (rewrite <- Z.pow_add_r by lia; f_equal; lia).
  assert (Q : 0 < 2^(23-mb)) by (apply Z.pow_pos_nonneg; lia).
  assert (Bq : bpow radix2 (E + (23 - mb)) = (bpow radix2 E * IZR (2^(23-mb)))%R).
  { rewrite bpow_plus. f_equal. rewrite <- IZR_Zpower by lia. reflexivity. }
  rewrite Bq. pose proof (bpow_gt_0 radix2 E).
  pose proof (Z.div_mod m (2^(23-mb)) ltac:(lia)). pose proof (Z.mod_pos_bound m (2^(23-mb)) Q).
  replace (IZR (2^mb + m / 2^(23-mb)) * (bpow radix2 E * IZR (2^(23-mb))))%R
    with (IZR ((2^mb + m / 2^(23-mb)) * 2^(23-mb)) * bpow radix2 E)%R by (rewrite mult_IZR; ring).
  replace (IZR (2^mb + m / 2^(23-mb) + 1) * (bpow radix2 E * IZR (2^(23-mb))))%R
    with (IZR ((2^mb + m / 2^(23-mb) + 1) * 2^(23-mb)) * bpow radix2 E)%R by (rewrite mult_IZR; ring).
  split.
  - apply Rmult_le_compat_r; [lra|]. apply IZR_le. nia.
  - apply Rmult_lt_compat_r; [lra|]. apply IZR_lt. nia.
Qed.

(** No representable magnitude lies strictly between a representable normal and its successor. *)
Lemma no_between mb M E M' E' (x : R) : 0 <= mb -> 2^mb <= M < 2^(mb+1) -> 0 <= M' < 2^(mb+1) ->
  (x < IZR (M + 1) * bpow radix2 E)%R -> (IZR M' * bpow radix2 E' <= x)%R ->
  (IZR M' * bpow radix2 E' <= IZR M * bpow radix2 E)%R.
Proof.
  intros Hmb HM HM' Hx Hl.
  destruct (Z.lt_ge_cases E' E) as [L|G].
  - apply Rle_trans with (IZR (2^mb) * bpow radix2 E)%R.
    2:{ apply Rmult_le_compat_r; [apply Rlt_le, bpow_gt_0|]. apply IZR_le. lia. }
    apply Rle_trans with (IZR (2^(mb+1)) * bpow radix2 E')%R.
    { apply Rmult_le_compat_r; [apply Rlt_le, bpow_gt_0|]. apply IZR_le. lia. }
    rewrite !(IZR_Zpower radix2) by lia. rewrite <- !bpow_plus. apply bpow_le. lia.
  - assert (B : bpow radix2 E' = (IZR (2^(E'-E)) * bpow radix2 E)%R).
    { rewrite (IZR_Zpower radix2) by lia. rewrite <- bpow_plus. f_equal. lia. }
    rewrite B in *. rewrite <- Rmult_assoc, <- mult_IZR in *.
    assert (IZR (M' * 2^(E'-E)) < IZR (M + 1))%R.
    { apply Rmult_lt_reg_r with (bpow radix2 E); [apply bpow_gt_0|]. lra. }
    apply lt_IZR in H. apply Rmult_le_compat_r; [apply Rlt_le, bpow_gt_0|]. apply IZR_le. lia.
Qed.
