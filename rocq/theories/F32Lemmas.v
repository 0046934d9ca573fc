(** Rounding facts about binary32 used by the floating-point theorems. *)
From Coq Require Import ZArith Reals Lra Lia Bool.
From Coq Require Import Floats.SpecFloat.
From Flocq Require Import Core.Core IEEE754.BinarySingleNaN.
From Verif Require Import Num F32 F32Laws.
Open Scope R_scope.

Notation fexp32 := (FLT_exp (-149) 24).
(** Round to nearest even in binary32 with unbounded exponent. *)
Definition rnd (x : R) : R := round radix2 fexp32 ZnearestE x.
Definition fmt (x : R) : Prop := generic_format radix2 fexp32 x.
Notation MAXP := (bpow radix2 128).

Global Instance fexp32_valid : Valid_exp fexp32 := FLT_exp_valid (-149) 24.
Global Instance fexp32_mono : Monotone_exp fexp32 := FLT_exp_monotone (-149) 24.

Lemma rnd_mono x y : x <= y -> rnd x <= rnd y.
Proof. intros H. apply round_le; auto with typeclass_instances. Qed.
Lemma rnd_id x : fmt x -> rnd x = x.
Proof. intros H. apply round_generic; auto with typeclass_instances. Qed.
Lemma rnd_0 : rnd 0 = 0.
Proof. apply round_0; auto with typeclass_instances. Qed.
Lemma fmt_rnd x : fmt (rnd x).
Proof. apply generic_format_round; auto with typeclass_instances. Qed.
Lemma fmt_B2R (x : f32) : fmt (B2R x).
Proof. apply (generic_format_B2R 24 128). Qed.
Lemma rnd_le_fmt x y : fmt y -> x <= y -> rnd x <= y.
Proof. intros F H. rewrite <- (rnd_id y F). now apply rnd_mono. Qed.
Lemma rnd_ge_fmt x y : fmt x -> x <= y -> x <= rnd y.
Proof. intros F H. rewrite <- (rnd_id x F). now apply rnd_mono. Qed.

Lemma fmt_F2R m e : (Z.abs m < 2^24)%Z -> (-149 <= e)%Z -> fmt (IZR m * bpow radix2 e).
Proof.
  intros Hm He. apply generic_format_FLT. exists (Float radix2 m e); cbn; auto.
Qed.
Lemma fmt_IZR m : (Z.abs m <= 2^24)%Z -> fmt (IZR m).
Proof.
  intros Hm. destruct (Z.eq_dec (Z.abs m) (2^24)) as [E|N].
  - assert (m = 2^23 * 2 \/ m = (-2^23) * 2)%Z as [->| ->] by lia;
    rewrite mult_IZR; apply (fmt_F2R _ 1); cbn; lia.
  - replace (IZR m) with (IZR m * bpow radix2 0) by (cbn; ring). apply fmt_F2R; lia.
Qed.

Lemma MAXP_val : MAXP = 340282366920938463463374607431768211456.
Proof. reflexivity. Qed.

Lemma B2R_lt (x : f32) : Rabs (B2R x) < MAXP.
Proof. apply (abs_B2R_lt_emax 24 128). Qed.

(** Operations on finite arguments whose rounded result does not overflow. *)
Lemma mult_ok (x y : f32) : is_finite x = true -> is_finite y = true ->
  Rabs (rnd (B2R x * B2R y)) < MAXP ->
  B2R (Bmult mode_NE x y) = rnd (B2R x * B2R y) /\ is_finite (Bmult mode_NE x y) = true.
Proof.
  intros Fx Fy H. pose proof (Bmult_correct 24 128 _ _ mode_NE x y) as C.
  change (round radix2 (fexp 24 128) (round_mode mode_NE) (B2R x * B2R y)) with (rnd (B2R x * B2R y)) in C.
  rewrite Rlt_bool_true in C by exact H. destruct C as (C1 & C2 & _).
  split; [exact C1|]. rewrite C2, Fx, Fy. reflexivity.
Qed.
Lemma plus_ok (x y : f32) : is_finite x = true -> is_finite y = true ->
  Rabs (rnd (B2R x + B2R y)) < MAXP ->
  B2R (Bplus mode_NE x y) = rnd (B2R x + B2R y) /\ is_finite (Bplus mode_NE x y) = true.
Proof.
  intros Fx Fy H. pose proof (Bplus_correct 24 128 _ _ mode_NE x y Fx Fy) as C.
  change (round radix2 (fexp 24 128) (round_mode mode_NE) (B2R x + B2R y)) with (rnd (B2R x + B2R y)) in C.
  rewrite Rlt_bool_true in C by exact H. destruct C as (C1 & C2 & _). auto.
Qed.
Lemma minus_ok (x y : f32) : is_finite x = true -> is_finite y = true ->
  Rabs (rnd (B2R x - B2R y)) < MAXP ->
  B2R (Bminus mode_NE x y) = rnd (B2R x - B2R y) /\ is_finite (Bminus mode_NE x y) = true.
Proof.
  intros Fx Fy H. pose proof (Bminus_correct 24 128 _ _ mode_NE x y Fx Fy) as C.
  change (round radix2 (fexp 24 128) (round_mode mode_NE) (B2R x - B2R y)) with (rnd (B2R x - B2R y)) in C.
  rewrite Rlt_bool_true in C by exact H. destruct C as (C1 & C2 & _). auto.
Qed.
Lemma minus_finite (x y : f32) : is_finite x = true -> is_finite y = true ->
  is_finite (Bminus mode_NE x y) = true -> B2R (Bminus mode_NE x y) = rnd (B2R x - B2R y).
Proof.
  intros Fx Fy H. pose proof (Bminus_correct 24 128 _ _ mode_NE x y Fx Fy) as C.
  change (round radix2 (fexp 24 128) (round_mode mode_NE) (B2R x - B2R y)) with (rnd (B2R x - B2R y)) in C.
  destruct Rlt_bool.
  - destruct C as (C1 & C2 & _). auto.
  - destruct C as (C1 & _). destruct (Bminus mode_NE x y); try discriminate.
Qed.
Lemma normalize_ok m e s : Rabs (rnd (IZR m * bpow radix2 e)) < MAXP ->
  B2R (binary_normalize 24 128 _ _ mode_NE m e s) = rnd (IZR m * bpow radix2 e) /\
  is_finite (binary_normalize 24 128 _ _ mode_NE m e s) = true.
Proof.
  intros H. pose proof (binary_normalize_correct 24 128 _ _ mode_NE m e s) as C. cbv zeta in C.
  change (round radix2 (fexp 24 128) (round_mode mode_NE) (F2R (Float radix2 m e))) with (rnd (IZR m * bpow radix2 e)) in C.
  rewrite Rlt_bool_true in C by exact H. destruct C as (C1 & C2 & _). auto.
Qed.
Lemma normalize_exact m e s : (Z.abs m < 2^24)%Z -> (-149 <= e <= 104)%Z ->
  B2R (binary_normalize 24 128 _ _ mode_NE m e s) = IZR m * bpow radix2 e /\
  is_finite (binary_normalize 24 128 _ _ mode_NE m e s) = true.
Proof.
  intros Hm He. assert (F : fmt (IZR m * bpow radix2 e)) by (apply fmt_F2R; lia).
  rewrite <- (rnd_id _ F) at 1. apply normalize_ok. rewrite (rnd_id _ F).
  rewrite Rabs_mult, (Rabs_pos_eq (bpow radix2 e)) by apply bpow_ge_0. rewrite <- abs_IZR.
  apply Rlt_le_trans with (bpow radix2 24 * bpow radix2 e).
  - apply Rmult_lt_compat_r; [apply bpow_gt_0|]. change (bpow radix2 24) with (IZR (2^24)). now apply IZR_lt.
  - rewrite <- bpow_plus. apply bpow_le. lia.
Qed.
Lemma ofZ_exact z : (Z.abs z < 2^24)%Z -> B2R (f32_ofZ z) = IZR z /\ is_finite (f32_ofZ z) = true.
Proof.
  intros H. destruct (normalize_exact z 0 false H) as [A B]; [lia|].
  unfold f32_ofZ. split; [|exact B]. rewrite A. cbn [bpow]. ring.
Qed.
Lemma ofZ_rnd z : (Z.abs z < 2^127)%Z -> B2R (f32_ofZ z) = rnd (IZR z) /\ is_finite (f32_ofZ z) = true.
Proof.
  intros H. unfold f32_ofZ.
  assert (E : IZR z * bpow radix2 0 = IZR z) by (cbn [bpow]; ring).
  rewrite <- E at 1. apply normalize_ok. rewrite E.
  apply Rle_lt_trans with (bpow radix2 127).
  - unfold rnd. rewrite <- round_NE_abs by auto with typeclass_instances. rewrite <- abs_IZR.
    apply rnd_le_fmt; [apply generic_format_bpow; cbn; lia|].
    change (bpow radix2 127) with (IZR (2^127)). apply IZR_le. lia.
  - apply bpow_lt. lia.
Qed.

Lemma B2R_n0 : B2R (n0 : f32) = 0 /\ is_finite (n0 : f32) = true.
Proof. split; reflexivity. Qed.
Lemma B2R_n1 : B2R (n1 : f32) = 1 /\ is_finite (n1 : f32) = true.
Proof. exact (ofZ_exact 1 eq_refl). Qed.

(** Decoding a word with a normal exponent field. *)
Lemma of_bits_normal (s : bool) e m : (0 <= m < 2^23)%Z -> (1 <= e <= 254)%Z ->
  let w := ((if s then 2^31 else 0) + e * 2^23 + m)%Z in
  B2R (f32_of_bits w) = (if s then -1 else 1) * (IZR (2^23 + m) * bpow radix2 (e - 150)) /\
  is_finite (f32_of_bits w) = true.
Proof.
  intros Hm He w.
  assert (E1 : Z.testbit w 31 = s).
  { unfold w. rewrite Z.testbit_eqb by lia.
    destruct s; [apply Z.eqb_eq|apply Z.eqb_neq]; change (2^31)%Z with 2147483648%Z; Z.div_mod_to_equations; lia. }
  assert (E2 : ((w / 2^23) mod 256 = e)%Z).
  { unfold w. destruct s; change (2^31)%Z with 2147483648%Z; change (2^23)%Z with 8388608%Z in *; Z.div_mod_to_equations; lia. }
  assert (E3 : (w mod 2^23 = m)%Z).
  { unfold w. destruct s; change (2^31)%Z with 2147483648%Z; change (2^23)%Z with 8388608%Z in *; Z.div_mod_to_equations; lia. }
  unfold f32_of_bits. cbv zeta. rewrite E1, E2, E3.
  destruct (Z.eqb_spec e 255); [lia|]. destruct (Z.eqb_spec e 0); [lia|].
  destruct (normalize_exact (if s then - (m + 2^23) else m + 2^23) (e - 150) s) as [A B].
  - destruct s; lia.
  - lia.
  - split; [|exact B]. rewrite A. rewrite (Z.add_comm (2^23) m). destruct s; [rewrite opp_IZR|]; ring.
Qed.

(** Comparing finite floats. *)
Lemma ltb_finite (x y : f32) : is_finite x = true -> is_finite y = true ->
  Bltb x y = Rlt_bool (B2R x) (B2R y).
Proof. apply Bltb_correct. Qed.
Lemma leb_finite (x y : f32) : is_finite x = true -> is_finite y = true ->
  Bleb x y = Rle_bool (B2R x) (B2R y).
Proof. apply Bleb_correct. Qed.
Lemma eqb_finite (x y : f32) : is_finite x = true -> is_finite y = true ->
  Beqb x y = Req_bool (B2R x) (B2R y).
Proof. apply Beqb_correct. Qed.

(** A factor at most 1-2^-23 brings a positive normal float at least one ulp down. *)
Lemma ulp_normal x : bpow radix2 (-126) <= x -> ulp radix2 fexp32 x <= x * bpow radix2 (-23).
Proof.
  intros H. pose proof (bpow_gt_0 radix2 (-126)) as P.
  rewrite ulp_neq_0 by lra. unfold cexp, FLT_exp.
  set (e := mag radix2 x).
  assert (A : bpow radix2 (e - 1) <= x).
  { pose proof (bpow_mag_le radix2 x ltac:(lra)) as B. rewrite Rabs_pos_eq in B by lra. exact B. }
  assert (L : (-126 < e)%Z).
  { apply (mag_gt_bpow radix2 x (-126)). rewrite Rabs_pos_eq by lra. exact H. }
  replace (Z.max (e - 24) (-149)) with ((e - 1) + (-23))%Z by lia.
  rewrite bpow_plus. apply Rmult_le_compat_r; [apply bpow_ge_0|exact A].
Qed.

Lemma fmt_sub_ulp x : 0 < x -> fmt x -> fmt (x - ulp radix2 fexp32 x).
Proof.
  intros Px F. rewrite ulp_neq_0 by lra.
  pose proof F as F'. unfold fmt, generic_format in F'.
  set (m := Ztrunc (scaled_mantissa radix2 fexp32 x)) in *.
  set (e := cexp radix2 fexp32 x) in *. unfold F2R in F'. cbn [Fnum Fexp] in F'.
  assert (He : (-149 <= e)%Z) by (unfold e, cexp, FLT_exp; lia).
  assert (Hm : (0 < m)%Z).
  { apply lt_IZR. apply Rmult_lt_reg_r with (bpow radix2 e); [apply bpow_gt_0|]. rewrite Rmult_0_l. lra. }
  assert (Hm2 : (m < 2^24)%Z).
  { apply lt_IZR. apply Rmult_lt_reg_r with (bpow radix2 e); [apply bpow_gt_0|]. rewrite <- F'.
    change (IZR (2^24)) with (bpow radix2 24). rewrite <- bpow_plus.
    apply Rlt_le_trans with (bpow radix2 (mag radix2 x)).
    - pose proof (bpow_mag_gt radix2 x) as B. rewrite Rabs_pos_eq in B by lra. exact B.
    - apply bpow_le. unfold e, cexp, FLT_exp. lia. }
  replace (x - bpow radix2 e) with (IZR (m - 1) * bpow radix2 e).
  - apply fmt_F2R; lia.
  - rewrite minus_IZR. rewrite F' at 1. ring.
Qed.

Lemma rnd_scale_down u w : 0 <= u <= 1 - bpow radix2 (-23) -> fmt w -> bpow radix2 (-126) <= w ->
  0 <= rnd (u * w) <= w - ulp radix2 fexp32 w.
Proof.
  intros [U0 U1] F H. pose proof (bpow_gt_0 radix2 (-126)) as P. split.
  - rewrite <- rnd_0. apply rnd_mono. apply Rmult_le_pos; lra.
  - apply rnd_le_fmt; [apply fmt_sub_ulp; [lra|exact F]|].
    pose proof (ulp_normal w H) as L.
    apply Rle_trans with ((1 - bpow radix2 (-23)) * w); [apply Rmult_le_compat_r; lra|]. lra.
Qed.

Lemma rnd_err x : Rabs (rnd x - x) <= / 2 * ulp radix2 fexp32 (rnd x).
Proof. apply error_le_half_ulp_round; auto with typeclass_instances. Qed.
