(** Lemmas about the scalar helpers. *)
From Coq Require Import ZArith Bool Reals Lra Lia.
From Coq Require Import Floats.SpecFloat.
From Flocq Require Import Core.Core IEEE754.BinarySingleNaN.
From Verif Require Import Num NumR F32 F32Laws F32Lemmas ScalarModel.
Ltac Zify.zify_post_hook ::= idtac.
Open Scope R_scope.

(** ** fmod over R *)
Lemma fmod_R_spec x y : 0 < y -> exists k : Z, (nfmod x y : R) = x - IZR k * y /\ Rabs (nfmod x y) < y /\
  (0 <= x -> 0 <= (nfmod x y : R)) /\ (x <= 0 -> (nfmod x y : R) <= 0).
Proof.
  intros Hy. cbn. exists (Ztrunc (x / y)). split; [reflexivity|].
  assert (E : x = (x / y) * y) by (field; lra).
  destruct (Rle_or_lt 0 (x / y)) as [H|H].
  - rewrite Ztrunc_floor by assumption. pose proof (Zfloor_lb (x/y)). pose proof (Zfloor_ub (x/y)).
    set (f := IZR (Zfloor (x / y))) in *. rewrite E at 1 3 5. 
    assert (0 <= x / y * y - f * y < y) by nra. repeat split.
    + rewrite Rabs_pos_eq; lra.
    + lra.
    + intros Hx. assert (H3 : x / y = 0) by nra. unfold f in *. rewrite H3 in *.
      assert (H4 : Zfloor 0 = 0%Z) by (apply (Zfloor_IZR 0)). rewrite H4. lra.
  - rewrite Ztrunc_ceil by lra. pose proof (Zceil_ub (x/y)). pose proof (Zceil_lb (x/y)).
    set (f := IZR (Zceil (x / y))) in *. rewrite E at 1 3 5.
    assert (- y < x / y * y - f * y <= 0) by nra. repeat split.
    + rewrite Rabs_left1; lra.
    + intros Hx. exfalso. assert (x < 0) by nra. lra.
    + lra.
Qed.

(** ** fmod in binary32 is exact *)
Lemma bounded_range m e : bounded 24 128 m e = true -> (Zpos m < 2^24 /\ -149 <= e <= 104)%Z.
Proof.
  intros H. unfold bounded in H. apply andb_prop in H. destruct H as [C E]. apply Zle_bool_imp_le in E.
  unfold canonical_mantissa in C. apply Zeq_bool_eq in C. unfold fexp, emin in C.
  rewrite Digits.Zpos_digits2_pos in C.
  assert (D : (Zpos m < 2 ^ (Digits.Zdigits radix2 (Zpos m)))%Z).
  { pose proof (Digits.Zdigits_correct radix2 (Zpos m)) as [_ X]. exact X. }
  assert (Digits.Zdigits radix2 (Zpos m) <= 24)%Z by lia.
  assert (2 ^ (Digits.Zdigits radix2 (Zpos m)) <= 2^24)%Z by (apply Z.pow_le_mono_r; lia). lia.
Qed.

Lemma f32_fmod_spec (x y : f32) : is_finite x = true -> is_finite y = true -> B2R y <> 0 ->
  is_finite (f32_fmod x y) = true /\
  exists k : Z, B2R (f32_fmod x y) = B2R x - IZR k * B2R y /\ Rabs (B2R (f32_fmod x y)) < Rabs (B2R y) /\
  (0 <= B2R x -> 0 <= B2R (f32_fmod x y)) /\ (B2R x <= 0 -> B2R (f32_fmod x y) <= 0).
Proof.
  destruct x as [sx|sx| |sx mx ex Hx]; try discriminate; destruct y as [sy|sy| |sy my ey Hy]; try discriminate; intros _ _ Hy0.
  - now elim Hy0.
  - split; [reflexivity|]. exists 0%Z. cbn [f32_fmod B2R]. rewrite Rabs_R0.
    split; [lra|]. split; [now apply Rabs_pos_lt|]. lra.
  - now elim Hy0.
  - cbn [f32_fmod].
    destruct (bounded_range _ _ Hx) as [Bx Ex], (bounded_range _ _ Hy) as [By Ey].
    set (e := Z.min ex ey). set (X := (Zpos mx * 2^(ex - e))%Z). set (Y := (Zpos my * 2^(ey - e))%Z).
    assert (PX : (0 < 2^(ex-e))%Z) by (apply Z.pow_pos_nonneg; unfold e; lia).
    assert (PY : (0 < 2^(ey-e))%Z) by (apply Z.pow_pos_nonneg; unfold e; lia).
    assert (Xp : (0 < X)%Z) by (unfold X; lia). assert (Yp : (0 < Y)%Z) by (unfold Y; lia).
    assert (Rb : (0 <= Z.rem X Y < Y)%Z) by (apply Z.rem_bound_pos; lia).
    assert (Rx : (Z.rem X Y <= X)%Z) by (rewrite Z.rem_mod_nonneg by lia; apply Z.mod_le; lia).
    set (r := Z.rem X Y) in *.
    assert (R24 : (r < 2^24)%Z).
    { destruct (Z.le_gt_cases ey ex).
      - assert (Y = Zpos my) by (unfold Y; replace (ey - e)%Z with 0%Z by (unfold e; lia); lia). lia.
      - assert (X = Zpos mx) by (unfold X; replace (ex - e)%Z with 0%Z by (unfold e; lia); lia). lia. }
    destruct (normalize_exact (if sx then - r else r) e sx) as [V F]; [destruct sx; lia|unfold e; lia|].
    split; [exact F|]. rewrite V.
    assert (Vx : B2R (B754_finite sx mx ex Hx) = IZR (if sx then - X else X) * bpow radix2 e).
    { unfold B2R, F2R, cond_Zopp; cbn [Fnum Fexp]. unfold X.
      replace ex with ((ex - e) + e)%Z at 1 by lia. rewrite bpow_plus.
      destruct sx; rewrite ?opp_IZR, ?mult_IZR, ?Z.mul_opp_l; change (Zneg mx) with (- Zpos mx)%Z; rewrite ?opp_IZR, ?mult_IZR;
        rewrite (IZR_Zpower radix2) by (unfold e; lia); ring. }
    assert (Vy : B2R (B754_finite sy my ey Hy) = IZR (if sy then - Y else Y) * bpow radix2 e).
    { unfold B2R, F2R, cond_Zopp; cbn [Fnum Fexp]. unfold Y.
      replace ey with ((ey - e) + e)%Z at 1 by lia. rewrite bpow_plus.
      destruct sy; rewrite ?opp_IZR, ?mult_IZR, ?Z.mul_opp_l; change (Zneg my) with (- Zpos my)%Z; rewrite ?opp_IZR, ?mult_IZR;
        rewrite (IZR_Zpower radix2) by (unfold e; lia); ring. }
    rewrite Vx, Vy. pose proof (bpow_gt_0 radix2 e) as P.
    assert (Q : X = (Y * Z.quot X Y + r)%Z) by (apply Z.quot_rem').
    assert (QR : IZR X = IZR Y * IZR (Z.quot X Y) + IZR r) by (rewrite <- mult_IZR, <- plus_IZR; now f_equal).
    assert (0 <= IZR r < IZR Y) by (split; [apply (IZR_le 0)|apply IZR_lt]; lia).
    exists (if xorb sx sy then - Z.quot X Y else Z.quot X Y)%Z. split; [|split; [|split]].
    + destruct sx, sy; cbn [xorb]; rewrite ?opp_IZR, QR; ring.
    + rewrite !Rabs_mult. apply Rmult_lt_compat_r; [now apply Rabs_pos_lt, Rgt_not_eq|].
      destruct sx, sy; rewrite ?opp_IZR, ?Rabs_Ropp, !Rabs_pos_eq; lra.
    + destruct sx; rewrite ?opp_IZR; [|intros; nra].
      intros H0. assert (0 < IZR X) by (apply (IZR_lt 0); lia). exfalso. nra.
    + destruct sx; rewrite ?opp_IZR; [intros; nra|].
      intros H0. assert (0 < IZR X) by (apply (IZR_lt 0); lia). exfalso. nra.
Qed.

Lemma Abs_R (z : R) : Abs z = Rabs z.
Proof. unfold Abs. rewrite n0_R. cbn. destruct (Rleb_spec 0 z); [now rewrite Rabs_pos_eq|rewrite Rabs_left; lra]. Qed.
Lemma Max_R (y z : R) : Max y z = Rmax y z.
Proof. unfold Max. cbn. destruct (Rleb_spec z y); [rewrite Rmax_left|rewrite Rmax_right]; lra. Qed.
Lemma Min_R (y z : R) : Min y z = Rmin y z.
Proof. unfold Min. cbn. destruct (Rleb_spec y z); [rewrite Rmin_left|rewrite Rmin_right]; lra. Qed.
