(** Properties C16, C17, C18, C62, C63 of the scalar helpers. *)
From Coq Require Import ZArith Bool Reals Lra Lia List.
From Coq Require Import Floats.SpecFloat.
From Flocq Require Import Core.Core IEEE754.BinarySingleNaN.
From Verif Require Import Num NumR F32 F32Laws F32Lemmas ScalarModel ScalarProofs MiniFloatSpec MiniFloatProofs.
Ltac Zify.zify_post_hook ::= idtac.
Open Scope R_scope.

(** ** C16: order laws, for every scalar type with a total order on its ordered values
    (instances: R, and binary32 without NaN). *)
Section C16.
  Context {T : Type} `{OL : OrdLaws T}.

  Lemma leb_refl_ok x : ok x -> nleb x x = true.
  Proof. intros O. destruct (leb_total x x O O); assumption. Qed.
  Lemma leb_false_sym x y : ok x -> ok y -> nleb x y = false -> nleb y x = true.
  Proof. intros Ox Oy E. destruct (leb_total x y Ox Oy); congruence. Qed.

  Theorem C16_min : forall a b, ok a -> ok b ->
    (Min a b = a \/ Min a b = b) /\ nleb (Min a b) a = true /\ nleb (Min a b) b = true.
  Proof.
    intros a b Oa Ob. unfold Min. destruct (nleb a b) eqn:E.
    - split; [now left|]. split; [now apply leb_refl_ok|assumption].
    - split; [now right|]. split; [now apply leb_false_sym|now apply leb_refl_ok].
  Qed.
  Theorem C16_max : forall a b, ok a -> ok b ->
    (Max a b = a \/ Max a b = b) /\ nleb a (Max a b) = true /\ nleb b (Max a b) = true.
  Proof.
    intros a b Oa Ob. unfold Max. destruct (nleb b a) eqn:E.
    - split; [now left|]. split; [now apply leb_refl_ok|assumption].
    - split; [now right|]. split; [now apply leb_false_sym|now apply leb_refl_ok].
  Qed.
  Lemma min_ok a b : ok a -> ok b -> ok (Min a b).
  Proof. intros Oa Ob. destruct (C16_min a b Oa Ob) as ([-> | ->] & _); assumption. Qed.
  Lemma max_ok a b : ok a -> ok b -> ok (Max a b).
  Proof. intros Oa Ob. destruct (C16_max a b Oa Ob) as ([-> | ->] & _); assumption. Qed.
  Theorem C16_min_max_many : forall a b c d, ok a -> ok b -> ok c -> ok d ->
    (forall x, In x (cons a (cons b (cons c nil))) -> nleb (Min3 a b c) x = true /\ nleb x (Max3 a b c) = true) /\
    In (Min3 a b c) (cons a (cons b (cons c nil))) /\ In (Max3 a b c) (cons a (cons b (cons c nil))) /\
    (forall x, In x (cons a (cons b (cons c (cons d nil)))) -> nleb (Min4 a b c d) x = true /\ nleb x (Max4 a b c d) = true) /\
    In (Min4 a b c d) (cons a (cons b (cons c (cons d nil)))) /\ In (Max4 a b c d) (cons a (cons b (cons c (cons d nil)))).
  Proof.
    intros a b c d Oa Ob Oc Od.
    destruct (C16_min a b Oa Ob) as (M1 & M2 & M3), (C16_max a b Oa Ob) as (X1 & X2 & X3).
    destruct (C16_min c d Oc Od) as (N1 & N2 & N3), (C16_max c d Oc Od) as (Y1 & Y2 & Y3).
    destruct (C16_min (Min a b) c (min_ok a b Oa Ob) Oc) as (P1 & P2 & P3).
    destruct (C16_max (Max a b) c (max_ok a b Oa Ob) Oc) as (Q1 & Q2 & Q3).
    destruct (C16_min (Min a b) (Min c d) (min_ok a b Oa Ob) (min_ok c d Oc Od)) as (P4 & P5 & P6).
    destruct (C16_max (Max a b) (Max c d) (max_ok a b Oa Ob) (max_ok c d Oc Od)) as (Q4 & Q5 & Q6).
    unfold Min3, Max3, Min4, Max4. cbn [In].
    split.
    { intros x [<-|[<-|[<-|[]]]]; split; eauto using leb_trans. }
    split; [intuition congruence|]. split; [intuition congruence|]. split.
    { intros x [<-|[<-|[<-|[<-|[]]]]]; split; eauto using leb_trans. }
    split; intuition congruence.
  Qed.
  Theorem C16_clamp : forall v lo hi, ok v -> nleb lo hi = true ->
    let r := Clamp v lo hi in
    nleb lo r = true /\ nleb r hi = true /\ (r = v \/ r = lo \/ r = hi) /\
    (nleb lo v = true -> nleb v hi = true -> r = v) /\
    (nltb v lo = true -> r = lo) /\ (nltb hi v = true -> r = hi).
  Proof.
    intros v lo hi Ov Hle r. destruct (leb_ok lo hi Hle) as [Olo Ohi]. unfold r, Clamp. clear r.
    destruct (nleb v hi) eqn:E1; [destruct (nleb lo v) eqn:E2|].
    - split; [assumption|]. split; [assumption|]. split; [now left|]. split; [reflexivity|]. split.
      + rewrite ltb_leb, E2 by assumption. discriminate.
      + rewrite ltb_leb, E1 by assumption. discriminate.
    - split; [now apply leb_refl_ok|]. split; [assumption|]. split; [now right; left|]. split; [discriminate|]. split; [reflexivity|].
      rewrite ltb_leb, E1 by assumption. discriminate.
    - split; [assumption|]. split; [now apply leb_refl_ok|]. split; [now right; right|]. split; [discriminate|]. split; [|reflexivity].
      intros L. exfalso. rewrite ltb_leb in L by assumption.
      assert (nleb hi v = true) by (now apply leb_false_sym). rewrite (leb_trans lo hi v) in L by assumption. discriminate.
  Qed.
End C16.
Print Assumptions C16_min.
Print Assumptions C16_max.
Print Assumptions C16_min_max_many.
Print Assumptions C16_clamp.
(** Clamp01 in binary32: every non-NaN float, infinities and signed zeros included, lands in [0,1]. *)
Theorem C16_clamp01_f32 : forall v : f32, is_nan v = false ->
  is_finite (Clamp01 v) = true /\ 0 <= B2R (Clamp01 v) <= 1.
Proof.
  intros v Hv. assert (Ov : ok v) by exact Hv. assert (L01 : nleb (n0 : f32) n1 = true) by reflexivity. destruct (C16_clamp v n0 n1 Ov L01) as (A & B & C & _). fold (Clamp01 v) in *.
  assert (F : is_finite (Clamp01 v) = true).
  { destruct C as [C|[C|C]]; [|rewrite C; reflexivity|rewrite C; reflexivity].
    rewrite C in *. destruct v as [s|[|]| |s m e Hb]; try reflexivity; discriminate. }
  split; [exact F|].
  pose proof (leb_finite n0 (Clamp01 v) (proj2 B2R_n0) F) as E0. pose proof (leb_finite (Clamp01 v) n1 F (proj2 B2R_n1)) as E1.
  rewrite (proj1 B2R_n0) in E0. rewrite (proj1 B2R_n1) in E1.
  change (Bleb (@n0 f32 _) (Clamp01 v) = true) in A. change (Bleb (Clamp01 v) (@n1 f32 _) = true) in B. rewrite A in E0. rewrite B in E1.
  revert E0 E1. case Rle_bool_spec; case Rle_bool_spec; intros; try discriminate; lra.
Qed.
Print Assumptions C16_clamp01_f32.
Example C16_witness : ok (f32_of_bits 0xFF800000) /\ nleb (n0 : f32) n1 = true /\ Clamp01 (f32_of_bits 0xFF800000) = n0 /\
  Min (f32_of_bits 0xFF800000) (f32_of_bits 0x3F800000) = f32_of_bits 0xFF800000.
Proof. repeat split; reflexivity. Qed.

(** ** C17 *)
Theorem C17_modpos : forall x m : R, 0 < m -> 0 <= ModPos x m < m /\ exists k : Z, ModPos x m = x - IZR k * m.
Proof.
  intros x m Hm. destruct (fmod_R_spec x m Hm) as (k & E & A & P & N). unfold ModPos. cbv zeta. set (r := nfmod x m) in *.
  apply Rabs_def2 in A. change (nleb n0 r) with (Rleb n0 r). rewrite n0_R. destruct (Rleb_spec 0 r).
  - split; [lra|]. now exists k.
  - change (nadd r m) with (r + m). split; [lra|]. exists (k - 1)%Z. rewrite E, minus_IZR. lra.
Qed.
Print Assumptions C17_modpos.
Theorem C17_frac : forall x : R, 0 <= Frac x < 1 /\ exists k : Z, Frac x = x - IZR k.
Proof.
  intros x. unfold Frac, Floor. cbn. pose proof (Zfloor_lb x). pose proof (Zfloor_ub x). split; [lra|]. now exists (Zfloor x).
Qed.
Print Assumptions C17_frac.
Theorem C17_round : forall x : R, Rabs (Round x - x) <= 1/2 /\ exists k : Z, Round x = IZR k.
Proof.
  intros x. unfold Round, Floor. cbn [nfloor NumRound_R]. rsimpl.
  pose proof (Zfloor_lb (x + 1/2)). pose proof (Zfloor_ub (x + 1/2)). split; [apply Rabs_le; lra|]. now eexists.
Qed.
Print Assumptions C17_round.
(** PingPongMod is the triangle wave of period 2m for x >= 0: the distance to the nearest multiple of 2m. *)
Theorem C17_pingpong : forall x m : R, 0 < m -> 0 <= x ->
  0 <= PingPongMod x m <= m /\ exists k : Z, PingPongMod x m = Rabs (x - IZR k * (2 * m)).
Proof.
  intros x m Hm Hx. destruct (fmod_R_spec x (m * 2) ltac:(lra)) as (k & E & A & P & N).
  unfold PingPongMod, Mod. cbv zeta. change (nmul m n2) with (m * n2). rewrite n2_R. set (r := nfmod x (m * 2)) in *.
  apply Rabs_def2 in A. specialize (P Hx). change (nleb m r) with (Rleb m r). destruct (Rleb_spec m r).
  - change (nsub (nmul 2 m) r) with (2 * m - r). split; [lra|]. exists (k + 1)%Z. rewrite plus_IZR.
    rewrite Rabs_left1; lra.
  - split; [lra|]. exists k. rewrite Rabs_pos_eq; lra.
Qed.
Print Assumptions C17_pingpong.
(** For negative input it is not: the result is negative (or zero). *)
Theorem C17_pingpong_negative_refuted : forall x m : R, 0 < m -> x <= 0 -> PingPongMod x m <= 0.
Proof.
  intros x m Hm Hx. destruct (fmod_R_spec x (m * 2) ltac:(lra)) as (k & E & A & P & N).
  unfold PingPongMod, Mod. cbv zeta. change (nmul m n2) with (m * n2). rewrite n2_R. set (r := nfmod x (m * 2)) in *.
  specialize (N Hx). change (nleb m r) with (Rleb m r). change (nsub (nmul 2 m) r) with (2 * m - r). destruct (Rleb_spec m r); lra.
Qed.
Print Assumptions C17_pingpong_negative_refuted.
Example C17_pingpong_negative_witness : PingPongMod (-1) 3 = -1.
Proof.
  unfold PingPongMod, Mod. cbv zeta. change (nmul 3 n2) with (3 * n2). rewrite n2_R. cbn [nfmod NumRound_R].
  assert (Z : Ztrunc (-1 / (3 * 2)) = 0%Z).
  { rewrite Ztrunc_ceil by lra. apply (Zceil_imp 0). cbn. lra. }
  rewrite Z. change (nleb 3 (-1 - 0 * (3 * 2))) with (Rleb 3 (-1 - 0 * (3 * 2))). destruct (Rleb_spec 3 (-1 - 0 * (3 * 2))); lra.
Qed.

(** The binary32 versions stay in the closed intervals ... *)
Lemma n0_finite : is_finite (n0 : f32) = true. Proof. reflexivity. Qed.
Theorem C17_modpos_f32 : forall x m : f32, is_finite x = true -> is_finite m = true -> 0 < B2R m ->
  is_finite (ModPos x m) = true /\ 0 <= B2R (ModPos x m) <= B2R m.
Proof.
  intros x m Fx Fm Hm. destruct (f32_fmod_spec x m Fx Fm ltac:(lra)) as (F & k & E & A & _ & _).
  unfold ModPos. cbv zeta. change (nfmod x m) with (f32_fmod x m). set (r := f32_fmod x m) in *.
  rewrite (Rabs_pos_eq (B2R m)) in A by lra. apply Rabs_def2 in A.
  change (nleb n0 r) with (Bleb (@n0 f32 _) r). rewrite leb_finite by (exact F || exact n0_finite). destruct B2R_n0 as [-> _].
  case Rle_bool_spec; intros L; [split; [exact F|lra]|].
  change (nadd r m) with (Bplus mode_NE r m).
  assert (L1 : rnd (B2R r + B2R m) <= B2R m) by (apply rnd_le_fmt; [apply fmt_B2R|lra]).
  assert (L2 : 0 <= rnd (B2R r + B2R m)) by (rewrite <- rnd_0; apply rnd_mono; lra).
  destruct (plus_ok r m F Fm) as [V F'].
  { rewrite Rabs_pos_eq by lra. pose proof (B2R_lt m) as B. rewrite Rabs_pos_eq in B by lra. lra. }
  split; [exact F'|]. rewrite V. lra.
Qed.
Print Assumptions C17_modpos_f32.
Theorem C17_frac_f32 : forall x : f32, is_finite x = true -> is_finite (Frac x) = true /\ 0 <= B2R (Frac x) <= 1.
Proof.
  intros x Fx. unfold Frac, Floor. cbn [nfloor NumRound_F32]. change (nsub x (Bnearbyint mode_DN x)) with (Bminus mode_NE x (Bnearbyint mode_DN x)).
  destruct (Bnearbyint_correct 24 128 _ mode_DN x) as (V & F & _). rewrite Fx in F.
  assert (Vf : B2R (Bnearbyint mode_DN x) = IZR (Zfloor (B2R x))).
  { rewrite V. cbn [round_mode]. unfold round, scaled_mantissa, F2R, cexp, FIX_exp. cbn. now rewrite !Rmult_1_r. }
  pose proof (Zfloor_lb (B2R x)). pose proof (Zfloor_ub (B2R x)).
  assert (L1 : rnd (B2R x - B2R (Bnearbyint mode_DN x)) <= 1) by (apply rnd_le_fmt; [apply (fmt_IZR 1); lia|rewrite Vf; lra]).
  assert (L2 : 0 <= rnd (B2R x - B2R (Bnearbyint mode_DN x))) by (rewrite <- rnd_0; apply rnd_mono; rewrite Vf; lra).
  destruct (minus_ok x (Bnearbyint mode_DN x) Fx F) as [V' F'].
  { rewrite Rabs_pos_eq by lra. rewrite MAXP_val. lra. }
  split; [exact F'|]. rewrite V'. lra.
Qed.
Print Assumptions C17_frac_f32.
Example C17_f32_witness : ModPos (f32_of_bits 0xC0B00000) (f32_of_bits 0x40000000) = f32_of_bits 0x3F000000
  /\ Frac (f32_of_bits 0xC0B00000) = f32_of_bits 0x3F000000.
Proof. split; apply B2SF_inj; vm_compute; reflexivity. Qed.
(** ... but not in the documented half-open ones: a tiny negative argument gives exactly the modulus, respectively 1,
    and Round rounds the largest float below 0.5 up to 1. *)
Theorem C17_f32_half_open_refuted :
  (let tiny := f32_of_bits 0xA0000000 in
   ModPos tiny n1 = n1 /\ Frac tiny = n1 /\ B2R tiny <> 0) /\
  Round (f32_of_bits 0x3EFFFFFF) = n1 /\ B2R (f32_of_bits 0x3EFFFFFF) < 1/2.
Proof.
  split; [split; [apply B2SF_inj; reflexivity|split; [apply B2SF_inj; reflexivity|]]|split; [apply B2SF_inj; reflexivity|]].
  - destruct (of_bits_normal true 64 0 ltac:(lia) ltac:(lia)) as [V _]. change (2^31 + 64 * 2^23 + 0)%Z with 0xA0000000%Z in V.
    rewrite V. change (2^23 + 0)%Z with (2^23)%Z. pose proof (bpow_gt_0 radix2 (64 - 150)). lra.
  - destruct (of_bits_normal false 125 0x7FFFFF ltac:(lia) ltac:(lia)) as [V _]. change (0 + 125 * 2^23 + 0x7FFFFF)%Z with 0x3EFFFFFF%Z in V.
    rewrite V. change (2^23 + 0x7FFFFF)%Z with 0xFFFFFF%Z. change (bpow radix2 (125 - 150)) with (/ 33554432). lra.
Qed.
Print Assumptions C17_f32_half_open_refuted.

(** ** C18 *)
Theorem C18_two_roots : forall a b c r1 r2 : R, a <> 0 -> SolveQuadratic a b c = (2%Z, Some r1, Some r2) ->
  r1 <> r2 /\ forall x, a * x * x + b * x + c = 0 <-> x = r1 \/ x = r2.
Proof.
  intros a b c r1 r2 Ha H. unfold SolveQuadratic in H. cbv zeta in H. rsimpl.
  set (D := b * b - 4 * a * c) in *. destruct (Rltb_spec D (-1 / 1000000)); [discriminate|].
  destruct (Rltb_spec D (1 / 1000000)); [discriminate|]. injection H as <- <-.
  assert (S : sqrt D * sqrt D = D) by (apply sqrt_sqrt; lra). assert (Sp : 0 < sqrt D) by (apply sqrt_lt_R0; lra).
  set (s := sqrt D) in *.
  assert (Id : 1 / (2 * a) = / (2 * a)) by (field; lra). rewrite Id.
  split.
  - intros E. apply Rmult_eq_reg_r in E; [lra|]. apply Rinv_neq_0_compat. lra.
  - intros x. set (r1 := (- b + s) * / (2 * a)). set (r2 := (- b - s) * / (2 * a)).
    assert (F : a * x * x + b * x + c = a * (x - r1) * (x - r2)).
    { unfold r1, r2. field_simplify; [|lra..]. apply Rmult_eq_reg_r with (4 * a); [|lra]. field_simplify; [|lra]. unfold D in S. nra. }
    rewrite F. split.
    + intros E. apply Rmult_integral in E. destruct E as [E|E]; [|right; lra]. apply Rmult_integral in E. destruct E; [contradiction|left; lra].
    + intros [-> | ->]; ring.
Qed.
Print Assumptions C18_two_roots.
Theorem C18_no_roots : forall a b c : R, a <> 0 -> SolveQuadratic a b c = (0%Z, None, None) ->
  forall x, a * x * x + b * x + c <> 0.
Proof.
  intros a b c Ha H x E. unfold SolveQuadratic in H. cbv zeta in H. rsimpl.
  set (D := b * b - 4 * a * c) in *. destruct (Rltb_spec D (-1 / 1000000)).
  - pose proof (Rle_0_sqr (2 * a * x + b)) as Q. unfold Rsqr in Q.
    assert (Q2 : (2 * a * x + b) * (2 * a * x + b) = D + 4 * a * (a * x * x + b * x + c)) by (unfold D; field). rewrite E in Q2. lra.
  - destruct (Rltb_spec D (1 / 1000000)); discriminate.
Qed.
Print Assumptions C18_no_roots.
(** One root: it solves the equation up to 2.5e-7/|a|, and every exact root is within 5e-4/|a| of it. *)
Theorem C18_one_root : forall a b c r : R, a <> 0 -> SolveQuadratic a b c = (1%Z, Some r, None) ->
  Rabs (a * r * r + b * r + c) <= 1 / 4000000 / Rabs a /\
  forall x, a * x * x + b * x + c = 0 -> Rabs (x - r) <= 1 / 2000 / Rabs a.
Proof.
  intros a b c r Ha H. unfold SolveQuadratic in H. cbv zeta in H. rsimpl.
  set (D := b * b - 4 * a * c) in *. destruct (Rltb_spec D (-1 / 1000000)); [discriminate|].
  destruct (Rltb_spec D (1 / 1000000)); [|discriminate]. injection H as <-.
  assert (Pa : 0 < Rabs a) by (now apply Rabs_pos_lt).
  set (r := - b * (1 / (2 * a))).
  assert (E : a * r * r + b * r + c = (- D / 4) / a) by (unfold r, D; field; lra).
  split.
  - rewrite E. unfold Rdiv at 1. rewrite Rabs_mult, Rabs_inv. unfold Rdiv at 3. apply Rmult_le_compat_r; [apply Rlt_le, Rinv_0_lt_compat; lra|].
    apply Rabs_le. lra.
  - intros x Ex.
    assert (Q : (2 * a * (x - r)) * (2 * a * (x - r)) = D).
    { unfold r, D. transitivity ((2 * a * x + b) * (2 * a * x + b)); [field; lra|]. nra. }
    assert (Rabs (2 * a * (x - r)) <= 1 / 1000).
    { apply Rabs_le. split; nra. }
    rewrite !Rabs_mult in H. rewrite (Rabs_pos_eq 2) in H by lra.
    apply Rmult_le_reg_r with (Rabs a); [lra|]. replace (1 / 2000 / Rabs a * Rabs a) with (1 / 2000) by (field; lra). lra.
Qed.
Print Assumptions C18_one_root.
(** The three outcomes are exhaustive and each occurs. *)
Theorem C18_outcomes : forall a b c : R,
  SolveQuadratic a b c = (0%Z, None, None) \/ (exists r, SolveQuadratic a b c = (1%Z, Some r, None)) \/
  (exists r1 r2, SolveQuadratic a b c = (2%Z, Some r1, Some r2)).
Proof. intros. unfold SolveQuadratic. destruct (nltb _ _); [now left|]. destruct (nltb _ _); right; [left|right]; eauto. Qed.
Print Assumptions C18_outcomes.
Example C18_witness : (exists r1 r2, SolveQuadratic 1 (-3) 2 = (2%Z, Some r1, Some r2)) /\
  (exists r, SolveQuadratic 1 (-2) 1 = (1%Z, Some r, None)) /\ SolveQuadratic 1 0 1 = (0%Z, None, None).
Proof.
  unfold SolveQuadratic. rsimpl. split; [|split].
  - destruct (Rltb_spec (-3 * -3 - 4 * 1 * 2) (-1 / 1000000)); [lra|]. destruct (Rltb_spec (-3 * -3 - 4 * 1 * 2) (1 / 1000000)); [lra|]. eauto.
  - destruct (Rltb_spec (-2 * -2 - 4 * 1 * 1) (-1 / 1000000)); [lra|]. destruct (Rltb_spec (-2 * -2 - 4 * 1 * 1) (1 / 1000000)); [|lra]. eauto.
  - destruct (Rltb_spec (0 * 0 - 4 * 1 * 1) (-1 / 1000000)); [reflexivity|lra].
Qed.

(** ** C62: interpolation helpers *)
Theorem C62_lerp_inverse : forall a b t x : R, a <> b ->
  InvLerp a b (Lerp a b t) = t /\ Lerp a b (InvLerp a b x) = x /\ Lerp a b 0 = a /\ Lerp a b 1 = b.
Proof. intros a b t x H. unfold InvLerp, Lerp. rsimpl. repeat split; field; lra. Qed.
Print Assumptions C62_lerp_inverse.
Theorem C62_ramp : forall lo hi x y : R, lo < hi ->
  0 <= Ramp lo hi x <= 1 /\ (x <= y -> Ramp lo hi x <= Ramp lo hi y) /\
  (lo <= x <= hi -> Ramp lo hi x = InvLerp lo hi x) /\ Ramp lo hi lo = 0 /\ Ramp lo hi hi = 1.
Proof.
  intros lo hi x y H. unfold Ramp, InvLerp. rsimpl.
  assert (I : 0 < / (hi - lo)) by (apply Rinv_0_lt_compat; lra).
  assert (J : (hi - lo) * / (hi - lo) = 1) by (field; lra).
  assert (E : forall z, lo <= z <= hi -> 0 <= (z - lo) / (hi - lo) <= 1) by (intros z Hz; unfold Rdiv; split; nra).
  assert (M : forall z w, z <= w -> (z - lo) / (hi - lo) <= (w - lo) / (hi - lo)) by (intros z w Hz; unfold Rdiv; nra).
  assert (El : (lo - lo) / (hi - lo) = 0) by (field; lra). assert (Eh : (hi - lo) / (hi - lo) = 1) by (field; lra).
  split; [|split; [|split; [|split]]]; repeat rcase; intros; try lra;
    try (apply M; lra); try (pose proof (E x ltac:(lra)); lra); try (pose proof (E y ltac:(lra)); lra).
  - replace x with lo by lra. lra.
  - replace x with hi by lra. lra.
Qed.
Print Assumptions C62_ramp.
(** LerpMod moves along the shorter way round the circle of length m. *)
Theorem C62_lerp_mod : forall a b m t : R, 0 < m ->
  exists (d : R) (i j : Z), Rabs d <= m / 2 /\ b = a + d + IZR i * m /\ LerpMod a b m t = a + t * d + IZR j * m.
Proof.
  intros a b m t Hm. destruct (C17_modpos a m Hm) as (Ra & ka & Ea), (C17_modpos b m Hm) as (Rb & kb & Eb).
  unfold LerpMod. cbv zeta. set (a' := ModPos a m) in *. set (b' := ModPos b m) in *.
  change (nleb (nmul (Abs (nsub b' a')) n2) m) with (Rleb (Abs (b' - a') * n2) m). rewrite Abs_R, n2_R.
  destruct (Rleb_spec (Rabs (b' - a') * 2) m) as [L|L].
  - exists (b' - a'), (kb - ka)%Z, (- ka)%Z. rewrite minus_IZR, opp_IZR. unfold Lerp. rsimpl. repeat split; lra.
  - change (nltb a' b') with (Rltb a' b'). destruct (Rltb_spec a' b').
    + rewrite Rabs_pos_eq in L by lra. destruct (C17_modpos (Lerp (nadd a' m) b' t) m Hm) as (_ & k & E).
      exists (b' - a' - m), (kb - ka + 1)%Z, (1 - ka - k)%Z. rewrite E. rewrite plus_IZR, !minus_IZR. unfold Lerp. rsimpl.
      split; [apply Rabs_le; lra|]. split; lra.
    + rewrite Rabs_left1 in L by lra. destruct (C17_modpos (Lerp a' (nadd b' m) t) m Hm) as (_ & k & E).
      exists (b' - a' + m), (kb - ka - 1)%Z, (- ka - k)%Z. rewrite E. rewrite !minus_IZR, !opp_IZR. unfold Lerp. rsimpl.
      split; [apply Rabs_le; lra|]. split; lra.
Qed.
Print Assumptions C62_lerp_mod.
(** Sign and SignOrZero. *)
Theorem C62_sign : forall x e : R, 0 <= e ->
  Sign x * Rabs x = x /\ Sign (0 : R) = 1 /\ Rabs (Sign x) = 1 /\ (Rabs x <= e -> SignOrZero x e = 0) /\ (e < Rabs x -> SignOrZero x e * Rabs x = x).
Proof.
  intros x e He. unfold SignOrZero, Sign. rewrite Abs_R. rsimpl.
  split; [rcase; intros; unfold Rabs in *; destruct (Rcase_abs x); lra|]. split; [rcase; lra|].
  split; [rcase; [rewrite Rabs_pos_eq; lra|rewrite Rabs_left; lra]|].
  repeat split; repeat rcase; intros; unfold Rabs in *; destruct (Rcase_abs x); lra.
Qed.
Print Assumptions C62_sign.
(** Step is the indicator of x >= y. *)
Theorem C62_step : forall x y : R, (y <= x -> Step y x = 1) /\ (x < y -> Step y x = 0).
Proof. intros x y. unfold Step. rsimpl. split; rcase; lra. Qed.
Print Assumptions C62_step.
(** EqualRel is reflexive and symmetric, and RelativeError decides it. *)
Theorem C62_equal_rel : forall a b e : R, 0 <= e ->
  EqualRel a a e = true /\ EqualRel a b e = EqualRel b a e /\ (EqualRel a b e = true <-> RelativeError a b <= e).
Proof.
  intros a b e He.
  unfold EqualRel, RelativeError. rewrite !Abs_R, !Max_R. rsimpl. split; [|split].
  - destruct (Reqb_spec a a); congruence.
  - rewrite (Rabs_minus_sym a b), (Rmax_comm (Rabs a)). destruct (Reqb_spec a b), (Reqb_spec b a); congruence.
  - destruct (Reqb_spec a b) as [|N]; [split; auto; lra|]. rewrite Rleb_true.
    assert (P : 0 < Rmax (Rabs a) (Rabs b)).
    { destruct (Req_dec a 0); [|eapply Rlt_le_trans; [|apply Rmax_l]; now apply Rabs_pos_lt].
      subst. eapply Rlt_le_trans; [|apply Rmax_r]. apply Rabs_pos_lt. congruence. }
    unfold Rdiv. rewrite Rabs_mult, (Rabs_pos_eq (/ _)) by (apply Rlt_le, Rinv_0_lt_compat; lra).
    set (M := Rmax (Rabs a) (Rabs b)) in *. split; intros L.
    + apply Rmult_le_reg_r with M; [lra|]. rewrite Rmult_assoc, Rinv_l by lra. lra.
    + apply Rmult_le_compat_r with (r := M) in L; [|lra]. rewrite Rmult_assoc, Rinv_l in L by lra. lra.
Qed.
Print Assumptions C62_equal_rel.

(** ** C63: comparing floats by units in the last place *)
Open Scope Z_scope.
(** The position of a float in the ordered list of floats (zero for both zeros). *)
Definition ordinal (w : Z) : Z := if 2^31 <=? w then - (w - 2^31) else w.
Definition signed_val (v : fpval) : option R :=
  match v with FpReal s x => Some (if s then - x else x)%R | _ => None end.

Lemma mag_mono e m e' m' : 0 <= e < 255 -> 0 <= e' < 255 -> 0 <= m < 2^23 -> 0 <= m' < 2^23 -> e * 2^23 + m < e' * 2^23 + m' ->
  forall s s' x x', fields_val 8 23 127 s e m = FpReal s x -> fields_val 8 23 127 s' e' m' = FpReal s' x' -> (0 <= x < x')%R.
Proof.
  intros He He' Hm Hm' L s s' x x'. unfold fields_val. change (2^8 - 1) with 255.
  destruct (Z.eqb_spec e 255); [lia|]. destruct (Z.eqb_spec e' 255); [lia|].
  assert (M : (0 <= IZR m)%R) by (apply (IZR_le 0); lia).
  assert (Ms : (0 <= IZR (2^23 + m))%R) by (apply (IZR_le 0); lia).
  assert (NR : forall s x (y : R), FpReal s x = FpReal s y -> y = x) by (intros ? ? ? Q; now injection Q).
  destruct (Z.eqb_spec e 0) as [->|N]; destruct (Z.eqb_spec e' 0) as [->|N']; intros H H'; apply NR in H, H'; subst x x'.
  - pose proof (bpow_gt_0 radix2 (1 - 127 - 23)). assert (IZR m < IZR m')%R by (apply IZR_lt; lia). split; nra.
  - split; [apply Rmult_le_pos; [assumption|apply bpow_ge_0]|].
    apply Rlt_le_trans with (IZR (2^23) * bpow radix2 (1 - 127 - 23))%R.
    + apply Rmult_lt_compat_r; [apply bpow_gt_0|]. apply IZR_lt. lia.
    + apply Rmult_le_compat; [apply (IZR_le 0); lia|apply bpow_ge_0|apply IZR_le; lia|apply bpow_le; lia].
  - lia.
  - split; [apply Rmult_le_pos; [assumption|apply bpow_ge_0]|].
    destruct (Z.eq_dec e e') as [->|].
    + apply Rmult_lt_compat_r; [apply bpow_gt_0|]. apply IZR_lt. lia.
    + apply Rlt_le_trans with (IZR (2^24) * bpow radix2 (e - 127 - 23))%R.
      * apply Rmult_lt_compat_r; [apply bpow_gt_0|]. apply IZR_lt. lia.
      * apply Rle_trans with (IZR (2^23) * bpow radix2 (e' - 127 - 23))%R.
        -- rewrite !(IZR_Zpower radix2) by lia. rewrite <- !bpow_plus. apply bpow_le. lia.
        -- apply Rmult_le_compat_r; [apply bpow_ge_0|]. apply IZR_le. lia.
Qed.

(** The ordinal orders floats as their values do. *)
Theorem C63_ordinal_monotone : forall a b x y, 0 <= a < 2^32 -> 0 <= b < 2^32 ->
  signed_val (float_val a) = Some x -> signed_val (float_val b) = Some y -> (ordinal a < ordinal b <-> (x < y)%R).
Proof.
  assert (Main : forall a x, 0 <= a < 2^32 -> signed_val (float_val a) = Some x ->
    exists s e m z, a = word 8 23 s e m /\ 0 <= e < 255 /\ 0 <= m < 2^23 /\ fields_val 8 23 127 s e m = FpReal s z /\
      x = (if s then - z else z)%R /\ ordinal a = (if s then - (e * 2^23 + m) else e * 2^23 + m)).
  { intros a x Ha Hx. destruct (word_of_fields 8 23 a ltac:(lia) ltac:(lia) ltac:(lia)) as (W & He & Hm).
    set (s := sign_of 8 23 a) in *; set (e := expo_of 8 23 a) in *; set (m := mant_of 23 a) in *; clearbody s e m; subst a.
    unfold float_val in Hx. rewrite pattern_word in Hx by lia.
    exists s, e, m.
    assert (Oe : ordinal (word 8 23 s e m) = (if s then - (e * 2^23 + m) else e * 2^23 + m)).
    { unfold ordinal, word. destruct s; cbn [b2z].
      - destruct (Z.leb_spec (2^31) (1 * 2^(8+23) + e * 2^23 + m)); [|lia]. change (8+23) with 31. lia.
      - destruct (Z.leb_spec (2^31) (0 * 2^(8+23) + e * 2^23 + m)); lia. }
    unfold fields_val in *. change (2^8 - 1) with 255 in *. destruct (Z.eqb_spec e 255); [destruct (m =? 0); discriminate|].
    destruct (Z.eqb_spec e 0); eexists; (split; [reflexivity|]; split; [lia|]; split; [lia|]; split; [reflexivity|]; split; [|exact Oe]);
      unfold signed_val in Hx; destruct s; congruence. }
  intros a b x y Ha Hb Hx Hy.
  destruct (Main a x Ha Hx) as (s & e & m & z & -> & He & Hm & F & -> & ->).
  destruct (Main b y Hb Hy) as (s' & e' & m' & z' & -> & He' & Hm' & F' & -> & ->).
  assert (Z0 : forall e m s z, 0 <= e < 255 -> 0 <= m < 2^23 -> fields_val 8 23 127 s e m = FpReal s z -> (0 <= z)%R /\ (e * 2^23 + m = 0 -> z = 0%R) /\ (0 < e * 2^23 + m -> (0 < z)%R)).
  { intros e0 m0 s0 z0 A B C. assert (NR : forall s x (y : R), FpReal s x = FpReal s y -> y = x) by (intros ? ? ? Q; now injection Q).
    destruct (Z.eq_dec (e0 * 2^23 + m0) 0) as [E|E].
    - assert (e0 = 0 /\ m0 = 0) as [-> ->] by lia. unfold fields_val in C. change (0 =? 2^8 - 1) with false in C. change (0 =? 0) with true in C. cbv iota in C.
      apply NR in C. subst z0. rewrite Rmult_0_l. split; [lra|]. split; [reflexivity|lia].
    - assert (Cz : fields_val 8 23 127 s0 0 0 = FpReal s0 (0 * bpow radix2 (1-127-23))) by reflexivity.
      pose proof (mag_mono 0 0 e0 m0 ltac:(lia) A ltac:(lia) B ltac:(lia) s0 s0 _ _ Cz C) as Q. rewrite Rmult_0_l in Q.
      split; [lra|]. split; [contradiction|intros _; lra]. }
  destruct (Z0 e m s z He Hm F) as (P1 & P2 & P3), (Z0 e' m' s' z' He' Hm' F') as (Q1 & Q2 & Q3).
  assert (LT : e * 2^23 + m < e' * 2^23 + m' -> (z < z')%R) by (intros L; pose proof (mag_mono e m e' m' He He' Hm Hm' L s s' z z' F F'); lra).
  assert (GT : e' * 2^23 + m' < e * 2^23 + m -> (z' < z)%R) by (intros L; pose proof (mag_mono e' m' e m He' He Hm' Hm L s' s z' z F' F); lra).
  assert (EQ : e * 2^23 + m = e' * 2^23 + m' -> z = z').
  { intros L. assert (e = e' /\ m = m') as [<- <-] by lia.
    unfold fields_val in F, F'. change (2^8 - 1) with 255 in *. destruct (e =? 255); [destruct (m =? 0); discriminate|].
    destruct (e =? 0); congruence. }
  set (n := e * 2^23 + m) in *. set (n' := e' * 2^23 + m') in *. assert (0 <= n) by lia. assert (0 <= n') by lia.
  destruct s, s'; split; intros L.
  - assert (z' < z)%R by (apply GT; lia). lra.
  - destruct (Z.lt_trichotomy n n') as [T|[T|T]]; [pose proof (LT T); lra|pose proof (EQ T); lra|lia].
  - destruct (Z.eq_dec n 0); [pose proof (Q3 ltac:(lia)); pose proof (P2 ltac:(lia)); lra|pose proof (P3 ltac:(lia)); lra].
  - destruct (Z.eq_dec n 0) as [E|E]; [|lia]. destruct (Z.eq_dec n' 0) as [E'|E']; [|lia].
    pose proof (P2 E). pose proof (Q2 E'). lra.
  - lia.
  - exfalso. lra.
  - now apply LT.
  - destruct (Z.lt_trichotomy n n') as [T|[T|T]]; [lia|pose proof (EQ T); lra|pose proof (GT T); lra].
Qed.
Print Assumptions C63_ordinal_monotone.

Lemma ulp_key_ordinal w : 0 <= w < 2^32 -> ulp_key w = ordinal w.
Proof.
  intros Hw. unfold ulp_key, ordinal. assert (S : s32 w = if w <? 2^31 then w else w - 2^32).
  { unfold s32. rewrite Z.mod_small by lia. reflexivity. }
  rewrite S. destruct (Z.ltb_spec w (2^31)), (Z.leb_spec (2^31) w); try lia.
  - destruct (Z.ltb_spec w 0); lia.
  - destruct (Z.ltb_spec (w - 2^32) 0); [|lia]. unfold s32.
    replace (0x80000000 - (w - 2^32)) with (2^31 - w + 1 * 2^32) by lia. rewrite Z.mod_add by lia.
    destruct (Z.eq_dec w (2^31)) as [->|]; [reflexivity|].
    replace (2^31 - w) with (2^31 - w + 2^32 + (-1) * 2^32) by lia. rewrite Z.mod_add by lia. rewrite Z.mod_small by lia.
    destruct (Z.ltb_spec (2^31 - w + 2^32) (2^31)); lia.
Qed.
(** EqualUlps is exact whenever the two ordinals are less than 2^31 apart (always, for equal signs). *)
Theorem C63_equal_ulps : forall a b n, 0 <= a < 2^32 -> 0 <= b < 2^32 -> Z.abs (ordinal a - ordinal b) < 2^31 ->
  EqualUlps a b n = Some (Z.abs (ordinal a - ordinal b) <=? n).
Proof.
  intros a b n Ha Hb H. unfold EqualUlps. rewrite !ulp_key_ordinal by assumption.
  destruct (Z.ltb_spec (ordinal a - ordinal b) (- 2^31)); [lia|]. destruct (Z.leb_spec (2^31) (ordinal a - ordinal b)); [lia|]. cbn [orb].
  destruct (Z.eqb_spec (ordinal a - ordinal b) (- 2^31)); [lia|]. reflexivity.
Qed.
Print Assumptions C63_equal_ulps.
Example C63_equal_ulps_witness : EqualUlps 0x80000002 0x00000003 5 = Some true /\ EqualUlps 0x80000002 0x00000003 4 = Some false /\
  ordinal 0x80000002 = -2 /\ float_val 0x80000002 = FpReal true (2 * bpow radix2 (-149)).
Proof. repeat split; reflexivity. Qed.
(** Comparing 2.0 with -2.0 already overflows the signed subtraction: undefined behaviour. *)
Theorem C63_equal_ulps_overflow_refuted : EqualUlps 0x40000000 0xC0000000 10000 = None.
Proof. reflexivity. Qed.
Print Assumptions C63_equal_ulps_overflow_refuted.
