(** Lemmas for the quadtree properties, continued: the binary32 tree as long as its root does not grow. *)
From Coq Require Import Reals ZArith Bool List Permutation Lia Lra.
From Coq Require Import Floats.SpecFloat.
From Flocq Require Import Core.Core IEEE754.BinarySingleNaN.
From Flocq Require Import Plus_error.
From Verif Require Import Num F32 F32Laws F32Lemmas ScalarModel Vec2Model KdTreeModel KdTreeSpec KdTreeProofs QuadTreeModel QuadTreeSpec QuadTreeProofs QuadTreeGrow QuadTreeHist QuadTreeQuery QuadTreeGeo.
Import ListNotations.
Ltac Zify.zify_post_hook ::= idtac.
Open Scope R_scope.

Lemma rnd_sub_pos (x y : f32) : is_finite x = true -> is_finite y = true -> (0 < rnd (B2R x - B2R y) <-> B2R y < B2R x).
Proof.
  intros Fx Fy. split.
  - intros P. destruct (Rle_or_lt (B2R x) (B2R y)) as [L|L]; [|exact L]. pose proof (rnd_mono (B2R x - B2R y) 0 ltac:(lra)) as M. rewrite rnd_0 in M. lra.
  - intros L. pose proof (rnd_mono 0 (B2R x - B2R y) ltac:(lra)) as M. rewrite rnd_0 in M. destruct M as [M|M]; [exact M|]. exfalso.
    assert (N : rnd (B2R x + - B2R y) <> 0).
    { apply (round_plus_neq_0 radix2 fexp32 ZnearestE); [apply fmt_B2R|apply generic_format_opp, fmt_B2R|lra]. }
    apply N. symmetry. exact M.
Qed.
Lemma minus_cases (x y : f32) : is_finite x = true -> is_finite y = true ->
  is_nan (Bminus mode_NE x y) = false /\ (0 < f32R (Bminus mode_NE x y) <-> B2R y < B2R x).
Proof.
  intros Fx Fy. pose proof (Bminus_correct 24 128 _ _ mode_NE x y Fx Fy) as C.
  change (round radix2 (fexp 24 128) (round_mode mode_NE) (B2R x - B2R y)) with (rnd (B2R x - B2R y)) in C.
  revert C. case Rlt_bool_spec; intros H C.
  - destruct C as (C1 & C2 & _). split; [destruct (Bminus mode_NE x y); easy|]. rewrite f32R_finite, C1 by exact C2. now apply rnd_sub_pos.
  - destruct C as (C1 & C2). pose proof (bpow_gt_0 radix2 128) as P.
    assert (E : Bminus mode_NE x y = B754_infinity (Bsign x)).
    { apply B2SF_inj. rewrite C1. reflexivity. }
    rewrite E. split; [reflexivity|]. cbn [f32R].
    assert (Sx : if Bsign x then B2R x <= 0 else 0 <= B2R x).
    { destruct x as [s|s| |s m e B]; try easy; destruct s; cbn; try lra; try (apply F2R_le_0; cbn; lia); apply F2R_ge_0; cbn; lia. }
    assert (Sy : if Bsign y then B2R y <= 0 else 0 <= B2R y).
    { destruct y as [s|s| |s m e B]; try easy; destruct s; cbn; try lra; try (apply F2R_le_0; cbn; lia); apply F2R_ge_0; cbn; lia. }
    assert (Nz : B2R x - B2R y <> 0). { intros Z. rewrite Z, rnd_0, Rabs_R0 in H. pose proof (bpow_gt_0 radix2 128). lra. }
    rewrite C2 in *. destruct (Bsign y); cbn in *; split; intros; lra.
Qed.
Lemma half_finite (x : f32) : is_finite x = true -> is_finite (Bmult mode_NE x (nhalf : f32)) = true.
Proof.
  intros Fx. assert (Hh : B2R (nhalf : f32) = / 2 /\ is_finite (nhalf : f32) = true).
  { split; [|reflexivity]. replace (nhalf : f32) with (binary_normalize 24 128 _ _ mode_NE 1 (-1) false) by (apply B2SF_inj; reflexivity).
    destruct (normalize_exact 1 (-1) false) as [E _]; [cbn; lia|lia|]. rewrite E. cbn. lra. }
  destruct Hh as [H1 H2]. refine (proj2 (mult_ok x nhalf Fx H2 _)). rewrite H1.
  apply Rabs_def1.
  - apply Rle_lt_trans with (Rabs (B2R x)); [|apply B2R_lt]. apply rnd_le_fmt; [apply generic_format_abs, fmt_B2R|]. pose proof (Rle_abs (B2R x)). pose proof (Rabs_pos (B2R x)). lra.
  - apply Rlt_le_trans with (- Rabs (B2R x)); [pose proof (B2R_lt x); lra|]. apply rnd_ge_fmt; [apply generic_format_opp, generic_format_abs, fmt_B2R|].
    pose proof (Rle_abs (- B2R x)). rewrite Rabs_Ropp in *. pose proof (Rabs_pos (B2R x)). lra.
Qed.
Lemma minus_nan (x y : f32) : is_nan x = false -> is_nan y = false -> is_finite x = true \/ is_finite y = true -> is_nan (Bminus mode_NE x y) = false.
Proof.
  intros Nx Ny D. destruct (is_finite x) eqn:Fx, (is_finite y) eqn:Fy.
  - now apply minus_cases.
  - destruct x, y; try easy.
  - destruct x, y; try easy.
  - destruct D; discriminate.
Qed.
Lemma plus_nan (x y : f32) : is_nan x = false -> is_finite y = true -> is_nan (Bplus mode_NE x y) = false.
Proof.
  intros Nx Fy. destruct (is_finite x) eqn:Fx; [|destruct x, y; easy].
  pose proof (Bplus_correct 24 128 _ _ mode_NE x y Fx Fy) as C. destruct Rlt_bool.
  - destruct C as (_ & C & _). destruct (Bplus mode_NE x y); easy.
  - destruct C as (C & _). destruct (Bplus mode_NE x y); try easy.
Qed.
Lemma minus_sign (x y : f32) : is_nan x = false -> is_nan y = false -> is_finite x = true \/ is_finite y = true ->
  Bltb (n0 : f32) (Bminus mode_NE x y) = Bltb y x.
Proof.
  intros Nx Ny D. pose proof (minus_nan x y Nx Ny D) as Nm. rewrite !f32_ltb by (assumption || reflexivity).
  rewrite (f32R_finite n0) by reflexivity. destruct B2R_n0 as [-> _].
  assert (X : 0 < f32R (Bminus mode_NE x y) <-> f32R y < f32R x).
  { pose proof (bpow_gt_0 radix2 128) as P. destruct (is_finite x) eqn:Fx, (is_finite y) eqn:Fy.
    - rewrite (f32R_finite x), (f32R_finite y) by assumption. now apply minus_cases.
    - pose proof (B2R_lt x) as B. change MAXP with (bpow radix2 128) in B. apply Rabs_def2 in B. rewrite (f32R_finite x Fx). destruct x, y as [?|[|]| |?]; try easy; cbn [f32R Bminus SFsub] in *; cbn; split; intros; cbn in *; lra.
    - pose proof (B2R_lt y) as B. change MAXP with (bpow radix2 128) in B. apply Rabs_def2 in B. rewrite (f32R_finite y Fy). destruct x as [?|[|]| |?], y; try easy; cbn; split; intros; cbn in *; lra.
    - destruct D; discriminate. }
  case Rlt_bool_spec; case Rlt_bool_spec; intros; auto; exfalso; tauto || lra.
Qed.
Global Instance SubLaws_F32 : SubLaws f32.
Proof.
  unshelve econstructor; [exact (fun x => is_finite x = true)|..]; cbn; intros; try reflexivity.
  - now destruct x.
  - apply minus_nan; auto. now destruct y.
  - apply minus_nan; auto. now destruct x.
  - now apply plus_nan.
  - apply minus_sign; auto. now destruct y.
  - apply minus_sign; auto. now destruct x.
  - now apply half_finite.
Defined.

(** A coordinate of moderate size: sums and differences of two of them stay finite. *)
Definition modest (x : f32) : Prop := is_finite x = true /\ Rabs (B2R x) <= bpow radix2 126.
Definition modest2 (v : v2 f32) : Prop := modest (x2 v) /\ modest (y2 v).
Lemma rnd_le_bpow z e : (-149 <= e)%Z -> Rabs z <= bpow radix2 e -> Rabs (rnd z) <= bpow radix2 e.
Proof.
  intros Le A. apply Rabs_le_inv in A. assert (F : fmt (bpow radix2 e)) by (rewrite <- (Rmult_1_l (bpow radix2 e)); apply (fmt_F2R 1 e); [cbn; lia|exact Le]).
  apply Rabs_le. split; [apply rnd_ge_fmt; [now apply generic_format_opp|]|apply rnd_le_fmt; [exact F|]]; apply A.
Qed.
Lemma modest_center (mn mx : f32) : modest mn -> modest mx ->
  is_nan (Bmult mode_NE (Bplus mode_NE mn mx) (nhalf : f32)) = false /\
  is_finite (Bminus mode_NE mx (Bmult mode_NE (Bplus mode_NE mn mx) (nhalf : f32))) = true.
Proof.
  intros [F1 A1] [F2 A2].
  assert (P126 : bpow radix2 127 = 2 * bpow radix2 126) by (change 127%Z with (1 + 126)%Z; rewrite bpow_plus; reflexivity).
  assert (P127 : MAXP = 2 * bpow radix2 127) by (change MAXP with (bpow radix2 (1 + 127)); rewrite bpow_plus; reflexivity).
  assert (P0 : 0 < bpow radix2 126) by apply bpow_gt_0.
  assert (Sb : Rabs (rnd (B2R mn + B2R mx)) <= bpow radix2 127).
  { apply rnd_le_bpow; [lia|]. pose proof (Rabs_triang (B2R mn) (B2R mx)). lra. }
  destruct (plus_ok mn mx F1 F2) as [S1 S2]; [lra|]. set (s := Bplus mode_NE mn mx) in *.
  assert (Hh : B2R (nhalf : f32) = / 2 /\ is_finite (nhalf : f32) = true).
  { split; [|reflexivity]. replace (nhalf : f32) with (binary_normalize 24 128 _ _ mode_NE 1 (-1) false) by (apply B2SF_inj; reflexivity).
    destruct (normalize_exact 1 (-1) false) as [E _]; [cbn; lia|lia|]. rewrite E. cbn. lra. }
  destruct Hh as [H1 H2].
  assert (Mb : Rabs (rnd (B2R s * B2R (nhalf : f32))) <= bpow radix2 126).
  { apply rnd_le_bpow; [lia|]. rewrite H1, S1, Rabs_mult, (Rabs_pos_eq (/ 2)) by lra. lra. }
  destruct (mult_ok s (nhalf : f32) S2 H2) as [M1 M2]; [lra|]. set (m := Bmult mode_NE s (nhalf : f32)) in *. split; [now destruct m|].
  refine (proj2 (minus_ok mx m F2 M2 _)). apply Rle_lt_trans with (bpow radix2 127); [|lra].
  apply rnd_le_bpow; [lia|]. rewrite M1. pose proof (Rabs_triang (B2R mx) (- rnd (B2R s * B2R (nhalf : f32)))) as Tr. rewrite Rabs_Ropp in Tr.
  replace (B2R mx - rnd (B2R s * B2R (nhalf : f32))) with (B2R mx + - rnd (B2R s * B2R (nhalf : f32))) by ring. lra.
Qed.

Section NoGrow.
  Variable rect : nat -> aabb2 f32.
  (** All objects lie in the box B, and every Clear uses a box around B. *)
  Variable B : aabb2 f32.
  Definition okobjF (o : nat) : Prop := AABB2D_ContainsBox B (rect o) = true /\ finb (rect o).
  Definition okboxF (mn mx : v2 f32) : Prop := AABB2D_ContainsBox (Box2 mn mx) B = true /\ modest2 mn /\ modest2 mx.
  Definition binvF (b : aabb2 f32) (c r : v2 f32) : Prop := AABB2D_ContainsBox b B = true /\ okv c /\ finv r.
  Lemma contains_trans (a b c : aabb2 f32) : AABB2D_ContainsBox a b = true -> AABB2D_ContainsBox b c = true -> AABB2D_ContainsBox a c = true.
  Proof.
    unfold AABB2D_ContainsBox. intros I J.
    apply andb_prop in I. destruct I as [I I4]. apply andb_prop in I. destruct I as [I I3]. apply andb_prop in I. destruct I as [I1 I2].
    apply andb_prop in J. destruct J as [J J4]. apply andb_prop in J. destruct J as [J J3]. apply andb_prop in J. destruct J as [J1 J2].
    repeat (apply andb_true_intro; split); eapply leb_trans; eassumption.
  Qed.
  Lemma inside_stays (b ob : aabb2 f32) : AABB2D_ContainsBox b ob = true -> growDirection b ob = None.
  Proof.
    unfold AABB2D_ContainsBox, growDirection. intros I. apply andb_prop in I. destruct I as [I I4]. apply andb_prop in I. destruct I as [I I3].
    apply andb_prop in I. destruct I as [I1 I2]. now rewrite I1, I2, I3, I4.
  Qed.
  Notation opF := (okop okobjF okboxF).
  Notation stateF := (okstate (sideOf rect) linkOf binvF (inbOf rect)).
  Lemma runF fuel ops s' : legal_history ops -> Forall opF ops -> qrun rect fuel qstart ops = QDone s' -> stateF s' (book_run ops).
  Proof.
    intros L G E. unfold book_run. refine (run_ok rect (sideOf rect) linkOf binvF (inbOf rect) okobjF okboxF _ _ _ _ _ fuel ops _ _ _ _ L G E).
    - apply side_quadrant.
    - intros. now apply link_child.
    - intros b o _. apply dir_in.
    - intros mn mx (C & [M1 M2] & [M3 M4]). split; [exact C|]. destruct (modest_center _ _ M1 M3) as [X1 X2]. destruct (modest_center _ _ M2 M4) as [Y1 Y2].
      repeat split; assumption.
    - intros b c r o q (Cb & _) (Co & _) Gd. rewrite (inside_stays b (rect o) (contains_trans _ _ _ Cb Co)) in Gd. discriminate.
    - apply start_ok.
  Qed.
End NoGrow.
