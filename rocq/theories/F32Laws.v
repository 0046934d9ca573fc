(** binary32 satisfies the ordered-scalar laws on non-NaN numbers. *)
From Coq Require Import ZArith Reals Lra Lia Bool.
From Coq Require Import Floats.SpecFloat.
From Flocq Require Import Core.Core IEEE754.BinarySingleNaN.
From Verif Require Import Num F32.
Open Scope R_scope.

(** Value of a non-NaN float in the reals, infinities sent beyond every finite float. *)
Definition f32R (x : f32) : R :=
  match x with
  | B754_infinity s => if s then - bpow radix2 128 else bpow radix2 128
  | _ => B2R x
  end.

Lemma f32R_finite (x : f32) : is_finite x = true -> f32R x = B2R x.
Proof. destruct x as [s|[|]| |s m e B]; easy. Qed.

Lemma f32R_bound (x : f32) : is_finite x = true -> Rabs (B2R x) < bpow radix2 128.
Proof. intros _. apply (abs_B2R_lt_emax 24 128). Qed.

Lemma f32_cmp (x y : f32) : is_nan x = false -> is_nan y = false ->
  Bcompare x y = Some (Rcompare (f32R x) (f32R y)).
Proof.
  intros Nx Ny.
  destruct (is_finite x) eqn:Fx, (is_finite y) eqn:Fy.
  - rewrite Bcompare_correct by assumption. now rewrite !f32R_finite.
  - pose proof (f32R_bound x Fx) as B. apply Rabs_def2 in B.
    destruct y as [s|[|]| |s m e By]; try easy; rewrite (f32R_finite x Fx);
    destruct x as [sx|sx| |sx mx ex Bx]; try easy; unfold Bcompare; cbn [B2SF SFcompare f32R];
    f_equal; symmetry; first [ apply Rcompare_Gt | apply Rcompare_Lt ]; lra.
  - pose proof (f32R_bound y Fy) as B. apply Rabs_def2 in B.
    destruct x as [s|[|]| |s m e By]; try easy; rewrite (f32R_finite y Fy);
    destruct y as [sx|sx| |sx mx ex Bx]; try easy; unfold Bcompare; cbn [B2SF SFcompare f32R];
    f_equal; symmetry; first [ apply Rcompare_Gt | apply Rcompare_Lt ]; lra.
  - pose proof (bpow_gt_0 radix2 128) as P.
    destruct x as [sx|[|]| |sx mx ex Bx]; try easy; destruct y as [sy|[|]| |sy my ey By]; try easy;
    unfold Bcompare; cbn [B2SF SFcompare f32R]; f_equal; symmetry;
    first [ apply Rcompare_Eq; lra | apply Rcompare_Gt; lra | apply Rcompare_Lt; lra ].
Qed.

Lemma f32_leb (x y : f32) : is_nan x = false -> is_nan y = false -> Bleb x y = Rle_bool (f32R x) (f32R y).
Proof.
  intros Nx Ny. pose proof (f32_cmp x y Nx Ny) as C. unfold Bcompare in C. unfold Bleb, SFleb.
  rewrite C. case Rcompare_spec; intro; case Rle_bool_spec; intro; try reflexivity; lra.
Qed.
Lemma f32_ltb (x y : f32) : is_nan x = false -> is_nan y = false -> Bltb x y = Rlt_bool (f32R x) (f32R y).
Proof.
  intros Nx Ny. pose proof (f32_cmp x y Nx Ny) as C. unfold Bcompare in C. unfold Bltb, SFltb.
  rewrite C. case Rcompare_spec; intro; case Rlt_bool_spec; intro; try reflexivity; lra.
Qed.
Lemma f32_eqb (x y : f32) : is_nan x = false -> is_nan y = false -> Beqb x y = Req_bool (f32R x) (f32R y).
Proof.
  intros Nx Ny. pose proof (f32_cmp x y Nx Ny) as C. unfold Bcompare in C. unfold Beqb, SFeqb.
  rewrite C. case Rcompare_spec; intro; case Req_bool_spec; intro; try reflexivity; lra.
Qed.

Lemma f32_leb_nan (x y : f32) : Bleb x y = true -> is_nan x = false /\ is_nan y = false.
Proof. destruct x, y; cbn; try discriminate; auto. Qed.
Lemma f32_ltb_nan (x y : f32) : Bltb x y = true -> is_nan x = false /\ is_nan y = false.
Proof. destruct x, y; cbn; try discriminate; auto. Qed.

Lemma f32_leb_R (x y : f32) : Bleb x y = true <-> is_nan x = false /\ is_nan y = false /\ f32R x <= f32R y.
Proof.
  split.
  - intro H. destruct (f32_leb_nan _ _ H) as [Nx Ny]. rewrite f32_leb in H by assumption.
    split; [|split]; auto. revert H. case Rle_bool_spec; auto; discriminate.
  - intros (Nx & Ny & L). rewrite f32_leb by assumption. now apply Rle_bool_true.
Qed.
Lemma f32_ltb_R (x y : f32) : Bltb x y = true <-> is_nan x = false /\ is_nan y = false /\ f32R x < f32R y.
Proof.
  split.
  - intro H. destruct (f32_ltb_nan _ _ H) as [Nx Ny]. rewrite f32_ltb in H by assumption.
    split; [|split]; auto. revert H. case Rlt_bool_spec; auto; discriminate.
  - intros (Nx & Ny & L). rewrite f32_ltb by assumption. now apply Rlt_bool_true.
Qed.

Global Instance OrdLaws_F32 : OrdLaws f32.
Proof.
  refine {| ok := fun x => is_nan x = false |}; cbn.
  - intros x y Nx Ny. rewrite !f32_leb_R. destruct (Rle_or_lt (f32R x) (f32R y)); [left|right]; repeat split; auto; lra.
  - intros x y z. rewrite !f32_leb_R. intros (?&?&?) (?&?&?). repeat split; auto; lra.
  - intros x y Nx Ny. rewrite f32_ltb, f32_leb by assumption.
    case Rlt_bool_spec; case Rle_bool_spec; intros; cbn; auto; lra.
  - intros x y Nx Ny. rewrite f32_eqb, !f32_leb by assumption.
    case Req_bool_spec; case Rle_bool_spec; case Rle_bool_spec; intros; cbn; auto; lra.
  - intros x y H. now apply f32_leb_nan.
  - intros x y H. now apply f32_ltb_nan.
Defined.
