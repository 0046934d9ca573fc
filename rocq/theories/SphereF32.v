(** C45 in binary32 arithmetic: enclosing points of a plane facing x. *)
From Coq Require Import ZArith Floats.SpecFloat List Bool.
From Flocq Require Import Core.Core IEEE754.BinarySingleNaN.
From Verif Require Import Num F32 Vec3Model GeoTypes AabbModel SphereModel.
Import ListNotations.

Definition sq_pts : list (vec f32) :=
  let o := f32_ofZ 0 in let i := f32_ofZ 1 in [V3 o o o; V3 o i o; V3 o o i; V3 o i i].
(** The corners of the unit square in the plane x = 0: the extents in y and z tie, so the pair extreme in x, twice the first point,
    is taken as diameter; enclosing its centre then divides zero by zero.  The centre is NaN and the sphere contains no point at all. *)
Lemma nan_plus (x y : f32) : is_nan x = true -> is_nan (Bplus mode_NE x y) = true.
Proof. destruct x; try discriminate. intros _. destruct y; reflexivity. Qed.
Lemma nan_minus (x y : f32) : is_nan x = true -> is_nan (Bminus mode_NE x y) = true.
Proof. destruct x; try discriminate. intros _. destruct y; reflexivity. Qed.
Lemma nan_mult (x y : f32) : is_nan x = true -> is_nan (Bmult mode_NE x y) = true.
Proof. destruct x; try discriminate. intros _. destruct y; reflexivity. Qed.
Lemma nan_leb (x y : f32) : is_nan x = true -> Bleb x y = false.
Proof. destruct x; try discriminate. intros _. destruct y; reflexivity. Qed.
Theorem C45_fast_refuted : exists s : sphere f32, Sphere_FastEnclosing sq_pts = Some s /\
  is_nan (vx (spos s)) = true /\ forall p, Sphere_Contains s p = false.
Proof.
  eexists. split; [reflexivity|].
  match goal with |- is_nan (vx (spos ?x)) = _ /\ _ => set (s := x) end.
  assert (A : is_nan (vx (spos s)) = true) by (vm_compute; reflexivity).
  split; [exact A|]. intros p. unfold Sphere_Contains. clearbody s. apply nan_leb.
  unfold DistanceSq. cbn [nadd nmul nsub Num_F32]. now apply nan_plus, nan_plus, nan_mult, nan_minus.
Qed.
Print Assumptions C45_fast_refuted.
