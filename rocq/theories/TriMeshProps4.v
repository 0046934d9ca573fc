(** C105, continued: what SetConvex appends to the triangles. *)
From Coq Require Import List Arith Lia.
From Verif Require Import Num AabbModel Vec3Model GeoTypes TriMeshModel.
Import ListNotations.

(** The triangles stay in front, fewer than one group is added, the count becomes a multiple of the group size, and every added corner is at minus infinity in all
    three coordinates. *)
Theorem C105_padding_shape {T} `{NT : Num T} `{NI : !NumInf T} (align : nat) (ts : list (triangle T)) : (0 < align)%nat -> exists extra, pad_triangles align ts = ts ++ extra /\ (length extra < align)%nat /\
  Nat.modulo (length (pad_triangles align ts)) align = 0%nat /\ forall t p, In t extra -> In p [tri_a t; tri_b t; tri_c t] -> vx p = nneg ninf /\ vy p = nneg ninf /\ vz p = nneg ninf.
Proof.
  intros A. unfold pad_triangles. cbv zeta. set (k := ((align - length ts mod align) mod align)%nat). assert (L : (length ts mod align < align)%nat) by (apply Nat.mod_upper_bound; lia).
  eexists. split; [reflexivity|]. rewrite app_length, repeat_length. split; [apply Nat.mod_upper_bound; lia|]. split.
  - unfold k. rewrite Nat.add_mod_idemp_r by lia. pose proof (Nat.div_mod (length ts) align ltac:(lia)) as D. replace (length ts + (align - length ts mod align))%nat with ((length ts / align + 1) * align)%nat by nia. apply Nat.mod_mul. lia.
  - intros t p I J. apply repeat_spec in I. subst t. cbn in J. destruct J as [<-|[<-|[<-|[]]]]; auto.
Qed.
Print Assumptions C105_padding_shape.
