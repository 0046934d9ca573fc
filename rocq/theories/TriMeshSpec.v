(** Triangle meshes: where a float array holds which triangle; rays hitting triangles. *)
From Coq Require Import Reals List.
From Verif Require Import Num XNum Vec3Model GeoTypes GeoSpec AabbSpec.
Import ListNotations.
Open Scope R_scope.

Definition axis {T} (p : vec T) (k : nat) : T := match k with 0%nat => vx p | 1%nat => vy p | _ => vz p end.
Definition corner {T} (t : triangle T) (j : nat) : vec T := match j with 0%nat => tri_a t | 1%nat => tri_b t | _ => tri_c t end.
(** The array holds the triangles one after the other, each as three vertices of [vs] floats that begin with x, y, z. *)
Definition holds {T} (src : list T) (vs : nat) (ts : list (triangle T)) : Prop :=
  forall i t j k, nth_error ts i = Some t -> (j < 3)%nat -> (k < 3)%nat -> nth_error src ((3 * i + j) * vs + k) = Some (axis (corner t j) k).
(** A triangle and a ray with real coordinates, as exact floats. *)
Definition xpt (p : pt) : vec xr := V3 (X (vx p)) (X (vy p)) (X (vz p)).
Definition xtri (t : triangle R) : triangle xr := Tri (xpt (tri_a t)) (xpt (tri_b t)) (xpt (tri_c t)).
Definition xray (r : ray R) : ray xr := Ry (xpt (rpos r)) (xpt (rdir r)).
(** The ray meets the triangle at distance x. *)
Definition ray_hits (r : ray R) (t : triangle R) (x : R) : Prop := 0 <= x /\ in_triangle t (along (rpos r) (rdir r) x).
(** A reciprocal with relative error at most e. *)
Definition reciprocal (e : R) (rcp : xr -> xr) : Prop := forall D, D <> 0 -> exists k, 1 - e <= k <= 1 + e /\ rcp (X D) = X (k / D).
