(** The point set of a plane and its half-spaces, sets moved by a map, circles. *)
From Coq Require Import Reals.
From Verif Require Import Vec3Model GeoTypes GeoSpec AabbSpec LineSpec PlaneModel.
Open Scope R_scope.

Definition on_plane (P : plane R) (p : pt) : Prop := dot (pnormal P) p = pd P.
(** How far along the normal a point lies, measured from the plane (negative below it). *)
Definition height (P : plane R) (p : pt) : R := dot (pnormal P) p - pd P.
Definition above (P : plane R) (p : pt) : Prop := pd P <= dot (pnormal P) p.
Definition below (P : plane R) (p : pt) : Prop := dot (pnormal P) p <= pd P.
(** The signed distance of a set: its distance, positive when the set is strictly above, negative when strictly below. *)
Definition signed_distance_is (P : plane R) (A : pt -> Prop) (s : R) : Prop :=
  distance_is (on_plane P) A (Rabs s) /\ (0 < s <-> forall p, A p -> pd P < dot (pnormal P) p) /\ (s < 0 <-> forall p, A p -> dot (pnormal P) p < pd P).
(** A disc and the circle bounding it. *)
Definition on_disc (c : circle R) (p : pt) : Prop := dot (circ_normal c) (minus p (circ_pos c)) = 0 /\ dist (circ_pos c) p <= circ_r c.
Definition on_circle (c : circle R) (p : pt) : Prop := dot (circ_normal c) (minus p (circ_pos c)) = 0 /\ dist (circ_pos c) p = circ_r c.
