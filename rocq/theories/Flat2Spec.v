(** Segments, triangles and discs of the plane, as point sets. *)
From Coq Require Import Reals List.
From Verif Require Import Vec2Model Vec2Spec Flat2Model.
Import ListNotations.
Open Scope R_scope.

Definition on_seg2 (s : seg2 R) (q : p2) : Prop := exists t, 0 <= t <= 1 /\ q = pl (s2a s) (sc t (mi (s2b s) (s2a s))).
Definition in_tri2 (t : tri2 R) (q : p2) : Prop :=
  exists u v w, 0 <= u /\ 0 <= v /\ 0 <= w /\ u + v + w = 1 /\ q = pl (sc u (t2a t)) (pl (sc v (t2b t)) (sc w (t2c t))).
(** Two ends; three corners not on one line. *)
Definition proper_seg2 (s : seg2 R) : Prop := s2a s <> s2b s.
Definition proper_tri2 (t : tri2 R) : Prop := area2 (mi (t2b t) (t2a t)) (mi (t2c t) (t2a t)) <> 0.
Definition nearest2 (A : p2 -> Prop) (p a : p2) : Prop := A a /\ forall a', A a' -> dst a p <= dst a' p.
Definition nearest_pair2 (A B : p2 -> Prop) (a b : p2) : Prop := A a /\ B b /\ forall a' b', A a' -> B b' -> dst a b <= dst a' b'.
(** The disc of centre c and radius r. *)
Definition in_disc (c : p2) (r : R) (q : p2) : Prop := dst c q <= r.
(** (c, r) is a smallest disc around the points. *)
Definition smallest_disc (l : list p2) (c : p2) (r : R) : Prop :=
  (forall q, In q l -> in_disc c r q) /\ forall c' r', (forall q, In q l -> in_disc c' r' q) -> r <= r'.
(** Three points on one line, or the triangle's doubled area squared at least 1e-5 (an area of about 0.0016): always so for integer coordinates. *)
Definition spread3 (a b c : p2) : Prop := let A := area2 (mi b a) (mi c a) in A = 0 \/ 1 / 100000 <= A * A.
