(** Elementary Euclidean geometry in R^3: the vocabulary of the specifications.
    Nothing here uses the functions of the model; only the record of three coordinates is shared. *)
From Coq Require Import Reals Lra Psatz.
From Verif Require Import Vec3Model.
Open Scope R_scope.

Notation pt := (vec R).

Definition dot (a b : pt) : R := vx a * vx b + vy a * vy b + vz a * vz b.
Definition plus (a b : pt) : pt := V3 (vx a + vx b) (vy a + vy b) (vz a + vz b).
Definition minus (a b : pt) : pt := V3 (vx a - vx b) (vy a - vy b) (vz a - vz b).
Definition scale (k : R) (a : pt) : pt := V3 (k * vx a) (k * vy a) (k * vz a).
Definition norm (a : pt) : R := sqrt (dot a a).
Definition dist (a b : pt) : R := norm (minus a b).
Definition origin : pt := V3 0 0 0.
Definition orth (a b : pt) : Prop := dot a b = 0.
Definition unitv (a : pt) : Prop := dot a a = 1.
(** Right-handedness: the signed volume spanned by three vectors. *)
Definition volume (a b c : pt) : R :=
  vx a * (vy b * vz c - vz b * vy c) - vy a * (vx b * vz c - vz b * vx c) + vz a * (vx b * vy c - vy b * vx c).
(** Point at parameter t of the line through p with direction d. *)
Definition along (p d : pt) (t : R) : pt := plus p (scale t d).
Definition same_dir (a b : pt) : Prop := exists k, 0 < k /\ a = scale k b.
