(** Model of src/Algorithm/SAT.h: the separating axis test of two convex polytopes.  Proof-free. *)
From Coq Require Import Bool List ZArith.
From Verif Require Import Num Vec3Model GeoTypes MatModel AabbModel TriangleModel.
Import ListNotations.

Section Sat.
  Context {T : Type} `{NT : Num T}.
  Local Open Scope num_scope.

  (** What the template parameters of SAT.h:30-31 provide: UniqueFaceNormals, UniqueEdgeDirections and ProjectToAxis.  The code writes the
      directions to arrays of 16 vectors; the lists below have at most 16 elements. *)
  Record shape := Shape { sh_normals : list (vec T); sh_edges : list (vec T); sh_project : vec T -> T * T }.

  (** AABB.cpp:1031-1045 [UniqueFaceNormals], [UniqueEdgeDirections]. *)
  Definition AABB_UniqueFaceNormals (b : aabb T) : list (vec T) := [V3 n1 n0 n0; V3 n0 n1 n0; V3 n0 n0 n1].
  Definition AABB_UniqueEdgeDirections (b : aabb T) : list (vec T) := [V3 n1 n0 n0; V3 n0 n1 n0; V3 n0 n0 n1].
  Definition AABB_shape (b : aabb T) : shape := Shape (AABB_UniqueFaceNormals b) (AABB_UniqueEdgeDirections b) (AABB_ProjectToAxis b).
  Definition Tri_shape (t : triangle T) : shape := Shape (Tri_UniqueFaceNormals t) (Tri_UniqueEdgeDirections t) (Tri_ProjectToAxis t).

  (** SAT.h:38-41, 48-51, 60-63: the projections on one axis are apart. *)
  Definition SAT_apart (a b : shape) (axis : vec T) : bool :=
    let '(amin, amax) := sh_project a axis in
    let '(bmin, bmax) := sh_project b axis in
    (amax <? bmin) || (bmax <? amin).
  (** SAT.h:30-67 [SATIntersect]: the loops return false at the first axis with apart projections. *)
  Definition SATIntersect (a b : shape) : bool :=
    if existsb (SAT_apart a b) (sh_normals a) then false
    else if existsb (SAT_apart a b) (sh_normals b) then false
    else negb (existsb (fun e1 => existsb (fun e2 => SAT_apart a b (Cross e1 e2)) (sh_edges b)) (sh_edges a)).
End Sat.
