(** Model of the enclosing boxes of flat point sets in /repo/src/Geometry/OBB.cpp: SmallestOBBVolumeOneEdgeFixed (486-505), SmallestOBBVolumeJiggle
    (507-570), SmallestOBBVolume2DPlanar (572-593) and the branch of OptimalEnclosingOBB (843-871) for convex hulls of at most three vertices or one face. *)
From Coq Require Import ZArith Bool List.
From Verif Require Import Num ScalarModel Vec2Model HullModel MinRectModel Vec3Model GeoTypes ObbModel.
Import ListNotations.

Section PlanarObb.
  Context {T : Type} `{NT : Num T}.
  Local Open Scope num_scope.
  Implicit Types (u v edge : vec T) (pts : list (vec T)).
  (** OBB.cpp:491-494, 525-526: the points in the basis u, v. *)
  Definition planarPts u v pts : list (v2 T) := map (fun q => V2 (Dot u q) (Dot v q)) pts.
  (** OBB.cpp:501-502: a plane vector back in space. *)
  Definition planarLift u v (d : v2 T) : vec T := vadd (smulv (x2 d) u) (smulv (y2 d) v).
  (** OBB.cpp:486-505 [SmallestOBBVolumeOneEdgeFixed].  [fuel]: see [MinAreaRectInPlace]. *)
  Definition SmallestOBBVolumeOneEdgeFixed (fuel : nat) edge pts : option (obb T) :=
    let '(u, v) := PerpendicularBasis edge in
    match MinAreaRectInPlace fuel (planarPts u v pts) with
    | None => None
    | Some r => OBB_FixedOrientationEnclosingOBB pts (planarLift u v (ru r)) (planarLift u v (rv r))
    end.
  (** OBB.cpp:510-514: the local variables and output parameters of the loop.  [jbest = None] is FLOAT_INF.  The vectors are uninitialized at
      first in the code; it reads them only after a first improvement. *)
  Record jiggle : Type := Jig { jedge : vec T; jmiss : nat; jbest : option T; jsecond : vec T; joutA : vec T; joutB : vec T }.
  (** OBB.cpp:517-568: one round; [None] when there are no points (the code reads out of bounds) or MinAreaRectInPlace does not end. *)
  Definition jiggleStep (fuel : nat) pts (s : jiggle) : option jiggle :=
    let edge := jedge s in
    match OBB_ExtremePointsAlongDirection edge pts with
    | None => None
    | Some (e1, e2, _, _) =>
        let z := V3 n0 n0 n0 in
        let edgeLength := Abs (Dot (vsub (nth e1 pts z) (nth e2 pts z)) edge) in
        let '(u, v) := PerpendicularBasis edge in
        match MinAreaRectInPlace fuel (planarPts u v pts) with
        | None => None
        | Some r =>
            let c10 := smul2 (rmaxV r - rminV r) (rv r) in
            let c20 := smul2 (rmaxU r - rminU r) (ru r) in
            let volume := Length (planarLift u v c10) * Length (planarLift u v c20) * edgeLength in
            if match jbest s with None => true | Some b => volume <? b end then
              let first := fst (Normalize (planarLift u v (ru r))) in
              let second := fst (Normalize (planarLift u v (rv r))) in
              Some (Jig first 0 (Some volume) second edge first)
            else Some (Jig (jsecond s) (S (jmiss s)) (jbest s) (jsecond s) (joutA s) (joutB s))
        end
    end.
  (** OBB.cpp:516-569: the loop and the returned volume with outEdgeA, outEdgeB; [None] also when the fuel runs out. *)
  Fixpoint jiggleLoop (rounds fuel : nat) pts (s : jiggle) : option (option T * vec T * vec T) :=
    if Nat.leb (jmiss s) 1 then
      match rounds with
      | O => None
      | S k => match jiggleStep fuel pts s with None => None | Some s' => jiggleLoop k fuel pts s' end
      end
    else Some (jbest s, joutA s, joutB s).
  Definition SmallestOBBVolumeJiggle (rounds fuel : nat) edge pts : option (option T * vec T * vec T) :=
    jiggleLoop rounds fuel pts (Jig edge 0 None (V3 n0 n0 n0) (V3 n0 n0 n0) (V3 n0 n0 n0)).
  (** OBB.cpp:574-586: the normal accumulated over consecutive triples of points. *)
  Fixpoint planarNormal (common : vec T) pts : vec T :=
    match pts with
    | a :: ((b :: c :: _) as rest) =>
        let '(normal, len) := Normalize (Cross (vsub c a) (vsub c b)) in
        if len >? n0 then
          let sum := if Dot common normal >=? n0 then vadd common normal else vsub common normal in
          planarNormal (fst (Normalize sum)) rest
        else planarNormal common rest
    | _ => common
    end.
  (** OBB.cpp:572-593 [SmallestOBBVolume2DPlanar]. *)
  Definition SmallestOBBVolume2DPlanar (rounds fuel : nat) pts : option (obb T) :=
    match SmallestOBBVolumeJiggle rounds fuel (planarNormal (V3 n0 n0 n0) pts) pts with
    | None => None
    | Some (_, edgeA, edgeB) => OBB_FixedOrientationEnclosingOBB pts edgeA edgeB
    end.
  (** OBB.cpp:843-871: the branch of [OptimalEnclosingOBB] for flat convex hulls. *)
  Definition OptimalEnclosingOBB_flat (rounds fuel : nat) pts : option (obb T) :=
    match pts with
    | [p] => Some (Obb p (V3 n0 n0 n0) (V3 n1 n0 n0) (V3 n0 n1 n0) (V3 n0 n0 n1))
    | [p; q] =>
        let axis0 := vsub q p in
        let '(axis1, axis2) := PerpendicularBasis axis0 in
        let '(axis0, diameter) := Normalize axis0 in
        Some (Obb (vmuls (vadd p q) nhalf) (V3 (diameter * nhalf) n0 n0) axis0 axis1 axis2)
    | _ => SmallestOBBVolume2DPlanar rounds fuel pts
    end.
End PlanarObb.
