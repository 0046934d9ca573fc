(** Model of the 2D convex hull of /repo/src/Math/float2.inl:49-159 and float2.cpp:501-535 (float2::ConvexHull, ConvexHullInPlace, ConvexHullContains).
    Simplification: PerpDot2D is computed here in the number type itself; the code computes it in double precision and rounds the result to float. *)
From Coq Require Import ZArith Bool List.
From Verif Require Import Num ScalarModel Vec2Model.
Import ListNotations.

Section Hull.
  Context {T : Type} `{NT : Num T}.
  Local Open Scope num_scope.
  Implicit Types a b o p q : v2 T.
  (** float2.inl:49-53 [LexSortPred]. *)
  Definition LexSortPred a b : bool := (x2 a <? x2 b) || ((x2 a =? x2 b) && (y2 a <? y2 b)).
  (** float2.inl:55-63 [PerpDot2D], 65-71 [DistSq2D]. *)
  Definition PerpDot2D o a b : T := (x2 a - x2 o) * (y2 b - y2 o) - (y2 a - y2 o) * (x2 b - x2 o).
  Definition DistSq2D a b : T := let dx := x2 a - x2 b in let dy := y2 a - y2 b in dx * dx + dy * dy.
  (** float2.inl:83 [std::sort(p, p + n, LexSortPred)]: the standard fixes only the result (a sorted permutation), an insertion sort gives one. *)
  Fixpoint lexInsert p (l : list (v2 T)) : list (v2 T) :=
    match l with
    | [] => [p]
    | q :: rest => if LexSortPred q p then q :: lexInsert p rest else p :: l
    end.
  Definition lexSort (l : list (v2 T)) : list (v2 T) := fold_right lexInsert [] l.
  (** float2.inl:100, 112, 124: the loop [while (k >= .. && PerpDot2D(hull[k-2], hull[k-1], p) <= 0) --k].  The part of the array hull[..k-1] in use is
      a list with the last entry first; it never drops the entry that starts the chain (hull[0] on the bottom side, hull[start-1] on the top side). *)
  Fixpoint hullPop (stack : list (v2 T)) p : list (v2 T) :=
    match stack with
    | a :: ((b :: _) as below) => if PerpDot2D b a p <=? n0 then hullPop below p else stack
    | _ => stack
    end.
  Definition hullPush (stack : list (v2 T)) p : list (v2 T) := p :: hullPop stack p.
  (** float2.inl:93-105: the bottom side, from [p[0]] to [p[n-1]]. *)
  Definition hullChain (first : v2 T) (rest : list (v2 T)) : list (v2 T) := fold_left hullPush rest [first].
  (** float2.inl:93-125: both sides; [sorted] are p[0..n-1], n >= 3.  The top side is a chain from p[n-1] through p[n-2] .. p[1], popped once more against p[0];
      its first entry p[n-1] is the last entry of the bottom side and is not repeated. *)
  Definition hullBoth (sorted : list (v2 T)) : list (v2 T) :=
    match sorted, rev sorted with
    | p0 :: rest, pn :: back =>
        let lower := hullChain p0 rest in
        let upper := hullPop (hullChain pn (removelast back)) p0 in
        rev lower ++ tl (rev upper)
    | _, _ => []
    end.
  (** float2.inl:127-138: drop entries close to the previously kept one; [kept] has the last kept entry first. *)
  Fixpoint hullDedupe (kept : list (v2 T)) (hull : list (v2 T)) : list (v2 T) :=
    match hull with
    | [] => kept
    | q :: rest =>
        match kept with
        | [] => hullDedupe [q] rest
        | k :: _ => if DistSq2D q k >? nlit 1 1000000 then hullDedupe (q :: kept) rest else hullDedupe kept rest
        end
    end.
  (** float2.inl:139: drop final entries close to the first one. *)
  Fixpoint hullTrim (kept : list (v2 T)) (first : v2 T) : list (v2 T) :=
    match kept with
    | k :: ((_ :: _) as below) => if DistSq2D k first <? nlit 1 1000000 then hullTrim below first else kept
    | _ => kept
    end.
  (** float2.inl:74-143 [float2_ConvexHullInPlace]: the first [n] entries of the array on return, [n] the returned count.  (Two points: the second
      is dropped when close.) *)
  Definition ConvexHullInPlace (pts : list (v2 T)) : list (v2 T) :=
    match pts with
    | [] => []
    | [p] => [p]
    | _ =>
        let sorted := lexSort pts in
        match sorted with
        | [p0; p1] => if DistSq2D p0 p1 >? nlit 1 1000000 then [p0; p1] else [p0]
        | _ =>
            match hullBoth sorted with
            | [] => []
            | h0 :: rest => rev (hullTrim (hullDedupe [h0] rest) h0)
            end
        end
    end.
  (** float2.cpp:501-511 [float2::ConvexHull]: the vector on return. *)
  Definition ConvexHull (pts : list (v2 T)) : list (v2 T) := match pts with [] => [] | _ => ConvexHullInPlace pts end.
  (** float2.cpp:522-535 [float2::ConvexHullContains]; [prev] is convexHull[j]. *)
  Fixpoint hullContainsLoop (bad : T -> bool) (prev : v2 T) (hull : list (v2 T)) (point : v2 T) : bool :=
    match hull with
    | [] => true
    | h :: rest => if bad (PerpDot2D prev h point) then false else hullContainsLoop bad h rest point
    end.
  Definition ConvexHullContains (hull : list (v2 T)) (point : v2 T) : bool :=
    match rev hull with
    | [] => true
    | last :: _ => hullContainsLoop (fun d => d <=? - nlit 1 100000) last hull point
    end.
  (** float2.inl:145-159 [float2_ConvexHullContains]. *)
  Definition float2_ConvexHullContains (hull : list (v2 T)) (point : v2 T) : bool :=
    match rev hull with
    | last :: _ :: _ :: _ => hullContainsLoop (fun d => d <? - nlit 1 1000000) last hull point
    | _ => false
    end.
End Hull.
