(** The face lists of Polyhedron (/repo/src/Geometry/Polyhedron.cpp): everything that looks only at vertex indices.

    A face is the list of its vertex indices (C++ int, here Z; no index in use comes near the limits of int).  A
    [std::set<std::pair<int,int>>] is the sorted list of its elements without duplicates.  Not modelled: [ToString], [FromString],
    [DumpStructure], [MergeAdjacentPlanarFaces], [ConvexHull]. *)
From Coq Require Import ZArith Bool List.
Import ListNotations.
Local Open Scope Z_scope.

Definition face := list Z.
Definition edge := (Z * Z)%type.

(** std::set of pairs: lexicographic order, insertion, lookup. *)
Definition edge_ltb (a b : edge) : bool := (fst a <? fst b) || ((fst a =? fst b) && (snd a <? snd b)).
Definition edge_eqb (a b : edge) : bool := (fst a =? fst b) && (snd a =? snd b).
Fixpoint setInsert (e : edge) (s : list edge) : list edge :=
  match s with
  | [] => [e]
  | x :: r => if edge_ltb e x then e :: s else if edge_ltb x e then x :: setInsert e r else s
  end.
Definition setFind (e : edge) (s : list edge) : bool := existsb (edge_eqb e) s.

(** The loop "x = f.v.back(); for j: y = f.v[j]; use (x, y); x = y" of Polyhedron.cpp:163-169, 621-637, 1485-1490, 3000-3006. *)
Fixpoint edgesFrom (x : Z) (vs : face) : list edge := match vs with [] => [] | y :: r => (x, y) :: edgesFrom y r end.
Definition faceEdges (f : face) : list edge := match f with [] => [] | v :: _ => edgesFrom (last f v) f end.

(** Polyhedron.cpp:86-90 [Face::FlipWindingOrder]: swaps v[i] and v[n-1-i] for i < n/2; 605-609 [FlipWindingOrder]. *)
Definition setAt {A : Type} (l : list A) (i : nat) (x : A) : list A := match skipn i l with [] => l | _ :: r => firstn i l ++ x :: r end.
Definition swapAt {A : Type} (l : list A) (i j : nat) : list A :=
  match nth_error l i, nth_error l j with Some a, Some b => setAt (setAt l i b) j a | _, _ => l end.
Fixpoint flipLoop {A : Type} (k i : nat) (l : list A) : list A :=
  match k with O => l | S k => flipLoop k (S i) (swapAt l i (length l - 1 - i)) end.
Definition FlipFace (f : face) : face := flipLoop (Nat.div (length f) 2) 0 f.
Definition FlipWindingOrder (fs : list face) : list face := map FlipFace fs.

(** Polyhedron.cpp:119-125 [NumEdges]. *)
Definition NumEdges (fs : list face) : nat := Nat.div (fold_left (fun n f => n + length f)%nat fs 0%nat) 2.
(** Polyhedron.cpp:154-177 [EdgeIndices]. *)
Definition EdgeIndices (fs : list face) : list edge :=
  fold_left (fun s f => if Nat.ltb (length f) 3 then s
                        else fold_left (fun s e => setInsert (Z.min (fst e) (snd e), Z.max (fst e) (snd e)) s) (faceEdges f) s) fs [].
(** Polyhedron.cpp:582-603 [FaceIndicesValid] for a polyhedron of [nv] vertices. *)
Fixpoint distinct (f : face) : bool := match f with [] => true | x :: r => forallb (fun y => negb (x =? y)) r && distinct r end.
Definition FaceIndicesValid (nv : nat) (fs : list face) : bool :=
  forallb (fun f => forallb (fun x => negb ((x <? 0) || (x >=? Z.of_nat nv))) f) fs
  && forallb (fun f => negb (Nat.ltb (length f) 3)) fs
  && forallb distinct fs.
(** Polyhedron.cpp:611-652 [IsClosed]. *)
Fixpoint closedFace (es : list edge) (s : list edge) : option (list edge) :=
  match es with [] => Some s | e :: r => if setFind e s then None else closedFace r (setInsert e s) end.
Fixpoint closedFaces (fs : list face) (s : list edge) : option (list edge) :=
  match fs with
  | [] => Some s
  | f :: r => if Nat.leb (length f) 1 then closedFaces r s else match closedFace (faceEdges f) s with None => None | Some s => closedFaces r s end
  end.
Definition IsClosed (fs : list face) : bool :=
  match closedFaces fs [] with None => false | Some s => forallb (fun e => setFind (snd e, fst e) s) s end.
(** Polyhedron.cpp:695-698 [EulerFormulaHolds]. *)
Definition EulerFormulaHolds (nv : nat) (fs : list face) : bool := Z.of_nat nv + Z.of_nat (length fs) - Z.of_nat (NumEdges fs) =? 2.

(** Polyhedron.cpp:2650-2663 [RemoveDegenerateFaces]: compaction in place with the read index [i] and the write index [n]. *)
Fixpoint degenerateLoop (k i n : nat) (fs : list face) : list face :=
  match k with
  | O => firstn n fs
  | S k => match nth_error fs i with
           | Some x => if Nat.leb 3 (length x) then degenerateLoop k (S i) (S n) (if Nat.eqb n i then fs else setAt fs n x) else degenerateLoop k (S i) n fs
           | None => fs
           end
  end.
Definition RemoveDegenerateFaces (fs : list face) : list face := degenerateLoop (length fs) 0 0 fs.
(** Polyhedron.cpp:2622-2648 [ArrayBinarySearch] with [IntTriCmp] (2608-2611: a - b).  [None]: the loop is still running after
    [fuel] rounds, or the array is empty (an access outside it). *)
Fixpoint searchLoop (fuel : nat) (list : list Z) (value : Z) (left right round : nat) : option Z :=
  match fuel with
  | O => None
  | S fuel =>
      let middle := Nat.div (left + right + round) 2 in
      let round := if Nat.eqb round 0 then 1%nat else 0%nat in
      match nth_error list middle with
      | None => None
      | Some x =>
          let order := x - value in
          if order =? 0 then Some (Z.of_nat middle)
          else
            let newLeft := if order <? 0 then middle else left in
            let newRight := if order <? 0 then right else middle in
            if Nat.ltb newLeft newRight then searchLoop fuel list value newLeft newRight round else Some (-1)
      end
  end.
Definition ArrayBinarySearch (fuel : nat) (list : list Z) (value : Z) : option Z :=
  let right := (length list - 1)%nat in
  match nth_error list 0, nth_error list right with
  | Some a, Some b =>
      if a - value >? 0 then Some (-1) else if a - value =? 0 then Some 0
      else if b - value <? 0 then Some (-1) else if b - value =? 0 then Some (Z.of_nat right)
      else searchLoop fuel list value 0 right 0
  | _, _ => None
  end.
(** Polyhedron.cpp:2665-2696 [RemoveRedundantVertices]: std::set<int> as a sorted list; the vertex array is compacted in place. *)
Fixpoint zInsert (x : Z) (s : list Z) : list Z :=
  match s with [] => [x] | y :: r => if x <? y then x :: s else if y <? x then y :: zInsert x r else s end.
Definition usedVertices (fs : list face) : list Z := fold_left (fun s f => fold_left (fun s x => zInsert x s) f s) fs [].
Fixpoint compact {A : Type} (used : list Z) (i : nat) (v : list A) : list A :=
  match used with
  | [] => firstn i v
  | u :: r => match nth_error v (Z.to_nat u) with Some x => compact r (S i) (setAt v i x) | None => v end
  end.
Definition RemoveRedundantVertices {A : Type} (v : list A) (fs : list face) : list A * list (list (option Z)) :=
  let used := usedVertices fs in
  (compact used 0 v, map (map (ArrayBinarySearch (2 * length used + 2) used)) fs).

(** Polyhedron.cpp:2992-3009 [GenerateVertexAdjacencyData] (an empty face is read out of bounds there; here it adds nothing). *)
Definition GenerateVertexAdjacencyData (nv : nat) (fs : list face) : list (list Z) :=
  fold_left (fun adj f => fold_left (fun adj e =>
      let i := Z.to_nat (fst e) in match nth_error adj i with Some l => setAt adj i (l ++ [snd e]) | None => adj end) (faceEdges f) adj)
    fs (repeat [] nv).

(** Polyhedron.cpp:3011-3021 [CmpFaces], 3023-3050 [CanonicalizeFaceArray]. *)
Fixpoint cmpLex (a b : face) : Z := match a, b with x :: a, y :: b => if x =? y then cmpLex a b else x - y | _, _ => 0 end.
Definition CmpFaces (a b : face) : Z :=
  if Nat.eqb (length a) (length b) then cmpLex a b else Z.of_nat (length b) - Z.of_nat (length a).
Fixpoint smallest (vs : face) (j best : nat) (x : Z) : nat :=
  match vs with [] => best | y :: r => if y <? x then smallest r (S j) j y else smallest r (S j) best x end.
Definition smallestIndex (f : face) : nat := match f with [] => 0%nat | x :: r => smallest r 1 0 x end.
Fixpoint cycle (n : nat) (f : face) : face := match n, f with S n, x :: r => cycle n (r ++ [x]) | _, _ => f end.
Definition CanonicalFace (f : face) : face := cycle (smallestIndex f) f.
(** The inner loop swaps f[i] with every later f[j] that compares smaller. *)
Fixpoint selectInner (cur : face) (rest : list face) : face * list face :=
  match rest with
  | [] => (cur, [])
  | x :: r => if CmpFaces cur x >? 0 then let '(c, r) := selectInner x r in (c, cur :: r) else let '(c, r) := selectInner cur r in (c, x :: r)
  end.
Fixpoint selectSort (n : nat) (fs : list face) : list face :=
  match n, fs with S n, c :: r => let '(c, r) := selectInner c r in c :: selectSort n r | _, _ => fs end.
Definition CanonicalizeFaceArray (fs : list face) : list face := let fs := map CanonicalFace fs in selectSort (length fs) fs.
(** Polyhedron.cpp:3079-3115 [ContainsFace]. *)
Fixpoint indexOf (x : Z) (f : face) (j : nat) : option nat := match f with [] => None | y :: r => if y =? x then Some j else indexOf x r (S j) end.
Definition faceMatches (f2 f : face) : bool :=
  if negb (Nat.eqb (length f2) (length f)) then false
  else match f with
       | [] => true
       | x :: _ =>
           match indexOf x f2 0 with
           | None => false
           | Some shift => forallb (fun j => match nth_error f2 (Nat.modulo (j + length f2 - shift) (length f2)), nth_error f j with Some a, Some b => a =? b | _, _ => false end) (seq 0 (length f2))
           end
       end.
Definition ContainsFace (fs : list face) (f : face) : bool := existsb (fun f2 => faceMatches f2 f) fs.
(** Polyhedron.cpp:3117-3132 [SwapVertices]. *)
Definition SwapVertices {A : Type} (v : list A) (fs : list face) (i j : Z) : list A * list face :=
  if i =? j then (v, fs)
  else (swapAt v (Z.to_nat i) (Z.to_nat j), map (map (fun x => if x =? i then j else if x =? j then i else x)) fs).

(** Polyhedron.cpp:1464-1521 [MergeConvex]: the faces for which [keep] holds stay; the edges of the others are collected; every such edge
    whose reverse was not deleted gets a triangle to the new vertex, which has index [nv]. *)
Definition MergeFaces (keep : face -> bool) (nv : nat) (fs : list face) : list face * bool :=
  let alive := filter keep fs in
  let deletedEdges := fold_left (fun s f => fold_left (fun s e => setInsert e s) (faceEdges f) s) (filter (fun f => negb (keep f)) fs) [] in
  match deletedEdges with
  | [] => (alive, false)
  | _ => (alive ++ map (fun e => [fst e; snd e; Z.of_nat nv]) (filter (fun e => negb (setFind (snd e, fst e) deletedEdges)) deletedEdges), true)
  end.

(** The face tables of the solids: Polyhedron.cpp:2286-2289, 2327-2334, 2397-2416, 2469-2480 and AABB.cpp:123-131 (the latter is also that of OBB and Frustum). *)
Definition TetrahedronFaces : list face := [[0; 1; 2]; [1; 3; 2]; [0; 2; 3]; [0; 3; 1]].
Definition OctahedronFaces : list face := [[0; 1; 2]; [1; 3; 2]; [3; 5; 2]; [5; 0; 2]; [3; 1; 4]; [1; 0; 4]; [5; 3; 4]; [0; 5; 4]].
Definition BoxFaces : list face := [[0; 1; 3; 2]; [4; 6; 7; 5]; [0; 4; 5; 1]; [7; 6; 2; 3]; [0; 2; 6; 4]; [1; 5; 7; 3]].
Definition IcosahedronFaces : list face :=
  [[0; 1; 2]; [3; 2; 1]; [3; 4; 5]; [3; 6; 4]; [0; 7; 11]; [0; 8; 7]; [4; 10; 9]; [7; 9; 10]; [2; 5; 8]; [9; 8; 5]; [1; 11; 6]; [10; 6; 11];
   [3; 5; 2]; [3; 1; 6]; [0; 2; 8]; [0; 11; 1]; [7; 8; 9]; [7; 10; 11]; [4; 9; 5]; [4; 6; 10]].
Definition DodecahedronFaces : list face :=
  [[0; 1; 2; 3; 4]; [1; 0; 5; 6; 7]; [11; 10; 12; 8; 9]; [10; 11; 13; 14; 15]; [13; 16; 4; 3; 14]; [2; 17; 15; 14; 3]; [12; 18; 7; 6; 8]; [5; 19; 9; 8; 6];
   [16; 19; 5; 0; 4]; [19; 16; 13; 11; 9]; [17; 18; 12; 10; 15]; [18; 17; 2; 1; 7]].
(** Polyhedron.cpp:2519-2542 [CreateCapsule] and 2579-2604 [CreateSharpCapsule]: the faces for [n] vertices per cap. *)
Definition iota (n : nat) : list Z := map Z.of_nat (seq 0 n).
Definition CapsuleSides (n : nat) : list face :=
  let m := Z.of_nat n in map (fun i => [(i + 1) mod m; i; m + i; m + (i + 1) mod m]) (iota n).
Definition CapsuleFaces (n : nat) : list face := let m := Z.of_nat n in iota n :: map (fun i => 2 * m - 1 - i) (iota n) :: CapsuleSides n.
Definition SharpCapsuleFaces (n : nat) : list face :=
  let m := Z.of_nat n in
  map (fun i => [i; (i + 1) mod m; 2 * m]) (iota n) ++ map (fun i => [m + (i + 1) mod m; m + i; 2 * m + 1]) (iota n) ++ CapsuleSides n.
