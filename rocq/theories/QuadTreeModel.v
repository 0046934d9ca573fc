(** Model of QuadTree<T> (/repo/src/Geometry/QuadTree.h, QuadTree.inl).

    The vector [nodes] is a list addressed by index, and a [Node*] is such an index: the vector is reserved once for 200000
    nodes (QuadTree.h:124-128) and pointers into it are only valid while it does not grow beyond that: allocating more is the
    separate outcome [QFull], after which the C++ program has dangling pointers; a [QFault] is an out-of-range or null access.  Objects are natural numbers with a given rectangle [rect o]
    (GetAABB2D(o), of which MinX..MaxY are the components); [assoc] is what AssociateQuadTreeNode / GetQuadTreeNode store for
    each object.  The asserts are compiled out.  Not modelled: the nearest-neighbour queries (MATH_CONTAINERLIB_SUPPORT),
    DebugSanityCheckNode, verbose logging, callbacks that change the tree. *)
From Coq Require Import ZArith Bool List.
From Verif Require Import Num ScalarModel Vec2Model KdTreeModel.
Import ListNotations.

(** Outcome: an invalid access, an allocation beyond the reserved nodes, fuel exhausted (an artefact of the model), or a result. *)
Inductive outcome (A : Type) := QFault | QFull | QTimeout | QDone (a : A).
Arguments QFault {A}. Arguments QFull {A}. Arguments QTimeout {A}. Arguments QDone {A}.
Definition qbind {A B} (x : outcome A) (f : A -> outcome B) : outcome B :=
  match x with QFault => QFault | QFull => QFull | QTimeout => QTimeout | QDone a => f a end.

(** QuadTree.h:64-89 [Node]: childIndex == 0xFFFFFFFF is None. *)
Record qnode (T : Type) := QN { qparent : option nat; qchild : option nat; qobjs : list nat; qcenter : v2 T; qradius : v2 T }.
Arguments QN {T}. Arguments qparent {T}. Arguments qchild {T}. Arguments qobjs {T}. Arguments qcenter {T}. Arguments qradius {T}.

Definition minQuadTreeNodeObjectCount : nat := 16.   (* QuadTree.h:39 *)
Definition reservedNodes : N := 200000.              (* QuadTree.h:127 *)

(** What the objects remember about their node. *)
Definition assocs := nat -> option nat.
Definition set_assoc (a : assocs) (o : nat) (n : option nat) : assocs := fun o' => if Nat.eqb o' o then n else a o'.

Section Qt.
  Context {T : Type} `{NT : Num T}.
  Open Scope num_scope.
  Variable rect : nat -> aabb2 T.

  (** QuadTree.h:249-253: the data members. *)
  Record qt := Qt { qnodes : list (qnode T); qroot : nat; qbound : aabb2 T }.
  (** QuadTree.h:119-129, the constructor (rootNodeIndex is -1 but never used while there are no nodes). *)
  Definition QuadTree_new : qt := Qt [] 0 (Box2 (V2 n0 n0) (V2 n1 n1)).

  (** QuadTree.inl:206-238 [AllocateNodeGroup].  Without a parent, centre and radius stay uninitialised (zero here). *)
  Definition newGroup (parent : option nat) (pc pr : v2 T) : list (qnode T) :=
    let r := muls2 pr nhalf in
    let mk c := QN parent None [] c r in
    [mk (sub2 pc r); mk (V2 (x2 pc + x2 r) (y2 pc - y2 r)); mk (V2 (x2 pc - x2 r) (y2 pc + y2 r)); mk (V2 (x2 pc + x2 r) (y2 pc + y2 r))].
  Definition blankGroup : list (qnode T) := repeat (QN None None [] (V2 n0 n0) (V2 n0 n0)) 4.
  Definition Allocate (ns : list (qnode T)) (grp : list (qnode T)) : outcome (list (qnode T)) :=
    if (N.leb (N.of_nat (length ns) + 4) reservedNodes)%N then QDone (ns ++ grp) else QFull.

  (** QuadTree.inl:25-43 [Clear]. *)
  Definition QuadTree_Clear (minXY maxXY : v2 T) : qt :=
    let center := muls2 (add2 minXY maxXY) nhalf in
    Qt (update blankGroup 0 (QN None None [] center (sub2 maxXY center))) 0 (Box2 minXY maxXY).

  (** QuadTree.inl:131-146 and 252-263: does the object straddle the centre lines, and which quadrant is it in otherwise
      (0 top left, 1 top right, 2 bottom left, 3 bottom right). *)
  Definition straddles (c : v2 T) (o : nat) : bool :=
    let left := x2 c - x2 (min2 (rect o)) in
    let right := x2 (max2 (rect o)) - x2 c in
    let top := y2 c - y2 (min2 (rect o)) in
    let bottom := y2 (max2 (rect o)) - y2 c in
    let leftAndRight := Min left right in
    let topAndBottom := Min top bottom in
    Max leftAndRight topAndBottom >? n0.
  Definition quadrant (c : v2 T) (o : nat) : nat :=
    let left := x2 c - x2 (min2 (rect o)) in
    let top := y2 c - y2 (min2 (rect o)) in
    if left >? n0 then (if top >? n0 then 0 else 2)%nat else (if top >? n0 then 1 else 3)%nat.

  Definition push (nd : qnode T) (o : nat) : qnode T := QN (qparent nd) (qchild nd) (qobjs nd ++ [o]) (qcenter nd) (qradius nd).
  (** objects[i] = objects.back(); objects.pop_back() (QuadTree.inl:298-299, and with the swap QuadTree.h:92-93). *)
  Definition swap_remove (l : list nat) (i : nat) : list nat := removelast (update l i (last l 0%nat)).

  (** QuadTree.inl:129-191 [Add(object, n)] and 241-301 [SplitLeaf] with its loop. *)
  Fixpoint addAt (fuel : nat) (ns : list (qnode T)) (a : assocs) (o n : nat) : outcome (list (qnode T) * assocs) :=
    match fuel with
    | O => QTimeout
    | S f =>
      match nth_error ns n with
      | None => QFault
      | Some nd =>
        if straddles (qcenter nd) o then QDone (update ns n (push nd o), set_assoc a o (Some n))
        else match qchild nd with
             | None =>
                 let ns1 := update ns n (push nd o) in
                 let a1 := set_assoc a o (Some n) in
                 if (minQuadTreeNodeObjectCount <? length (qobjs nd ++ [o]))%nat && (Min (x2 (qradius nd)) (y2 (qradius nd)) >=? nlit 1 20)
                 then splitAt f ns1 a1 n
                 else QDone (ns1, a1)
             | Some c => addAt f ns a o (c + quadrant (qcenter nd) o)
             end
      end
    end
  with splitAt (fuel : nat) (ns : list (qnode T)) (a : assocs) (leaf : nat) : outcome (list (qnode T) * assocs) :=
    match fuel with
    | O => QTimeout
    | S f =>
      match nth_error ns leaf with
      | None => QFault
      | Some nd =>
        qbind (Allocate ns (newGroup (Some leaf) (qcenter nd) (qradius nd))) (fun ns1 =>
        splitLoop f (update ns1 leaf (QN (qparent nd) (Some (length ns)) (qobjs nd) (qcenter nd) (qradius nd))) a leaf 0)
      end
    end
  with splitLoop (fuel : nat) (ns : list (qnode T)) (a : assocs) (leaf i : nat) : outcome (list (qnode T) * assocs) :=
    match fuel with
    | O => QTimeout
    | S f =>
      match nth_error ns leaf with
      | None => QFault
      | Some nd =>
        match nth_error (qobjs nd) i, qchild nd with
        | None, _ => QDone (ns, a)
        | Some _, None => QFault
        | Some o, Some c =>
          if straddles (qcenter nd) o then splitLoop f ns a leaf (S i)
          else
            qbind (addAt f ns a o (c + quadrant (qcenter nd) o)) (fun '(ns1, a1) =>
            match nth_error ns1 leaf with
            | None => QFault
            | Some nd1 =>
                splitLoop f (update ns1 leaf (QN (qparent nd1) (qchild nd1) (swap_remove (qobjs nd1) i) (qcenter nd1) (qradius nd1))) a1 leaf i
            end)
        end
      end
    end.

  (** QuadTree.inl:598-636: the new bounding box and the quadrant the old root is put into. *)
  Definition growBound (b : aabb2 T) (q : nat) : aabb2 T :=
    let w := x2 (max2 b) - x2 (min2 b) in
    let h := y2 (max2 b) - y2 (min2 b) in
    match q with
    | 3%nat => Box2 (V2 (x2 (min2 b) - w) (y2 (min2 b) - h)) (max2 b)                                       (* GrowRootTopLeft *)
    | 2%nat => Box2 (V2 (x2 (min2 b)) (y2 (min2 b) - h)) (V2 (x2 (max2 b) + w) (y2 (max2 b)))               (* GrowRootTopRight *)
    | 1%nat => Box2 (V2 (x2 (min2 b) - w) (y2 (min2 b))) (V2 (x2 (max2 b)) (y2 (max2 b) + h))               (* GrowRootBottomLeft *)
    | _ => Box2 (min2 b) (V2 (x2 (max2 b) + w) (y2 (max2 b) + h))                                           (* GrowRootBottomRight *)
    end.
  Definition set_parent (p : option nat) (ns : list (qnode T)) (i : nat) : list (qnode T) :=
    match nth_error ns i with
    | Some nd => update ns i (QN p (qchild nd) (qobjs nd) (qcenter nd) (qradius nd))
    | None => ns
    end.
  (** QuadTree.inl:672-691: one child of the new root gets its parent, radius and centre. *)
  Definition place_child (root : nat) (rc rr : v2 T) (base : nat) (ns : list (qnode T)) (q : nat) : list (qnode T) :=
    let r := muls2 rr nhalf in
    let c := match q with
             | 0%nat => sub2 rc r
             | 1%nat => V2 (x2 rc + x2 r) (y2 rc - y2 r)
             | 2%nat => V2 (x2 rc - x2 r) (y2 rc + y2 r)
             | _ => add2 rc r
             end in
    match nth_error ns (base + q) with
    | Some nd => update ns (base + q) (QN (Some root) (qchild nd) (qobjs nd) c r)
    | None => ns
    end.
  (** QuadTree.inl:639-694 [GrowImpl], after the bounding box was changed. *)
  Definition GrowImpl (t : qt) (a : assocs) (bound : aabb2 T) (q : nat) : outcome (qt * assocs) :=
    let root := qroot t in
    match nth_error (qnodes t) root, nth_error (qnodes t) (root + q) with
    | Some r, Some d =>
        let ns := if Nat.eqb q 0 then qnodes t else update (update (qnodes t) root d) (root + q) r in
        let ns := match (if Nat.eqb q 0 then None else qchild r) with
                  | Some c => set_parent (Some (root + q)%nat) (set_parent (Some (root + q)%nat) (set_parent (Some (root + q)%nat)
                                (set_parent (Some (root + q)%nat) ns c) (c + 1)) (c + 2)) (c + 3)
                  | None => ns
                  end in
        let a1 := if Nat.eqb q 0 then a else fold_left (fun a o => set_assoc a o (Some (root + q)%nat)) (qobjs r) a in
        let center := muls2 (add2 (min2 bound) (max2 bound)) nhalf in
        let radius := sub2 (max2 bound) center in
        let newRoot := length ns in
        qbind (Allocate ns (QN None (Some root) [] center radius :: tl blankGroup)) (fun ns =>
        let ns := place_child newRoot center radius root (place_child newRoot center radius root
                    (place_child newRoot center radius root (place_child newRoot center radius root ns 0) 1) 2) 3 in
        QDone (Qt ns newRoot bound, a1))
    | _, _ => QFault
    end.

  (** QuadTree.inl:46-112 [Add].  The fuel counts the root growths; each level gets the fuel for the insertion. *)
  Definition growDirection (b : aabb2 T) (ob : aabb2 T) : option nat :=
    if x2 (min2 ob) >=? x2 (min2 b) then
      if x2 (max2 ob) <=? x2 (max2 b) then
        if y2 (min2 ob) >=? y2 (min2 b) then
          if y2 (max2 ob) <=? y2 (max2 b) then None else Some 0%nat
        else Some 2%nat
      else if y2 (min2 ob) <? y2 (min2 b) then Some 2%nat else Some 0%nat
    else if y2 (min2 ob) <? y2 (min2 b) then Some 3%nat else Some 1%nat.
  Fixpoint QuadTree_Add (fuel : nat) (t : qt) (a : assocs) (o : nat) : outcome (qt * assocs) :=
    match qnodes t with
    | [] => QFault
    | _ =>
      match growDirection (qbound t) (rect o) with
      | None => qbind (addAt fuel (qnodes t) a o (qroot t)) (fun '(ns, a') => QDone (Qt ns (qroot t) (qbound t), a'))
      | Some q =>
        match fuel with
        | O => QTimeout
        | S f => qbind (GrowImpl t a (growBound (qbound t) q) q) (fun '(t', a') => QuadTree_Add f t' a' o)
        end
      end
    end.

  (** QuadTree.inl:115-126 [Remove] and QuadTree.h:86-97 [Node::Remove]. *)
  Fixpoint index_of (o : nat) (l : list nat) : option nat :=
    match l with
    | [] => None
    | x :: r => if Nat.eqb x o then Some 0%nat else option_map S (index_of o r)
    end.
  Definition QuadTree_Remove (t : qt) (a : assocs) (o : nat) : outcome (qt * assocs) :=
    match a o with
    | None => QDone (t, a)
    | Some n =>
      match nth_error (qnodes t) n with
      | None => QFault
      | Some nd =>
        match index_of o (qobjs nd) with
        | None => QDone (t, a)
        | Some i => QDone (Qt (update (qnodes t) n (QN (qparent nd) (qchild nd) (swap_remove (qobjs nd) i) (qcenter nd) (qradius nd)))
                              (qroot t) (qbound t), set_assoc a o None)
        end
      end
    end.

  (** QuadTree.inl:303-356 [AABBQuery]; the head of the list is the top of the stack.  [stop] and the result as for the kd-tree:
      nodes the callback was invoked on, last first. *)
  Fixpoint queryLoop (fuel : nat) (ns : list (qnode T)) (q : aabb2 T) (stop : list nat -> bool) (stack visited : list nat) : outcome (list nat) :=
    match stack with
    | [] => QDone visited
    | n :: rest =>
      match fuel with
      | O => QTimeout
      | S f =>
        match nth_error ns n with
        | None => QFault
        | Some nd =>
          let '(visited1, stopped) :=
            match qobjs nd with [] => (visited, false) | _ => (n :: visited, stop (n :: visited)) end in
          if stopped then QDone visited1
          else
            match qchild nd with
            | None => queryLoop f ns q stop rest visited1
            | Some c =>
              let cx := x2 (qcenter nd) in let cy := y2 (qcenter nd) in
              let s := rest in
              let s := if (x2 (min2 q) <=? cx) && (y2 (min2 q) <=? cy) then c :: s else s in
              let s := if (x2 (max2 q) >=? cx) && (y2 (max2 q) >=? cy) then (c + 3)%nat :: s else s in
              let s := if (x2 (min2 q) <=? cx) && (y2 (max2 q) >=? cy) then (c + 2)%nat :: s else s in
              let s := if (x2 (max2 q) >=? cx) && (y2 (min2 q) <=? cy) then (c + 1)%nat :: s else s in
              queryLoop f ns q stop s visited1
            end
        end
      end
    end.
  Definition QuadTree_AABBQuery (fuel : nat) (t : qt) (q : aabb2 T) (stop : list nat -> bool) : outcome (list nat) :=
    match qnodes t with
    | [] => QDone []
    | _ => if AABB2D_Intersects q (qbound t) then queryLoop fuel (qnodes t) q stop [qroot t] [] else QDone []
    end.

  (** QuadTree.inl:358-394 [FindCollidingPairs]: the pairs reported for one node. *)
  Definition pairsWith (o : nat) (l : list nat) : list (nat * nat) :=
    map (fun p => (o, p)) (filter (fun p => AABB2D_Intersects (rect o) (rect p)) l).
  Fixpoint pairsUp (fuel : nat) (ns : list (qnode T)) (o : nat) (n : option nat) : outcome (list (nat * nat)) :=
    match n with
    | None => QDone []
    | Some n =>
      match fuel with
      | O => QTimeout
      | S f =>
        match nth_error ns n with
        | None => QFault
        | Some nd => qbind (pairsUp f ns o (qparent nd)) (fun r => QDone (pairsWith o (qobjs nd) ++ r))
        end
      end
    end.
  Fixpoint pairsIn (fuel : nat) (ns : list (qnode T)) (q : aabb2 T) (parent : option nat) (l : list nat) : outcome (list (nat * nat)) :=
    match l with
    | [] => QDone []
    | o :: r =>
      if AABB2D_Intersects q (rect o) then
        qbind (pairsUp fuel ns o parent) (fun up => qbind (pairsIn fuel ns q parent r) (fun l' => QDone (pairsWith o r ++ up ++ l')))
      else pairsIn fuel ns q parent r
    end.
  Definition pairsNode (fuel : nat) (ns : list (qnode T)) (q : aabb2 T) (n : nat) : outcome (list (nat * nat)) :=
    match nth_error ns n with None => QFault | Some nd => pairsIn fuel ns q (qparent nd) (qobjs nd) end.
  (** QuadTree.inl:396-404 [CollidingPairsQuery]: the pairs in the order they are reported.  The callback never stops the query
      and does not change the tree, so visiting the nodes first and then listing their pairs is the same. *)
  Fixpoint pairsNodes (fuel : nat) (ns : list (qnode T)) (q : aabb2 T) (l : list nat) : outcome (list (nat * nat)) :=
    match l with
    | [] => QDone []
    | n :: r => qbind (pairsNode fuel ns q n) (fun x => qbind (pairsNodes fuel ns q r) (fun y => QDone (x ++ y)))
    end.
  Definition QuadTree_CollidingPairsQuery (fuel : nat) (t : qt) (q : aabb2 T) : outcome (list (nat * nat)) :=
    qbind (QuadTree_AABBQuery fuel t q (fun _ => false)) (fun v => pairsNodes fuel (qnodes t) q (rev v)).

  (** QuadTree.inl:696-756 [NumNodes], [NumLeaves], [NumInnerNodes], [NumObjects], [TreeHeight]. *)
  Definition QuadTree_NumNodes (t : qt) : Z := Z.max 0 (Z.of_nat (length (qnodes t)) - 3).
  Definition counted (t : qt) (p : qnode T -> bool) : nat :=
    length (filter (fun i => ((i <=? qroot t) || (qroot t + 4 <=? i))%nat && match nth_error (qnodes t) i with Some nd => p nd | None => false end)
                   (seq 0 (length (qnodes t)))).
  Definition qIsLeaf (nd : qnode T) : bool := match qchild nd with None => true | _ => false end.
  Definition QuadTree_NumLeaves (t : qt) : nat := counted t qIsLeaf.
  Definition QuadTree_NumInnerNodes (t : qt) : nat := counted t (fun nd => negb (qIsLeaf nd)).
  Definition QuadTree_NumObjects (t : qt) : nat := list_sum (map (fun nd => length (qobjs nd)) (qnodes t)).
  Fixpoint qHeightAt (fuel : nat) (ns : list (qnode T)) (n : nat) : outcome nat :=
    match fuel with
    | O => QTimeout
    | S f =>
      match nth_error ns n with
      | None => QFault
      | Some nd =>
        match qchild nd with
        | None => QDone 1%nat
        | Some c =>
            qbind (qHeightAt f ns c) (fun h0 => qbind (qHeightAt f ns (c + 1)) (fun h1 =>
            qbind (qHeightAt f ns (c + 2)) (fun h2 => qbind (qHeightAt f ns (c + 3)) (fun h3 =>
            QDone (1 + Nat.max (Nat.max h0 h1) (Nat.max h2 h3))%nat))))
        end
      end
    end.
  Definition QuadTree_TreeHeight (fuel : nat) (t : qt) : outcome nat :=
    match qnodes t with [] => QDone 0%nat | _ => qHeightAt fuel (qnodes t) (qroot t) end.
End Qt.
