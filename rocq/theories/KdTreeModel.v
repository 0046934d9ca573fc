(** Model of KdTree<T> (/repo/src/Geometry/KDTree.h, KDTree.inl).

    The vectors [nodes] and [buckets] are lists addressed by index, as in the C++.  A sentinel-terminated bucket array is the
    list of the object indices before the sentinel.  Objects enter only through their BoundingAABB(), so the object array is
    the list of those boxes.  Memory addresses, new/delete and the int/u32 widths are not modelled (the number of objects is
    an int in the C++, so an index is never the sentinel).  An access outside a vector or array is [None] / [Fault]. *)
From Coq Require Import ZArith Bool List.
From Verif Require Import Num ScalarModel Vec3Model GeoTypes AabbModel.
Import ListNotations.

(** KDTree.h:38-62 [KdTreeNode]: a leaf with its bucketIndex, or an inner node with splitAxis, splitPos, childIndex (bucketIndex
    and splitPos share storage in the C++ and splitAxis == AxisNone tells which one is valid). *)
Inductive node (T : Type) := NLeaf (bucketIndex : nat) | NInner (splitAxis : nat) (splitPos : T) (childIndex : nat).
Arguments NLeaf {T}. Arguments NInner {T}.

Definition update {A} (l : list A) (i : nat) (x : A) : list A := firstn i l ++ match skipn i l with [] => [] | _ :: r => x :: r end.

(** Outcome of a query loop: an out-of-range access, fuel exhausted (an artefact of the model), or the callback's invocations. *)
Inductive run (A : Type) := Fault | Timeout | Done (visited : list A).
Arguments Fault {A}. Arguments Timeout {A}. Arguments Done {A}.

Section Kd.
  Context {T : Type} `{NT : Num T} `{NI : !NumInf T}.
  Open Scope num_scope.

  (** KDTree.h:184-210: the data members (without [objects], kept apart). *)
  Record kd := Kd { nodes : list (node T); buckets : list (option (list nat)); rootAABB : aabb T }.

  (** KDTree.inl:48-60 [BoundingAABB(bucket)]. *)
  Fixpoint encloseBucket (objs : list (aabb T)) (bucket : list nat) (a : aabb T) : option (aabb T) :=
    match bucket with
    | [] => Some a
    | o :: r => match nth_error objs o with
                | Some b => encloseBucket objs r (AABB_EncloseMinMax a (minPoint b) (maxPoint b))
                | None => None
                end
    end.
  Definition BucketAABB (objs : list (aabb T)) (bucket : list nat) : option (aabb T) := encloseBucket objs bucket AABB_NegativeInfinity.

  (** KDTree.inl:91-109: sort the objects of a bucket into left and right. *)
  Fixpoint sortObjects (objs : list (aabb T)) (leftAABB rightAABB : aabb T) (bucket : list nat) : option (list nat * list nat) :=
    match bucket with
    | [] => Some ([], [])
    | o :: rest =>
        match nth_error objs o, sortObjects objs leftAABB rightAABB rest with
        | Some aabb, Some (ls, rs) =>
            let left := AABB_Intersects leftAABB aabb in
            let right := AABB_Intersects rightAABB aabb in
            let both := negb left && negb right in
            Some (if left || both then o :: ls else ls, if right || both then o :: rs else rs)
        | _, _ => None
        end
    end.

  (** KDTree.inl:62-152 [SplitLeaf].  [d] is maxTreeDepth - leafDepth: the C++ returns at once when leafDepth >= maxTreeDepth. *)
  Fixpoint SplitLeaf (d : nat) (objs : list (aabb T)) (nodeIndex : nat) (nodeAABB : aabb T) (numObjectsInBucket : nat)
      (nodes : list (node T)) (buckets : list (option (list nat))) : option (list (node T) * list (option (list nat))) :=
    match d with
    | O => Some (nodes, buckets)
    | S d' =>
      match nth_error nodes nodeIndex with
      | Some (NLeaf curBucketIndex) =>
        match nth_error buckets curBucketIndex with
        | Some (Some bucket) =>
          let splitAxis := MaxElementIndex (AABB_Size nodeAABB) in
          let splitPos := at3 (AABB_CenterPoint nodeAABB) splitAxis in
          let leftAABB := Box (minPoint nodeAABB) (set3 (maxPoint nodeAABB) splitAxis splitPos) in
          let rightAABB := Box (set3 (minPoint nodeAABB) splitAxis splitPos) (maxPoint nodeAABB) in
          match sortObjects objs leftAABB rightAABB bucket with
          | Some (leftBucket, rightBucket) =>
            let numObjectsLeft := length leftBucket in
            let numObjectsRight := length rightBucket in
            (* leftBucket and rightBucket are arrays of numObjectsInBucket+1 elements, the last for the sentinel *)
            if (numObjectsInBucket <? numObjectsLeft)%nat || (numObjectsInBucket <? numObjectsRight)%nat then None
            else if (numObjectsLeft =? numObjectsInBucket)%nat || (numObjectsRight =? numObjectsInBucket)%nat
            then Some (nodes, buckets)
            else
              let childIndex := length nodes in
              let nodes1 := update nodes nodeIndex (NInner splitAxis splitPos childIndex) ++
                            [NLeaf curBucketIndex; NLeaf (length buckets)] in
              let buckets1 := update buckets curBucketIndex (Some leftBucket) ++ [Some rightBucket] in
              match BucketAABB objs leftBucket, BucketAABB objs rightBucket with
              | Some leftAABB, Some rightAABB =>
                match (if (16 <? numObjectsLeft)%nat then SplitLeaf d' objs childIndex leftAABB numObjectsLeft nodes1 buckets1
                       else Some (nodes1, buckets1)) with
                | Some (nodes2, buckets2) =>
                  if (16 <? numObjectsRight)%nat then SplitLeaf d' objs (S childIndex) rightAABB numObjectsRight nodes2 buckets2
                  else Some (nodes2, buckets2)
                | None => None
                end
              | _, _ => None
              end
          | None => None
          end
        | _ => None
        end
      | _ => None
      end
    end.

  (** KDTree.h:208-209 [maxTreeDepth]; KDTree.inl:245-284 [Build]: dummy node and bucket at index 0, root leaf at index 1. *)
  Definition maxTreeDepth : nat := 30.
  Definition Build (objs : list (aabb T)) : option kd :=
    let numObjects := length objs in
    let rootBucket := seq 0 numObjects in
    match BucketAABB objs rootBucket with
    | Some rootAABB =>
      match SplitLeaf (maxTreeDepth - 1) objs 1 rootAABB numObjects [NLeaf 0; NLeaf 1] [None; Some rootBucket] with
      | Some (nodes, buckets) => Some (Kd nodes buckets rootAABB)
      | None => None
      end
    | None => None
    end.
  (** KDTree.inl:286-295 [Clear]: the bounding box is not reset. *)
  Definition Clear (t : kd) : kd := Kd [] [] (rootAABB t).

  (** KDTree.inl:184-189 [NumNodes], 191-201 [NumLeaves], 209-219 [NumInnerNodes]: index 0 is the dummy. *)
  Definition isLeaf (n : node T) : bool := match n with NLeaf _ => true | _ => false end.
  Definition NumNodes (t : kd) : Z := Z.of_nat (length (nodes t)) - 1.
  Definition NumLeaves (t : kd) : nat := length (filter isLeaf (tl (nodes t))).
  Definition NumInnerNodes (t : kd) : nat := length (filter (fun n => negb (isLeaf n)) (tl (nodes t))).
  (** KDTree.inl:221-234 [TreeHeight]; the fuel bounds the recursion. *)
  Fixpoint TreeHeightAt (fuel : nat) (ns : list (node T)) (i : nat) : option nat :=
    match fuel with
    | O => None
    | S f => match nth_error ns i with
             | Some (NLeaf _) => Some 1%nat
             | Some (NInner _ _ c) =>
                 match TreeHeightAt f ns c, TreeHeightAt f ns (S c) with
                 | Some a, Some b => Some (1 + Nat.max a b)%nat
                 | _, _ => None
                 end
             | None => None
             end
    end.
  Definition TreeHeight (t : kd) : option nat := TreeHeightAt (length (nodes t)) (nodes t) 1.

  (** KDTree.inl:451-506 [AABBQuery].  The stack holds at most maxTreeDepth*2 node pointers (here indices); its top is the head
      of the list.  [stop] says whether the callback, having been invoked on these leaves (last one first), returns true.
      The result lists the leaves in order of invocation, last first. *)
  Definition aabbStackSize : nat := maxTreeDepth * 2.
  Fixpoint aabbLoop (fuel : nat) (ns : list (node T)) (q : aabb T) (stop : list nat -> bool) (stack visited : list nat) : run nat :=
    match stack with
    | [] => Done visited
    | cur :: rest =>
      match fuel with
      | O => Timeout
      | S f =>
        match nth_error ns cur with
        | Some (NInner axis pos child) =>
          (* the left child *)
          let left :=
            if at3 (minPoint q) axis <=? pos then
              match nth_error ns child with
              | Some (NLeaf _) => Some (rest, child :: visited, stop (child :: visited))
              | Some (NInner _ _ _) => if (length rest <? aabbStackSize)%nat then Some (child :: rest, visited, false) else None
              | None => None
              end
            else Some (rest, visited, false) in
          match left with
          | None => Fault
          | Some (_, visited1, true) => Done visited1
          | Some (stack1, visited1, false) =>
            (* the right child *)
            if at3 (maxPoint q) axis >=? pos then
              match nth_error ns (S child) with
              | Some (NLeaf _) =>
                  if stop (S child :: visited1) then Done (S child :: visited1) else aabbLoop f ns q stop stack1 (S child :: visited1)
              | Some (NInner _ _ _) => if (length stack1 <? aabbStackSize)%nat then aabbLoop f ns q stop (S child :: stack1) visited1 else Fault
              | None => Fault
              end
            else aabbLoop f ns q stop stack1 visited1
          end
        | _ => Fault
        end
      end
    end.
  Definition AABBQuery (fuel : nat) (t : kd) (q : aabb T) (stop : list nat -> bool) : run nat :=
    if negb (AABB_Intersects q (rootAABB t)) then Done []
    else match nth_error (nodes t) 1 with   (* Root(): null when nothing has been built *)
         | Some (NLeaf _) => Done [1%nat]
         | Some (NInner _ _ _) => aabbLoop fuel (nodes t) q stop [1%nat] []
         | None => Fault
         end.

  (** KDTree.inl:325-449 [RayQuery].  The traversal stack is an array of 100 elements; [snode] is None for the null pointer. *)
  Record stackElem := SE { snode : option nat; st : T; sp : vec T; sprev : nat }.
  Definition rayStackSize : nat := 100.
  (** KDTree.inl:378-431: descend from [cur] to a leaf; result: leaf, exitPoint, stack. *)
  Fixpoint rayDescend (fuel : nat) (ns : list (node T)) (r : ray T) (cur entryPoint exitPoint : nat) (stack : list stackElem)
      : option (option (nat * nat * list stackElem)) :=
    match fuel with
    | O => Some None
    | S f =>
      match nth_error ns cur with
      | None => None
      | Some (NLeaf _) => Some (Some (cur, exitPoint, stack))
      | Some (NInner axis splitPos child) =>
        match nth_error stack entryPoint, nth_error stack exitPoint with
        | Some en, Some exi =>
          let push (near far : nat) :=
            let t := (splitPos - at3 (rpos r) axis) / at3 (rdir r) axis in
            let e1 := S exitPoint in
            let e2 := if (e1 =? entryPoint)%nat then S e1 else e1 in
            if (e2 <? rayStackSize)%nat then
              let axis2 := match axis with O => 1%nat | 1%nat => 2%nat | _ => 0%nat end in
              let axis3 := match axis with O => 2%nat | 1%nat => 0%nat | _ => 1%nat end in
              let p := set3 (set3 (set3 (vzero : vec T) axis splitPos) axis2 (at3 (rpos r) axis2 + t * at3 (rdir r) axis2))
                            axis3 (at3 (rpos r) axis3 + t * at3 (rdir r) axis3) in
              rayDescend f ns r near entryPoint e2 (update stack e2 (SE (Some far) t p exitPoint))
            else None in
          if at3 (sp en) axis <=? splitPos then
            if at3 (sp exi) axis <=? splitPos then rayDescend f ns r child entryPoint exitPoint stack
            else if EqualAbs (at3 (sp exi) axis) splitPos (nlit 1 10000) then rayDescend f ns r (S child) entryPoint exitPoint stack
            else push child (S child)
          else
            if splitPos <? at3 (sp exi) axis then rayDescend f ns r (S child) entryPoint exitPoint stack
            else push (S child) child
        | _, _ => None
        end
      end
    end.
  (** KDTree.inl:375-448: the outer loop; an invocation records the leaf, dNear and dFar (last first). *)
  Fixpoint rayLoop (fuel : nat) (ns : list (node T)) (r : ray T) (stop : list (nat * T * T) -> bool) (cur : option nat)
      (entryPoint exitPoint : nat) (stack : list stackElem) (visited : list (nat * T * T)) : run (nat * T * T) :=
    match cur with
    | None => Done visited
    | Some c =>
      match fuel with
      | O => Timeout
      | S f =>
        match rayDescend (length ns) ns r c entryPoint exitPoint stack with
        | None => Fault
        | Some None => Timeout
        | Some (Some (leaf, exitPoint, stack)) =>
          match nth_error stack entryPoint, nth_error stack exitPoint with
          | Some en, Some exi =>
            let visited := (leaf, st en, st exi) :: visited in
            if stop visited then Done visited
            else rayLoop f ns r stop (snode exi) exitPoint (sprev exi) stack visited
          | _, _ => Fault
          end
        end
      end
    end.
  Definition RayQuery (fuel : nat) (t : kd) (r : ray T) (stop : list (nat * T * T) -> bool) : run (nat * T * T) :=
    let '(hit, _, _) := AABB_IntersectLine (rootAABB t) (rpos r) (rdir r) (Fin n0) PInf in
    if negb hit then Done []
    else
      match nth_error (nodes t) 1 with
      | None => Done []
      | Some _ =>
        let blank := SE None n0 vzero 0 in
        let s0 := SE None n0 (vadd (rpos r) (smulv (Max n0 n0) (rdir r))) 0 in
        let s1 := SE None ninf (vadd (rpos r) (vmuls (rdir r) ninf)) 0 in
        rayLoop fuel (nodes t) r stop (Some 1%nat) 0 1 (s0 :: s1 :: repeat blank 98) []
      end.
End Kd.
Arguments kd : clear implicits.
Arguments stackElem : clear implicits.
