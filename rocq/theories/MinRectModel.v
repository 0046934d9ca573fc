(** Model of float2::MinAreaRectInPlace (/repo/src/Math/float2.cpp:535-627): the smallest rectangle around a point set, by rotating calipers. *)
From Coq Require Import ZArith Bool List.
From Verif Require Import Num ScalarModel Vec2Model HullModel.
Import ListNotations.

(** float2.h:575-591: the output parameters and the returned area. *)
Record rect2 (T : Type) : Type := Rect2 { rcenter : v2 T; ru : v2 T; rv : v2 T; rminU : T; rmaxU : T; rminV : T; rmaxV : T; rarea : T }.
Arguments Rect2 {T}. Arguments rcenter {T}. Arguments ru {T}. Arguments rv {T}. Arguments rminU {T}. Arguments rmaxU {T}. Arguments rminV {T}. Arguments rmaxV {T}. Arguments rarea {T}.

Section MinRect.
  Context {T : Type} `{NT : Num T}.
  Local Open Scope num_scope.
  Implicit Types (p : list (v2 T)) (i n : nat).
  (** The pointers e[0] .. e[3], as indices into p. *)
  Definition cal : Type := (nat * nat * nat * nat)%type.
  Definition pointAt p i : v2 T := nth i p (V2 n0 n0).
  (** float2.cpp:535 [NEXT_P]. *)
  Definition nextP n i : nat := if Nat.ltb (S i) n then S i else 0%nat.
  (** float2.cpp:582-587, 601-604: the entry of d for a pointer.  The code stores it in d[k] whenever e[k] changes; here it is recomputed. *)
  Definition calDir p i : v2 T := Normalized2 (sub2 (pointAt p (nextP (length p) i)) (pointAt p i)).
  (** float2.cpp:561-573: one round of the loop that finds the extreme points along x and y. *)
  Definition calInit p (e : cal) i : cal :=
    let '(e0, e1, e2, e3) := e in
    let q := pointAt p i in
    let '(e0', e2') := if x2 q <? x2 (pointAt p e0) then (i, e2) else if x2 q >? x2 (pointAt p e2) then (e0, i) else (e0, e2) in
    let '(e1', e3') := if y2 q <? y2 (pointAt p e1) then (i, e3) else if y2 q >? y2 (pointAt p e3) then (e1, i) else (e1, e3) in
    (e0', e1', e2', e3').
  Definition calStart p : cal := fold_left (calInit p) (seq 1 (length p - 1)) (0%nat, 0%nat, 0%nat, 0%nat).
  (** float2.cpp:593-604: turn the calipers to the nearest edge and advance its pointer. *)
  Definition calStep p (ed : v2 T) (e : cal) : v2 T * cal :=
    let '(e0, e1, e2, e3) := e in
    let n := length p in
    let cosA0 := Dot2 ed (calDir p e0) in
    let cosA1 := PerpDot2 ed (calDir p e1) in
    let cosA2 := - Dot2 ed (calDir p e2) in
    let cosA3 := - PerpDot2 ed (calDir p e3) in
    let maxCos := Max (Max cosA0 cosA1) (Max cosA2 cosA3) in
    if cosA0 >=? maxCos then (calDir p e0, (nextP n e0, e1, e2, e3))
    else if cosA1 >=? maxCos then (V2 (y2 (calDir p e1)) (- x2 (calDir p e1)), (e0, nextP n e1, e2, e3))
    else if cosA2 >=? maxCos then (neg2 (calDir p e2), (e0, e1, nextP n e2, e3))
    else (V2 (- y2 (calDir p e3)) (x2 (calDir p e3)), (e0, e1, e2, nextP n e3)).
  (** float2.cpp:606-621: the rectangle of the calipers (its centre, computed after the loop from the best one, is filled in by [calFinish]). *)
  Definition calRect p (ed : v2 T) (e : cal) : rect2 T :=
    let '(e0, e1, e2, e3) := e in
    let minu := PerpDot2 ed (pointAt p e0) in let maxu := PerpDot2 ed (pointAt p e2) in
    let minv := Dot2 ed (pointAt p e1) in let maxv := Dot2 ed (pointAt p e3) in
    Rect2 (V2 n0 n0) (V2 n0 n0) ed (Min minu maxu) (Max minu maxu) (Min minv maxv) (Max minv maxv) (Abs ((maxu - minu) * (maxv - minv))).
  (** float2.cpp:579, 612-621: [None] is the initial minArea, FLOAT_INF. *)
  Definition calBest (best : option (rect2 T)) (r : rect2 T) : rect2 T := match best with None => r | Some b => if rarea r <? rarea b then r else b end.
  (** float2.cpp:591-622 the loop; [None] when the fuel runs out. *)
  Fixpoint calLoop (fuel : nat) p (ed : v2 T) (e : cal) (best : option (rect2 T)) : option (rect2 T) :=
    if y2 ed <=? n0 then
      match fuel with
      | O => None
      | S f => let '(ed', e') := calStep p ed e in calLoop f p ed' e' (Some (calBest best (calRect p ed' e')))
      end
    else best.
  (** float2.cpp:623-624. *)
  Definition calFinish (r : rect2 T) : rect2 T :=
    let v := rv r in let u := V2 (- y2 v) (x2 v) in
    Rect2 (smul2 (nlit 1%Z 2%positive) (add2 (muls2 u (rminU r + rmaxU r)) (muls2 v (rminV r + rmaxV r)))) u v (rminU r) (rmaxU r) (rminV r) (rmaxV r) (rarea r).
  (** float2.cpp:537-627 [MinAreaRectInPlace].  [None]: no points (every output is NaN), or the loop still running after [fuel] rounds. *)
  Definition MinAreaRectInPlace (fuel : nat) (pts : list (v2 T)) : option (rect2 T) :=
    match ConvexHullInPlace pts with
    | [] => None
    | [c] => Some (Rect2 c (V2 n1 n0) (V2 n0 n1) (x2 c) (x2 c) (y2 c) (y2 c) n0)
    | p => match calLoop fuel p (V2 n0 (- n1)) (calStart p) None with None => None | Some r => Some (calFinish r) end
    end.
End MinRect.
