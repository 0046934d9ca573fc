(** The SoA layout: where every coordinate of the source array ends up. *)
From Coq Require Import ZArith Bool List Arith Lia.
From Verif Require Import Num ScalarModel Vec3Model GeoTypes KdTreeModel KdTreeProofs TriMeshModel TriMeshSpec.
Import ListNotations.
Ltac Zify.zify_post_hook ::= idtac.
Close Scope R_scope.
Open Scope nat_scope.

Section Layout.
  Context {T : Type} `{NT : Num T} `{NI : !NumInf T}.
  Implicit Types src o : list T.

  Lemma nth_error_l {A} (a b : list A) i : i < length a -> nth_error (a ++ b) i = nth_error a i. Proof. apply nth_error_app1. Qed.
  Lemma nth_error_r {A} (a b : list A) i n : length a = n -> nth_error (a ++ b) (n + i) = nth_error b i.
  Proof. intros <-. rewrite nth_error_app2 by lia. f_equal. lia. Qed.

  Lemma gather_ok src ts : forall w pos, (forall l, l < w -> nth_error src (pos + l * ts) <> None) ->
    exists xs, gather src pos ts w = Some xs /\ length xs = w /\ forall l, l < w -> nth_error xs l = nth_error src (pos + l * ts).
  Proof.
    induction w as [|w IH]; intros pos H; [exists []; repeat split; lia|].
    destruct (IH (pos + ts)) as (xs & E & L & N). { intros l Hl. replace (pos + ts + l * ts) with (pos + S l * ts) by lia. apply H. lia. }
    cbn [gather]. assert (H0 := H 0 ltac:(lia)). replace (pos + 0 * ts) with pos in H0 by lia. destruct (nth_error src pos) as [x|] eqn:E0; [|easy].
    cbn [obind]. rewrite E. cbn [option_map]. exists (x :: xs). split; [reflexivity|]. split; [cbn; lia|].
    intros [|l] Hl; [cbn; rewrite <- E0; f_equal; lia|]. cbn [nth_error]. rewrite N by lia. f_equal. lia.
  Qed.
  Lemma axes_ok src ts w : forall n pos, (forall k l, k < n -> l < w -> nth_error src (pos + k + l * ts) <> None) ->
    exists xs, soa_axes src pos ts w n = Some xs /\ length xs = n * w /\ forall k l, k < n -> l < w -> nth_error xs (k * w + l) = nth_error src (pos + k + l * ts).
  Proof.
    induction n as [|n IH]; intros pos H; [exists []; repeat split; lia|].
    destruct (IH (pos + 1)) as (xs & E & L & N). { intros k l Hk Hl. replace (pos + 1 + k + l * ts) with (pos + S k + l * ts) by lia. apply H; lia. }
    destruct (gather_ok src ts w pos) as (ys & F & M & P). { intros l Hl. replace (pos + l * ts) with (pos + 0 + l * ts) by lia. apply H; lia. }
    cbn [soa_axes]. rewrite F. cbn [obind]. rewrite E. exists (ys ++ xs). split; [reflexivity|]. split; [rewrite app_length; lia|].
    intros [|k] l Hk Hl.
    - rewrite nth_error_l by lia. replace (0 * w + l) with l by lia. rewrite P by lia. f_equal. lia.
    - replace (S k * w + l) with (w + (k * w + l)) by lia. rewrite (nth_error_r _ _ _ w) by easy. rewrite N by lia. f_equal. lia.
  Qed.
  Lemma verts_ok src vs w : forall n pos, (forall j k l, j < n -> k < 3 -> l < w -> nth_error src (pos + j * vs + k + l * (vs * 3)) <> None) ->
    exists xs, soa_verts src pos vs w n = Some xs /\ length xs = n * (3 * w) /\
      forall j k l, j < n -> k < 3 -> l < w -> nth_error xs ((3 * j + k) * w + l) = nth_error src (pos + j * vs + k + l * (vs * 3)).
  Proof.
    induction n as [|n IH]; intros pos H; [exists []; repeat split; lia|].
    destruct (IH (pos + vs)) as (xs & E & L & N). { intros j k l Hj Hk Hl. replace (pos + vs + j * vs + k + l * (vs * 3)) with (pos + S j * vs + k + l * (vs * 3)) by lia. apply H; lia. }
    destruct (axes_ok src (vs * 3) w 3 pos) as (ys & F & M & P). { intros k l Hk Hl. replace (pos + k + l * (vs * 3)) with (pos + 0 * vs + k + l * (vs * 3)) by lia. apply H; lia. }
    cbn [soa_verts]. rewrite F. cbn [obind]. rewrite E. exists (ys ++ xs). split; [reflexivity|]. split; [rewrite app_length; lia|].
    intros [|j] k l Hj Hk Hl.
    - replace ((3 * 0 + k) * w + l) with (k * w + l) by lia. rewrite nth_error_l by (rewrite M; nia). rewrite P by lia. f_equal. lia.
    - replace ((3 * S j + k) * w + l) with (3 * w + ((3 * j + k) * w + l)) by lia. rewrite (nth_error_r _ _ _ (3 * w)) by easy. rewrite N by lia. f_equal. lia.
  Qed.
  Lemma groups_ok src vs w : 0 < w -> forall g pos,
    (forall q j k l, q < g -> j < 3 -> k < 3 -> l < w -> nth_error src (pos + q * (w * (vs * 3)) + j * vs + k + l * (vs * 3)) <> None) ->
    exists xs, soa_groups src pos vs w g = Some xs /\ length xs = g * (9 * w) /\
      forall q j k l, q < g -> j < 3 -> k < 3 -> l < w -> nth_error xs (q * (9 * w) + (3 * j + k) * w + l) = nth_error src (pos + q * (w * (vs * 3)) + j * vs + k + l * (vs * 3)).
  Proof.
    intros W. induction g as [|g IH]; intros pos H; [exists []; repeat split; lia|].
    assert (A : (w - 1) * (vs * 3) + vs * 3 = w * (vs * 3)) by nia.
    destruct (IH (pos + 3 * vs + (w - 1) * (vs * 3))) as (xs & E & L & N).
    { intros q j k l Hq Hj Hk Hl. replace (pos + 3 * vs + (w - 1) * (vs * 3) + q * (w * (vs * 3)) + j * vs + k + l * (vs * 3)) with (pos + S q * (w * (vs * 3)) + j * vs + k + l * (vs * 3)) by lia. apply H; lia. }
    destruct (verts_ok src vs w 3 pos) as (ys & F & M & P). { intros j k l Hj Hk Hl. replace (pos + j * vs + k + l * (vs * 3)) with (pos + 0 * (w * (vs * 3)) + j * vs + k + l * (vs * 3)) by lia. apply H; lia. }
    cbn [soa_groups]. rewrite F. cbn [obind]. rewrite E. exists (ys ++ xs). split; [reflexivity|]. split; [rewrite app_length; lia|].
    intros [|q] j k l Hq Hj Hk Hl.
    - replace (0 * (9 * w) + (3 * j + k) * w + l) with ((3 * j + k) * w + l) by lia. rewrite nth_error_l by (rewrite M; nia). rewrite P by lia. f_equal. lia.
    - replace (S q * (9 * w) + (3 * j + k) * w + l) with (9 * w + (q * (9 * w) + (3 * j + k) * w + l)) by lia. rewrite (nth_error_r _ _ _ (9 * w)) by lia. rewrite N by lia. f_equal. lia.
  Qed.

  Definition osub (a b : option T) : option T := match a, b with Some x, Some y => Some (x - y)%num | _, _ => None end.
  Lemma sub_ok d : 0 < d -> forall len o j, d <= j -> len <= d -> j + len <= length o ->
    exists o', sub_range o j d len = Some o' /\ length o' = length o /\
      forall i, nth_error o' i = if (j <=? i) && (i <? j + len) then osub (nth_error o i) (nth_error o (i - d)) else nth_error o i.
  Proof.
    intros Hd. induction len as [|len IH]; intros o j Hj Hl Hb.
    - exists o. split; [reflexivity|]. split; [reflexivity|]. intros i. destruct (Nat.leb_spec j i), (Nat.ltb_spec i (j + 0)); cbn; lia || reflexivity.
    - cbn [sub_range]. destruct (nth_error o j) as [x|] eqn:Ex; [|apply nth_error_None in Ex; lia]. cbn [obind].
      destruct (nth_error o (j - d)) as [y|] eqn:Ey; [|apply nth_error_None in Ey; lia]. cbn [obind].
      destruct (IH (update o j (x - y)%num) (j + 1)) as (o' & E & L & N); [lia|lia|rewrite update_length; lia|].
      exists o'. split; [exact E|]. split; [now rewrite L, update_length|]. intros i. rewrite N.
      destruct (Nat.eq_dec i j) as [->|Ne].
      + destruct (Nat.leb_spec (j + 1) j); [lia|]. cbn [andb]. rewrite update_eq by (apply nth_error_Some; congruence).
        destruct (Nat.leb_spec j j); [|lia]. destruct (Nat.ltb_spec j (j + S len)); [|lia]. cbn [andb]. now rewrite Ex, Ey.
      + rewrite (update_neq o j i) by lia.
        destruct (Nat.leb_spec (j + 1) i), (Nat.ltb_spec i (j + 1 + len)); cbn [andb].
        * rewrite update_neq by lia. destruct (Nat.leb_spec j i); [|lia]. destruct (Nat.ltb_spec i (j + S len)); [|lia]. reflexivity.
        * destruct (Nat.leb_spec j i); [|lia]. destruct (Nat.ltb_spec i (j + S len)); [lia|]. reflexivity.
        * destruct (Nat.leb_spec j i); [lia|]. reflexivity.
        * destruct (Nat.leb_spec j i); [lia|]. reflexivity.
  Qed.
  Lemma edges_ok w : 0 < w -> forall g o p, p + g * (9 * w) <= length o ->
    exists o', edge_groups o p w g = Some o' /\ length o' = length o /\ (forall i, i < p -> nth_error o' i = nth_error o i) /\
      forall q k l, q < g -> k < 3 -> l < w ->
        nth_error o' (p + q * (9 * w) + k * w + l) = nth_error o (p + q * (9 * w) + k * w + l) /\
        nth_error o' (p + q * (9 * w) + (3 + k) * w + l) = osub (nth_error o (p + q * (9 * w) + (3 + k) * w + l)) (nth_error o (p + q * (9 * w) + k * w + l)) /\
        nth_error o' (p + q * (9 * w) + (6 + k) * w + l) = osub (nth_error o (p + q * (9 * w) + (6 + k) * w + l)) (nth_error o (p + q * (9 * w) + k * w + l)).
  Proof.
    intros W. induction g as [|g IH]; intros o p Hb; [exists o; repeat split; lia|].
    destruct (sub_ok (3 * w) ltac:(lia) (3 * w) o (p + 3 * w)) as (o1 & E1 & L1 & N1); [lia|lia|lia|].
    destruct (sub_ok (6 * w) ltac:(lia) (3 * w) o1 (p + 6 * w)) as (o2 & E2 & L2 & N2); [lia|lia|lia|].
    destruct (IH o2 (p + 9 * w)) as (o3 & E3 & L3 & B3 & N3); [lia|].
    cbn [edge_groups]. rewrite E1. cbn [obind]. rewrite E2. cbn [obind]. exists o3. split; [exact E3|]. split; [lia|].
    assert (low : forall i, i < p + 3 * w -> nth_error o2 i = nth_error o i).
    { intros i Hi. rewrite N2. destruct (Nat.leb_spec (p + 6 * w) i); [lia|]. cbn [andb]. rewrite N1. destruct (Nat.leb_spec (p + 3 * w) i); [lia|]. reflexivity. }
    assert (high : forall i, p + 9 * w <= i -> nth_error o2 i = nth_error o i).
    { intros i Hi. rewrite N2. destruct (Nat.ltb_spec i (p + 6 * w + 3 * w)); [lia|]. rewrite andb_false_r. rewrite N1. destruct (Nat.ltb_spec i (p + 3 * w + 3 * w)); [lia|]. now rewrite andb_false_r. }
    split; [intros i Hi; rewrite B3 by lia; apply low; lia|].
    intros [|q] k l Hq Hk Hl.
    - assert (K : k * w + l < 3 * w) by nia. rewrite !B3 by nia. replace (p + 0 * (9 * w) + k * w + l) with (p + (k * w + l)) by lia.
      replace (p + 0 * (9 * w) + (3 + k) * w + l) with (p + (k * w + l) + 3 * w) by lia. replace (p + 0 * (9 * w) + (6 + k) * w + l) with (p + (k * w + l) + 6 * w) by lia.
      set (i := k * w + l) in *. clearbody i. split; [apply low; lia|]. split.
      + rewrite N2. destruct (Nat.leb_spec (p + 6 * w) (p + i + 3 * w)); [lia|]. cbn [andb]. rewrite N1.
        destruct (Nat.leb_spec (p + 3 * w) (p + i + 3 * w)); [|lia]. destruct (Nat.ltb_spec (p + i + 3 * w) (p + 3 * w + 3 * w)); [|lia]. cbn [andb].
        now replace (p + i + 3 * w - 3 * w) with (p + i) by lia.
      + rewrite N2. destruct (Nat.leb_spec (p + 6 * w) (p + i + 6 * w)); [|lia]. destruct (Nat.ltb_spec (p + i + 6 * w) (p + 6 * w + 3 * w)); [|lia]. cbn [andb].
        replace (p + i + 6 * w - 6 * w) with (p + i) by lia. rewrite !N1.
        destruct (Nat.ltb_spec (p + i + 6 * w) (p + 3 * w + 3 * w)); [lia|]. rewrite andb_false_r. destruct (Nat.leb_spec (p + 3 * w) (p + i)); [lia|]. reflexivity.
    - destruct (N3 q k l ltac:(lia) Hk Hl) as (A & B & C).
      replace (p + S q * (9 * w) + k * w + l) with (p + 9 * w + q * (9 * w) + k * w + l) by lia.
      replace (p + S q * (9 * w) + (3 + k) * w + l) with (p + 9 * w + q * (9 * w) + (3 + k) * w + l) by lia.
      replace (p + S q * (9 * w) + (6 + k) * w + l) with (p + 9 * w + q * (9 * w) + (6 + k) * w + l) by lia.
      rewrite A, B, C, !high by lia. repeat split.
  Qed.

  (** Where the SoA layout puts triangle number q * w + l: in group q, lane l, first corner and the two edges from it. *)
  Theorem SetSoA_layout w src n vs (ts : list (triangle T)) : 0 < w -> 3 <= vs -> length ts = n -> holds src vs ts ->
    exists data, SetSoA w src n (4 * vs) = Some (Mesh data n 12) /\ length data = n / w * (9 * w) /\
      forall q l t k, l < w -> q < n / w -> k < 3 -> nth_error ts (q * w + l) = Some t ->
        nth_error data (q * (9 * w) + k * w + l) = Some (axis (tri_a t) k) /\
        nth_error data (q * (9 * w) + (3 + k) * w + l) = Some (axis (tri_b t) k - axis (tri_a t) k)%num /\
        nth_error data (q * (9 * w) + (6 + k) * w + l) = Some (axis (tri_c t) k - axis (tri_a t) k)%num.
  Proof.
    intros W V L H. unfold SetSoA. replace (4 * vs / floatBytes) with vs by (unfold floatBytes; rewrite Nat.mul_comm, Nat.div_mul; lia).
    assert (B : n / w * w <= n) by (rewrite Nat.mul_comm; apply Nat.mul_div_le; lia). set (g := n / w) in *. clearbody g.
    assert (S0 : forall q j k l, q < g -> j < 3 -> k < 3 -> l < w -> exists t, nth_error ts (q * w + l) = Some t /\ nth_error src (0 + q * (w * (vs * 3)) + j * vs + k + l * (vs * 3)) = Some (axis (corner t j) k)).
    { intros q j k l Hq Hj Hk Hl. destruct (nth_error ts (q * w + l)) as [t|] eqn:Et; [|apply nth_error_None in Et; nia].
      exists t. split; [reflexivity|]. rewrite <- (H _ _ _ _ Et Hj Hk). f_equal. nia. }
    destruct (groups_ok src vs w W g 0) as (o & E & Lo & N). { intros q j k l Hq Hj Hk Hl. destruct (S0 q j k l Hq Hj Hk Hl) as (t & _ & ->). discriminate. }
    destruct (edges_ok w W g o 0) as (o' & E' & Lo' & _ & N'); [lia|]. rewrite E. cbn [obind]. rewrite E'. cbn [obind]. exists o'. split; [reflexivity|]. split; [lia|].
    intros q l t k Hl Hq Hk Et. destruct (N' q k l Hq Hk Hl) as (A1 & A2 & A3). rewrite !Nat.add_0_l in A1, A2, A3.
    assert (C : forall j, j < 3 -> nth_error o (q * (9 * w) + (3 * j + k) * w + l) = Some (axis (corner t j) k)).
    { intros j Hj. rewrite N by easy. destruct (S0 q j k l Hq Hj Hk Hl) as (t' & Et' & ->). rewrite Et in Et'. injection Et' as <-. reflexivity. }
    rewrite A1, A2, A3. pose proof (C 0 ltac:(lia)) as C0. pose proof (C 1 ltac:(lia)) as C1. pose proof (C 2 ltac:(lia)) as C2.
    replace (3 * 0 + k) with k in C0 by lia. replace (3 * 1 + k) with (3 + k) in C1 by lia. replace (3 * 2 + k) with (6 + k) in C2 by lia.
    rewrite C0, C1, C2. repeat split.
  Qed.
End Layout.
