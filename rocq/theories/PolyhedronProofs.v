From Coq Require Import Reals Lra Psatz ZArith Bool List Permutation Classical Lia.
From Verif Require Import Num NumR Vec3Model GeoTypes GeoSpec GeoLemmas LineModel LineSpec LineProps MatSpec MatProofs MatProofs2 SphereSpec SatTheory PlaneModel PlaneSpec PlaneProps PolyTopoModel PolyTopoSpec PolyTopoProofs PolyTopoProps PolyhedronModel PolyhedronSpec.
Import ListNotations.
Open Scope R_scope.
Ltac Zify.zify_post_hook ::= idtac.

(** A point outside a hull is separated from it. *)
Lemma hull_in vs v : In v vs -> in_hull vs v. Proof. intros I A _ H. now apply H. Qed.
Lemma hull_convex vs : convex (in_hull vs).
Proof. intros x y k X Y K A CV H. apply CV; [now apply X|now apply Y|exact K]. Qed.
Lemma hull_separate vs q : vs <> [] -> in_hull vs q \/ exists d, forall v, In v vs -> dot d v < dot d q.
Proof.
  intros NE. destruct (gordan (diffs vs [q])) as [P|(n & N)].
  - left. destruct (pos_diffs (in_hull vs) (fun x => x = q) vs [q] origin) with (5 := P) as (k & a & b & K & A & B & E).
    + intros x y t X Y T. now apply hull_convex.
    + intros x y t -> -> T. apply vec_ext; gunf; ring.
    + apply hull_in.
    + intros b [<-|[]]. reflexivity.
    + subst b. replace q with a; [exact A|]. apply vec_ext; [apply (f_equal vx) in E|apply (f_equal vy) in E|apply (f_equal vz) in E]; gunf; unfold origin in E; cbn in E; nra.
  - right. exists n. intros v I. specialize (N (minus q v)). rewrite dot_minus_r in N. enough (0 < dot n q - dot n v) by lra. apply N. apply diffs_in. exists v, q. split; [exact I|]. split; [now left|reflexivity].
Qed.

(** Sums over the directed edges of a closed surface. *)
Fixpoint total {A : Type} (g : A -> R) (l : list A) : R := match l with [] => 0 | x :: r => g x + total g r end.
Lemma total_app {A : Type} (g : A -> R) l m : total g (l ++ m) = total g l + total g m.
Proof. induction l as [|x l IH]; cbn; [ring|]. rewrite IH. ring. Qed.
Lemma total_perm {A : Type} (g : A -> R) l m : Permutation l m -> total g l = total g m.
Proof. induction 1; cbn; lra. Qed.
Lemma total_map {A B : Type} (h : A -> B) (g : B -> R) l : total g (map h l) = total (fun x => g (h x)) l.
Proof. induction l as [|x l IH]; cbn; [reflexivity|]. now rewrite IH. Qed.
Lemma total_ext {A : Type} (g h : A -> R) l : (forall x, In x l -> g x = h x) -> total g l = total h l.
Proof. induction l as [|x l IH]; intros E; cbn; [reflexivity|]. rewrite E by now left. rewrite IH; [reflexivity|]. intros y Y. apply E. now right. Qed.
Lemma total_opp {A : Type} (g : A -> R) l : total (fun x => - g x) l = - total g l.
Proof. induction l as [|x l IH]; cbn; [ring|]. rewrite IH. ring. Qed.
Lemma total_flat {A B : Type} (h : A -> list B) (g : B -> R) l : total g (flat_map h l) = total (fun x => total g (h x)) l.
Proof. induction l as [|x l IH]; cbn; [reflexivity|]. now rewrite total_app, IH. Qed.
Lemma total_neg {A : Type} (g : A -> R) l : l <> [] -> (forall x, In x l -> g x < 0) -> total g l < 0.
Proof.
  intros NE H. destruct l as [|x l]; [easy|]. cbn. assert (N : total g l <= 0).
  { assert (H' : forall y, In y l -> g y < 0) by (intros y Y; apply H; now right). clear - H'. induction l as [|x l IH]; cbn; [lra|]. pose proof (H' x (or_introl eq_refl)). assert (total g l <= 0) by (apply IH; intros y Y; apply H'; now right). lra. }
  pose proof (H x (or_introl eq_refl)). lra.
Qed.
(** A closed set of directed edges is the set of its reverses. *)
Lemma closed_reverse fs : closed fs -> Permutation (all_directed fs) (map rv (all_directed fs)).
Proof.
  intros (ND & S). apply NoDup_Permutation; [exact ND| |].
  - apply nodup_map_in; [|exact ND]. intros x y _ _ E. apply (f_equal rv) in E. now rewrite !rv_rv in E.
  - intros (a & b). rewrite in_map_iff. split.
    + intros I. exists (b, a). split; [reflexivity|now apply S].
    + intros ((c & d) & E & I). unfold rv in E. cbn in E. injection E as <- <-. now apply S.
Qed.
Lemma closed_sum fs (g : Z -> Z -> R) : closed fs -> (forall a b, In (a, b) (all_directed fs) -> g b a = - g a b) -> total (fun e => g (fst e) (snd e)) (all_directed fs) = 0.
Proof.
  intros C A. assert (E : total (fun e => g (fst e) (snd e)) (all_directed fs) = - total (fun e => g (fst e) (snd e)) (all_directed fs)); [|lra].
  rewrite (total_perm _ _ _ (closed_reverse fs C)) at 1. rewrite total_map, <- total_opp. apply total_ext. intros (a & b) I. unfold rv. cbn [fst snd]. now apply A.
Qed.
(** The boundary of a face as a fan of triangles around its first vertex. *)
Lemma fan_sum (g : Z -> Z -> R) x : forall l y, (forall a b, g b a = - g a b) -> (forall a b, In (a, b) (edgesFrom y l) -> g x a + g a b + g b x <= 0) ->
  g x y + total (fun e => g (fst e) (snd e)) (edgesFrom y (l ++ [x])) <= 0.
Proof.
  induction l as [|z l IH]; intros y A T; cbn [app edgesFrom total fst snd].
  - rewrite (A x y). lra.
  - pose proof (T y z (or_introl eq_refl)) as T1. assert (T2 : g x z + total (fun e => g (fst e) (snd e)) (edgesFrom z (l ++ [x])) <= 0) by (apply IH; [exact A|]; intros a b I; apply T; now right). rewrite (A x z) in T1. lra.
Qed.
Lemma edgesFrom_directed x l a b : In (a, b) (edgesFrom x l) -> In (a, b) (directed (x :: l)).
Proof. intros I. rewrite directed_cons. rewrite edgesFrom_app. apply in_app_iff. now left. Qed.
Lemma face_sum (g : Z -> Z -> R) (f : list Z) : (3 <= length f)%nat -> (forall a b, g b a = - g a b) ->
  (forall a b, In (a, b) (directed f) -> g (nth 0 f 0%Z) a + g a b + g b (nth 0 f 0%Z) <= 0) ->
  g (nth 0 f 0%Z) (nth 1 f 0%Z) + g (nth 1 f 0%Z) (nth 2 f 0%Z) + g (nth 2 f 0%Z) (nth 0 f 0%Z) < 0 ->
  total (fun e => g (fst e) (snd e)) (directed f) < 0.
Proof.
  intros L A T S. destruct f as [|x [|y [|z l]]]; cbn [length nth] in *; try lia. rewrite directed_cons. cbn [app edgesFrom total fst snd].
  assert (F : g x z + total (fun e => g (fst e) (snd e)) (edgesFrom z (l ++ [x])) <= 0).
  { apply fan_sum; [exact A|]. intros a b I. apply T. apply edgesFrom_directed. cbn [edgesFrom]. now right; right. }
  rewrite (A x z) in S. lra.
Qed.
(** Vectors orthogonal to the normal. *)
Lemma cross_normal (n u w : pt) : n <> origin -> dot n u = 0 -> dot n w = 0 -> cross u w = scale (dot n (cross u w) / dot n n) n.
Proof.
  intros NZ U W. assert (NN : dot n n <> 0) by (intros E; now apply NZ, dot_zero).
  assert (E : minus (scale (dot n n) (cross u w)) (scale (dot n (cross u w)) n) = cross n (minus (scale (dot n u) w) (scale (dot n w) u))) by (apply vec_ext; unfold cross; gunf; cbn; ring).
  rewrite U, W in E. assert (Z : cross n (minus (scale 0 w) (scale 0 u)) = origin) by (apply vec_ext; unfold cross, origin; gunf; cbn; ring). rewrite Z in E. clear Z U W.
  set (c := cross u w) in *. set (K := dot n c) in *. set (N := dot n n) in *. clearbody K N c.
  apply vec_ext; [apply (f_equal vx) in E|apply (f_equal vy) in E|apply (f_equal vz) in E]; unfold origin in E; gunf; cbn in E |- *; apply Rmult_eq_reg_l with N; try exact NN; field_simplify; [lra|exact NN|lra|exact NN|lra|exact NN].
Qed.
(** The edge form of a point [q] and a direction [d] in which [q] is ahead of both ends; around a triangle it measures the solid angle's sign. *)
Definition eform (q d a b : pt) : R := dot d (cross (minus a q) (minus b q)) / ((dot d q - dot d a) * (dot d q - dot d b)).
Lemma eform_anti q d a b : eform q d b a = - eform q d a b.
Proof. unfold eform, Rdiv. rewrite (Rmult_comm (dot d q - dot d b)). unfold cross; gunf; cbn. ring. Qed.
Lemma eform_tri q d x a b : dot d x < dot d q -> dot d a < dot d q -> dot d b < dot d q ->
  eform q d x a + eform q d a b + eform q d b x = - (dot d d * dot (minus x q) (cross (minus a x) (minus b x))) / ((dot d q - dot d x) * (dot d q - dot d a) * (dot d q - dot d b)).
Proof.
  intros X A B. unfold eform.
  assert (ID : dot d (cross (minus x q) (minus a q)) * (dot d q - dot d b) + dot d (cross (minus a q) (minus b q)) * (dot d q - dot d x) + dot d (cross (minus b q) (minus x q)) * (dot d q - dot d a)
     = - (dot d d * dot (minus x q) (cross (minus a x) (minus b x)))) by (unfold cross; gunf; cbn; ring).
  rewrite <- ID. set (sx := dot d q - dot d x) in *. set (sa := dot d q - dot d a) in *. set (sb := dot d q - dot d b) in *. field. unfold sx, sa, sb. repeat split; lra.
Qed.
Lemma outward_nz vs f n : outward vs f n -> n <> origin.
Proof. intros O ->. pose proof (first_corner _ _ _ O) as F. rewrite dot_comm in F. unfold origin in F. gunf. cbn in F. lra. Qed.
(** The area of a triangle of the fan, times the height of [q] below the face. *)
Lemma fan_volume vs f n (q : pt) x a b : outward vs f n -> In x f -> In a f -> In b f ->
  dot (minus (at_index vs x) q) (cross (minus (at_index vs a) (at_index vs x)) (minus (at_index vs b) (at_index vs x)))
  = dot n (cross (minus (at_index vs a) (at_index vs x)) (minus (at_index vs b) (at_index vs x))) / dot n n * - dot n (minus q (at_index vs x)).
Proof.
  intros O X A B. rewrite (cross_normal n _ _ (outward_nz _ _ _ O) (flat _ _ _ O x a X A) (flat _ _ _ O x b X B)) at 1. rewrite dot_scale_r. set (k := _ / _). replace (minus (at_index vs x) q) with (scale (-1) (minus q (at_index vs x))) by (apply vec_ext; gunf; cbn; ring).
  rewrite dot_scale_l, (dot_comm _ n). ring.
Qed.
Lemma nth_in_face (f : list Z) i : (i < length f)%nat -> In (nth i f 0%Z) f. Proof. apply nth_In. Qed.
Lemma at_in vs nv (f : list Z) x : nv = length vs -> (forall y, In y f -> (0 <= y < Z.of_nat nv)%Z) -> In x f -> In (at_index vs x) vs.
Proof. intros -> B X. unfold at_index. apply nth_In. specialize (B x X). lia. Qed.
Lemma face_negative vs f n q d : (3 <= length f)%nat -> (forall y, In y f -> (0 <= y < Z.of_nat (length vs))%Z) -> outward vs f n ->
  (forall x, In x f -> dot n (minus q (at_index vs x)) < 0) -> (forall v, In v vs -> dot d v < dot d q) ->
  total (fun e => eform q d (at_index vs (fst e)) (at_index vs (snd e))) (directed f) < 0.
Proof.
  intros L B O H D. set (g := fun a b => eform q d (at_index vs a) (at_index vs b)). change (total (fun e => g (fst e) (snd e)) (directed f) < 0).
  set (x := nth 0 f 0%Z). assert (X : In x f) by (apply nth_in_face; lia).
  assert (DA : forall y, In y f -> dot d (at_index vs y) < dot d q) by (intros y Y; apply D, (at_in vs (length vs) f); auto).
  assert (NN : 0 < dot n n). { pose proof (dot_pos n). destruct (Req_dec (dot n n) 0) as [E|]; [|lra]. apply dot_zero in E. now apply (outward_nz _ _ _ O) in E. }
  assert (DD : 0 < dot d d).
  { pose proof (dot_pos d). destruct (Req_dec (dot d d) 0) as [E|]; [|lra]. apply dot_zero in E. specialize (DA x X). rewrite E in DA. unfold origin in DA. gunf. cbn in DA. lra. }
  assert (T : forall a b, In a f -> In b f -> g x a + g a b + g b x = - (dot d d * (dot n (cross (minus (at_index vs a) (at_index vs x)) (minus (at_index vs b) (at_index vs x))) / dot n n * - dot n (minus q (at_index vs x)))) /
     ((dot d q - dot d (at_index vs x)) * (dot d q - dot d (at_index vs a)) * (dot d q - dot d (at_index vs b)))).
  { intros a b A A'. unfold g. rewrite eform_tri by auto. rewrite (fan_volume vs f n q x a b O X A A'). reflexivity. }
  assert (P : forall a b, In a f -> In b f -> 0 < (dot d q - dot d (at_index vs x)) * (dot d q - dot d (at_index vs a)) * (dot d q - dot d (at_index vs b))).
  { intros a b A A'. pose proof (DA x X). pose proof (DA a A). pose proof (DA b A'). apply Rmult_lt_0_compat; [apply Rmult_lt_0_compat|]; lra. }
  pose proof (H x X) as HX. apply face_sum; [exact L|intros a b; apply eform_anti| |]; fold x.
  - intros a b I. pose proof (directed_vertex f a b I) as (A & A'). rewrite (T a b A A'). specialize (P a b A A').
    assert (K : 0 <= dot n (cross (minus (at_index vs a) (at_index vs x)) (minus (at_index vs b) (at_index vs x)))).
    { pose proof (left_of_edges _ _ _ O a b x I X) as K. replace (dot n (cross (minus (at_index vs a) (at_index vs x)) (minus (at_index vs b) (at_index vs x)))) with (dot n (cross (minus (at_index vs b) (at_index vs a)) (minus (at_index vs x) (at_index vs a)))); [exact K|]. unfold cross; gunf; cbn; ring. }
    set (V := _ * _ * _) in *. set (k := dot n (cross _ _)) in *. unfold Rdiv. apply Rmult_le_reg_r with V; [exact P|]. rewrite Rmult_assoc, Rinv_l by lra. rewrite Rmult_1_r, Rmult_0_l. assert (0 <= dot d d * (k * / dot n n * - dot n (minus q (at_index vs x)))); [|lra].
    apply Rmult_le_pos; [lra|]. apply Rmult_le_pos; [|lra]. apply Rmult_le_pos; [exact K|]. left. now apply Rinv_0_lt_compat.
  - assert (A : In (nth 1 f 0%Z) f) by (apply nth_in_face; lia). assert (A' : In (nth 2 f 0%Z) f) by (apply nth_in_face; lia). rewrite (T _ _ A A'). specialize (P _ _ A A'). pose proof (first_corner _ _ _ O) as K. fold x in K.
    set (V := _ * _ * _) in *. set (k := dot n (cross _ _)) in *. unfold Rdiv. apply Rmult_lt_reg_r with V; [exact P|]. rewrite Rmult_assoc, Rinv_l by lra. rewrite Rmult_1_r, Rmult_0_l. assert (0 < dot d d * (k * / dot n n * - dot n (minus q (at_index vs x)))); [|lra].
    apply Rmult_lt_0_compat; [lra|]. apply Rmult_lt_0_compat; [|lra]. apply Rmult_lt_0_compat; [exact K|]. now apply Rinv_0_lt_compat.
Qed.
(** No direction separates a point strictly behind all faces from the vertices. *)
Lemma not_separated vs fs q d : valid (length vs) fs -> closed fs -> fs <> [] -> (forall f, In f fs -> exists n, outward vs f n /\ forall x, In x f -> dot n (minus q (at_index vs x)) < 0) ->
  (forall v, In v vs -> dot d v < dot d q) -> False.
Proof.
  intros V C NE H D. set (g := fun a b => eform q d (at_index vs a) (at_index vs b)).
  assert (Z : total (fun e => g (fst e) (snd e)) (all_directed fs) = 0) by (apply closed_sum; [exact C|intros a b _; apply eform_anti]).
  unfold all_directed in Z. rewrite total_flat in Z. assert (N : total (fun f => total (fun e => g (fst e) (snd e)) (directed f)) fs < 0); [|lra].
  apply total_neg; [exact NE|]. intros f F. destruct (H f F) as (n & O & K). destruct (V f F) as (L & _ & B). now apply (face_negative vs f n).
Qed.
(** A gap stays a gap after a small enough move. *)
Lemma small_move (d q c : pt) vs : (forall v, In v vs -> dot d v < dot d q) -> exists k, 0 < k <= 1 /\ forall v, In v vs -> dot d v < dot d (plus q (scale k (minus c q))).
Proof.
  intros H. assert (M : exists m, 0 < m /\ forall v, In v vs -> dot d v + m <= dot d q).
  { induction vs as [|v vs IH]; [exists 1; split; [lra|intros ? []]|]. destruct IH as (m & M & K); [intros u U; apply H; now right|]. pose proof (H v (or_introl eq_refl)). exists (Rmin m (dot d q - dot d v)). split; [apply Rmin_glb_lt; lra|].
    intros u [<-|U]; [pose proof (Rmin_r m (dot d q - dot d v)); lra|]. pose proof (Rmin_l m (dot d q - dot d v)). specialize (K u U). lra. }
  destruct M as (m & M & K). set (w := dot d (minus c q)). exists (m / (m + Rabs w + 1)). pose proof (Rabs_pos w). assert (Q : 0 < m + Rabs w + 1) by lra. split.
  - split; [apply Rdiv_lt_0_compat; lra|]. apply Rmult_le_reg_r with (m + Rabs w + 1); [exact Q|]. unfold Rdiv. rewrite Rmult_assoc, Rinv_l by lra. lra.
  - intros v I. specialize (K v I). rewrite dot_plus_r, dot_scale_r. fold w. enough (- m < m / (m + Rabs w + 1) * w) by lra. apply Rmult_lt_reg_r with (m + Rabs w + 1); [exact Q|]. replace (m / (m + Rabs w + 1) * w * (m + Rabs w + 1)) with (m * w) by (field; lra). pose proof (Rle_abs (- w)). rewrite Rabs_Ropp in *. nra.
Qed.
Theorem solid_hull vs fs q : convex_solid vs fs -> behind_all vs fs q -> in_hull vs q.
Proof.
  intros (V & C & NE & c & IC) BA. assert (NV : vs <> []).
  { intros ->. destruct fs as [|f fs]; [easy|]. destruct (V f (or_introl eq_refl)) as (L & _ & B). destruct f as [|x f]; [cbn in L; lia|]. specialize (B x (or_introl eq_refl)). cbn in B. lia. }
  destruct (hull_separate vs q NV) as [I|(d & D)]; [exact I|]. exfalso. destruct (small_move d q c vs D) as (k & K & D').
  apply (not_separated vs fs (plus q (scale k (minus c q))) d V C NE); [|exact D']. intros f F. destruct (IC f F) as (n & O & H). exists n. split; [exact O|]. intros x X. specialize (H x X). specialize (BA f n F O x X).
  replace (minus (plus q (scale k (minus c q))) (at_index vs x)) with (plus (scale (1 - k) (minus q (at_index vs x))) (scale k (minus c (at_index vs x)))) by (apply vec_ext; gunf; cbn; ring).
  rewrite dot_plus_r, !dot_scale_r. nra.
Qed.
Theorem hull_behind vs fs q : in_hull vs q -> behind_all vs fs q.
Proof.
  intros I f n F O x X. apply (I (fun q => dot n (minus q (at_index vs x)) <= 0)).
  - intros u v k U W K. replace (minus (plus u (scale k (minus v u))) (at_index vs x)) with (plus (scale (1 - k) (minus u (at_index vs x))) (scale k (minus v (at_index vs x)))) by (apply vec_ext; gunf; cbn; ring). rewrite dot_plus_r, !dot_scale_r. nra.
  - intros v V. now apply (behind _ _ _ O).
Qed.
Lemma nz_pos n : n <> origin -> 0 < dot n n.
Proof. intros N. pose proof (dot_pos n). destruct (Req_dec (dot n n) 0) as [E|]; [now apply dot_zero in E|lra]. Qed.
(** A triangular face. *)
Lemma outward_triangle vs i j k : let n := cross (minus (at_index vs j) (at_index vs i)) (minus (at_index vs k) (at_index vs i)) in
  n <> origin -> (forall v, In v vs -> dot n (minus v (at_index vs i)) <= 0) -> outward vs [i; j; k] n.
Proof.
  intros n NZ H. pose proof (nz_pos n NZ) as NN. set (a := at_index vs i) in *. set (b := at_index vs j) in *. set (c := at_index vs k) in *.
  assert (B0 : dot n (minus b a) = 0) by (unfold n, cross; gunf; cbn [vx vy vz]; ring). assert (C0 : dot n (minus c a) = 0) by (unfold n, cross; gunf; cbn [vx vy vz]; ring).
  assert (FL : forall x, In x [i; j; k] -> dot n (minus (at_index vs x) a) = 0) by (intros x [<-|[<-|[<-|[]]]]; [fold a; unfold n, cross; gunf; cbn [vx vy vz]; ring|exact B0|exact C0]).
  split.
  - intros x y X Y. pose proof (FL x X) as EX. pose proof (FL y Y) as EY. rewrite dot_minus_r in *. lra.
  - intros u v x I X. assert (Z : 0 <= dot n n) by lra. change (directed [i; j; k]) with [(i, j); (j, k); (k, i)] in I.
    destruct I as [E|[E|[E|[]]]]; injection E as <- <-; destruct X as [<-|[<-|[<-|[]]]]; fold a b c;
      match goal with |- 0 <= ?g => first [replace g with 0 by (unfold n, cross; gunf; cbn [vx vy vz]; ring); lra|replace g with (dot n n) by (unfold n, cross; gunf; cbn [vx vy vz]; ring); exact Z] end.
  - cbn [nth]. fold a b c n. exact NN.
  - intros x v X V. pose proof (FL x X) as EX. specialize (H v V). rewrite dot_minus_r in *. lra.
Qed.
