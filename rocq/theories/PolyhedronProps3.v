(** C100: extreme and nearest vertices of a polyhedron, by full scan and by climbing along the edges. *)
From Coq Require Import Reals Lra Psatz ZArith Bool List Permutation Classical Lia.
From Verif Require Import Num NumR ScalarProofs Vec3Model GeoTypes GeoSpec GeoLemmas AabbSpec LineModel LineSpec LineProps MatSpec MatProofs MatProofs2 SphereSpec SatTheory PlaneModel PlaneSpec PlaneProps PolyTopoModel PolyTopoSpec PolyTopoProofs PolyTopoProps PolyTopoProps3 PolygonModel PolygonProps3 PolyhedronModel PolyhedronSpec PolyhedronProofs PolyhedronProps PolyhedronProps2.
Import ListNotations.
Open Scope R_scope.
Ltac Zify.zify_post_hook ::= idtac.

(** ** Sums around a vertex *)
Lemma total_fst (g : Z -> R) v b : forall es : list (Z * Z), NoDup (map fst es) -> In (v, b) es -> total (fun e => if (fst e =? v)%Z then g (snd e) else 0) es = g b.
Proof.
  assert (Z0 : forall es : list (Z * Z), ~ In v (map fst es) -> total (fun e => if (fst e =? v)%Z then g (snd e) else 0) es = 0).
  { induction es as [|(x & y) es IH]; intros N; [reflexivity|]. cbn [total fst snd map In] in *. destruct (Z.eqb_spec x v); [tauto|]. rewrite IH by tauto. ring. }
  induction es as [|(x & y) es IH]; intros N I; [destruct I|]. cbn [total fst snd map] in *. inversion N as [|? ? N1 N2]; subst. destruct I as [E|I].
  - injection E as -> ->. rewrite Z.eqb_refl, Z0 by exact N1. ring.
  - destruct (Z.eqb_spec x v) as [->|_]; [exfalso; apply N1; apply in_map_iff; exists (v, b); auto|]. rewrite IH by assumption. ring.
Qed.
Lemma total_fst0 (g : Z -> R) v : forall es : list (Z * Z), ~ In v (map fst es) -> total (fun e => if (fst e =? v)%Z then g (snd e) else 0) es = 0.
Proof. induction es as [|(x & y) es IH]; intros N; [reflexivity|]. cbn [total fst snd map In] in *. destruct (Z.eqb_spec x v); [tauto|]. rewrite IH by tauto. ring. Qed.
Lemma map_rv_fst es : map fst (map rv es) = map snd es. Proof. rewrite map_map. reflexivity. Qed.
Lemma total_snd (g : Z -> R) v a es : NoDup (map snd es) -> In (a, v) es -> total (fun e => if (snd e =? v)%Z then g (fst e) else 0) es = g a.
Proof.
  intros N I. rewrite <- map_rv_fst in N. pose proof (total_fst g v a (map rv es) N) as H. rewrite total_map in H. apply H. apply in_map_iff. exists (a, v). auto.
Qed.
Lemma total_snd0 (g : Z -> R) v es : ~ In v (map snd es) -> total (fun e => if (snd e =? v)%Z then g (fst e) else 0) es = 0.
Proof. intros N. rewrite <- map_rv_fst in N. pose proof (total_fst0 g v (map rv es) N) as H. rewrite total_map in H. exact H. Qed.
Lemma total_minus {A : Type} (g h : A -> R) l : total (fun x => g x - h x) l = total g l - total h l.
Proof. induction l as [|x l IH]; cbn; [ring|]. rewrite IH. ring. Qed.
Lemma total_nonneg {A : Type} (g : A -> R) l : (forall x, In x l -> 0 <= g x) -> 0 <= total g l.
Proof. induction l as [|x l IH]; intros H; cbn; [lra|]. pose proof (H x (or_introl eq_refl)). assert (0 <= total g l) by (apply IH; intros y Y; apply H; now right). lra. Qed.
Lemma total_pos {A : Type} (g : A -> R) l x : (forall y, In y l -> 0 <= g y) -> In x l -> 0 < g x -> 0 < total g l.
Proof.
  intros H I P. apply in_split in I as (l1 & l2 & ->). rewrite total_app. cbn. assert (0 <= total g l1) by (apply total_nonneg; intros y Y; apply H, in_app_iff; now left). assert (0 <= total g l2) by (apply total_nonneg; intros y Y; apply H, in_app_iff; right; now right). lra.
Qed.
(** The corner of a face at one of its vertices. *)
Lemma in_out f a v : NoDup f -> (3 <= length f)%nat -> In (a, v) (directed f) -> In (v, a) (directed f) -> False.
Proof.
  intros ND L I J. unfold directed in I, J. apply in_map_iff in I as (i & E1 & I). apply in_map_iff in J as (j & E2 & J). apply in_seq in I, J. injection E1 as <- <-. injection E2 as E2 E3.
  eapply NoDup_nth in E2; [|exact ND|lia|apply Nat.mod_upper_bound; lia]. eapply NoDup_nth in E3; [|exact ND|apply Nat.mod_upper_bound; lia|lia].
  assert (M : forall k, (k < length f)%nat -> Nat.modulo (k + 1) (length f) = (k + 1)%nat /\ (k + 1 < length f)%nat \/ Nat.modulo (k + 1) (length f) = 0%nat /\ (k + 1 = length f)%nat).
  { intros k K. destruct (Nat.eq_dec (k + 1) (length f)) as [E|E]; [right; rewrite E, Nat.mod_same by lia; lia|left; rewrite Nat.mod_small by lia; lia]. }
  destruct (M i ltac:(lia)) as [(M1 & Q1)|(M1 & Q1)], (M j ltac:(lia)) as [(M2 & Q2)|(M2 & Q2)]; lia.
Qed.

(** ** On a convex polyhedron a vertex that no neighbour beats is extreme *)
(** A proper corner of the solid: some plane touches it only there. *)
Definition corner (vs : list pt) (v : pt) : Prop := exists m, forall w, In w vs -> w <> v -> dot m (minus w v) < 0.
Section Local.
  Context (vs : list pt) (fs : list (list Z)) (v : Z) (m d g : pt).
  Context (V : valid (length vs) fs) (C : closed fs) (TD : tidy vs fs).
  Context (M : forall w, In w vs -> w <> at_index vs v -> dot m (minus w (at_index vs v)) < 0).
  Context (N : forall f, In f fs -> exists n, outward vs f n /\ forall x, In x f -> dot n (minus (plus (at_index vs v) g) (at_index vs x)) < 0).
  Context (LOW : forall b, In (v, b) (all_directed fs) -> dot d (at_index vs b) <= dot d (at_index vs v)) (DG : 0 < dot d g) (MG : dot m g < 0).
  Let at_ := at_index vs.
  Let D := minus (scale (dot m g) d) (scale (dot d g) m).
  Let K := cross g D.
  Let psi (b : Z) : R := dot K (minus (at_ b) (at_ v)) / dot D (minus (at_ b) (at_ v)).
  Lemma ends_at a b : In (a, b) (all_directed fs) -> In (at_ a) vs /\ In (at_ b) vs.
  Proof. intros I. apply all_directed_in in I as (f & F & I). apply directed_vertex in I as (A & B). destruct (V f F) as (_ & _ & R0). split; apply (at_in vs (length vs) f); auto. Qed.
  Lemma edge_apart a b : In (a, b) (all_directed fs) -> at_ a <> at_ b.
  Proof.
    intros I E. assert (J := proj2 C a b I). pose proof (proj1 TD a b b a I J E) as Q. subst b. apply all_directed_in in I as (f & F & I). destruct (V f F) as (L & ND & _). now apply (directed_loop f a a ND ltac:(lia) I).
  Qed.
  Lemma delta_pos b : In (v, b) (all_directed fs) -> 0 < dot D (minus (at_ b) (at_ v)) /\ dot m (minus (at_ b) (at_ v)) < 0.
  Proof.
    intros I. pose proof (edge_apart v b I) as NE. destruct (ends_at v b I) as (_ & IB). pose proof (M (at_ b) IB (fun E => NE (eq_sym E))) as MB. fold at_ in MB. pose proof (LOW b I) as LB. fold at_ in LB. split; [|exact MB].
    unfold D. assert (E : dot (minus (scale (dot m g) d) (scale (dot d g) m)) (minus (at_ b) (at_ v)) = dot m g * (dot d (at_ b) - dot d (at_ v)) - dot d g * dot m (minus (at_ b) (at_ v))) by (gunf; cbn [vx vy vz]; ring). rewrite E. nra.
  Qed.
  Lemma psi_diff a b : In (v, a) (all_directed fs) -> In (v, b) (all_directed fs) ->
    psi b - psi a = - (dot D D * dot g (cross (minus (at_ b) (at_ v)) (minus (at_ a) (at_ v)))) / (dot D (minus (at_ b) (at_ v)) * dot D (minus (at_ a) (at_ v))).
  Proof.
    intros A B. pose proof (proj1 (delta_pos a A)) as PA. pose proof (proj1 (delta_pos b B)) as PB. unfold psi. set (x := minus (at_ b) (at_ v)) in *. set (y := minus (at_ a) (at_ v)) in *.
    assert (GD : dot g D = 0) by (unfold D; gunf; cbn [vx vy vz]; ring).
    assert (E : dot K x * dot D y - dot K y * dot D x = - (dot D D * dot g (cross x y)) + dot g D * dot D (cross x y)) by (unfold K; clearbody D; clear; unfold cross; gunf; cbn [vx vy vz]; ring).
    rewrite GD in E. apply Rmult_eq_reg_r with (dot D x * dot D y); [|nra]. field_simplify; [|lra|lra]. lra.
  Qed.
  Lemma corner_pos f a b : In f fs -> In (v, b) (directed f) -> In (a, v) (directed f) -> 0 < psi b - psi a.
  Proof.
    intros F B A. assert (IB : In (v, b) (all_directed fs)) by (apply all_directed_in; eauto). assert (IA' : In (a, v) (all_directed fs)) by (apply all_directed_in; eauto). assert (IA := proj2 C a v IA').
    rewrite (psi_diff a b IA IB). destruct (delta_pos a IA) as (PA & MA). destruct (delta_pos b IB) as (PB & MB). destruct (N f F) as (n & O & H). destruct (V f F) as (L & ND & _).
    pose proof (directed_vertex f v b B) as (FV & FB). pose proof (directed_vertex f a v A) as (FA & _). set (x := minus (at_ b) (at_ v)) in *. set (y := minus (at_ a) (at_ v)) in *.
    assert (NX : dot n x = 0) by (apply (flat _ _ _ O); assumption). assert (NY : dot n y = 0) by (apply (flat _ _ _ O); assumption). pose proof (nz_pos _ (outward_nz _ _ _ O)) as NN.
    pose proof (cross_normal n x y (outward_nz _ _ _ O) NX NY) as CN. pose proof (left_of_edges _ _ _ O v b a B FA) as LE. fold at_ in LE. fold x y in LE.
    assert (POS : dot n (cross x y) <> 0).
    { intros Z. rewrite Z in CN. assert (CZ : cross x y = origin) by (rewrite CN; apply vec_ext; unfold origin; gunf; cbn; unfold Rdiv; ring). assert (XN : x <> origin) by (intros Q; rewrite Q, dot_origin_r in PB; lra).
      destruct (cross_parallel x y XN CZ) as (t & T). assert (TP : 0 < t) by (rewrite T, dot_scale_r in PA; nra). assert (BA : b = a) by (apply (proj2 TD v b a t IB IA TP); exact T). subst b. exact (in_out f a v ND L A B). }
    specialize (H v FV). replace (minus (plus (at_index vs v) g) (at_index vs v)) with g in H by (apply vec_ext; gunf; cbn [vx vy vz]; ring).
    assert (G : dot g (cross x y) < 0) by (rewrite CN, dot_scale_r, (dot_comm g n); assert (0 < dot n (cross x y) / dot n n) by (apply Rdiv_lt_0_compat; lra); nra).
    assert (DD : 0 < dot D D) by (apply nz_pos; intros Q; rewrite Q in PA; rewrite dot_comm, dot_origin_r in PA; lra).
    apply Rdiv_lt_0_compat; nra.
  Qed.
  Lemma beaten : ~ exists f, In f fs /\ In v f.
  Proof.
    intros (f0 & F0 & X0). set (h := fun a b : Z => (if (a =? v)%Z then psi b else 0) - (if (b =? v)%Z then psi a else 0)).
    assert (S0 : total (fun e => h (fst e) (snd e)) (all_directed fs) = 0) by (apply closed_sum; [exact C|]; intros a b _; unfold h; ring).
    unfold all_directed in S0. rewrite total_flat in S0.
    assert (FACE : forall f, In f fs -> (In v f -> 0 < total (fun e => h (fst e) (snd e)) (directed f)) /\ (~ In v f -> total (fun e => h (fst e) (snd e)) (directed f) = 0)).
    { intros f F. destruct (V f F) as (L & ND & _). unfold h. rewrite (total_minus (fun e : Z * Z => if (fst e =? v)%Z then psi (snd e) else 0) (fun e => if (snd e =? v)%Z then psi (fst e) else 0)). split; intros X.
      - destruct (directed_out f v X) as (b & B). destruct (directed_in f v X) as (a & A). rewrite (total_fst psi v b), (total_snd psi v a); [apply (corner_pos f a b F B A)| | | |].
        + apply (Permutation_NoDup (Permutation_sym (map_snd_directed f))). exact ND.
        + exact A.
        + now rewrite map_fst_directed.
        + exact B.
      - rewrite total_fst0, total_snd0; [ring| |].
        + intros Q. apply X. apply (Permutation_in _ (map_snd_directed f)). exact Q.
        + now rewrite map_fst_directed. }
    assert (0 < total (fun f => total (fun e => h (fst e) (snd e)) (directed f)) fs); [|lra]. apply (total_pos _ fs f0); [|exact F0|now apply FACE]. intros f F. destruct (FACE f F) as (H1 & H2). destruct (classic (In v f)) as [X|X]; [left; now apply H1|right; symmetry; now apply H2].
  Qed.
End Local.
Theorem C100_local (vs : list pt) (fs : list (list Z)) v d : convex_solid vs fs -> tidy vs fs -> (exists f, In f fs /\ In v f) -> corner vs (at_index vs v) ->
  (forall b, In (v, b) (all_directed fs) -> dot d (at_index vs b) <= dot d (at_index vs v)) -> forall q, in_hull vs q -> dot d q <= dot d (at_index vs v).
Proof.
  intros S TD US (m & M) LOW. pose proof S as (V & C & NE & c & IC).
  assert (G : forall w, In w vs -> dot d w <= dot d (at_index vs v)).
  { intros w W. apply Rnot_lt_le. intros L. assert (CH : in_hull vs c).
    { apply (solid_hull _ _ _ S). intros f n F O x X. destruct (IC f F) as (n' & O' & H). destruct (V f F) as (LF & _). destruct (outward_unique (Hed vs fs) f n' n LF O' O) as (k & K0 & ->). rewrite dot_scale_l. specialize (H x X). cbn [hv] in *. nra. }
    assert (WV : w <> at_index vs v) by (intros ->; lra).
    assert (MC : dot m (minus c (at_index vs v)) <= 0).
    { apply (CH (fun z => dot m (minus z (at_index vs v)) <= 0)).
      - intros x y k X Y K. replace (dot m (minus (plus x (scale k (minus y x))) (at_index vs v))) with ((1 - k) * dot m (minus x (at_index vs v)) + k * dot m (minus y (at_index vs v))) by (gunf; cbn [vx vy vz]; ring). nra.
      - intros u U. destruct (classic (u = at_index vs v)) as [->|Q]; [|left; now apply M]. replace (minus (at_index vs v) (at_index vs v)) with origin by (apply vec_ext; unfold origin; gunf; cbn [vx vy vz]; ring). rewrite dot_origin_r. lra. }
    destruct (small_move d w c [at_index vs v]) as (k & K & KM); [intros u [<-|[]]; exact L|]. assert (K2 : exists k, 0 < k < 1 /\ dot d (at_index vs v) < dot d (plus w (scale k (minus c w)))).
    { specialize (KM _ (or_introl eq_refl)). exists (k / 2). split; [lra|]. replace (dot d (plus w (scale (k / 2) (minus c w)))) with (dot d w / 2 + dot d (plus w (scale k (minus c w))) / 2) by (gunf; cbn [vx vy vz]; field). lra. }
    clear k K KM. destruct K2 as (k & K & KM).
    apply (beaten vs fs v m d (minus (plus w (scale k (minus c w))) (at_index vs v)) V C TD M); [| exact LOW| | |exact US].
    - intros f F. destruct (IC f F) as (n & O & H). exists n. split; [exact O|]. intros x X. specialize (H x X). pose proof (behind _ _ _ O x w X W) as B.
      replace (dot n (minus (plus (at_index vs v) (minus (plus w (scale k (minus c w))) (at_index vs v))) (at_index vs x))) with ((1 - k) * dot n (minus w (at_index vs x)) + k * dot n (minus c (at_index vs x))) by (gunf; cbn [vx vy vz]; ring). nra.
    - replace (dot d (minus (plus w (scale k (minus c w))) (at_index vs v))) with (dot d (plus w (scale k (minus c w))) - dot d (at_index vs v)) by (gunf; cbn [vx vy vz]; ring). lra.
    - pose proof (M w W WV) as MW. replace (dot m (minus (plus w (scale k (minus c w))) (at_index vs v))) with ((1 - k) * dot m (minus w (at_index vs v)) + k * dot m (minus c (at_index vs v))) by (gunf; cbn [vx vy vz]; ring). nra. }
  intros q I. apply (I (fun z => dot d z <= dot d (at_index vs v))); [|exact G]. intros x y k X Y K. replace (dot d (plus x (scale k (minus y x)))) with ((1 - k) * dot d x + k * dot d y) by (gunf; cbn [vx vy vz]; ring). nra.
Qed.
Print Assumptions C100_local.

(** ** [ExtremeVertexConvex] *)
Section Climb.
  Context (P : polyhedron R) (d : pt) (adj : list (list Z)).
  Context (S : convex_solid (hv P) (hf P)) (TD : tidy (hv P) (hf P)).
  Context (CO : forall f v, In f (hf P) -> In v f -> corner (hv P) (at_index (hv P) v)).
  Context (ADJ : forall a b, (0 <= a < Z.of_nat (length (hv P)))%Z -> In b (nth (Z.to_nat a) adj []) <-> In (a, b) (all_directed (hf P))).
  Let used v := exists f, In f (hf P) /\ In v f.
  Let h v := dot d (at_index (hv P) v).
  Lemma used_range v : used v -> (0 <= v < Z.of_nat (length (hv P)))%Z.
  Proof. intros (f & F & X). destruct S as (V & _). destruct (V f F) as (_ & _ & B). now apply B. Qed.
  Lemma next_used a b : In (a, b) (all_directed (hf P)) -> used b.
  Proof. intros I. apply all_directed_in in I as (f & F & I). apply directed_vertex in I as (_ & B). now exists f. Qed.
  Lemma used_in v : used v -> In (at_index (hv P) v) (hv P).
  Proof. intros U. pose proof (used_range v U). unfold at_index. apply nth_In. lia. Qed.
  Lemma memb n vis : existsb (Z.eqb n) vis = true <-> In n vis.
  Proof. rewrite existsb_exists. split; [intros (x & I & E); apply Z.eqb_eq in E; now subst|intros I; exists n; split; [exact I|apply Z.eqb_refl]]. Qed.
  Definition scanR (vis : list Z) (cur : Z) := fix scan (ns : list Z) (sb : Z) (sbD : R) : Z + Z :=
    match ns with
    | [] => inr sb
    | n :: rest => if existsb (Z.eqb n) vis then scan rest sb sbD else if Rltb (h cur) (h n) then inl n else if Rltb sbD (h n) then scan rest n (h n) else scan rest sb sbD
    end.
  Lemma scan_spec vis cur : forall ns sb sbD, match scanR vis cur ns sb sbD with
    | inl n => In n ns /\ ~ In n vis /\ h cur < h n
    | inr sb' => (forall n, In n ns -> In n vis \/ h n <= h cur) /\ (sb' = sb \/ In sb' ns)
    end.
  Proof.
    induction ns as [|n ns IH]; intros sb sbD; [cbn; split; [intros ? []|now left]|].
    change (scanR vis cur (n :: ns) sb sbD) with (if existsb (Z.eqb n) vis then scanR vis cur ns sb sbD else if Rltb (h cur) (h n) then inl n else if Rltb sbD (h n) then scanR vis cur ns n (h n) else scanR vis cur ns sb sbD).
    destruct (existsb (Z.eqb n) vis) eqn:E1.
    - apply memb in E1. specialize (IH sb sbD). destruct (scanR vis cur ns sb sbD) as [k|k]; [split; [now right|apply IH]|]. destruct IH as (H1 & H2). split; [|destruct H2; [now left|right; now right]]. intros m [<-|I]; [now left|now apply H1].
    - assert (NV : ~ In n vis) by (intros Q; apply memb in Q; congruence). destruct (Rltb (h cur) (h n)) eqn:E2; [apply Rltb_true in E2; split; [now left|now split]|]. apply Rltb_false in E2. destruct (Rltb sbD (h n)).
      + specialize (IH n (h n)). destruct (scanR vis cur ns n (h n)) as [k|k]; [split; [now right|apply IH]|]. destruct IH as (H1 & H2). split; [|right; destruct H2; [left; congruence|now right]]. intros m [<-|I]; [now right|now apply H1].
      + specialize (IH sb sbD). destruct (scanR vis cur ns sb sbD) as [k|k]; [split; [now right|apply IH]|]. destruct IH as (H1 & H2). split; [|destruct H2; [now left|right; now right]]. intros m [<-|I]; [now right|now apply H1].
  Qed.
  Lemma climb_step fuel vis cur : climb (Datatypes.S fuel) P adj d vis cur =
    match scanR (cur :: vis) cur (nth (Z.to_nat cur) adj []) (-1)%Z (h cur - 1 / 1000) with
    | inl n => climb fuel P adj d (cur :: vis) n
    | inr sb => if (negb (sb =? -1)%Z && negb (existsb (Z.eqb sb) (cur :: vis)))%bool then
                  let '(t, D, vis') := climb fuel P adj d (cur :: vis) sb in if Rltb (h cur) D then (t, D, vis') else (cur, h cur, vis')
                else (cur, h cur, cur :: vis)
    end.
  Proof. cbn [climb]. rsimpl. reflexivity. Qed.
  Lemma climb_value : forall fuel vis cur, used cur -> let '(i, D, _) := climb fuel P adj d vis cur in used i /\ D = h i.
  Proof.
    induction fuel as [|fuel IH]; intros vis cur U; [cbn; split; [exact U|reflexivity]|]. rewrite climb_step. pose proof (scan_spec (cur :: vis) cur (nth (Z.to_nat cur) adj []) (-1)%Z (h cur - 1 / 1000)) as SC.
    destruct (scanR _ _ _ _ _) as [n|sb].
    - destruct SC as (I & _). apply ADJ in I; [|now apply used_range]. apply IH. now apply (next_used cur).
    - destruct SC as (_ & SB). destruct (negb (sb =? -1)%Z && _)%bool eqn:E; [|split; [exact U|reflexivity]]. apply andb_true_iff in E as (E & _). apply negb_true_iff, Z.eqb_neq in E. destruct SB as [->|I]; [easy|]. apply ADJ in I; [|now apply used_range].
      specialize (IH (cur :: vis) sb (next_used cur sb I)). destruct (climb fuel P adj d (cur :: vis) sb) as ((t & D) & vis'). destruct (Rltb (h cur) D); [exact IH|split; [exact U|reflexivity]].
  Qed.
  Lemma climb_max : forall fuel vis cur, used cur -> NoDup vis -> ~ In cur vis -> (forall v, In v vis -> used v /\ h v < h cur) -> (length (hv P) < fuel + length vis)%nat ->
    let '(i, D, _) := climb fuel P adj d vis cur in used i /\ D = h i /\ forall q, in_hull (hv P) q -> dot d q <= D.
  Proof.
    induction fuel as [|fuel IH]; intros vis cur U ND NI VIS L.
    { exfalso. assert (Q : (length vis <= length (hv P))%nat); [|cbn in L; lia]. rewrite <- (map_length Z.to_nat vis), <- (seq_length (length (hv P)) 0). apply NoDup_incl_length.
      - apply nodup_map_in; [|exact ND]. intros x y X Y E. pose proof (used_range x (proj1 (VIS x X))). pose proof (used_range y (proj1 (VIS y Y))). lia.
      - intros k K. apply in_map_iff in K as (x & <- & X). apply in_seq. pose proof (used_range x (proj1 (VIS x X))). lia. }
    rewrite climb_step. pose proof (scan_spec (cur :: vis) cur (nth (Z.to_nat cur) adj []) (-1)%Z (h cur - 1 / 1000)) as SC. destruct (scanR _ _ _ _ _) as [n|sb].
    - destruct SC as (I & NV & LT). apply ADJ in I; [|now apply used_range]. apply IH; [now apply (next_used cur)|now constructor|exact NV| |cbn [length]; lia].
      intros v [<-|X]; [now split|]. destruct (VIS v X) as (U1 & H1). split; [exact U1|lra].
    - destruct SC as (NB & SB). assert (MAX : forall q, in_hull (hv P) q -> dot d q <= h cur).
      { apply (C100_local (hv P) (hf P) cur d S TD U); [destruct U as (f & F & X); now apply (CO f)|]. intros b I. destruct (NB b) as [[<-|X]|X]; [apply ADJ; [now apply used_range|exact I]|lra| |exact X]. left. now apply VIS. }
      destruct (negb (sb =? -1)%Z && _)%bool eqn:E; [|now split]. apply andb_true_iff in E as (E & _). apply negb_true_iff, Z.eqb_neq in E. destruct SB as [->|I]; [easy|]. apply ADJ in I; [|now apply used_range].
      pose proof (climb_value fuel (cur :: vis) sb (next_used cur sb I)) as CV. destruct (climb fuel P adj d (cur :: vis) sb) as ((t & D) & vis'). destruct CV as (UT & ->).
      destruct (Rltb (h cur) (h t)) eqn:Q; [|now split]. apply Rltb_true in Q. exfalso. pose proof (MAX _ (hull_in _ _ (used_in t UT))). unfold h in *. lra.
  Qed.
End Climb.
(** Climbing from any vertex used by a face, with nothing visited, ends at a vertex farthest in the direction, with its distance. *)
Theorem C100_climb (P : polyhedron R) (d : pt) (start : Z) : convex_solid (hv P) (hf P) -> tidy (hv P) (hf P) ->
  (forall f v, In f (hf P) -> In v f -> corner (hv P) (at_index (hv P) v)) -> (exists f, In f (hf P) /\ In start f) ->
  let '(i, D, _) := Hed_ExtremeVertexConvex P (GenerateVertexAdjacencyData (length (hv P)) (hf P)) d [] start in
  (exists f, In f (hf P) /\ In i f) /\ D = dot d (at_index (hv P) i) /\ forall q, in_hull (hv P) q -> dot d q <= D.
Proof.
  intros S TD CO U. unfold Hed_ExtremeVertexConvex. apply climb_max; try assumption.
  - intros a b R0. pose proof S as (V & _). assert (H : forall f x, In f (hf P) -> In x f -> (0 <= x < Z.of_nat (length (hv P)))%Z) by (intros f x F X; destruct (V f F) as (_ & _ & B); now apply B).
    destruct (C95_adjacency (length (hv P)) (hf P) H) as (_ & A). specialize (A (Z.to_nat a) ltac:(lia)). rewrite Z2Nat.id in A by lia. split; intros I.
    + apply (Permutation_in _ A) in I. apply in_map_iff in I as ((x & y) & E & I). apply filter_In in I as (I & Q). apply Z.eqb_eq in Q. cbn in E, Q. subst. exact I.
    + apply (Permutation_in _ (Permutation_sym A)). apply in_map_iff. exists (a, b). split; [reflexivity|]. apply filter_In. split; [exact I|apply Z.eqb_refl].
  - constructor.
  - easy.
  - intros v [].
  - cbn. lia.
Qed.
Print Assumptions C100_climb.

(** ** Full scans *)
Lemma extreme_spec d : forall rest pre best, (best < length pre)%nat -> (forall v, In v pre -> dot d v <= dot d (nth best pre origin)) -> (forall k, (k < best)%nat -> dot d (nth k pre origin) < dot d (nth best pre origin)) ->
  exists j, extremeLoop d rest (Z.of_nat (length pre)) (Z.of_nat best) (dot d (nth best pre origin)) = (Z.of_nat j, dot d (nth j (pre ++ rest) origin)) /\ (j < length (pre ++ rest))%nat /\
    (forall v, In v (pre ++ rest) -> dot d v <= dot d (nth j (pre ++ rest) origin)) /\ forall k, (k < j)%nat -> dot d (nth k (pre ++ rest) origin) < dot d (nth j (pre ++ rest) origin).
Proof.
  induction rest as [|w rest IH]; intros pre best L M F.
  { exists best. rewrite app_nil_r. cbn. tauto. }
  cbn [extremeLoop]. change (@Dot R Num_R) with dot. change (@nltb R Num_R) with Rltb. replace (pre ++ w :: rest) with ((pre ++ [w]) ++ rest) by (rewrite <- app_assoc; reflexivity).
  assert (NL : (Z.of_nat (length pre) + 1)%Z = Z.of_nat (length (pre ++ [w]))) by (rewrite app_length; cbn; lia). rewrite NL.
  assert (NB : nth best (pre ++ [w]) origin = nth best pre origin) by now rewrite app_nth1. assert (NW : nth (length pre) (pre ++ [w]) origin = w) by (rewrite app_nth2, Nat.sub_diag by lia; reflexivity).
  destruct (Rltb (dot d (nth best pre origin)) (dot d w)) eqn:E; [apply Rltb_true in E|apply Rltb_false in E].
  - pose proof (IH (pre ++ [w]) (length pre)) as G. rewrite NW in G. apply G; [rewrite app_length; cbn; lia| |].
    + intros v I. apply in_app_iff in I as [I|[<-|[]]]; [specialize (M v I)|]; lra.
    + intros k K. rewrite app_nth1 by exact K. pose proof (M (nth k pre origin) (nth_In _ _ K)). lra.
  - pose proof (IH (pre ++ [w]) best) as G. rewrite NB in G. apply G; [rewrite app_length; cbn; lia| |].
    + intros v I. apply in_app_iff in I as [I|[<-|[]]]; [now apply M|lra].
    + intros k K. rewrite app_nth1 by lia. now apply F.
Qed.
(** ExtremeVertex is the first vertex farthest in the direction; ExtremePoint is it, and ProjectToAxis the interval covered by the solid. *)
Theorem C100_extremes (P : polyhedron R) (d : pt) : hv P <> [] ->
  let i := Hed_ExtremeVertex P d in (0 <= i < Z.of_nat (length (hv P)))%Z /\ (forall q, in_hull (hv P) q -> dot d q <= dot d (at_index (hv P) i)) /\
  (forall k, (0 <= k < i)%Z -> dot d (at_index (hv P) k) < dot d (at_index (hv P) i)) /\
  Hed_ExtremePoint P d = (at_index (hv P) i, dot d (at_index (hv P) i)) /\
  let '(lo, hi) := Hed_ProjectToAxis P d in (exists a b, In a (hv P) /\ In b (hv P) /\ dot d a = lo /\ dot d b = hi) /\ forall q, in_hull (hv P) q -> lo <= dot d q <= hi.
Proof.
  intros NE. cbv zeta. assert (EX : forall e, let i := Hed_ExtremeVertex P e in (0 <= i < Z.of_nat (length (hv P)))%Z /\ (forall v, In v (hv P) -> dot e v <= dot e (at_index (hv P) i)) /\ forall k, (0 <= k < i)%Z -> dot e (at_index (hv P) k) < dot e (at_index (hv P) i)).
  { intros e. cbv zeta. unfold Hed_ExtremeVertex. destruct (hv P) as [|v rest]; [easy|]. destruct (extreme_spec e rest [v] 0) as (j & E & J & M & F); [cbn; lia|intros u [<-|[]]; cbn; lra|intros k K; lia|]. cbn [length Z.of_nat nth app] in *. change (Z.pos (Pos.of_succ_nat 0)) with 1%Z in E. change (@Dot R Num_R) with dot. rewrite E. cbn [fst].
    unfold at_index. rewrite Nat2Z.id. split; [lia|]. split; [exact M|]. intros k K. apply F. lia. }
  assert (HU : forall e q, in_hull (hv P) q -> dot e q <= dot e (at_index (hv P) (Hed_ExtremeVertex P e))).
  { intros e q I. apply (I (fun z => dot e z <= dot e (at_index (hv P) (Hed_ExtremeVertex P e)))); [|apply EX]. intros x y k X Y K. replace (dot e (plus x (scale k (minus y x)))) with ((1 - k) * dot e x + k * dot e y) by (gunf; cbn [vx vy vz]; ring). nra. }
  assert (INV : forall e, In (at_index (hv P) (Hed_ExtremeVertex P e)) (hv P)) by (intros e; unfold at_index; apply nth_In; pose proof (EX e) as (Q & _); lia).
  split; [apply EX|]. split; [apply HU|]. split; [apply EX|]. split.
  - unfold Hed_ExtremePoint. rewrite Vertex_at. change (@Dot R Num_R) with dot. now rewrite dot_comm.
  - unfold Hed_ProjectToAxis, Hed_ExtremePoint. rewrite !Vertex_at. change (@Dot R Num_R) with dot. cbn [fst]. split.
    + do 2 eexists. split; [apply (INV (vneg d))|]. split; [apply (INV d)|]. split; apply dot_comm.
    + intros q I. split; [|rewrite (dot_comm _ d); now apply HU]. pose proof (HU (vneg d) q I) as H. assert (VN : forall x, dot (vneg d) x = - dot d x) by (intros x; unfold vneg; rsimpl; gunf; cbn [vx vy vz]; ring). rewrite !VN in H. rewrite (dot_comm _ d). lra.
Qed.
Print Assumptions C100_extremes.
(** NearestVertex. *)
Lemma nearest_spec (p : pt) : forall rest pre best, (best < length pre)%nat -> (forall v, In v pre -> dist p (nth best pre origin) <= dist p v) ->
  exists j, nearestLoop p rest (Z.of_nat (length pre)) (Z.of_nat best) (DistanceSq p (nth best pre origin)) = Z.of_nat j /\ (j < length (pre ++ rest))%nat /\ forall v, In v (pre ++ rest) -> dist p (nth j (pre ++ rest) origin) <= dist p v.
Proof.
  assert (SQ : forall x y : pt, DistanceSq p x < DistanceSq p y <-> dist p x < dist p y).
  { assert (E : forall x : pt, DistanceSq p x = dist p x * dist p x) by (intros x; unfold dist, norm; rewrite sqrt_sqrt by apply dot_pos; unfold DistanceSq; rsimpl; gunf; cbn [vx vy vz]; ring). intros x y. rewrite !E. assert (0 <= dist p x) by (unfold dist, norm; apply sqrt_pos). assert (0 <= dist p y) by (unfold dist, norm; apply sqrt_pos). split; intros; nra. }
  induction rest as [|w rest IH]; intros pre best L M.
  { exists best. rewrite app_nil_r. cbn. tauto. }
  cbn [nearestLoop]. change (@nltb R Num_R) with Rltb. replace (pre ++ w :: rest) with ((pre ++ [w]) ++ rest) by (rewrite <- app_assoc; reflexivity).
  assert (NL : (Z.of_nat (length pre) + 1)%Z = Z.of_nat (length (pre ++ [w]))) by (rewrite app_length; cbn; lia). rewrite NL.
  assert (NB : nth best (pre ++ [w]) origin = nth best pre origin) by now rewrite app_nth1. assert (NW : nth (length pre) (pre ++ [w]) origin = w) by (rewrite app_nth2, Nat.sub_diag by lia; reflexivity).
  destruct (Rltb (DistanceSq p w) (DistanceSq p (nth best pre origin))) eqn:E; [apply Rltb_true in E; apply SQ in E|apply Rltb_false in E].
  - pose proof (IH (pre ++ [w]) (length pre)) as G. rewrite NW in G. apply G; [rewrite app_length; cbn; lia|]. intros v I. apply in_app_iff in I as [I|[<-|[]]]; [specialize (M v I)|]; lra.
  - pose proof (IH (pre ++ [w]) best) as G. rewrite NB in G. apply G; [rewrite app_length; cbn; lia|]. intros v I. apply in_app_iff in I as [I|[<-|[]]]; [now apply M|]. apply Rnot_lt_le. intros Q. apply SQ in Q. lra.
Qed.
Theorem C100_nearest (P : polyhedron R) (p : pt) : (hv P = [] -> Hed_NearestVertex P p = (-1)%Z) /\
  (hv P <> [] -> let i := Hed_NearestVertex P p in (0 <= i < Z.of_nat (length (hv P)))%Z /\ forall v, In v (hv P) -> dist p (at_index (hv P) i) <= dist p v).
Proof.
  unfold Hed_NearestVertex. destruct (hv P) as [|v rest]; [split; [reflexivity|easy]|]. split; [discriminate|]. intros _. destruct (nearest_spec p rest [v] 0) as (j & E & J & M); [cbn; lia|intros u [<-|[]]; cbn; lra|]. cbn [length Z.of_nat nth app] in *. change (Z.pos (Pos.of_succ_nat 0)) with 1%Z in E. cbv zeta. rewrite E. unfold at_index. rewrite Nat2Z.id. split; [lia|exact M].
Qed.
Print Assumptions C100_nearest.

(** The tetrahedron: all vertices are proper corners, and climbing from the origin along x+2y+3z ends at the top. *)
Lemma tetra_corner f v : In f (hf tetra) -> In v f -> corner (hv tetra) (at_index (hv tetra) v).
Proof.
  intros F X. pose proof tetra_at as (A0 & A1 & A2 & A3). assert (B : In v [0; 1; 2; 3]%Z) by (cbn in F; destruct F as [<-|[<-|[<-|[<-|[]]]]]; cbn in X |- *; intuition).
  destruct B as [<-|[<-|[<-|[<-|[]]]]]; rewrite ?A0, ?A1, ?A2, ?A3; [exists (V3 (-1) (-1) (-1))|exists (V3 1 0 0)|exists (V3 0 1 0)|exists (V3 0 0 1)]; intros w W NW; cbn in W; destruct W as [<-|[<-|[<-|[<-|[]]]]]; try (now elim NW); gunf; cbn [vx vy vz]; lra.
Qed.
Example C100_climb_witness : convex_solid (hv tetra) (hf tetra) /\ tidy (hv tetra) (hf tetra) /\ (forall f v, In f (hf tetra) -> In v f -> corner (hv tetra) (at_index (hv tetra) v)) /\ (exists f, In f (hf tetra) /\ In 0%Z f) /\
  let '(i, D, _) := Hed_ExtremeVertexConvex tetra (GenerateVertexAdjacencyData 4 (hf tetra)) (V3 1 2 3) [] 0 in D = 3.
Proof.
  split; [exact tetra_solid|]. split; [exact tetra_tidy|]. split; [exact tetra_corner|]. assert (U : exists f, In f (hf tetra) /\ In 0%Z f) by (exists [0; 2; 1]%Z; split; now left). split; [exact U|].
  pose proof (C100_climb tetra (V3 1 2 3) 0 tetra_solid tetra_tidy tetra_corner U) as H. change (length (hv tetra)) with 4%nat in H. destruct (Hed_ExtremeVertexConvex _ _ _ _ _) as ((i & D) & vis). destruct H as ((f & F & X) & E & M).
  assert (I3 : In (V3 0 0 1) (hv tetra)) by (right; right; right; now left). pose proof (M (V3 0 0 1) (hull_in _ _ I3)) as Q. pose proof tetra_at as (A0 & A1 & A2 & A3). assert (B : In i [0; 1; 2; 3]%Z) by (cbn in F; destruct F as [<-|[<-|[<-|[<-|[]]]]]; cbn in X |- *; intuition).
  destruct B as [<-|[<-|[<-|[<-|[]]]]]; rewrite ?A0, ?A1, ?A2, ?A3 in E; gunf; cbn [vx vy vz] in *; lra.
Qed.
