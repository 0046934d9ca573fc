(** Gauss-Jordan inversion, LU and Cholesky over square matrices of any size. *)
From Coq Require Import Reals Lra Psatz ZArith List PeanoNat Lia Bool.
From Verif Require Import Num NumR ScalarModel GMatModel GMatSpec.
Import ListNotations.
Ltac Zify.zify_post_hook ::= idtac.
Open Scope R_scope.

(** ** Sums and products *)
Lemma sumn_ext n f g : (forall k, (k < n)%nat -> f k = g k) -> sumn n f = sumn n g.
Proof. induction n as [|n IH]; intros E; cbn; [easy|]. rewrite IH, E by (try lia; intros; apply E; lia). easy. Qed.
Lemma sumn_plus n f g : sumn n (fun k => f k + g k) = sumn n f + sumn n g.
Proof. induction n as [|n IH]; cbn; [lra|]. rewrite IH. lra. Qed.
Lemma sumn_minus n f g : sumn n (fun k => f k - g k) = sumn n f - sumn n g.
Proof. induction n as [|n IH]; cbn; [lra|]. rewrite IH. lra. Qed.
Lemma sumn_scal n c f : sumn n (fun k => c * f k) = c * sumn n f.
Proof. induction n as [|n IH]; cbn; [lra|]. rewrite IH. lra. Qed.
Lemma sumn_scal_r n c f : sumn n (fun k => f k * c) = sumn n f * c.
Proof. induction n as [|n IH]; cbn; [lra|]. rewrite IH. lra. Qed.
Lemma sumn_zero n f : (forall k, (k < n)%nat -> f k = 0) -> sumn n f = 0.
Proof. induction n as [|n IH]; intros E; cbn; [easy|]. rewrite IH, E by (try lia; intros; apply E; lia). lra. Qed.
Lemma sumn_swap n m f : sumn n (fun i => sumn m (fun j => f i j)) = sumn m (fun j => sumn n (fun i => f i j)).
Proof.
  induction n as [|n IH]; cbn; [now rewrite sumn_zero|]. rewrite IH, <- sumn_plus. easy.
Qed.
Lemma sumn_delta n i f : (i < n)%nat -> sumn n (fun k => kron i k * f k) = f i.
Proof.
  induction n as [|n IH]; intros L; [lia|]. cbn. unfold kron at 2. destruct (Nat.eqb_spec i n) as [->|N].
  - rewrite sumn_zero; [lra|]. intros k Hk. unfold kron. destruct (Nat.eqb_spec n k); [lia|lra].
  - rewrite IH by lia. lra.
Qed.
Lemma sumn_delta_r n j f : (j < n)%nat -> sumn n (fun k => f k * kron k j) = f j.
Proof.
  intros L. rewrite <- (sumn_delta n j f L). apply sumn_ext. intros k _. unfold kron. rewrite Nat.eqb_sym.
  destruct (Nat.eqb j k); lra.
Qed.
(** A sum whose terms vanish from m on. *)
Lemma sumn_trunc n m f : (m <= n)%nat -> (forall k, (m <= k < n)%nat -> f k = 0) -> sumn n f = sumn m f.
Proof.
  induction n as [|n IH]; intros L Z; [now replace m with O by lia|].
  destruct (Nat.eq_dec m (S n)) as [->|N]; [easy|]. cbn. rewrite Z, IH by (try lia; intros; apply Z; lia). lra.
Qed.

Lemma meq_refl n A : meq n A A. Proof. now intros i j. Qed.
Lemma meq_sym n A B : meq n A B -> meq n B A. Proof. intros E i j Hi Hj. symmetry. now apply E. Qed.
Lemma meq_trans n A B C : meq n A B -> meq n B C -> meq n A C.
Proof. intros E F i j Hi Hj. rewrite E by easy. now apply F. Qed.
Lemma mprod_meq n A A' B B' : meq n A A' -> meq n B B' -> meq n (mprod n A B) (mprod n A' B').
Proof. intros E F i j Hi Hj. apply sumn_ext. intros k Hk. now rewrite E, F. Qed.
Lemma mprod_assoc n A B C : meq n (mprod n (mprod n A B) C) (mprod n A (mprod n B C)).
Proof.
  intros i j Hi Hj. unfold mprod.
  transitivity (sumn n (fun k => sumn n (fun l => A i l * B l k * C k j))).
  - apply sumn_ext. intros k _. now rewrite sumn_scal_r.
  - rewrite sumn_swap. apply sumn_ext. intros l _. rewrite <- sumn_scal. apply sumn_ext. intros. lra.
Qed.
Lemma mprod_1_l n A : meq n (mprod n kron A) A.
Proof. intros i j Hi Hj. unfold mprod. now rewrite (sumn_delta n i (fun k => A k j)). Qed.
Lemma mprod_1_r n A : meq n (mprod n A kron) A.
Proof. intros i j Hi Hj. unfold mprod. now rewrite (sumn_delta_r n j (fun k => A i k)). Qed.

(** ** Invertible row operations *)
(** A row operation and its inverse, as maps on matrices. *)
Record rowop n (f g : rmat -> rmat) : Prop := {
  ro_lin : forall X, meq n (f X) (mprod n (f kron) X);
  ro_linv : forall X, meq n (g X) (mprod n (g kron) X);
  ro_fg : forall X, meq n (f (g X)) X;
  ro_gf : forall X, meq n (g (f X)) X;
  ro_ext : forall X Y, meq n X Y -> meq n (f X) (f Y);
  ro_exti : forall X Y, meq n X Y -> meq n (g X) (g Y) }.

Lemma rowop_comp n f g f' g' : rowop n f g -> rowop n f' g' -> rowop n (fun X => f' (f X)) (fun X => g (g' X)).
Proof.
  intros [a1 a2 a3 a4 a5 a6] [b1 b2 b3 b4 b5 b6]. split; intros X.
  - apply meq_trans with (1 := b1 _), meq_trans with (1 := mprod_meq _ _ _ _ _ (meq_refl _ _) (a1 _)).
    apply meq_trans with (1 := meq_sym _ _ _ (mprod_assoc _ _ _ _)), mprod_meq; [|apply meq_refl].
    apply meq_sym, b1.
  - apply meq_trans with (1 := a2 _), meq_trans with (1 := mprod_meq _ _ _ _ _ (meq_refl _ _) (b2 _)).
    apply meq_trans with (1 := meq_sym _ _ _ (mprod_assoc _ _ _ _)), mprod_meq; [|apply meq_refl].
    apply meq_sym, a2.
  - apply meq_trans with (2 := b3 X), b5, a3.
  - apply meq_trans with (2 := a4 X), a6, b4.
  - auto.
  - auto.
Qed.
Lemma rowop_id n : rowop n (fun X => X) (fun X => X).
Proof. split; intros X; try apply meq_refl; try apply meq_sym, mprod_1_l; auto. Qed.

Lemma rowop_swap n a b : (a < n)%nat -> (b < n)%nat -> rowop n (fun X => gswapRows X a b) (fun X => gswapRows X a b).
Proof.
  intros Ha Hb.
  assert (L : forall X, meq n (gswapRows X a b) (mprod n (gswapRows kron a b) X)).
  { intros X i j Hi Hj. unfold mprod, gswapRows.
    destruct (Nat.eqb_spec i a) as [->|]; [now rewrite (sumn_delta n b (fun k => X k j))|].
    destruct (Nat.eqb_spec i b) as [->|]; [now rewrite (sumn_delta n a (fun k => X k j))|].
    now rewrite (sumn_delta n i (fun k => X k j)). }
  assert (I : forall X, meq n (gswapRows (gswapRows X a b) a b) X).
  { intros X i j Hi Hj. unfold gswapRows. rewrite !Nat.eqb_refl.
    destruct (Nat.eqb_spec i a) as [->|].
    - destruct (Nat.eqb_spec b a) as [->|]; easy.
    - destruct (Nat.eqb_spec i b) as [->|]; easy. }
  assert (E : forall X Y, meq n X Y -> meq n (gswapRows X a b) (gswapRows Y a b)).
  { intros X Y E i j Hi Hj. unfold gswapRows. destruct (Nat.eqb i a), (Nat.eqb i b); apply E; easy. }
  split; auto.
Qed.

Lemma rowop_scale n a s : s <> 0 -> (a < n)%nat -> rowop n (fun X => gscaleRow X a s) (fun X => gscaleRow X a (/ s)).
Proof.
  intros Hs Ha.
  assert (L : forall X s, meq n (gscaleRow X a s) (mprod n (gscaleRow kron a s) X)).
  { intros X t i j Hi Hj. unfold mprod, gscaleRow, gsetRow. destruct (Nat.eqb_spec i a) as [->|].
    - rewrite <- (sumn_delta n a (fun k => X k j) Ha) at 1. cbn [nmul Num_R]. rewrite <- sumn_scal_r. apply sumn_ext. intros; lra.
    - now rewrite (sumn_delta n i (fun k => X k j)). }
  assert (E : forall s X Y, meq n X Y -> meq n (gscaleRow X a s) (gscaleRow Y a s)).
  { intros t X Y E i j Hi Hj. unfold gscaleRow, gsetRow. destruct (Nat.eqb i a); [|now apply E]. cbn [nmul Num_R]. now rewrite E. }
  split; auto; intros X i j Hi Hj; unfold gscaleRow, gsetRow; rewrite Nat.eqb_refl; destruct (Nat.eqb_spec i a) as [->|]; auto;
    cbn [nmul Num_R]; field; auto.
Qed.

(** Subtract multiples of row [a] from all other rows. *)
Definition gelim (a : nat) (s : nat -> R) (X : rmat) : rmat := fun i j => if Nat.eqb i a then X i j else X i j - X a j * s i.
Lemma rowop_elim n a s : (a < n)%nat -> rowop n (gelim a s) (gelim a (fun i => - s i)).
Proof.
  intros Ha.
  assert (L : forall X s, meq n (gelim a s X) (mprod n (gelim a s kron) X)).
  { intros X t i j Hi Hj. unfold mprod, gelim. destruct (Nat.eqb_spec i a) as [->|].
    - now rewrite (sumn_delta n a (fun k => X k j)).
    - rewrite <- (sumn_delta n i (fun k => X k j) Hi) at 1. rewrite <- (sumn_delta n a (fun k => X k j) Ha) at 1.
      rewrite <- sumn_scal_r, <- sumn_minus. apply sumn_ext. intros; lra. }
  assert (E : forall s X Y, meq n X Y -> meq n (gelim a s X) (gelim a s Y)).
  { intros t X Y E i j Hi Hj. unfold gelim. destruct (Nat.eqb i a); [now apply E|]. now rewrite !E. }
  split; auto; intros X i j Hi Hj; unfold gelim; rewrite Nat.eqb_refl; destruct (Nat.eqb_spec i a) as [->|]; auto; lra.
Qed.

(** ** The elimination step in closed form *)
Lemma in_range a b x : In x (range a b) <-> (a <= x < b)%nat.
Proof. unfold range. rewrite in_seq. lia. Qed.
Lemma NoDup_range a b : NoDup (range a b). Proof. apply seq_NoDup. Qed.
Lemma range_S a b : (a < b)%nat -> range a b = a :: range (S a) b.
Proof. intros H. unfold range. replace (b - a)%nat with (S (b - S a)) by lia. easy. Qed.
Lemma range_nil a b : (b <= a)%nat -> range a b = [].
Proof. intros H. unfold range. now replace (b - a)%nat with O by lia. Qed.
Lemma range_snoc a b : (a <= b)%nat -> range a (S b) = range a b ++ [b].
Proof. intros H. unfold range. replace (S b - a)%nat with (b - a + 1)%nat by lia. rewrite seq_app. cbn. now replace (a + (b - a))%nat with b by lia. Qed.

Lemma addRows_spec column rows : ~ In column rows -> NoDup rows -> forall mat inv mat' inv',
  addRows column rows (mat, inv) = (mat', inv') ->
  (forall r c, In r rows -> mat' r c = mat r c - mat column c * mat r column /\ inv' r c = inv r c - inv column c * mat r column) /\
  (forall r c, ~ In r rows -> mat' r c = mat r c /\ inv' r c = inv r c).
Proof.
  induction rows as [|i rows IH]; intros NI ND mat inv mat' inv' E.
  - cbn in E. assert (mat' = mat /\ inv' = inv) as [-> ->] by (split; [change mat' with (fst (mat', inv'))|change inv' with (snd (mat', inv'))]; now rewrite <- E).
    split; [intros r c []|easy].
  - cbn [addRows fold_left] in E. inversion ND as [|? ? NI2 ND2]; subst.
    apply IH in E; [|intros I; apply NI; now right|easy]. destruct E as [E1 E2].
    assert (Ni : i <> column) by (intros ->; apply NI; now left).
    unfold gsubRow, gsetRow in E1, E2. cbn [nsub nmul Num_R] in E1, E2.
    split; intros r c Hr.
    + destruct Hr as [->|Hr].
      * destruct (E2 r c NI2) as [-> ->]. rewrite !Nat.eqb_refl. easy.
      * destruct (E1 r c Hr) as [-> ->]. destruct (Nat.eqb_spec r i) as [->|]; [easy|].
        destruct (Nat.eqb_spec column i) as [->|]; [easy|]. easy.
    + destruct (E2 r c) as [-> ->]; [intros I; apply Hr; now right|].
      destruct (Nat.eqb_spec r i) as [->|]; [exfalso; apply Hr; now left|easy].
Qed.

Lemma addRows_all n column mat inv mat' inv' : (column < n)%nat ->
  addRows column (range (column + 1) n) (addRows column (range 0 column) (mat, inv)) = (mat', inv') ->
  meq n mat' (gelim column (fun i => mat i column) mat) /\ meq n inv' (gelim column (fun i => mat i column) inv).
Proof.
  intros Hc E. destruct (addRows column (range 0 column) (mat, inv)) as [m1 v1] eqn:E1.
  apply addRows_spec in E; [|rewrite in_range; lia|apply NoDup_range]. apply addRows_spec in E1; [|rewrite in_range; lia|apply NoDup_range].
  destruct E as [A1 A2], E1 as [B1 B2].
  assert (G : forall r c, (r < n)%nat -> mat' r c = gelim column (fun i => mat i column) mat r c /\ inv' r c = gelim column (fun i => mat i column) inv r c).
  { intros r c Hr. unfold gelim. destruct (Nat.eqb_spec r column) as [->|Nr].
    - destruct (A2 column c) as [-> ->]; [rewrite in_range; lia|]. apply B2. rewrite in_range. lia.
    - destruct (Nat.lt_ge_cases r column).
      + destruct (A2 r c) as [-> ->]; [rewrite in_range; lia|]. apply B1. rewrite in_range. lia.
      + destruct (A1 r c) as [-> ->]; [rewrite in_range; lia|].
        destruct (B2 r c) as [-> ->]; [rewrite in_range; lia|]. destruct (B2 r column) as [-> _]; [rewrite in_range; lia|].
        destruct (B2 column c) as [-> ->]; [rewrite in_range; lia|]. easy. }
  split; intros i j Hi Hj; now apply G.
Qed.

Lemma findPivot_spec n (m : rmat) column g v : (column < n)%nat -> findPivot n m column = (g, v) ->
  (column <= g < n)%nat /\ v = Rabs (m g column) /\ forall i, (column <= i < n)%nat -> Rabs (m i column) <= v.
Proof.
  intros Hc. unfold findPivot.
  assert (G : forall l g0 v0, fold_left (fun '(greatest, greatestVal) i => let val := nabs (m i column) in if (val >? greatestVal)%num then (i, val) else (greatest, greatestVal)) l (g0, v0) = (g, v) ->
    (column <= g0 < n)%nat -> v0 = Rabs (m g0 column) -> (forall i, In i l -> (column <= i < n)%nat) ->
    (column <= g < n)%nat /\ v = Rabs (m g column) /\ v0 <= v /\ forall i, In i l -> Rabs (m i column) <= v).
  { induction l as [|i l IH]; intros g0 v0 E Hg Hv Hl.
    - cbn in E. assert (g = g0 /\ v = v0) as [-> ->] by (split; [change g with (fst (g, v))|change v with (snd (g, v))]; now rewrite <- E).
      repeat split; try lia; auto; try lra. intros i [].
    - cbn [fold_left] in E. cbv zeta in E. cbn [nabs Num_R nltb] in E. destruct (Rltb v0 (Rabs (m i column))) eqn:C.
      + apply Rltb_true in C. apply IH in E; [|apply Hl; now left|easy|intros; apply Hl; now right].
        destruct E as (E1 & E2 & E3 & E4). repeat split; try lia; auto; try lra. intros k [<-|Hk]; [lra|auto].
      + assert (Rabs (m i column) <= v0) by (apply Rnot_lt_le; intros D; apply Rltb_true in D; congruence).
        apply IH in E; [|easy|easy|intros; apply Hl; now right].
        destruct E as (E1 & E2 & E3 & E4). repeat split; try lia; auto; try lra. intros k [<-|Hk]; [lra|auto]. }
  intros E. apply G in E; [|lia|easy|intros i; rewrite in_range; lia].
  destruct E as (E1 & E2 & E3 & E4). repeat split; try lia; auto.
  intros i Hi. destruct (Nat.eq_dec i column) as [->|]; [exact E3|]. apply E4. rewrite in_range. lia.
Qed.

(** ** Invariants of the elimination *)
Definition unit_cols n (k : nat) (m : rmat) := forall i j, (i < n)%nat -> (j < k)%nat -> m i j = kron i j.

Lemma elimStep_unfold n (eps : R) column (mat inv : rmat) : elimStep n eps column (mat, inv) =
  let '(gr, gv) := findPivot n mat column in
  if (gv <? eps)%num then (false, (mat, inv)) else
  let sw := fun X : rmat => if Nat.eqb gr column then X else gswapRows X gr column in
  let sc := (n1 / sw mat column column)%num in
  (true, addRows column (range (column + 1) n) (addRows column (range 0 column) (gscaleRow (sw mat) column sc, gscaleRow (sw inv) column sc))).
Proof. unfold elimStep. destruct (findPivot n mat column) as [gr gv]. destruct (gv <? eps)%num; [easy|]. now destruct (Nat.eqb gr column). Qed.

Lemma elimStep_spec n eps column (mat inv : rmat) st' : (column < n)%nat -> 0 < eps ->
  elimStep n eps column (mat, inv) = (true, st') ->
  exists f g, rowop n f g /\ meq n (fst st') (f mat) /\ meq n (snd st') (f inv) /\
    (unit_cols n column mat -> unit_cols n (S column) (fst st')).
Proof.
  intros Hc He. rewrite elimStep_unfold. destruct (findPivot n mat column) as [gr gv] eqn:P.
  apply findPivot_spec in P; [|easy]. destruct P as (G1 & G2 & G3).
  destruct ((gv <? eps)%num) eqn:C.
  { intros E. discriminate E. }
  cbn [nltb Num_R] in C. assert (Hgv : eps <= gv) by (apply Rnot_lt_le; intros D; apply Rltb_true in D; congruence). clear C.
  set (sw := fun X : rmat => if Nat.eqb gr column then X else gswapRows X gr column).
  assert (SW : rowop n sw sw).
  { unfold sw. destruct (Nat.eqb gr column); [apply rowop_id|apply rowop_swap; lia]. }
  cbv zeta. set (m0 := sw mat). set (v0 := sw inv).
  assert (P0 : m0 column column <> 0).
  { unfold m0, sw. destruct (Nat.eqb_spec gr column) as [->|N].
    - intros Z. rewrite Z, Rabs_R0 in G2. lra.
    - unfold gswapRows. destruct (Nat.eqb_spec column gr) as [|]; [lia|]. rewrite Nat.eqb_refl. intros Z. rewrite Z, Rabs_R0 in G2. lra. }
  change (@n1 R Num_R) with 1. cbn [ndiv Num_R].
  set (sc := 1 / m0 column column).
  assert (Psc : sc <> 0) by (unfold sc, Rdiv; apply Rmult_integral_contrapositive_currified; [lra|now apply Rinv_neq_0_compat]).
  set (m1 := gscaleRow m0 column sc). set (v1 := gscaleRow v0 column sc).
  intros E. assert (E2 : addRows column (range (column + 1) n) (addRows column (range 0 column) (m1, v1)) = st') by exact (f_equal snd E). clear E.
  destruct st' as [m2 v2]. apply addRows_all in E2; [|easy]. destruct E2 as [Em Ev].
  exists (fun X => gelim column (fun i => m1 i column) (gscaleRow (sw X) column sc)).
  exists (fun X => sw (gscaleRow (gelim column (fun i => - m1 i column) X) column (/ sc))).
  repeat split; cbn [fst snd].
  - apply (rowop_comp n _ _ _ _ (rowop_comp n _ _ _ _ SW (rowop_scale n column sc Psc Hc)) (rowop_elim n column _ Hc)).
  - apply (rowop_comp n _ _ _ _ (rowop_comp n _ _ _ _ SW (rowop_scale n column sc Psc Hc)) (rowop_elim n column _ Hc)).
  - apply (rowop_comp n _ _ _ _ (rowop_comp n _ _ _ _ SW (rowop_scale n column sc Psc Hc)) (rowop_elim n column _ Hc)).
  - apply (rowop_comp n _ _ _ _ (rowop_comp n _ _ _ _ SW (rowop_scale n column sc Psc Hc)) (rowop_elim n column _ Hc)).
  - apply (rowop_comp n _ _ _ _ (rowop_comp n _ _ _ _ SW (rowop_scale n column sc Psc Hc)) (rowop_elim n column _ Hc)).
  - apply (rowop_comp n _ _ _ _ (rowop_comp n _ _ _ _ SW (rowop_scale n column sc Psc Hc)) (rowop_elim n column _ Hc)).
  - exact Em.
  - exact Ev.
  - intros U i j Hi Hj. rewrite Em by lia.
    assert (U0 : unit_cols n column m0).
    { intros a b Ha Hb. unfold m0, sw. destruct (Nat.eqb_spec gr column) as [|N]; [now apply U|]. unfold gswapRows.
      assert (Z : forall r, (column <= r < n)%nat -> mat r b = 0).
      { intros r Hr. rewrite U by lia. unfold kron. destruct (Nat.eqb_spec r b); [lia|easy]. }
      destruct (Nat.eqb_spec a gr) as [->|]; [|destruct (Nat.eqb_spec a column) as [->|]; [|now apply U]];
        rewrite Z by lia; unfold kron; [destruct (Nat.eqb_spec gr b)|destruct (Nat.eqb_spec column b)]; try lia; easy. }
    assert (U1 : unit_cols n column m1).
    { intros a b Ha Hb. unfold m1, gscaleRow, gsetRow. destruct (Nat.eqb_spec a column) as [->|]; [|now apply U0].
      cbn [nmul Num_R]. rewrite U0 by lia. unfold kron. destruct (Nat.eqb_spec column b); [lia|lra]. }
    assert (P1 : m1 column column = 1).
    { unfold m1, gscaleRow, gsetRow. rewrite Nat.eqb_refl. cbn [nmul Num_R]. unfold sc. field. exact P0. }
    unfold gelim. destruct (Nat.eqb_spec i column) as [->|Ni].
    + destruct (Nat.eq_dec j column) as [->|]; [rewrite P1; unfold kron; now rewrite Nat.eqb_refl|]. apply U1; lia.
    + destruct (Nat.eq_dec j column) as [->|].
      * rewrite P1. unfold kron. destruct (Nat.eqb_spec i column); [lia|lra].
      * rewrite (U1 i j), (U1 column j) by lia. unfold kron at 2. destruct (Nat.eqb_spec column j); [lia|lra].
Qed.

(** What every reachable state satisfies: both matrices are images of the start under one invertible operation. *)
Definition linked n (A mat inv : rmat) := exists f g, rowop n f g /\ meq n mat (f A) /\ meq n inv (f kron).

Lemma elimCols_spec n eps : 0 < eps -> forall k column (mat inv : rmat) st' A, (column + k = n)%nat ->
  linked n A mat inv -> unit_cols n column mat ->
  elimCols n eps (range column n) (mat, inv) = (true, st') -> linked n A (fst st') (snd st') /\ unit_cols n n (fst st').
Proof.
  intros He. induction k as [|k IH]; intros column mat inv st' A Hk L U E.
  - rewrite range_nil in E by lia. cbn in E. assert (Q : (mat, inv) = st') by exact (f_equal snd E). rewrite <- Q. cbn [fst snd]. split; [exact L|].
    assert (column = n) as -> by lia. exact U.
  - rewrite range_S in E by lia. cbn [elimCols] in E. destruct (elimStep n eps column (mat, inv)) as [ok [m1 v1]] eqn:S1.
    destruct ok; [|discriminate E].
    apply elimStep_spec in S1; [|lia|easy]. destruct S1 as (f & g & RO & Em & Ev & Un). cbn [fst snd] in *.
    apply (IH (S column) m1 v1 st' A); auto; [lia|].
    destruct L as (f0 & g0 & RO0 & Lm & Lv). exists (fun X => f (f0 X)), (fun X => g0 (g X)).
    split; [now apply rowop_comp|]. split.
    + apply meq_trans with (1 := Em). now apply (ro_ext _ _ _ RO).
    + apply meq_trans with (1 := Ev). now apply (ro_ext _ _ _ RO).
Qed.

Lemma gidentity_kron n : meq n gidentity kron.
Proof. intros i j _ _. unfold gidentity, kron. now destruct (Nat.eqb i j). Qed.

Lemma inverse_of_meq n A A' B B' : meq n A A' -> meq n B B' -> inverse_of n A B -> inverse_of n A' B'.
Proof.
  intros EA EB [I1 I2]. split.
  - apply meq_trans with (2 := I1). apply mprod_meq; now apply meq_sym.
  - apply meq_trans with (2 := I2). apply mprod_meq; now apply meq_sym.
Qed.

Lemma InverseMatrix_correct n A eps B : 0 < eps -> InverseMatrix n A eps = (true, B) -> inverse_of n A B.
Proof.
  intros He. unfold InverseMatrix. destruct (elimCols n eps (range 0 n) (A, gidentity)) as [ok [m v]] eqn:E. intros H.
  assert (ok = true) as -> by exact (f_equal fst H). assert (v = B) as <- by exact (f_equal snd H).
  apply (elimCols_spec n eps He n 0 A gidentity (m, v) A) in E; [|lia| |intros i j _ L; lia].
  2:{ exists (fun X => X), (fun X => X). split; [apply rowop_id|]. split; [apply meq_refl|apply gidentity_kron]. }
  cbn [fst snd] in E. destruct E as [(f & g & RO & Em & Ev) U].
  (* f A = 1, B = f 1, so A = g 1 *)
  assert (FA : meq n (f A) kron) by (apply meq_trans with (1 := meq_sym _ _ _ Em); intros i j Hi Hj; now apply U).
  assert (GA : meq n A (g kron)).
  { apply meq_trans with (1 := meq_sym _ _ _ (ro_gf _ _ _ RO A)). now apply (ro_exti _ _ _ RO). }
  apply (inverse_of_meq n (g kron) A (f kron) v); [now apply meq_sym|now apply meq_sym|].
  split.
  - apply meq_trans with (1 := meq_sym _ _ _ (ro_linv _ _ _ RO _)). apply (ro_gf _ _ _ RO).
  - apply meq_trans with (1 := meq_sym _ _ _ (ro_lin _ _ _ RO _)). apply (ro_fg _ _ _ RO).
Qed.

(** ** Completeness: an invertible matrix is inverted once epsilon is small enough *)
Lemma pivot_exists n column (m G : rmat) : (column < n)%nat -> meq n (mprod n G m) kron -> unit_cols n column m ->
  exists i, (column <= i < n)%nat /\ m i column <> 0.
Proof.
  intros Hc I U.
  destruct (Classical_Prop.classic (exists i, (column <= i < n)%nat /\ m i column <> 0)) as [|N]; [easy|]. exfalso.
  assert (Z : forall i, (column <= i < n)%nat -> m i column = 0).
  { intros i Hi. destruct (Req_dec (m i column) 0); [easy|]. exfalso. apply N. eauto. }
  set (v := fun j => (if (j <? column)%nat then - m j column else 0) + kron column j).
  assert (MV : forall i, (i < n)%nat -> sumn n (fun j => m i j * v j) = 0).
  { intros i Hi. rewrite (sumn_ext n _ (fun j => kron i j * (if (j <? column)%nat then - m j column else 0) + kron column j * m i j)).
    - rewrite sumn_plus, (sumn_delta n i (fun j => if (j <? column)%nat then - m j column else 0)), (sumn_delta n column (fun j => m i j)) by easy.
      destruct (Nat.ltb_spec i column); [lra|]. rewrite Z by lia. lra.
    - intros j Hj. unfold v. destruct (Nat.ltb_spec j column); [rewrite (U i j) by lia|]; unfold kron.
      + destruct (Nat.eqb_spec column j); [lia|]. destruct (Nat.eqb i j); lra.
      + destruct (Nat.eqb column j), (Nat.eqb i j); lra. }
  assert (V : v column = 0).
  { rewrite <- (sumn_delta n column v) by easy.
    rewrite (sumn_ext n _ (fun j => mprod n G m column j * v j)) by (intros; now rewrite I).
    unfold mprod. rewrite (sumn_ext n _ (fun j => sumn n (fun k => G column k * (m k j * v j)))) by (intros; rewrite <- sumn_scal_r; apply sumn_ext; intros; lra).
    rewrite sumn_swap. apply sumn_zero. intros k Hk. rewrite sumn_scal, MV by easy. lra. }
  unfold v in V. rewrite Nat.ltb_irrefl in V. unfold kron in V. rewrite Nat.eqb_refl in V. lra.
Qed.

Lemma elimStep_eps n eps eps' column (st : rmat * rmat) st1 : 0 < eps' <= eps ->
  elimStep n eps column st = (true, st1) -> elimStep n eps' column st = (true, st1).
Proof.
  intros He. destruct st as [m v]. unfold elimStep. destruct (findPivot n m column) as [gr gv].
  cbn [nltb Num_R]. destruct (Rltb gv eps) eqn:C; [discriminate|].
  replace (Rltb gv eps') with false; [easy|]. symmetry. destruct (Rltb gv eps') eqn:D; [|easy].
  apply Rltb_true in D. assert (Rltb gv eps = true) by (apply Rltb_true; lra). congruence.
Qed.

Lemma elimStep_ok n eps column (m v : rmat) : (column < n)%nat -> fst (elimStep n eps column (m, v)) = negb (Rltb (snd (findPivot n m column)) eps).
Proof.
  intros Hc. unfold elimStep. destruct (findPivot n m column) as [gr gv]. cbn [nltb Num_R snd].
  destruct (Rltb gv eps); [easy|]. now destruct (Nat.eqb gr column).
Qed.

Lemma elimCols_complete n : forall k column (mat inv G : rmat), (column + k = n)%nat ->
  meq n (mprod n G mat) kron -> unit_cols n column mat ->
  exists e0, 0 < e0 /\ forall eps, 0 < eps <= e0 -> fst (elimCols n eps (range column n) (mat, inv)) = true.
Proof.
  induction k as [|k IH]; intros column mat inv G Hk I U.
  - exists 1. split; [lra|]. intros eps He. rewrite range_nil by lia. easy.
  - destruct (pivot_exists n column mat G) as (i & Hi & Ni); auto; [lia|].
    destruct (findPivot n mat column) as [gr gv] eqn:P. pose proof P as P2. apply findPivot_spec in P2; [|lia]. destruct P2 as (G1 & G2 & G3).
    assert (Hgv : 0 < gv) by (pose proof (G3 i Hi); pose proof (Rabs_pos_lt _ Ni); lra).
    destruct (elimStep n gv column (mat, inv)) as [ok [m1 v1]] eqn:S1.
    assert (ok = true) as ->.
    { pose proof (elimStep_ok n gv column mat inv ltac:(lia)) as O. rewrite S1, P in O. cbn [fst snd] in O. rewrite O.
      destruct (Rltb gv gv) eqn:C; [|easy]. apply Rltb_true in C. lra. }
    pose proof S1 as S2. apply elimStep_spec in S2; [|lia|easy]. destruct S2 as (f & g & RO & Em & Ev & Un). cbn [fst snd] in *.
    destruct (IH (S column) m1 v1 (mprod n G (g kron))) as (e1 & He1 & C1); [lia| |auto|].
    { (* (G * g 1) * (f mat) = G * (g (f mat)) = G * mat *)
      apply meq_trans with (mprod n (mprod n G (g kron)) (f mat)); [apply mprod_meq; [apply meq_refl|exact Em]|].
      apply meq_trans with (1 := mprod_assoc _ _ _ _).
      apply meq_trans with (2 := I). apply mprod_meq; [apply meq_refl|].
      apply meq_trans with (1 := meq_sym _ _ _ (ro_linv _ _ _ RO _)). apply (ro_gf _ _ _ RO). }
    exists (Rmin gv e1). split; [now apply Rmin_glb_lt|]. intros eps He.
    pose proof (Rmin_l gv e1). pose proof (Rmin_r gv e1).
    rewrite range_S by lia. cbn [elimCols]. rewrite (elimStep_eps n gv eps column (mat, inv) (m1, v1)) by (auto; lra).
    apply C1. lra.
Qed.

Lemma fst_InverseMatrix n (A : gmat R) (eps : R) : fst (InverseMatrix n A eps) = fst (elimCols n eps (range 0 n) (A, gidentity)).
Proof. unfold InverseMatrix. now destruct (elimCols n eps (range 0 n) (A, gidentity)) as [ok [m v]]. Qed.
Lemma InverseMatrix_complete n A : invertible n A ->
  exists e0, 0 < e0 /\ forall eps, 0 < eps <= e0 -> fst (InverseMatrix n A eps) = true.
Proof.
  intros (B & _ & I). destruct (elimCols_complete n n 0 A gidentity B) as (e0 & He & C); [lia|exact I|intros i j _ L; lia|].
  exists e0. split; [easy|]. intros eps Heps. specialize (C eps Heps). rewrite fst_InverseMatrix. exact C.
Qed.

(** ** LU factorisation *)
Lemma gset_same {T} (m : gmat T) i j x : gset m i j x i j = x.
Proof. unfold gset. now rewrite !Nat.eqb_refl. Qed.
Lemma gset_other {T} (m : gmat T) i j x r c : (r, c) <> (i, j) -> gset m i j x r c = m r c.
Proof. intros N. unfold gset. destruct (Nat.eqb_spec r i), (Nat.eqb_spec c j); cbn; try easy. exfalso. apply N. congruence. Qed.

(** The inner loops [x[i][j] -= a[k]*x'[k]] for k below a bound, where the loop does not touch what it reads. *)
Lemma subLoop (x : gmat R) i j (f : gmat R -> nat -> R) : forall m,
  (forall y k, (k < m)%nat -> (forall r c, (r, c) <> (i, j) -> y r c = x r c) -> f y k = f x k) ->
  let y := fold_left (fun x k => gset x i j (x i j - f x k)) (range 0 m) x in
  y i j = x i j - sumn m (f x) /\ forall r c, (r, c) <> (i, j) -> y r c = x r c.
Proof.
  induction m as [|m IH]; intros F; cbv zeta.
  - cbn. split; [lra|easy].
  - rewrite range_snoc, fold_left_app by lia. cbn [fold_left sumn].
    destruct IH as [I1 I2]; [intros; apply F; auto; lia|]. cbv zeta in I1, I2.
    set (y := fold_left _ (range 0 m) x) in *. rewrite gset_same. split.
    + rewrite I1, (F y m) by (auto; lia). lra.
    + intros r c N. rewrite gset_other by easy. now apply I2.
Qed.

Lemma luUpperRow_spec n (mat lower upper : gmat R) i : (i < n)%nat ->
  let u := luUpperRow n mat lower i upper in
  (forall c, (i <= c < n)%nat -> u i c = mat i c - sumn i (fun k => lower i k * upper k c)) /\
  (forall r c, (r <> i \/ c < i \/ n <= c)%nat -> u r c = upper r c).
Proof.
  intros Hi. unfold luUpperRow.
  assert (G : forall m, (i + m <= n)%nat ->
    let u := fold_left (fun upper col => fold_left (fun upper k => gset upper i col (upper i col - lower i k * upper k col)%num) (range 0 i) (gset upper i col (mat i col))) (range i (i + m)) upper in
    (forall c, (i <= c < i + m)%nat -> u i c = mat i c - sumn i (fun k => lower i k * upper k c)) /\
    (forall r c, (r <> i \/ c < i \/ i + m <= c)%nat -> u r c = upper r c)).
  { induction m as [|m IH]; intros Hm; cbv zeta.
    - rewrite (range_nil i (i + 0)) by lia. cbn. split; [intros; lia|easy].
    - replace (i + S m)%nat with (S (i + m)) by lia. rewrite (range_snoc i (i + m)), fold_left_app by lia. cbn [fold_left].
      destruct IH as [I1 I2]; [lia|]. cbv zeta in I1, I2.
      set (u0 := fold_left _ (range i (i + m)) upper) in *.
      destruct (subLoop (gset u0 i (i + m) (mat i (i + m)%nat)) i (i + m) (fun x k => lower i k * x k (i + m)%nat) i) as [S1 S2].
      { intros y k Hk E. f_equal. apply E. intros Q. assert (k = i) by congruence. lia. }
      cbv zeta in S1, S2. cbn [nsub nmul Num_R] in *.
      set (u1 := fold_left _ (range 0 i) (gset u0 i (i + m) (mat i (i + m)%nat))) in *.
      split.
      + intros c Hc. destruct (Nat.eq_dec c (i + m)) as [->|Nc].
        * rewrite S1, gset_same. f_equal. apply sumn_ext. intros k Hk. rewrite gset_other by (intros Q; assert (k = i) by congruence; lia).
          rewrite I2 by lia. easy.
        * rewrite S2 by congruence. rewrite gset_other by congruence. apply I1. lia.
      + intros r c Hrc. assert ((r, c) <> (i, (i + m)%nat)) by (intros Q; assert (r = i /\ c = (i + m)%nat) as [-> ->] by (split; congruence); lia).
        rewrite S2, gset_other by easy. apply I2. lia. }
  specialize (G (n - i)%nat). replace (i + (n - i))%nat with n in G by lia. apply G. lia.
Qed.

Lemma EqualAbs_R a b e : EqualAbs a b e = true <-> Rabs (a - b) < e.
Proof.
  unfold EqualAbs, Abs. cbn [nleb nneg nsub nltb Num_R]. change (@n0 R Num_R) with 0. rewrite Rltb_true.
  assert (Q : (if Rleb 0 (a - b) then a - b else - (a - b)) = Rabs (a - b)); [|now rewrite Q].
  unfold Rabs. destruct (Rleb_spec 0 (a - b)), (Rcase_abs (a - b)); lra.
Qed.

Lemma luLowerCol_spec (mat upper : gmat R) i : forall rows (lower lower' : gmat R), NoDup rows -> ~ In i rows ->
  luLowerCol mat upper i rows lower = (true, lower') ->
  (rows <> [] -> upper i i <> 0) /\
  (forall r, In r rows -> lower' r i * upper i i = mat r i - sumn i (fun k => lower r k * upper k i)) /\
  (forall r c, ~ In r rows \/ c <> i -> lower' r c = lower r c).
Proof.
  induction rows as [|row rows IH]; intros lower lower' ND NI E.
  - cbn in E. assert (lower = lower') as <- by exact (f_equal snd E). split; [easy|]. split; [intros r []|easy].
  - cbn [luLowerCol] in E. cbv zeta in E. inversion ND as [|? ? NI2 ND2]; subst.
    destruct (subLoop (gset lower row i (mat row i)) row i (fun x k => x row k * upper k i) i) as [S1 S2].
    { intros y k Hk E0. f_equal. apply E0. intros Q. assert (k = i) by congruence. lia. }
    cbv zeta in S1, S2. cbn [nsub nmul ndiv Num_R] in *.
    set (l1 := fold_left _ (range 0 i) (gset lower row i (mat row i))) in *.
    destruct (EqualAbs (upper i i) n0 (nlit 1 1000)) eqn:C; [discriminate E|].
    assert (U : upper i i <> 0).
    { intros Z. assert (D : EqualAbs (upper i i) n0 (nlit 1 1000) = true); [|congruence].
      apply EqualAbs_R. rewrite Z. change (@n0 R Num_R) with 0. rewrite Rminus_0_r, Rabs_R0. cbn. lra. }
    apply IH in E; [|easy|intros I; apply NI; now right]. destruct E as (E1 & E2 & E3).
    assert (Nri : row <> i) by (intros ->; apply NI; now left).
    split; [easy|]. split.
    + intros r [->|Hr].
      * rewrite E3 by now left. rewrite gset_same, S1, gset_same.
        rewrite (sumn_ext i (fun k => gset lower r i (mat r i) r k * upper k i) (fun k => lower r k * upper k i))
          by (intros k Hk; rewrite gset_other by (intros Q; assert (k = i) by congruence; lia); easy). field. exact U.
      * rewrite E2 by easy. f_equal. apply sumn_ext. intros k Hk.
        assert (r <> row) by (intros ->; easy). rewrite gset_other, S2, gset_other by congruence. easy.
    + intros r c Hrc. rewrite E3 by (destruct Hrc as [Hr|]; [left; intros I; apply Hr; now right|now right]).
      assert ((r, c) <> (row, i)) by (intros Q; destruct Hrc as [Hr|]; [apply Hr; left; congruence|congruence]).
      rewrite gset_other, S2, gset_other by easy. easy.
Qed.

(** After the first m rounds: rows of upper and columns of lower below m are final. *)
Record lu_inv n m (mat lower upper : gmat R) : Prop := {
  lu_diag : forall r, lower r r = 1;
  lu_low0 : forall r c, (r < c)%nat -> lower r c = 0;
  lu_up0 : forall r c, (c < r)%nat -> upper r c = 0;
  lu_up : forall r c, (r < m)%nat -> (r <= c < n)%nat -> upper r c = mat r c - sumn r (fun k => lower r k * upper k c);
  lu_low : forall r c, (c < m)%nat -> (c < r < n)%nat -> lower r c * upper c c = mat r c - sumn c (fun k => lower r k * upper k c) }.

Lemma luRows_spec n (mat : gmat R) : forall k m (lower upper : gmat R) st', (m + k = n)%nat -> lu_inv n m mat lower upper ->
  luRows n mat (range m n) (lower, upper) = (true, st') -> lu_inv n n mat (fst st') (snd st').
Proof.
  induction k as [|k IH]; intros m lower upper st' Hk I E.
  - rewrite range_nil in E by lia. cbn in E. assert (Q : (lower, upper) = st') by exact (f_equal snd E). rewrite <- Q. cbn.
    assert (m = n) as -> by lia. exact I.
  - rewrite range_S in E by lia. cbn [luRows] in E.
    pose proof (luUpperRow_spec n mat lower upper m ltac:(lia)) as [U1 U2]. cbv zeta in U1, U2.
    set (u := luUpperRow n mat lower m upper) in *.
    destruct (luLowerCol mat u m (range (m + 1) n) lower) as [ok l] eqn:L. destruct ok; [|discriminate E].
    apply luLowerCol_spec in L; [|apply NoDup_range|rewrite in_range; lia]. destruct L as (L1 & L2 & L3).
    apply IH in E; [exact E|lia|]. destruct I as [Idiag Ilow0 Iup0 Iup Ilow]. clear E IH.
    split.
    + intros r. rewrite L3; [apply Idiag|]. rewrite in_range. lia.
    + intros r c Hrc. rewrite L3; [now apply Ilow0|]. rewrite in_range. lia.
    + intros r c Hrc. rewrite U2 by lia. now apply Iup0.
    + intros r c Hr Hc. destruct (Nat.eq_dec r m) as [->|Nr].
      * rewrite U1 by lia. f_equal. apply sumn_ext. intros j Hj. rewrite L3, U2 by lia. easy.
      * rewrite U2 by lia. rewrite Iup by lia. f_equal. apply sumn_ext. intros j Hj. rewrite L3, U2 by lia. easy.
    + intros r c Hc Hr. destruct (Nat.eq_dec c m) as [->|Nc].
      * rewrite L2 by (rewrite in_range; lia). f_equal. apply sumn_ext. intros j Hj. rewrite L3 by lia. easy.
      * rewrite L3, U2 by lia. rewrite Ilow by lia. f_equal. apply sumn_ext. intros j Hj. rewrite L3, U2 by lia. easy.
Qed.

Lemma LUDecomposeMatrix_correct n (mat L U : gmat R) : LUDecomposeMatrix n mat = (true, (L, U)) ->
  meq n (mprod n L U) mat /\ unit_lower n L /\ upper_triangular n U.
Proof.
  intros E. unfold LUDecomposeMatrix in E. apply (luRows_spec n mat n 0 gidentity gzero (L, U)) in E; [|lia|].
  - cbn [fst snd] in E. destruct E as [Idiag Ilow0 Iup0 Iup Ilow]. split; [|split].
    + intros i j Hi Hj. unfold mprod. destruct (Nat.le_gt_cases i j) as [C|C].
      * rewrite (sumn_trunc n (S i)) by (try lia; intros k Hk; rewrite Ilow0 by lia; lra). cbn [sumn].
        rewrite Idiag, (Iup i j) by lia. lra.
      * rewrite (sumn_trunc n (S j)) by (try lia; intros k Hk; rewrite Iup0 by lia; lra). cbn [sumn].
        rewrite (Ilow i j) by lia. lra.
    + intros i j Hi Hj. split; [intros ->; apply Idiag|apply Ilow0].
    + intros i j Hi Hj. apply Iup0.
  - split; try (intros; lia).
    + intros r. unfold gidentity. now rewrite Nat.eqb_refl.
    + intros r c H. unfold gidentity. destruct (Nat.eqb_spec r c); [lia|easy].
    + easy.
Qed.

(** ** Cholesky: never succeeds from size two on, in any arithmetic where sqrt takes zeroes to zeroes *)
Lemma Cholesky_fails_gen {T} {N : Num T} n (mat : gmat T) :
  (forall x : T, neqb x n0 = true -> EqualAbs (nsqrt x) n0 (nlit 1 1000) = true) ->
  (2 <= n)%nat -> fst (CholeskyDecomposeMatrix n mat) = false.
Proof.
  intros Hz Hn. unfold CholeskyDecomposeMatrix. rewrite range_S by lia. cbn [cholRows].
  rewrite (range_nil 0 0) by lia. cbn [cholRow fold_left negb]. rewrite gset_same.
  destruct (neqb (mat 0%nat 0%nat) n0) eqn:C; [|easy].
  cbn [negb]. rewrite range_S by lia. cbn [cholRows].
  rewrite (range_S 0 1) by lia. rewrite (range_nil 1 1) by lia. cbn [cholRow fold_left]. rewrite (range_nil 0 0) by lia. cbn [fold_left].
  rewrite (gset_other _ 1 0 (mat 1 0)%nat 0 0) by congruence. rewrite !gset_same. rewrite (Hz _ C). easy.
Qed.
Lemma Cholesky_fails n (mat : gmat R) : (2 <= n)%nat -> fst (CholeskyDecomposeMatrix n mat) = false.
Proof.
  apply Cholesky_fails_gen. intros x Hx. cbn [neqb Num_R] in Hx. apply Reqb_true in Hx. change (@n0 R Num_R) with 0 in *. subst x.
  cbn [nsqrt Num_R]. rewrite sqrt_0. apply EqualAbs_R. rewrite Rminus_0_r, Rabs_R0. cbn. lra.
Qed.

(** ** LU: a matrix with a factorisation whose pivots are not small is decomposed into exactly that factorisation *)
Lemma luLowerCol_ok {T} {N : Num T} (mat upper : gmat T) i : EqualAbs (upper i i) n0 (nlit 1 1000) = false ->
  forall rows lower, fst (luLowerCol mat upper i rows lower) = true.
Proof. intros E. induction rows as [|r rows IH]; intros lower; [easy|]. cbn [luLowerCol]. rewrite E. apply IH. Qed.
Lemma luRows_complete n (mat L U : gmat R) : meq n (mprod n L U) mat -> unit_lower n L -> upper_triangular n U ->
  (forall i, (i < n)%nat -> 1 / 1000 <= Rabs (U i i)) ->
  forall k m (lower upper : gmat R), (m + k = n)%nat ->
  (forall r c, (r < n)%nat -> (c < m)%nat -> (c < r)%nat -> lower r c = L r c) ->
  (forall r c, (r < m)%nat -> (c < n)%nat -> (r <= c)%nat -> upper r c = U r c) ->
  fst (luRows n mat (range m n) (lower, upper)) = true.
Proof.
  intros HM HL HU HP. induction k as [|k IH]; intros m lower upper Hk IL IU.
  - rewrite range_nil by lia. easy.
  - rewrite range_S by lia. cbn [luRows].
    pose proof (luUpperRow_spec n mat lower upper m ltac:(lia)) as [U1 U2]. cbv zeta in U1, U2.
    set (u := luUpperRow n mat lower m upper) in *.
    assert (UM : forall c, (m <= c < n)%nat -> u m c = U m c).
    { intros c Hc. rewrite U1 by lia. rewrite <- (HM m c) by lia. unfold mprod.
      rewrite (sumn_trunc n (S m)) by (try lia; intros j Hj; destruct (HL m j) as [_ Z]; try lia; rewrite Z by lia; lra).
      cbn [sumn]. destruct (HL m m) as [D _]; [lia|lia|]. rewrite D by easy.
      rewrite (sumn_ext m (fun j => lower m j * upper j c) (fun j => L m j * U j c)); [lra|]. intros j Hj. rewrite IL, IU by lia. easy. }
    assert (P : EqualAbs (u m m) n0 (nlit 1 1000) = false).
    { rewrite UM by lia. destruct (EqualAbs _ _ _) eqn:C; [|easy]. apply EqualAbs_R in C. specialize (HP m ltac:(lia)). cbn in C. rewrite Rminus_0_r in C. lra. }
    pose proof (luLowerCol_ok mat u m P (range (m + 1) n) lower) as OK.
    destruct (luLowerCol mat u m (range (m + 1) n) lower) as [ok l] eqn:LC. cbn [fst] in OK. subst ok.
    apply luLowerCol_spec in LC; [|apply NoDup_range|rewrite in_range; lia]. destruct LC as (L1 & L2 & L3).
    apply IH; [lia| |].
    + intros r c Hr Hc Hrc. destruct (Nat.eq_dec c m) as [->|Nc]; [|rewrite L3 by lia; apply IL; lia].
      assert (NZ : U m m <> 0) by (intros Z; specialize (HP m ltac:(lia)); rewrite Z, Rabs_R0 in HP; lra).
      apply (Rmult_eq_reg_r (U m m)); [|easy]. rewrite <- (UM m) at 1 by lia. rewrite L2 by (rewrite in_range; lia).
      rewrite <- (HM r m) by lia. unfold mprod. rewrite (sumn_trunc n (S m)) by (try lia; intros j Hj; rewrite (HU j m) by lia; lra).
      cbn [sumn]. rewrite (sumn_ext m (fun j => lower r j * u j m) (fun j => L r j * U j m)); [lra|].
      intros j Hj. rewrite IL, U2, IU by lia. easy.
    + intros r c Hr Hc Hrc. destruct (Nat.eq_dec r m) as [->|Nr]; [apply UM; lia|]. rewrite U2 by lia. apply IU; lia.
Qed.
Lemma LUDecomposeMatrix_complete n (mat L U : gmat R) : meq n (mprod n L U) mat -> unit_lower n L -> upper_triangular n U ->
  (forall i, (i < n)%nat -> 1 / 1000 <= Rabs (U i i)) -> fst (LUDecomposeMatrix n mat) = true.
Proof. intros. apply (luRows_complete n mat L U) with (k := n); try easy; intros; lia. Qed.
