(** C33: float4x4::Pivot, for matrices of any size. *)
From Coq Require Import Reals Lra Psatz List PeanoNat Lia Bool ZArith Sorted.
From Verif Require Import Num NumR ScalarModel ScalarProofs GMatModel GMatSpec GMatProofs.
Import ListNotations.
Open Scope R_scope.
Ltac Zify.zify_post_hook ::= idtac.

Lemma elim_fold a col rows : NoDup rows -> forall m : rmat, forall i j, fold_left (fun m r => if Nat.eqb r a then m else gsubRow m r a (m r col)) rows m i j
  = if Nat.eqb i a then m i j else if in_dec Nat.eq_dec i rows then m i j - m a j * m i col else m i j.
Proof.
  induction rows as [|r rows IH]; intros ND m i j; cbn [fold_left].
  - destruct (Nat.eqb i a); [reflexivity|]. destruct (in_dec Nat.eq_dec i []) as [[]|]; reflexivity.
  - inversion ND as [|? ? NI ND']; subst. rewrite IH by assumption. destruct (Nat.eqb_spec r a) as [->|NE].
    + destruct (Nat.eqb_spec i a) as [->|NE2]; [reflexivity|]. destruct (in_dec Nat.eq_dec i rows) as [I|I]; destruct (in_dec Nat.eq_dec i (a :: rows)) as [I'|I']; try reflexivity; [exfalso; apply I'; now right|]. destruct I' as [->|I']; contradiction.
    + unfold gsubRow, gsetRow. cbn [nsub nmul Num_R]. destruct (Nat.eqb_spec a r) as [->|_]; [contradiction|]. destruct (Nat.eqb_spec i a) as [->|NE2]; [destruct (Nat.eqb_spec a r); [subst; contradiction|reflexivity]|].
      destruct (in_dec Nat.eq_dec i rows) as [I|I]; destruct (in_dec Nat.eq_dec i (r :: rows)) as [I'|I'].
      * destruct (Nat.eqb_spec i r) as [->|]; [contradiction|reflexivity].
      * exfalso. apply I'. now right.
      * destruct I' as [->|I']; [|contradiction]. now rewrite Nat.eqb_refl.
      * destruct (Nat.eqb_spec i r) as [->|]; [exfalso; apply I'; now left|reflexivity].
Qed.
Lemma greatest_in (m : rmat) col : forall l g, let r := fold_left (fun greatest i => if nltb (nabs (m greatest col)) (nabs (m i col)) then i else greatest) l g in r = g \/ In r l.
Proof. induction l as [|i l IH]; intros g; cbn [fold_left]; [now left|]. destruct (IH (if nltb (nabs (m g col)) (nabs (m i col)) then i else g)) as [E|E]; [rewrite E; destruct (nltb _ _); [right; now left|now left]|right; now right]. Qed.
Lemma greatest_max (m : rmat) col : forall l g, let r := fold_left (fun greatest i => if nltb (nabs (m greatest col)) (nabs (m i col)) then i else greatest) l g in Rabs (m g col) <= Rabs (m r col) /\ forall i, In i l -> Rabs (m i col) <= Rabs (m r col).
Proof.
  induction l as [|i l IH]; intros g; cbn [fold_left]; [split; [lra|intros i []]|]. destruct (IH (if nltb (nabs (m g col)) (nabs (m i col)) then i else g)) as (A & B). cbv zeta in *. set (r := fold_left _ _ _) in *. change (@nltb R Num_R) with Rltb in *. change (@nabs R Num_R) with Rabs in *. destruct (Rltb (Rabs (m g col)) (Rabs (m i col))) eqn:E.
  - apply Rltb_true in E. split; [lra|]. intros k [->|K]; [lra|now apply B].
  - apply Rltb_false in E. split; [exact A|]. intros k [->|K]; [lra|now apply B].
Qed.

(** Column [c] was passed over: after row operations that turn the chosen columns left of it into unit columns, what is left of it is small. *)
Definition negligible (n : nat) (m : rmat) (ps : list nat) (c : nat) : Prop := exists E k, invertible n E /\ (k <= length ps)%nat /\
  (forall i, (i < k)%nat -> (nth i ps 0 < c)%nat) /\ (forall i, (k <= i < length ps)%nat -> (c < nth i ps 0)%nat) /\
  (forall i x, (i < k)%nat -> (x < n)%nat -> mprod n E m x (nth i ps 0%nat) = kron x i) /\ (forall x, (k <= x < n)%nat -> Rabs (mprod n E m x c) < 1 / 1000).
Lemma rowop_invertible n f g : rowop n f g -> inverse_of n (f kron) (g kron).
Proof.
  intros RO. split.
  - apply meq_trans with (1 := meq_sym _ _ _ (ro_lin _ _ _ RO (g kron))). apply (ro_fg _ _ _ RO).
  - apply meq_trans with (1 := meq_sym _ _ _ (ro_linv _ _ _ RO (f kron))). apply (ro_gf _ _ _ RO).
Qed.
(** The state after the columns below [col]: row operations were applied, and the chosen columns [ps] have become unit columns. *)
Record pivoted (n : nat) (m : rmat) (col : nat) (m' : rmat) (r : nat) (ps : list nat) : Prop := {
  pv_ops : exists f g, rowop n f g /\ meq n m' (f m);
  pv_len : length ps = r;
  pv_le : (r <= col)%nat;
  pv_rest : forall c, (c < col)%nat -> In c ps \/ negligible n m ps c;
  pv_cols : forall i, (i < r)%nat -> (nth i ps 0 < col)%nat;
  pv_incr : forall i j, (i < j < r)%nat -> (nth i ps 0 < nth j ps 0)%nat;
  pv_unit : forall i k, (i < r)%nat -> (k < n)%nat -> m' k (nth i ps 0)%nat = kron k i }.
Lemma pivot_step n m col m' r ps : (col < n)%nat -> pivoted n m col m' r ps -> exists ps', let st := pivotCol n (m', r) col in pivoted n m (S col) (fst st) (snd st) ps' /\
  ((st = (m', r) /\ ps' = ps /\ forall k, (r <= k < n)%nat -> Rabs (m' k col) < 1 / 1000) \/ (snd st = S r /\ ps' = ps ++ [col])).
Proof.
  intros C [(f & g & RO & E) LN LE PR PC PI PU]. unfold pivotCol. cbv zeta. set (gr := fold_left _ (range r n) r).
  assert (GR : (r <= gr < n)%nat). { destruct (greatest_in m' col (range r n) r) as [Q|Q]; fold gr in Q; [lia|apply in_range in Q; lia]. }
  destruct (EqualAbs (m' gr col) n0 (nlit 1%Z 1000%positive)) eqn:EA.
  - exists ps. split; [|left; split; [reflexivity|]; split; [reflexivity|]].
    + assert (SM : forall k, (r <= k < n)%nat -> Rabs (m' k col) < 1 / 1000).
      { intros k K. destruct (greatest_max m' col (range r n) r) as (_ & M). specialize (M k (proj2 (in_range r n k) K)). fold gr in M. unfold EqualAbs in EA. rewrite Abs_R in EA. revert EA. rsimpl. rewrite Rltb_true. rewrite Rminus_0_r. lra. }
      split; cbn [fst snd]; auto; [now exists f, g| |intros i Hi; specialize (PC i Hi); lia]. intros c Hc. destruct (Nat.lt_ge_cases c col) as [L|L]; [now apply PR|]. assert (c = col) by lia. subst c. right.
      assert (EM : meq n m' (mprod n (f kron) m)) by (apply meq_trans with (1 := E); apply (ro_lin _ _ _ RO)). exists (f kron), r. split; [exists (g kron); now apply rowop_invertible|]. split; [lia|]. split; [exact PC|]. split; [intros; lia|]. split.
      * intros i x Hi Hx. specialize (PC i Hi). rewrite <- EM by lia. now apply PU.
      * intros x Hx. rewrite <- EM by lia. now apply SM.
    + intros k K. destruct (greatest_max m' col (range r n) r) as (_ & M). specialize (M k (proj2 (in_range r n k) K)). fold gr in M. unfold EqualAbs in EA. rewrite Abs_R in EA. revert EA. rsimpl. rewrite Rltb_true. rewrite Rminus_0_r. lra.
  - assert (NZ : m' gr col <> 0). { intros Z. unfold EqualAbs in EA. rewrite Z, Abs_R in EA. revert EA. rsimpl. rewrite Rltb_false, Rminus_0_r, Rabs_R0. lra. }
    set (m1 := if Nat.eqb r gr then m' else gswapRows m' r gr). set (m2 := gscaleRow m1 r (n1 / m1 r col)). set (m3 := fold_left (fun (m : gmat R) r0 => if Nat.eqb r0 r then m else gsubRow m r0 r (m r0 col)) (range 0 n) m2).
    assert (R1 : exists f1 g1, rowop n f1 g1 /\ meq n m1 (f1 m)).
    { unfold m1. destruct (Nat.eqb r gr); [now exists f, g|]. eexists. eexists. split; [exact (rowop_comp _ _ _ _ _ RO (rowop_swap n r gr ltac:(lia) ltac:(lia)))|]. cbv beta. apply (ro_ext _ _ _ (rowop_swap n r gr ltac:(lia) ltac:(lia))). exact E. }
    assert (D1 : m1 r col = m' gr col). { unfold m1. destruct (Nat.eqb_spec r gr) as [Q|]; [now rewrite <- Q|]. unfold gswapRows. now rewrite Nat.eqb_refl. }
    assert (U1 : forall i k, (i < r)%nat -> (k < n)%nat -> m1 k (nth i ps 0)%nat = kron k i).
    { intros i k Hi Hk. unfold m1. destruct (Nat.eqb_spec r gr) as [_|NE]; [now apply PU|]. unfold gswapRows. destruct (Nat.eqb_spec k r) as [->|]; [|destruct (Nat.eqb_spec k gr) as [->|]; [|now apply PU]]; rewrite PU by lia; unfold kron; destruct (Nat.eqb_spec gr i), (Nat.eqb_spec r i); try lia; reflexivity. }
    assert (NZ1 : 1 / m1 r col <> 0). { rewrite D1. unfold Rdiv. rewrite Rmult_1_l. now apply Rinv_neq_0_compat. }
    assert (M2 : forall k j, m2 k j = if Nat.eqb k r then m1 r j * (1 / m1 r col) else m1 k j) by reflexivity.
    assert (M3 : forall k j, (k < n)%nat -> m3 k j = gelim r (fun i => m2 i col) m2 k j).
    { intros k j Hk. unfold m3. rewrite elim_fold by apply NoDup_range. unfold gelim. destruct (Nat.eqb k r); [reflexivity|]. destruct (in_dec Nat.eq_dec k (range 0 n)) as [_|N]; [reflexivity|]. exfalso. apply N, in_range. lia. }
    exists (ps ++ [col]). cbn [fst snd]. split; [|right; split; reflexivity]. split.
    + destruct R1 as (f1 & g1 & RO1 & E1). pose proof (rowop_scale n r _ NZ1 ltac:(lia)) as RS. pose proof (rowop_elim n r (fun i => m2 i col) ltac:(lia)) as RE. eexists. eexists. split; [exact (rowop_comp _ _ _ _ _ (rowop_comp _ _ _ _ _ RO1 RS) RE)|]. cbv beta. apply meq_trans with (gelim r (fun i => m2 i col) m2); [intros k j Hk _; now apply M3|]. apply (ro_ext _ _ _ RE). apply (ro_ext _ _ _ RS). exact E1.
    + rewrite app_length, LN. cbn. lia.
    + lia.
    + intros c Hc. destruct (Nat.lt_ge_cases c col) as [L|L]; [|left; apply in_or_app; right; left; lia]. destruct (PR c L) as [I|(F & k & A1 & A2 & A3 & A4 & A5 & A6)]; [left; apply in_or_app; now left|]. right. exists F, k. split; [exact A1|]. rewrite app_length. cbn [length]. split; [lia|]. split; [intros i Hi; rewrite app_nth1 by lia; now apply A3|]. split.
      * intros i (Hi & Hi'). destruct (Nat.lt_ge_cases i (length ps)) as [Q|Q]; [rewrite app_nth1 by lia; now apply A4|]. rewrite app_nth2 by lia. replace (i - length ps)%nat with 0%nat by lia. exact L.
      * split; [|exact A6]. intros i x Hi Hx. rewrite app_nth1 by lia. now apply A5.
    + intros i Hi. destruct (Nat.lt_ge_cases i r) as [L|L]; [rewrite app_nth1 by lia; specialize (PC i L); lia|]. rewrite app_nth2 by lia. replace (i - length ps)%nat with 0%nat by lia. cbn. lia.
    + intros i j (A & B). rewrite (app_nth1 ps [col]) by lia. destruct (Nat.lt_ge_cases j r) as [L|L]; [rewrite app_nth1 by lia; now apply PI|]. rewrite app_nth2 by lia. replace (j - length ps)%nat with 0%nat by lia. cbn. apply PC. lia.
    + intros i k Hi Hk. destruct (Nat.lt_ge_cases i r) as [L|L].
      * rewrite app_nth1 by lia. rewrite M3 by exact Hk. unfold gelim. rewrite !M2, Nat.eqb_refl. assert (Z : m1 r (nth i ps 0)%nat = 0) by (rewrite U1 by lia; unfold kron; destruct (Nat.eqb_spec r i); [lia|reflexivity]). rewrite Z. destruct (Nat.eqb_spec k r) as [->|]; [rewrite Rmult_0_l; unfold kron; destruct (Nat.eqb_spec r i); [lia|reflexivity]|]. rewrite U1 by assumption. ring.
      * rewrite app_nth2 by lia. replace (i - length ps)%nat with 0%nat by lia. cbn [nth]. assert (i = r) by lia. subst i. rewrite M3 by exact Hk. unfold gelim. rewrite !M2, Nat.eqb_refl. assert (N1 : m1 r col <> 0) by now rewrite D1. unfold kron. destruct (Nat.eqb_spec k r); field; exact N1.
Qed.
Lemma pivot_loop n m : forall d col m' r ps, (col + d = n)%nat -> pivoted n m col m' r ps -> exists ps', pivoted n m n (fst (fold_left (pivotCol n) (range col n) (m', r))) (snd (fold_left (pivotCol n) (range col n) (m', r))) ps'.
Proof.
  induction d as [|d IH]; intros col m' r ps E P.
  - rewrite range_nil by lia. cbn. replace n with col in P |- * by lia. now exists ps.
  - rewrite range_S by lia. cbn [fold_left]. destruct (pivot_step n m col m' r ps ltac:(lia) P) as (ps' & P' & _). cbv zeta in P'. destruct (pivotCol n (m', r) col) as (m2, r2). cbn [fst snd] in P'. apply (IH (S col) m2 r2 ps'); [lia|exact P'].
Qed.
(** Pivot multiplies the matrix from the left by an invertible matrix, and turns some columns, from left to right, into the first unit
    columns; the others are combinations of the chosen columns left of them, up to remainders below 1/1000.  If every column is chosen the
    result is the identity and the matrix was invertible. *)
Theorem C33_pivot n (m : rmat) : exists r ps E, (r <= n)%nat /\ length ps = r /\ invertible n E /\ meq n (Pivot n m) (mprod n E m) /\
  (forall i, (i < r)%nat -> (nth i ps 0 < n)%nat) /\ (forall i j, (i < j < r)%nat -> (nth i ps 0 < nth j ps 0)%nat) /\
  (forall i k, (i < r)%nat -> (k < n)%nat -> Pivot n m k (nth i ps 0%nat) = kron k i) /\
  (forall c, (c < n)%nat -> In c ps \/ negligible n m ps c) /\ (r = n -> meq n (Pivot n m) kron /\ inverse_of n m E).
Proof.
  assert (P0 : pivoted n m 0 m 0 []). { split; try (intros; lia); try reflexivity. exists (fun X => X), (fun X => X). split; [apply rowop_id|apply meq_refl]. }
  destruct (pivot_loop n m n 0 m 0 [] ltac:(lia) P0) as (ps & [(f & g & RO & E) LN LE PR PC PI PU]). unfold Pivot. set (st := fold_left _ _ _) in *. exists (snd st), ps, (f kron).
  pose proof (rowop_invertible n f g RO) as IV.
  assert (EM : meq n (fst st) (mprod n (f kron) m)) by (apply meq_trans with (1 := E); apply (ro_lin _ _ _ RO)).
  assert (ID : snd st = n -> meq n (fst st) kron).
  { intros Q i j Hi Hj. assert (GE : forall x, (x < n)%nat -> (x <= nth x ps 0)%nat). { intros x. induction x as [|x IH]; intros X; [lia|]. specialize (PI x (S x) ltac:(lia)). specialize (IH ltac:(lia)). lia. }
    assert (LT : forall d x, (x + S d = n)%nat -> (nth x ps 0 <= x)%nat). { induction d as [|d IH]; intros x X; [specialize (PC x ltac:(lia)); lia|]. specialize (IH (S x) ltac:(lia)). specialize (PI x (S x) ltac:(lia)). lia. }
    assert (EQ : nth j ps 0%nat = j). { specialize (GE j Hj). specialize (LT (n - S j)%nat j ltac:(lia)). lia. }
    rewrite <- (PU j i) by lia. now rewrite EQ. }
  split; [exact LE|]. split; [exact LN|]. split; [now exists (g kron)|]. split; [exact EM|]. split; [exact PC|]. split; [exact PI|]. split; [exact PU|]. split; [exact PR|]. intros Q. split; [now apply ID|].
  assert (EK : meq n (mprod n (f kron) m) kron) by (apply meq_trans with (1 := meq_sym _ _ _ EM); now apply ID). split; [|exact EK].
  assert (MG : meq n m (g kron)). { apply meq_trans with (1 := meq_sym _ _ _ (ro_gf _ _ _ RO m)). apply (ro_exti _ _ _ RO). apply meq_trans with (1 := ro_lin _ _ _ RO m). exact EK. }
  apply meq_trans with (1 := mprod_meq _ _ _ _ _ MG (meq_refl _ _)). exact (proj2 IV).
Qed.
Print Assumptions C33_pivot.
