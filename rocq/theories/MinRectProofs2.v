(** Rotating calipers: one step, the loop, the start. *)
From Coq Require Import Reals Lra Psatz Bool List Lia PeanoNat.
From Verif Require Import Num NumR ScalarModel ScalarProofs Vec2Model Vec2Spec Vec2Props HullModel HullSpec HullProofs HullProps2 MinRectModel MinRectSpec MinRectProofs.
Import ListNotations.
Open Scope R_scope.
Definition sel (k : nat) (e : cal) : nat := let '(e0, e1, e2, e3) := e in match k with O => e0 | 1%nat => e1 | 2%nat => e2 | _ => e3 end.
Definition qs (p : list p2) (e : cal) (k : nat) : p2 := @pointAt R Num_R p (sel k e).
Definition okcal (p : list p2) (e : cal) : Prop := forall k, (sel k e < length p)%nat.
Lemma rot_inj j a b : rot j a = rot j b -> a = b.
Proof. destruct j as [|[|[|j]]]; unfold rot; intros E; [exact E| | |]; injection E as E1 E2; apply v2_ext; lra. Qed.
Lemma nextP_lt n i : (0 < n)%nat -> (nextP n i < n)%nat.
Proof. intros. unfold nextP. destruct (Nat.ltb_spec (S i) n); lia. Qed.
Lemma pointAt_in (p : list p2) i : (i < length p)%nat -> In (pointAt p i) p.
Proof. intros. now apply nth_In. Qed.

(** What the loop needs of its polygon: edges longer than 1e-3 with every point on the left; points on the line of an edge not behind its start. *)
Definition calok (p : list p2) : Prop := (0 < length p)%nat /\ forall i, (i < length p)%nat -> let a := pointAt p i in let b := pointAt p (nextP (length p) i) in
  1/1000 < dst b a /\ forall v, In v p -> 0 <= turn a b v /\ (turn a b v = 0 -> 0 <= dt (mi b a) (mi v a)).
Section Poly.
  Variable p : list p2.
  Hypothesis OK : calok p.
  Let n := length p.
  Lemma n_pos : (0 < n)%nat. Proof. exact (proj1 OK). Qed.
  Lemma dir_R i : (i < n)%nat -> exists k, 0 < k /\ calDir p i = sc k (mi (pointAt p (nextP n i)) (pointAt p i)) /\ unit2 (calDir p i).
  Proof.
    intros I. destruct (proj2 OK i I) as [L _]. fold n in L. set (b := pointAt p (nextP n i)) in *. set (a := pointAt p i) in *.
    assert (DEF : calDir p i = Normalized2 (mi b a)) by reflexivity. rewrite DEF. clear DEF. set (w := mi b a) in *. change (dst b a) with (nrm w) in L. clearbody w.
    assert (Q : nrm w * nrm w = dt w w) by (apply sqrt_sqrt; unfold dt; nra).
    assert (E : Normalized2 w = sc (/ nrm w) w).
    { unfold Normalized2, Normalize2. change (LengthSq2 w) with (dt w w). cbv zeta. rsimpl. change (sqrt (dt w w)) with (nrm w). rewrite (proj2 (Rltb_true _ _)) by nra. cbn [fst]. unfold muls2, sc. rsimpl. apply v2_ext; cbn; unfold Rdiv; ring. }
    exists (/ nrm w). split; [apply Rinv_0_lt_compat; lra|]. split; [exact E|]. rewrite E. unfold unit2. replace (dt (sc (/ nrm w) w) (sc (/ nrm w) w)) with (/ nrm w * / nrm w * dt w w) by (unfold sc; m2; ring). rewrite <- Q. field. lra.
  Qed.
  Lemma dir_unit i : (i < n)%nat -> unit2 (calDir p i). Proof. intros I. destruct (dir_R i I) as (k & _ & _ & U). exact U. Qed.
  Lemma dir_supp i : (i < n)%nat -> supp p (calDir p i) (pointAt p i) /\ supp p (calDir p i) (pointAt p (nextP n i)) /\ forall v, In v p -> area2 (calDir p i) (mi v (pointAt p i)) = 0 -> 0 <= dt (calDir p i) (mi v (pointAt p i)).
  Proof.
    intros I. destruct (dir_R i I) as (k & K & E & _). destruct (proj2 OK i I) as [_ F]. fold n in F. set (b := pointAt p (nextP n i)) in *. set (a := pointAt p i) in *. rewrite E. split; [|split].
    - intros v V. destruct (F v V) as [T _]. replace (area2 (sc k (mi b a)) (mi v a)) with (k * turn a b v) by (unfold turn, sc; m2; ring). nra.
    - intros v V. destruct (F v V) as [T _]. replace (area2 (sc k (mi b a)) (mi v b)) with (k * turn a b v) by (unfold turn, sc; m2; ring). nra.
    - intros v V Z. destruct (F v V) as [_ T]. assert (Z' : turn a b v = 0). { apply (Rmult_eq_reg_l k); [|lra]. rewrite Rmult_0_r, <- Z. unfold turn, sc. m2. ring. }
      specialize (T Z'). replace (dt (sc k (mi b a)) (mi v a)) with (k * dt (mi b a) (mi v a)) by (unfold sc; m2; ring). nra.
  Qed.
  Definition cosk (ed : p2) (e : cal) (k : nat) : R := dt (rot k ed) (calDir p (sel k e)).
  Lemma step_cases ed e : exists j, (j < 4)%nat /\ (forall k, (k < 4)%nat -> cosk ed e k <= cosk ed e j) /\
    rot j (fst (calStep p ed e)) = calDir p (sel j e) /\ forall k, (k < 4)%nat -> sel k (snd (calStep p ed e)) = if Nat.eqb k j then nextP n (sel j e) else sel k e.
  Proof.
    destruct e as [[[e0 e1] e2] e3]. unfold calStep. cbv zeta. fold n.
    assert (C0 : Dot2 ed (calDir p e0) = cosk ed (e0,e1,e2,e3) 0) by reflexivity.
    assert (C1 : PerpDot2 ed (calDir p e1) = cosk ed (e0,e1,e2,e3) 1) by (unfold cosk, rot, sel, PerpDot2; rsimpl; m2; ring).
    assert (C2 : nneg (Dot2 ed (calDir p e2)) = cosk ed (e0,e1,e2,e3) 2) by (unfold cosk, rot, sel, Dot2; rsimpl; m2; ring).
    assert (C3 : nneg (PerpDot2 ed (calDir p e3)) = cosk ed (e0,e1,e2,e3) 3) by (unfold cosk, rot, sel, PerpDot2; rsimpl; m2; ring).
    rewrite C0, C1, C2, C3. clear C0 C1 C2 C3. rewrite !Max_R.
    assert (K4 : forall k, (k < 4)%nat -> k = 0%nat \/ k = 1%nat \/ k = 2%nat \/ k = 3%nat) by (intros; lia).
    set (c0 := cosk ed (e0,e1,e2,e3) 0) in *. set (c1 := cosk ed (e0,e1,e2,e3) 1) in *. set (c2 := cosk ed (e0,e1,e2,e3) 2) in *. set (c3 := cosk ed (e0,e1,e2,e3) 3) in *.
    pose proof (Rmax_l c0 c1). pose proof (Rmax_r c0 c1). pose proof (Rmax_l c2 c3). pose proof (Rmax_r c2 c3). pose proof (Rmax_l (Rmax c0 c1) (Rmax c2 c3)). pose proof (Rmax_r (Rmax c0 c1) (Rmax c2 c3)).
    assert (RM : forall a b, Rmax a b = a \/ Rmax a b = b) by (intros; unfold Rmax; destruct (Rle_dec _ _); auto).
    assert (M : Rmax (Rmax c0 c1) (Rmax c2 c3) = c0 \/ Rmax (Rmax c0 c1) (Rmax c2 c3) = c1 \/ Rmax (Rmax c0 c1) (Rmax c2 c3) = c2 \/ Rmax (Rmax c0 c1) (Rmax c2 c3) = c3).
    { destruct (RM (Rmax c0 c1) (Rmax c2 c3)) as [-> | ->]; [destruct (RM c0 c1) as [-> | ->]|destruct (RM c2 c3) as [-> | ->]]; auto. }
    set (m := Rmax (Rmax c0 c1) (Rmax c2 c3)) in *. clearbody m. rsimpl.
    destruct (Rleb_spec m c0); [|destruct (Rleb_spec m c1); [|destruct (Rleb_spec m c2)]].
    - exists 0%nat. split; [lia|]. split; [intros k K; destruct (K4 k K) as [->|[->|[->| ->]]]; fold c0 c1 c2 c3; lra|]. split; [reflexivity|]. intros k K; destruct (K4 k K) as [->|[->|[->| ->]]]; reflexivity.
    - exists 1%nat. split; [lia|]. split; [intros k K; destruct (K4 k K) as [->|[->|[->| ->]]]; fold c0 c1 c2 c3; lra|]. split; [unfold rot, sel; cbn [fst x2 y2]; apply v2_ext; cbn [x2 y2]; rsimpl; ring|]. intros k K; destruct (K4 k K) as [->|[->|[->| ->]]]; reflexivity.
    - exists 2%nat. split; [lia|]. split; [intros k K; destruct (K4 k K) as [->|[->|[->| ->]]]; fold c0 c1 c2 c3; lra|]. split; [unfold rot, sel, neg2; cbn [fst x2 y2]; apply v2_ext; cbn [x2 y2]; rsimpl; ring|]. intros k K; destruct (K4 k K) as [->|[->|[->| ->]]]; reflexivity.
    - exists 3%nat. split; [lia|]. split; [intros k K; destruct (K4 k K) as [->|[->|[->| ->]]]; fold c0 c1 c2 c3; lra|]. split; [unfold rot, sel; cbn [fst x2 y2]; apply v2_ext; cbn [x2 y2]; rsimpl; ring|]. intros k K; destruct (K4 k K) as [->|[->|[->| ->]]]; reflexivity.
  Qed.
  (** If the next edge turns by more than a quarter, this support point is also the next one. *)
  Lemma corner w i q1 : unit2 w -> (i < n)%nat -> In q1 p -> supp p w (pointAt p i) -> supp p (rot 1 w) q1 -> dt w (calDir p i) < 0 -> q1 = pointAt p i.
  Proof.
    intros W I Q S0 S1 N. destruct (dir_supp i I) as (D0 & _ & F). assert (U := dir_unit i I). set (d := calDir p i) in *. set (q0 := pointAt p i) in *.
    assert (IQ : In q0 p) by (now apply pointAt_in). pose proof (S0 q1 Q) as A. pose proof (S1 q0 IQ) as B. pose proof (D0 q1 Q) as C. specialize (F q1 Q).
    destruct (tb_self w d W U) as [T E]. destruct (dir_R i I) as (kk & KK & ED & _). fold d q0 in ED.
    assert (SP : 0 <= area2 w d). { assert (IN : In (pointAt p (nextP n i)) p) by (apply pointAt_in, nextP_lt, n_pos). pose proof (S0 _ IN) as X. rewrite ED. replace (area2 w (sc kk (mi (pointAt p (nextP n i)) q0))) with (kk * area2 w (mi (pointAt p (nextP n i)) q0)) by (unfold sc; m2; ring). nra. }
    clear ED KK kk. set (z := mi q1 q0) in *. assert (B' : 0 <= dt w z) by (unfold z; clear - B; unfold rot in B; m2; lra).
    assert (AD : area2 d z = dt w d * area2 w z - area2 w d * dt w z). { rewrite <- T at 1. unfold tb. m2. ring. }
    assert (DD : dt d z = dt w d * dt w z + area2 w d * area2 w z). { rewrite <- T at 1. unfold tb. m2. ring. }
    assert (Zd : area2 w z = 0 /\ dt w z = 0).
    { rewrite AD in C, F. rewrite DD in F. revert N SP A B' C F E. generalize (dt w d) (area2 w d) (area2 w z) (dt w z). clear. intros c s a t N S A T C F E.
      assert (A0 : a = 0) by nra. subst a. split; [reflexivity|]. assert (Z : s * t = 0) by nra. destruct (Rmult_integral _ _ Z) as [X|X]; [|exact X]. subst s. assert (0 <= c * t + 0 * 0) by (apply F; ring). nra. }
    destruct Zd as [Z1 Z2]. unfold unit2 in W. destruct (Rle_lt_dec 0 0) as [_|]; [|lra].
    assert (X : x2 z = 0 /\ y2 z = 0).
    { clear - W Z1 Z2. m2. split.
      - transitivity ((x2 w * x2 w + y2 w * y2 w) * x2 z); [rewrite W; ring|]. transitivity (x2 w * (x2 w * x2 z + y2 w * y2 z) - y2 w * (x2 w * y2 z - y2 w * x2 z)); [ring|]. rewrite Z1, Z2. ring.
      - transitivity ((x2 w * x2 w + y2 w * y2 w) * y2 z); [rewrite W; ring|]. transitivity (y2 w * (x2 w * x2 z + y2 w * y2 z) + x2 w * (x2 w * y2 z - y2 w * x2 z)); [ring|]. rewrite Z1, Z2. ring. }
    unfold z in X. cbn [mi x2 y2] in X. apply v2_ext; lra.
  Qed.
  Lemma some_forward ed e : unit2 ed -> okcal p e -> sides p ed (qs p e) -> exists k, (k < 4)%nat /\ 0 <= cosk ed e k.
  Proof.
    intros U V S. destruct (Rle_lt_dec 0 (cosk ed e 0)) as [|N0]; [exists 0%nat; split; [lia|assumption]|]. destruct (Rle_lt_dec 0 (cosk ed e 1)) as [|N1]; [exists 1%nat; split; [lia|assumption]|].
    destruct (Rle_lt_dec 0 (cosk ed e 2)) as [|N2]; [exists 2%nat; split; [lia|assumption]|]. destruct (Rle_lt_dec 0 (cosk ed e 3)) as [|N3]; [exists 3%nat; split; [lia|assumption]|]. exfalso.
    assert (I : forall k, In (qs p e k) p) by (intros k; apply pointAt_in, V).
    assert (R1 : forall w, rot 1 w = rot 1 w /\ rot 2 w = rot 1 (rot 1 w) /\ rot 3 w = rot 1 (rot 2 w)) by (intros w; unfold rot; cbn [x2 y2]; repeat split; apply v2_ext; cbn; ring).
    assert (E1 : qs p e 1 = qs p e 0) by (apply (corner ed (sel 0 e) (qs p e 1)); [exact U|apply V|apply I|exact (S 0%nat ltac:(lia))|exact (S 1%nat ltac:(lia))|exact N0]).
    assert (E2 : qs p e 2 = qs p e 1) by (apply (corner (rot 1 ed) (sel 1 e) (qs p e 2)); [now apply rot_unit|apply V|apply I|exact (S 1%nat ltac:(lia))|rewrite <- (proj1 (proj2 (R1 ed))); exact (S 2%nat ltac:(lia))|exact N1]).
    assert (E3 : qs p e 3 = qs p e 2) by (apply (corner (rot 2 ed) (sel 2 e) (qs p e 3)); [now apply rot_unit|apply V|apply I|exact (S 2%nat ltac:(lia))|rewrite <- (proj2 (proj2 (R1 ed))); exact (S 3%nat ltac:(lia))|exact N2]).
    pose proof (sides_bounds _ _ _ S) as B. rewrite E3, E2, E1 in B. clear - B U OK.
    assert (All : forall v, In v p -> v = qs p e 0).
    { intros v IV. destruct (B v IV) as [X Y]. set (q := qs p e 0) in *. clearbody q. unfold unit2 in U. m2. assert (X' : - y2 ed * (x2 v - x2 q) + x2 ed * (y2 v - y2 q) = 0) by lra. assert (Y' : x2 ed * (x2 v - x2 q) + y2 ed * (y2 v - y2 q) = 0) by lra. clear X Y.
      apply v2_ext; apply Rminus_diag_uniq.
      - transitivity ((x2 ed * x2 ed + y2 ed * y2 ed) * (x2 v - x2 q)); [rewrite U; ring|]. transitivity (x2 ed * (x2 ed * (x2 v - x2 q) + y2 ed * (y2 v - y2 q)) - y2 ed * (- y2 ed * (x2 v - x2 q) + x2 ed * (y2 v - y2 q))); [ring|]. rewrite X', Y'. ring.
      - transitivity ((x2 ed * x2 ed + y2 ed * y2 ed) * (y2 v - y2 q)); [rewrite U; ring|]. transitivity (y2 ed * (x2 ed * (x2 v - x2 q) + y2 ed * (y2 v - y2 q)) + x2 ed * (- y2 ed * (x2 v - x2 q) + x2 ed * (y2 v - y2 q))); [ring|]. rewrite X', Y'. ring. }
    destruct OK as [P F]. destruct (F 0%nat P) as [D _]. rewrite (All (pointAt p 0) (pointAt_in p 0 P)), (All (pointAt p (nextP (length p) 0)) (pointAt_in p _ (nextP_lt _ _ P))) in D.
    rewrite (proj2 (dst_zero _ _)) in D by reflexivity. lra.
  Qed.
  (** One step: a turn to the left by at most a quarter, past no support point; the advanced pointer moves along the side it supports. *)
  Lemma step_ok ed e : unit2 ed -> okcal p e -> sides p ed (qs p e) -> let ed' := fst (calStep p ed e) in let e' := snd (calStep p ed e) in
    okcal p e' /\ sides p ed' (qs p e) /\ sides p ed' (qs p e') /\ (exists c s, 0 <= c /\ 0 <= s /\ c * c + s * s = 1 /\ ed' = tb c s ed) /\
    exists j, (j < 4)%nat /\ rot j ed' = calDir p (sel j e) /\ sel j e' = nextP n (sel j e) /\ forall k, (k < 4)%nat -> k <> j -> sel k e' = sel k e.
  Proof.
    intros U V S ed' e'. destruct (step_cases ed e) as (j & J & MX & RJ & SE). fold ed' e' in RJ, SE.
    destruct (some_forward ed e U V S) as (k0 & K0 & P0). assert (CP : 0 <= cosk ed e j) by (specialize (MX k0 K0); lra).
    assert (Ud : forall k, unit2 (calDir p (sel k e))) by (intros; apply dir_unit, V).
    assert (Sin : forall k, (k < 4)%nat -> 0 <= area2 (rot k ed) (calDir p (sel k e))).
    { intros k K. destruct (dir_R (sel k e) (V k)) as (kk & KK & ED & _). rewrite ED. assert (IN : In (pointAt p (nextP n (sel k e))) p) by (apply pointAt_in, nextP_lt, n_pos). pose proof (S k K _ IN) as X. unfold qs in X.
      replace (area2 (rot k ed) (sc kk (mi (pointAt p (nextP n (sel k e))) (pointAt p (sel k e))))) with (kk * area2 (rot k ed) (mi (pointAt p (nextP n (sel k e))) (pointAt p (sel k e)))) by (unfold sc; m2; ring). nra. }
    destruct (tb_self (rot j ed) (calDir p (sel j e)) (rot_unit j ed U) (Ud j)) as [T E]. fold (cosk ed e j) in T, E. set (c := cosk ed e j) in *. specialize (Sin j J) as SJ. set (s := area2 (rot j ed) (calDir p (sel j e))) in *.
    assert (EE : ed' = tb c s ed) by (apply (rot_inj j); rewrite RJ, rot_tb; now symmetry).
    assert (S' : sides p ed' (qs p e)).
    { intros k K. rewrite EE, rot_tb. destruct (dir_supp (sel k e) (V k)) as (D0 & _ & F). apply (supp_turn p (rot k ed) (calDir p (sel k e))); try assumption; [now apply rot_unit|apply Ud|apply S; exact K|apply Sin; exact K|apply MX; exact K]. }
    assert (V' : okcal p e').
    { assert (H4 : forall k, (k < 4)%nat -> (sel k e' < length p)%nat) by (intros k K; rewrite (SE k K); destruct (Nat.eqb k j); [apply nextP_lt, n_pos|apply V]).
      intros k. destruct (Nat.lt_ge_cases k 4) as [K|K]; [now apply H4|]. assert (E3 : sel k e' = sel 3 e') by (destruct e' as [[[a b] c'] d']; destruct k as [|[|[|k]]]; try lia; reflexivity). rewrite E3. apply H4. lia. }
    split; [exact V'|]. split; [exact S'|]. split; [|split].
    - intros k K. unfold qs. rewrite (SE k K). destruct (Nat.eqb_spec k j) as [->|N]; [rewrite RJ; apply dir_supp, V|apply S'; exact K].
    - exists c, s. auto.
    - exists j. split; [exact J|]. split; [exact RJ|]. split; [rewrite (SE j J), Nat.eqb_refl; reflexivity|]. intros k K N. rewrite (SE k K). destruct (Nat.eqb_spec k j); [contradiction|reflexivity].
  Qed.
End Poly.
