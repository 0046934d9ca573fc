(** The monotone chain: invariants of the stack. *)
From Coq Require Import Reals Psatz List Bool Permutation Sorting.Sorted.
From Verif Require Import Num NumR ScalarModel ScalarProofs Vec2Model Vec2Spec Vec2Props HullModel HullSpec.
Import ListNotations.
Open Scope R_scope.
Ltac Zify.zify_post_hook ::= idtac.

Definition neg (a : p2) : p2 := V2 (- x2 a) (- y2 a).
Definition lexle (a b : p2) : Prop := x2 a < x2 b \/ (x2 a = x2 b /\ y2 a <= y2 b).
Lemma PerpDot2D_R o a b : PerpDot2D o a b = turn o a b.
Proof. unfold PerpDot2D, turn, area2, mi. cbn [x2 y2]. rsimpl. ring. Qed.
Lemma turn_neg o a b : turn (neg o) (neg a) (neg b) = turn o a b.
Proof. unfold turn, area2, mi, neg. cbn [x2 y2]. ring. Qed.
Lemma neg_neg a : neg (neg a) = a.
Proof. destruct a. unfold neg. cbn. now rewrite !Ropp_involutive. Qed.
Lemma lexle_neg a b : lexle (neg a) (neg b) <-> lexle b a.
Proof. unfold lexle, neg. cbn [x2 y2]. split; lra. Qed.
Lemma lexle_refl a : lexle a a. Proof. right. lra. Qed.
Lemma lexle_trans a b c : lexle a b -> lexle b c -> lexle a c. Proof. unfold lexle. lra. Qed.
Lemma lexle_total a b : lexle a b \/ lexle b a. Proof. unfold lexle. lra. Qed.
Lemma lexle_anti a b : lexle a b -> lexle b a -> a = b.
Proof. unfold lexle. intros. apply v2_ext; lra. Qed.
Ltac tunf := unfold turn, area2, mi, o2 in *; cbn [x2 y2] in *.
Lemma turn_same o a : turn o a a = 0. Proof. tunf. ring. Qed.
Lemma turn_back o a : turn o a o = 0. Proof. tunf. ring. Qed.
Lemma turn_stay a b : turn a a b = 0. Proof. tunf. ring. Qed.
Lemma turn_cycle a b c : turn a b c = turn b c a. Proof. tunf. ring. Qed.
Lemma turn_flip a b c : turn a b c = - turn b a c. Proof. tunf. ring. Qed.

(** Directions in the right half-plane are ordered by angle. *)
Definition right (v : p2) : Prop := 0 < x2 v \/ (x2 v = 0 /\ 0 <= y2 v).
Lemma angle_trans w u v : right w -> right u -> right v -> u <> o2 -> 0 <= area2 w u -> 0 <= area2 u v -> 0 <= area2 w v.
Proof.
  intros W U V N A B. unfold right, area2 in *. destruct w as [wx wy], u as [ux uy], v as [vx vy]. cbn [x2 y2] in *.
  destruct U as [U|[U1 U2]].
  - apply (Rmult_le_reg_l ux); [exact U|]. rewrite Rmult_0_r. replace (ux * (wx * vy - wy * vx)) with (vx * (wx * uy - wy * ux) + wx * (ux * vy - uy * vx)) by ring. apply Rplus_le_le_0_compat; apply Rmult_le_pos; lra.
  - subst ux. assert (U3 : 0 < uy). { destruct (Rle_lt_or_eq_dec _ _ U2) as [H|H]; [exact H|]. subst uy. exfalso. now apply N. }
    assert (V1 : vx = 0) by (destruct V as [V|[V _]]; [exfalso; nra|exact V]). subst vx. assert (0 <= wx) by lra. assert (0 <= vy) by lra. nra.
Qed.
Lemma right_mi a b : lexle a b <-> right (mi b a).
Proof. unfold lexle, right, mi. cbn. split; lra. Qed.
(** The three uses of the angular order. *)
Lemma behind b a p q : lexle b a -> lexle p a -> lexle a q -> 0 <= turn b a p -> 0 < turn b a q -> 0 <= turn a q p.
Proof.
  intros BA PA AQ P Q. assert (H : 0 <= area2 (mi a p) (mi q a)).
  { apply (angle_trans _ (mi a b)); try (now apply right_mi).
    - intros E. assert (x2 a = x2 b /\ y2 a = y2 b) by (apply (f_equal x2) in E as E1; apply (f_equal y2) in E as E2; tunf; lra). assert (a = b) by (apply v2_ext; tauto). subst a. rewrite ?turn_stay, ?turn_same in *. lra.
    - tunf. lra.
    - tunf. lra. }
  tunf. lra.
Qed.
Lemma ahead c b a q : lexle c b -> lexle b a -> lexle a q -> 0 < turn c b a -> 0 <= turn b a q -> 0 <= turn c b q.
Proof.
  intros CB BA AQ P Q. assert (H : 0 <= area2 (mi b c) (mi q b)).
  { apply (angle_trans _ (mi a b)); try (apply right_mi; first [assumption|now apply (lexle_trans _ a)]).
    - intros E. assert (x2 a = x2 b /\ y2 a = y2 b) by (apply (f_equal x2) in E as E1; apply (f_equal y2) in E as E2; tunf; lra). assert (a = b) by (apply v2_ext; tauto). subst a. rewrite ?turn_stay, ?turn_same in *. lra.
    - tunf. lra.
    - tunf. lra. }
  tunf. lra.
Qed.
Lemma under b a p q : lexle b p -> lexle p a -> lexle a q -> turn b a q <= 0 -> 0 <= turn b a p -> 0 <= turn b q p.
Proof.
  intros BP PA AQ Q P. destruct (Req_dec (x2 a) (x2 b)) as [X|X]; [destruct (Req_dec (y2 a) (y2 b)) as [Y|Y]|].
  - assert (a = b) by now apply v2_ext. subst a. assert (p = b) by now apply lexle_anti. subst p. rewrite turn_back. lra.
  - assert (H : 0 <= area2 (mi q b) (mi p b)).
    { apply (angle_trans _ (mi a b)); try (apply right_mi; first [assumption|apply (lexle_trans _ p); assumption|apply (lexle_trans _ a); [apply (lexle_trans _ p); assumption|assumption]]).
      - intros E. apply (f_equal y2) in E. tunf. lra.
      - tunf. lra.
      - tunf. lra. }
    tunf. lra.
  - assert (H : 0 <= area2 (mi q b) (mi p b)).
    { apply (angle_trans _ (mi a b)); try (apply right_mi; first [assumption|apply (lexle_trans _ p); assumption|apply (lexle_trans _ a); [apply (lexle_trans _ p); assumption|assumption]]).
      - intros E. apply (f_equal x2) in E. tunf. lra.
      - tunf. lra.
      - tunf. lra. }
    tunf. lra.
Qed.

(** The stack: ordered, strictly turning left, all seen points to the left of its edges. *)
Fixpoint good (S : p2 -> Prop) (st : list p2) : Prop :=
  match st with
  | a :: ((b :: rest) as below) => lexle b a /\ (forall p, S p -> 0 <= turn b a p) /\ match rest with c :: _ => 0 < turn c b a | [] => True end /\ good S below
  | _ => True
  end.
(** What a popped stack must satisfy before q is pushed. *)
Definition ready (S : p2 -> Prop) (st : list p2) (q : p2) : Prop :=
  match st with
  | [] => False
  | a :: below => lexle a q /\ (forall p, S p -> lexle a p -> 0 <= turn a q p) /\ match below with b :: _ => 0 < turn b a q | [] => True end
  end.
Lemma pop_ready (S : p2 -> Prop) q : (forall p, S p -> lexle p q) -> forall st a below, st = a :: below -> (forall x, In x st -> S x) -> good S st -> (forall p, S p -> lexle a p -> 0 <= turn a q p) ->
  good S (hullPop st q) /\ ready S (hullPop st q) q /\ exists front, st = front ++ hullPop st q.
Proof.
  intros LQ. induction st as [|a0 st IH]; intros a below E IN G H; [discriminate|]. injection E as -> ->. destruct below as [|b rest].
  - cbn [hullPop]. split; [exact I|]. split; [|now exists []]. split; [apply LQ, IN; now left|]. split; [exact H|exact I].
  - change (hullPop (a :: b :: rest) q) with (if nleb (PerpDot2D b a q) n0 then hullPop (b :: rest) q else a :: b :: rest). rewrite PerpDot2D_R. change (@nleb R Num_R) with Rleb. change (@n0 R Num_R) with 0.
    destruct (Rleb_spec (turn b a q) 0) as [L|L].
    + cbn [good] in G. destruct G as (BA & LE & TT & G). destruct (IH b rest eq_refl) as (A & B & (front & C)).
      * intros x X. apply IN. now right.
      * exact G.
      * intros p P BP. destruct (lexle_total p a) as [PA|AP].
        -- apply (under b a p q); try assumption; [apply LQ, IN; now left|now apply LE].
        -- pose proof (H p P AP) as H1. pose proof (LE p P) as H2. tunf. lra.
      * split; [exact A|]. split; [exact B|]. exists (a :: front). cbn [app]. now rewrite <- C.
    + split; [exact G|]. split; [|now exists []]. split; [apply LQ, IN; now left|]. split; [exact H|exact L].
Qed.
Lemma ready_left S q st : good S st -> ready S st q -> forall front a b below, st = front ++ a :: b :: below -> 0 <= turn b a q.
Proof.
  intros G R.
  assert (K : forall st, good S st -> (forall a b r, st = a :: b :: r -> 0 <= turn b a q) -> (forall a r, st = a :: r -> lexle a q) -> forall front a b below, st = front ++ a :: b :: below -> 0 <= turn b a q).
  { clear. induction st as [|x st IH]; intros G T LQ front a b below E; [destruct front; discriminate|]. destruct front as [|f front].
    - injection E as -> ->. now apply (T a b below).
    - injection E as -> E. destruct st as [|y st]; [destruct front; discriminate|]. cbn [good] in G. destruct G as (YX & LE & TT & G). pose proof (LQ f (y :: st) eq_refl) as FQ. apply (IH G) with (front := front) (below := below); [| |exact E].
      + intros a' b' r E'. injection E' as -> ->. cbn [good] in G. destruct G as (BA & _). apply (ahead b' a' f q); try assumption. now apply (T f a' (b' :: r)).
      + intros a' r E'. injection E' as -> ->. now apply (lexle_trans _ f). }
  apply (K st G).
  - intros a b r ->. destruct R as (_ & _ & R). lra.
  - intros a r ->. now destruct R as (R & _).
Qed.
Lemma push_good (S : p2 -> Prop) q st : (forall x, In x st -> S x) -> good S st -> ready S st q -> (forall p a, S p -> last st q = a -> lexle a p) -> good (fun p => S p \/ p = q) (q :: st).
Proof.
  intros IN G RD BOT. pose proof (ready_left S q st G RD) as RL. destruct st as [|a below]; [contradiction|].
  assert (GQ : forall st', good S st' -> (forall front a b below, st' = front ++ a :: b :: below -> 0 <= turn b a q) -> good (fun p => S p \/ p = q) st').
  { clear. induction st' as [|a st' IH]; intros G RL; [exact I|]. destruct st' as [|b st']; [exact I|]. cbn [good] in *. destruct G as (A & B & C & D). split; [exact A|]. split.
    - intros p [P| ->]; [now apply B|]. now apply (RL [] a b st').
    - split; [exact C|]. apply IH; [exact D|]. intros front a' b' below E. apply (RL (a :: front) a' b' below). cbn. now rewrite E. }
  destruct RD as (AQ & H & TT). pose proof (GQ (a :: below) G RL) as GA. cbn [good] in GA |- *. split; [exact AQ|]. split; [|split; [exact TT|exact GA]].
  intros p [P| ->]; [|rewrite turn_same; lra]. destruct (lexle_total a p) as [AP|PA]; [now apply H|].
  destruct below as [|b below].
  - apply H; [exact P|]. apply (BOT p a P eq_refl).
  - cbn [good] in G. destruct G as (BA & LE & _). apply (behind b a p q); try assumption. now apply LE.
Qed.
(** A chain over a sorted list. *)
Definition chain_inv (p0 : p2) (seen : list p2) (st : list p2) : Prop :=
  good (fun p => In p seen) st /\ (forall x, In x st -> In x seen) /\ (exists r, st = last seen p0 :: r) /\ last st p0 = p0 /\ st <> [] /\ (forall p, In p seen -> lexle p0 p /\ lexle p (last seen p0)).
Lemma good_ext (A B : p2 -> Prop) st : (forall p, B p -> A p) -> good A st -> good B st.
Proof.
  intros E. induction st as [|a st IH]; [trivial|]. destruct st as [|b st]; [trivial|]. intros H. cbn [good] in H, IH |- *. destruct H as (H1 & H2 & H3 & H4). split; [exact H1|]. split; [auto|]. split; [exact H3|]. apply IH. exact H4.
Qed.
Lemma last_suffix (l front st : list p2) d : l = front ++ st -> st <> [] -> last l d = last st d.
Proof.
  intros -> N. induction front as [|x front IH]; [reflexivity|]. cbn [app]. rewrite <- IH. destruct (front ++ st) eqn:E; [destruct front; [contradiction|discriminate]|reflexivity].
Qed.
Lemma last_any (l : list p2) d e : l <> [] -> last l d = last l e.
Proof. induction l as [|x l IH]; [contradiction|]. intros _. destruct l as [|y l]; [reflexivity|]. cbn [last] in *. apply IH. discriminate. Qed.
Lemma chain_step p0 seen st q : chain_inv p0 seen st -> lexle (last seen p0) q -> chain_inv p0 (seen ++ [q]) (hullPush st q).
Proof.
  intros (G & IN & (r & TOP) & BOT & NE & ORD) LQ. unfold hullPush.
  assert (LAST : last (seen ++ [q]) p0 = q) by apply last_last.
  assert (AQ : forall p, In p seen -> lexle p q) by (intros p P; apply (lexle_trans _ (last seen p0)); [now apply ORD|exact LQ]).
  destruct (pop_ready (fun p => In p seen) q AQ st (last seen p0) r TOP IN G) as (G' & RD & (front & FR)).
  { intros p P LP. assert (p = last seen p0) by (apply lexle_anti; [now apply ORD|exact LP]). subst p. rewrite turn_back. lra. }
  set (st' := hullPop st q) in *. assert (NE' : st' <> []) by (intros E; rewrite E in RD; exact RD).
  assert (IN' : forall x, In x st' -> In x seen) by (intros x X; apply IN; rewrite FR; apply in_or_app; now right).
  assert (BOT' : last st' p0 = p0) by (transitivity (last st p0); [symmetry; exact (last_suffix st front st' p0 FR NE')|exact BOT]).
  pose proof (push_good (fun p => In p seen) q st' IN' G' RD) as PG. split.
  - apply (good_ext (fun p => In p seen \/ p = q)); [intros p P; apply in_app_or in P; destruct P as [P|[P|[]]]; [now left|right; now symmetry]|]. apply PG. intros p a P E. assert (E' : a = p0) by (rewrite <- E; transitivity (last st' p0); [exact (last_any st' q p0 NE')|exact BOT']). rewrite E'. exact (proj1 (ORD p P)).
  - split; [intros x [ <- |X]; apply in_or_app; [right; now left|left; now apply IN']|]. split; [exists st'; now rewrite LAST|]. split; [destruct st'; [contradiction|exact BOT']|]. split; [discriminate|].
    intros p P. rewrite LAST. apply in_app_or in P. destruct P as [P|[ <- |[]]]; [split; [now apply ORD|now apply AQ]|]. split; [|apply lexle_refl].
    destruct seen as [|s seen]; [destruct st as [|x st]; [contradiction|destruct (IN x (or_introl eq_refl))]|]. apply (lexle_trans _ s); [apply ORD; now left|apply AQ; now left].
Qed.
Definition lexsorted (l : list p2) : Prop := StronglySorted lexle l.
Lemma chain_ok p0 rest : lexsorted (p0 :: rest) -> chain_inv p0 (p0 :: rest) (hullChain p0 rest).
Proof.
  intros S. unfold hullChain.
  assert (K : forall rest seen st, chain_inv p0 seen st -> seen <> [] -> StronglySorted lexle rest -> (forall q, In q rest -> lexle (last seen p0) q) -> chain_inv p0 (seen ++ rest) (fold_left hullPush rest st)).
  { clear. induction rest as [|q rest IH]; intros seen st C NE S L; [cbn; now rewrite app_nil_r|]. cbn [fold_left]. replace (seen ++ q :: rest) with ((seen ++ [q]) ++ rest) by (rewrite <- app_assoc; reflexivity). inversion S as [|? ? S1 S2]; subst. apply IH.
    - apply chain_step; [exact C|]. apply L. now left.
    - destruct seen; discriminate.
    - exact S1.
    - rewrite last_last. now apply Forall_forall. }
  inversion S as [|? ? S1 S2]; subst. apply (K rest [p0] [p0]).
  - split; [exact I|]. split; [intros x X; exact X|]. split; [exists []; reflexivity|]. split; [reflexivity|]. split; [discriminate|]. intros p [ <- |[]]. split; apply lexle_refl.
  - discriminate.
  - exact S1.
  - cbn [last]. now apply Forall_forall.
Qed.
