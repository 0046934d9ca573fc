(** Every ClosestPoint overload returns optimal parameters. *)
From Coq Require Import Reals Lra Psatz Bool.
From Verif Require Import Num NumR ScalarModel ScalarProofs Vec3Model GeoTypes GeoSpec GeoLemmas AabbSpec LineModel LineSpec LineProofs.
Open Scope R_scope.

Lemma Line_GetPoint_R (l : line R) d : Line_GetPoint l d = along (lpos l) (ldir l) d.
Proof. reflexivity. Qed.
Lemma Ray_GetPoint_R (r : ray R) d : Ray_GetPoint r d = along (rpos r) (rdir r) d.
Proof. reflexivity. Qed.
Definition sdir (s : segment R) : pt := minus (seg_b s) (seg_a s).
Lemma Seg_GetPoint_R (s : segment R) d : Seg_GetPoint s d = along (seg_a s) (sdir s) d.
Proof. unfold Seg_GetPoint, along, sdir, vadd, smulv. gunf. rsimpl. apply vec_ext; cbn [vx vy vz]; ring. Qed.
Lemma along_0 p u : along p u 0 = p.
Proof. unfold along. gunf. apply vec_ext; cbn [vx vy vz]; ring. Qed.
Lemma sdir_1 (s : segment R) : along (seg_a s) (sdir s) 1 = seg_b s.
Proof. unfold along, sdir. gunf. apply vec_ext; cbn [vx vy vz]; ring. Qed.
Lemma Line_ClosestPoint_R (l : line R) p : Line_ClosestPoint l p = (along (lpos l) (ldir l) (dot (minus p (lpos l)) (ldir l)), dot (minus p (lpos l)) (ldir l)).
Proof. reflexivity. Qed.
Lemma Ray_ClosestPoint_R (r : ray R) p :
  Ray_ClosestPoint r p = (along (rpos r) (rdir r) (Rmax 0 (dot (minus p (rpos r)) (rdir r))), Rmax 0 (dot (minus p (rpos r)) (rdir r))).
Proof. unfold Ray_ClosestPoint. rewrite Max_R. reflexivity. Qed.
Lemma Seg_ClosestPoint_R (s : segment R) p :
  let d := clamp01 (dot (minus p (seg_a s)) (sdir s) / dot (sdir s) (sdir s)) in Seg_ClosestPoint s p = (along (seg_a s) (sdir s) d, d).
Proof. unfold Seg_ClosestPoint. rewrite Clamp01_R. reflexivity. Qed.

(** Results of a ClosestPoint with two parameters. *)
Definition good (p u q v : pt) (I J : R -> Prop) (res : pt * R * R) : Prop :=
  let '(c, d, d2) := res in c = along p u d /\ opt p u q v I J d d2.

(** The nearest point to an end of the other primitive, as hypotheses of the corner lemmas. *)
Lemma near_line2 p u q v c s : dot u u = 1 -> FF p u q v (dot (minus (along q v c) p) u) c <= FF p u q v s c.
Proof. intros U. unfold FF. now apply line_near. Qed.
Lemma near_ray2 p u q v c s : dot u u = 1 -> Ipos s -> FF p u q v (Rmax 0 (dot (minus (along q v c) p) u)) c <= FF p u q v s c.
Proof. intros U S. unfold FF. now apply ray_near. Qed.
Lemma near_seg2 p u q v c s : dot u u <> 0 -> Iunit s -> FF p u q v (clamp01 (dot (minus (along q v c) p) u / dot u u)) c <= FF p u q v s c.
Proof. intros U S. unfold FF. now apply seg_near. Qed.
Lemma near_line1 p u q v c t : dot v v = 1 -> FF p u q v c (dot (minus (along p u c) q) v) <= FF p u q v c t.
Proof. intros U. unfold FF. rewrite !(sqd_sym (along p u c)). now apply line_near. Qed.
Lemma near_ray1 p u q v c t : dot v v = 1 -> Ipos t -> FF p u q v c (Rmax 0 (dot (minus (along p u c) q) v)) <= FF p u q v c t.
Proof. intros U S. unfold FF. rewrite !(sqd_sym (along p u c)). now apply ray_near. Qed.
Lemma near_seg1 p u q v c t : dot v v <> 0 -> Iunit t -> FF p u q v c (clamp01 (dot (minus (along p u c) q) v / dot v v)) <= FF p u q v c t.
Proof. intros U S. unfold FF. rewrite !(sqd_sym (along p u c)). now apply seg_near. Qed.
Lemma Ipos_max x : Ipos (Rmax 0 x).
Proof. apply Rmax_l. Qed.
Lemma max_again x : Rmax 0 (Rmax 0 x) = Rmax 0 x.
Proof. unfold Rmax. destruct (Rle_dec 0 x); destruct (Rle_dec 0 _); lra. Qed.

Ltac bools := repeat match goal with
  | H : Rltb _ _ = true |- _ => apply Rltb_true in H | H : Rltb _ _ = false |- _ => apply Rltb_false in H
  | H : Rleb _ _ = true |- _ => apply Rleb_true in H | H : Rleb _ _ = false |- _ => apply Rleb_false in H
  | H : _ && _ = true |- _ => apply andb_prop in H; destruct H | H : _ && _ = false |- _ => apply andb_false_iff in H end.
Ltac LL p u q v := let S := fresh "S" in assert (S := LL_stationary p u q v); destruct (ClosestPointLineLine p u q v) as [d d2]; cbn [fst snd] in S.

Lemma line_ray_good (l : line R) (o : ray R) : dot (ldir l) (ldir l) = 1 -> dot (rdir o) (rdir o) <> 0 ->
  good (lpos l) (ldir l) (rpos o) (rdir o) Iall Ipos (Line_ClosestPointRay l o).
Proof.
  intros U V. unfold Line_ClosestPointRay. LL (lpos l) (ldir l) (rpos o) (rdir o). specialize (S V). rsimpl.
  destruct (Rleb_spec 0 d2); cbn [good].
  - split; [reflexivity|]. now apply opt_in.
  - rewrite Line_ClosestPoint_R. split; [reflexivity|]. rewrite <- (along_0 (rpos o) (rdir o)) at 2.
    eapply opt_edge2; [exact S|apply cvx_all|exact I|now apply block_pos|exact I|]. intros s _. now apply near_line2.
Qed.
Lemma line_line_good (l : line R) (o : line R) : dot (ldir o) (ldir o) <> 0 ->
  good (lpos l) (ldir l) (lpos o) (ldir o) Iall Iall (Line_ClosestPointLine l o).
Proof.
  intros V. unfold Line_ClosestPointLine. LL (lpos l) (ldir l) (lpos o) (ldir o). split; [reflexivity|]. apply opt_in; [auto|exact I|exact I].
Qed.
Lemma line_seg_good (l : line R) (o : segment R) : dot (ldir l) (ldir l) = 1 -> dot (sdir o) (sdir o) <> 0 ->
  good (lpos l) (ldir l) (seg_a o) (sdir o) Iall Iunit (Line_ClosestPointSeg l o).
Proof.
  intros U V. unfold Line_ClosestPointSeg. change (vsub (seg_b o) (seg_a o)) with (sdir o). LL (lpos l) (ldir l) (seg_a o) (sdir o). specialize (S V). rsimpl.
  destruct (Rltb_spec d2 0); [|destruct (Rltb_spec 1 d2)]; cbn [good].
  - rewrite Line_ClosestPoint_R. split; [reflexivity|]. rewrite <- (along_0 (seg_a o) (sdir o)) at 2.
    eapply opt_edge2; [exact S|apply cvx_all|exact I|now apply block_unit|exact I|]. intros s _. now apply near_line2.
  - rewrite Line_ClosestPoint_R. split; [reflexivity|]. rewrite <- (sdir_1 o).
    eapply opt_edge2; [exact S|apply cvx_all|exact I|now apply block_high|exact I|]. intros s _. now apply near_line2.
  - split; [reflexivity|]. apply opt_in; [auto|exact I|split; auto].
Qed.
Lemma ray_line_good (r : ray R) (o : line R) : dot (rdir r) (rdir r) = 1 -> dot (ldir o) (ldir o) = 1 ->
  good (rpos r) (rdir r) (lpos o) (ldir o) Ipos Iall (Ray_ClosestPointLine r o).
Proof.
  intros U V. unfold Ray_ClosestPointLine. LL (rpos r) (rdir r) (lpos o) (ldir o). specialize (S ltac:(lra)). rsimpl.
  destruct (Rltb_spec d 0); cbn [good].
  - rewrite Line_ClosestPoint_R. cbn [good]. split; [now rewrite along_0|]. rewrite <- (along_0 (rpos r) (rdir r)) at 2.
    eapply opt_edge1; [exact S|apply cvx_all|exact I|now apply block_pos|exact I|]. intros s _. now apply near_line1.
  - split; [reflexivity|]. apply opt_in; [auto|exact H|exact I].
Qed.
Lemma FF_at p u q v s t x y : along p u s = x -> along q v t = y -> FF p u q v s t = sqd x y.
Proof. now intros <- <-. Qed.
Lemma ray_ray_good (r o : ray R) : dot (rdir r) (rdir r) = 1 -> dot (rdir o) (rdir o) = 1 ->
  good (rpos r) (rdir r) (rpos o) (rdir o) Ipos Ipos (Ray_ClosestPointRay r o).
Proof.
  intros U V. unfold Ray_ClosestPointRay. LL (rpos r) (rdir r) (rpos o) (rdir o). specialize (S ltac:(lra)). rsimpl.
  assert (N2 : forall s, Ipos s -> FF (rpos r) (rdir r) (rpos o) (rdir o) (Rmax 0 (dot (minus (rpos o) (rpos r)) (rdir r))) 0 <= FF (rpos r) (rdir r) (rpos o) (rdir o) s 0).
  { intros s Is. rewrite <- (along_0 (rpos o) (rdir o)) at 2. now apply near_ray2. }
  assert (N1 : forall t, Ipos t -> FF (rpos r) (rdir r) (rpos o) (rdir o) 0 (Rmax 0 (dot (minus (rpos r) (rpos o)) (rdir o))) <= FF (rpos r) (rdir r) (rpos o) (rdir o) 0 t).
  { intros s Is. rewrite <- (along_0 (rpos r) (rdir r)) at 2. now apply near_ray1. }
  rewrite !Ray_ClosestPoint_R. cbv beta iota. repeat rewrite Max_R. rewrite !max_again. change (@DistanceSq R Num_R) with sqd. destruct (Rltb_spec d 0), (Rltb_spec d2 0); cbn [andb].
  - destruct (Rleb_spec (sqd (along (rpos r) (rdir r) (Rmax 0 (dot (minus (rpos o) (rpos r)) (rdir r)))) (rpos o))
      (sqd (along (rpos o) (rdir o) (Rmax 0 (dot (minus (rpos r) (rpos o)) (rdir o)))) (rpos r))) as [L|L]; cbn [good].
    + split; [reflexivity|]. eapply (opt_corner1 _ _ _ _ Ipos Ipos d d2 0 0); eauto using cvx_pos, block_pos, Ipos_max.
      unfold FF. rewrite !along_0, (sqd_sym (rpos r)). exact L.
    + split; [now rewrite along_0|]. eapply (opt_corner2 _ _ _ _ Ipos Ipos d d2 0 0); eauto using cvx_pos, block_pos, Ipos_max.
      unfold FF. rewrite !along_0, (sqd_sym (rpos r)). lra.
  - split; [now rewrite along_0|]. eapply opt_edge1; eauto using cvx_pos, block_pos, Ipos_max.
  - split; [reflexivity|]. eapply opt_edge2; eauto using cvx_pos, block_pos, Ipos_max.
  - split; [reflexivity|]. now apply opt_in.
Qed.
Lemma ray_seg_good (r : ray R) (o : segment R) : dot (rdir r) (rdir r) = 1 -> dot (sdir o) (sdir o) <> 0 ->
  good (rpos r) (rdir r) (seg_a o) (sdir o) Ipos Iunit (Ray_ClosestPointSeg r o).
Proof.
  intros U V. unfold Ray_ClosestPointSeg. change (vsub (seg_b o) (seg_a o)) with (sdir o). LL (rpos r) (rdir r) (seg_a o) (sdir o). specialize (S V). rsimpl.
  set (F := FF (rpos r) (rdir r) (seg_a o) (sdir o)).
  assert (N2 : forall s, Ipos s -> F (Rmax 0 (dot (minus (seg_a o) (rpos r)) (rdir r))) 0 <= F s 0).
  { intros s Is. unfold F. rewrite <- (along_0 (seg_a o) (sdir o)) at 2. now apply near_ray2. }
  assert (N3 : forall s, Ipos s -> F (Rmax 0 (dot (minus (seg_b o) (rpos r)) (rdir r))) 1 <= F s 1).
  { intros s Is. unfold F. rewrite <- (sdir_1 o) at 1. now apply near_ray2. }
  assert (N1 : forall t, Iunit t -> F 0 (clamp01 (dot (minus (rpos r) (seg_a o)) (sdir o) / dot (sdir o) (sdir o))) <= F 0 t).
  { intros s Is. unfold F. rewrite <- (along_0 (rpos r) (rdir r)) at 2. now apply near_seg1. }
  rewrite !Ray_ClosestPoint_R, !Seg_ClosestPoint_R. cbv beta iota. destruct (Rltb_spec d 0) as [D|D].
  - destruct (Rltb_spec d2 0) as [E|E]; [|destruct (Rleb_spec d2 1) as [E1|E1]].
    + destruct (Rleb_spec 0 d2) as [X|X]; [lra|]. cbn [andb]. rewrite Ray_ClosestPoint_R. cbv beta iota. change (@DistanceSq R Num_R) with sqd. rcase; cbn [good].
      * split; [reflexivity|]. eapply (opt_corner1 _ _ _ _ Ipos Iunit d d2 0 0); eauto using cvx_pos, cvx_unit, block_pos, block_unit, Ipos_max, clamp01_in.
        -- apply clamp01_in.
        -- unfold FF. rewrite !along_0, (sqd_sym (rpos r)). assumption.
      * split; [now rewrite along_0|]. eapply (opt_corner2 _ _ _ _ Ipos Iunit d d2 0 0 (Rmax 0 (dot (minus (seg_a o) (rpos r)) (rdir r)))); eauto using cvx_pos, cvx_unit, block_pos, block_unit, Ipos_max, clamp01_in.
        -- apply clamp01_in.
        -- unfold FF. rewrite !along_0, (sqd_sym (rpos r)). lra.
    + destruct (Rleb_spec 0 d2) as [X|X]; [|lra]. cbn [andb good]. split; [now rewrite along_0|].
      eapply opt_edge1; eauto using cvx_unit, block_pos. now split. apply clamp01_in.
    + destruct (Rleb_spec 0 d2) as [X|X]; [|lra]. cbn [andb good]. rewrite Ray_ClosestPoint_R. cbv beta iota. change (@DistanceSq R Num_R) with sqd. rcase; cbn [good].
      * split; [reflexivity|]. eapply (opt_corner1 _ _ _ _ Ipos Iunit d d2 0 1); eauto using cvx_pos, cvx_unit, block_pos, block_high, Ipos_max.
        -- apply clamp01_in.
        -- unfold FF. rewrite !along_0, sdir_1, (sqd_sym (rpos r)). assumption.
      * split; [now rewrite along_0|]. eapply (opt_corner2 _ _ _ _ Ipos Iunit d d2 0 1 (Rmax 0 (dot (minus (seg_b o) (rpos r)) (rdir r)))); eauto using cvx_pos, cvx_unit, block_pos, block_high, Ipos_max.
        -- apply clamp01_in.
        -- unfold FF. rewrite !along_0, sdir_1, (sqd_sym (rpos r)). lra.
  - destruct (Rltb_spec d2 0) as [E|E]; [|destruct (Rltb_spec 1 d2) as [E1|E1]]; cbn [good].
    + split; [reflexivity|]. eapply opt_edge2; eauto using cvx_pos, block_unit, Ipos_max.
    + split; [reflexivity|]. eapply opt_edge2; eauto using cvx_pos, block_high, Ipos_max.
    + split; [reflexivity|]. apply opt_in; auto. now split.
Qed.
Lemma seg_line_good (s : segment R) (o : line R) : dot (sdir s) (sdir s) <> 0 -> dot (ldir o) (ldir o) = 1 ->
  good (seg_a s) (sdir s) (lpos o) (ldir o) Iunit Iall (Seg_ClosestPointLine s o).
Proof.
  intros U V. unfold Seg_ClosestPointLine. change (vsub (seg_b s) (seg_a s)) with (sdir s). LL (lpos o) (ldir o) (seg_a s) (sdir s). specialize (S U). rsimpl.
  assert (S' : stationary (seg_a s) (sdir s) (lpos o) (ldir o) d2 d).
  { destruct S as [S1 S2]. unfold stationary. assert (Op : forall a b x : pt, dot (minus a b) x = - dot (minus b a) x) by (intros; gunf; ring).
    rewrite !(Op (along (seg_a s) _ _)), S1, S2. split; ring. }
  destruct (Rltb_spec d2 0); [|destruct (Rltb_spec 1 d2)]; rewrite ?Line_ClosestPoint_R; cbn [good].
  - split; [now rewrite along_0|]. rewrite <- (along_0 (seg_a s) (sdir s)) at 2. eapply opt_edge1; eauto using cvx_all, block_unit.
    exact I. exact I. intros t _. now apply near_line1.
  - split; [now rewrite sdir_1|]. rewrite <- (sdir_1 s). eapply opt_edge1; eauto using cvx_all, block_high.
    exact I. exact I. intros t _. now apply near_line1.
  - split; [apply Seg_GetPoint_R|]. apply opt_in; [exact S'|now split|exact I].
Qed.
Lemma seg_ray_good (s : segment R) (o : ray R) : dot (sdir s) (sdir s) <> 0 -> dot (rdir o) (rdir o) = 1 ->
  good (seg_a s) (sdir s) (rpos o) (rdir o) Iunit Ipos (Seg_ClosestPointRay s o).
Proof.
  intros U V. unfold Seg_ClosestPointRay. assert (G := ray_seg_good o s V U). destruct (Ray_ClosestPointSeg o s) as [[c d2] d].
  destruct G as (_ & A & B & M). split; [apply Seg_GetPoint_R|]. split; [exact B|split; [exact A|]]. intros s' t' Is It.
  unfold FF in *. rewrite (sqd_sym (along (seg_a s) _ _)), (sqd_sym (along (seg_a s) _ _)). now apply M.
Qed.
Lemma seg_seg_good (s o : segment R) : dot (sdir s) (sdir s) <> 0 -> dot (sdir o) (sdir o) <> 0 ->
  good (seg_a s) (sdir s) (seg_a o) (sdir o) Iunit Iunit (Seg_ClosestPointSeg s o).
Proof.
  intros U V. unfold Seg_ClosestPointSeg. change (vsub (seg_b o) (seg_a o)) with (sdir o). change (vsub (seg_b s) (seg_a s)) with (sdir s).
  LL (seg_a s) (sdir s) (seg_a o) (sdir o). specialize (S V). rsimpl.
  set (F := FF (seg_a s) (sdir s) (seg_a o) (sdir o)).
  assert (N20 : forall x, Iunit x -> F (clamp01 (dot (minus (seg_a o) (seg_a s)) (sdir s) / dot (sdir s) (sdir s))) 0 <= F x 0).
  { intros x Is. unfold F. rewrite <- (along_0 (seg_a o) (sdir o)) at 2. now apply near_seg2. }
  assert (N21 : forall x, Iunit x -> F (clamp01 (dot (minus (seg_b o) (seg_a s)) (sdir s) / dot (sdir s) (sdir s))) 1 <= F x 1).
  { intros x Is. unfold F. rewrite <- (sdir_1 o) at 1. now apply near_seg2. }
  assert (N10 : forall x, Iunit x -> F 0 (clamp01 (dot (minus (seg_a s) (seg_a o)) (sdir o) / dot (sdir o) (sdir o))) <= F 0 x).
  { intros x Is. unfold F. rewrite <- (along_0 (seg_a s) (sdir s)) at 2. now apply near_seg1. }
  assert (N11 : forall x, Iunit x -> F 1 (clamp01 (dot (minus (seg_b s) (seg_a o)) (sdir o) / dot (sdir o) (sdir o))) <= F 1 x).
  { intros x Is. unfold F. rewrite <- (sdir_1 s) at 1. now apply near_seg1. }
  assert (C := clamp01_in).
  assert (CD : d < 0 \/ 0 <= d <= 1 \/ 1 < d) by lra. assert (CD2 : d2 < 0 \/ 0 <= d2 <= 1 \/ 1 < d2) by lra.
  assert (BA : forall x, 0 <= x <= 1 -> Rleb 0 x && Rleb x 1 = true) by (intros x Hx; now rewrite (proj2 (Rleb_true 0 x)), (proj2 (Rleb_true x 1)) by lra).
  assert (BL : forall x, x < 0 -> Rleb 0 x = false) by (intros x Hx; apply Rleb_false; lra).
  assert (BH : forall x, 1 < x -> Rleb 0 x = true /\ Rleb x 1 = false) by (intros x Hx; split; [apply Rleb_true|apply Rleb_false]; lra).
  assert (TL : forall x, x < 0 -> Rltb x 0 = true) by (intros x Hx; apply Rltb_true; lra).
  assert (TH : forall x, 1 < x -> Rltb x 0 = false) by (intros x Hx; apply Rltb_false; lra).
  destruct CD as [D|[D|D]], CD2 as [D2|[D2|D2]];
    repeat match goal with
    | H : 0 <= ?x <= 1 |- _ => rewrite ?(BA x H); lazymatch goal with K : (Rleb 0 x && Rleb x 1 = true) |- _ => fail | _ => assert (Rleb 0 x && Rleb x 1 = true) by auto end end;
    rewrite <- ?andb_assoc, ?(BA _ D), ?(BA _ D2), ?(BL _ D), ?(BL _ D2), ?(TL _ D), ?(TL _ D2), ?(TH _ D), ?(TH _ D2), ?(proj1 (BH _ D)), ?(proj1 (BH _ D2)), ?(proj2 (BH _ D)), ?(proj2 (BH _ D2));
    cbn [andb]; rewrite ?Seg_ClosestPoint_R; cbv beta iota; rewrite ?Seg_ClosestPoint_R; cbv beta iota; change (@DistanceSq R Num_R) with sqd; cbn [good].
  all: try (split; [reflexivity|]; now apply opt_in).
  all: try (split; [now rewrite ?along_0, ?sdir_1|]; eapply opt_edge1; eauto using cvx_unit, block_unit, block_high; apply C).
  all: try (split; [now rewrite ?along_0, ?sdir_1|]; eapply opt_edge2; eauto using cvx_unit, block_unit, block_high; apply C).
  all: rcase; cbn [good].
  all: split; [now rewrite ?along_0, ?sdir_1|].
  all: match goal with
    | S0 : stationary _ _ _ _ ?x ?y |- opt ?p ?u ?q ?v _ _ (clamp01 _) ?c2 =>
       match goal with
       | _ : x < 0 |- _ => eapply (opt_corner1 p u q v Iunit Iunit x y 0 c2)
       | _ : 1 < x |- _ => eapply (opt_corner1 p u q v Iunit Iunit x y 1 c2) end
    | S0 : stationary _ _ _ _ ?x ?y |- opt ?p ?u ?q ?v _ _ ?c1 (clamp01 _) =>
       match goal with
       | _ : y < 0 |- _ => eapply (opt_corner2 p u q v Iunit Iunit x y c1 0)
       | _ : 1 < y |- _ => eapply (opt_corner2 p u q v Iunit Iunit x y c1 1) end
    end.
  all: try (eauto using cvx_unit, block_unit, block_high; fail).
  all: try (apply clamp01_in).
  all: try eassumption.
  all: unfold FF; rewrite ?along_0, ?sdir_1.
  all: match goal with |- _ <= sqd ?a (along ?x ?y ?z) => rewrite (sqd_sym a (along x y z)) | |- sqd ?a (along ?x ?y ?z) <= _ => rewrite (sqd_sym a (along x y z)) end; lra.
Qed.
