(** Lemmas for C31 and C35: intersection of curves, removal of degrees of freedom *)
From Coq Require Import Reals List Lia Lra Bool ZArith String.
From Verif Require Import PyBase MatBase SpecMat CMat MRotor MDynamics SpecDynamics LDynEx MResults SpecResults.
Import ListNotations.
Open Scope R_scope.

Lemma segments_iff c a b : In (a, b) (segments c) <-> consecutive a b c.
Proof.
  induction c as [|p c IH].
  - split; [intros []|]. intros ([|? ?] & l2 & E); discriminate.
  - destruct c as [|q c].
    + split; [intros []|]. intros ([|? [|? ?]] & l2 & E); discriminate.
    + change (segments (p :: q :: c)) with ((p, q) :: segments (q :: c)). simpl In. rewrite IH. split.
      * intros [[= <- <-]|(l1 & l2 & E)]; [exists [], c; reflexivity|]. exists (p :: l1), l2. rewrite E. reflexivity.
      * intros ([|x l1] & l2 & E); simpl in E.
        -- injection E as <- <- _. auto.
        -- right. injection E as _ E. exists l1, l2. exact E.
Qed.
Lemma unit_range_iff x : unit_range x = true <-> 0 <= x <= 1.
Proof. unfold unit_range. destruct (Rle_dec 0 x), (Rle_dec x 1); split; intros; try discriminate; auto; lra. Qed.
Lemma overlap_iff a b c d : overlap a b c d = true <-> Rmin a b <= Rmax c d /\ Rmin c d <= Rmax a b.
Proof. unfold overlap. destruct (Rle_dec (Rmin a b) (Rmax c d)), (Rle_dec (Rmin c d) (Rmax a b)); split; intros; try discriminate; tauto. Qed.

(** the four equations *)
Lemma seg_eqs (s t : pt * pt) : let x1 := fst (fst s) in let y1 := snd (fst s) in let x2 := fst (fst t) in let y2 := snd (fst t) in
  let dx1 := fst (snd s) - x1 in let dy1 := snd (snd s) - y1 in let dx2 := fst (snd t) - x2 in let dy2 := snd (snd t) - y2 in
  forall v : vec, 
  mulv 4 (seg_matrix s t) v 0%nat = dx1 * v 0%nat - v 2%nat /\ mulv 4 (seg_matrix s t) v 1%nat = dx2 * v 1%nat - v 2%nat /\
  mulv 4 (seg_matrix s t) v 2%nat = dy1 * v 0%nat - v 3%nat /\ mulv 4 (seg_matrix s t) v 3%nat = dy2 * v 1%nat - v 3%nat.
Proof. intros. subst x1 y1 x2 y2 dx1 dy1 dx2 dy2. unfold mulv, seg_matrix, lmat. cbn [sumn nth]. generalize (v 0%nat) (v 1%nat) (v 2%nat) (v 3%nat); intros; destruct s as [[] []], t as [[] []]; cbn [fst snd]; repeat split; ring. Qed.
Lemma seg_nonsingular s t : nonsingular 4 (seg_matrix s t) <-> ~ parallel (fst s) (snd s) (fst t) (snd t).
Proof.
  pose proof (seg_eqs s t) as E. destruct s as [[x1 y1] [x1' y1']], t as [[x2 y2] [x2' y2']]. unfold parallel. cbn [fst snd] in *.
  split.
  - intros N P.
    destruct (Req_dec (x1' - x1) 0) as [Z1|Z1], (Req_dec (y1' - y1) 0) as [Z2|Z2].
    + (* degenerate first segment: t alone *)
      set (v := fun i => if Nat.eqb i 0 then 1 else 0). destruct (E v) as (E0 & E1 & E2 & E3).
      assert (V := N v). enough (Q : v 0%nat = 0) by (unfold v in Q; simpl in Q; lra). apply V; [|lia].
      intros [|[|[|[|i]]]] Hi; [rewrite E0|rewrite E1|rewrite E2|rewrite E3|lia]; unfold v; simpl; lra.
    + set (v := fun i => match i with 0%nat => y2' - y2 | 1%nat => y1' - y1 | 2%nat => (x2' - x2) * (y1' - y1) | _ => (y1' - y1) * (y2' - y2) end).
      destruct (E v) as (E0 & E1 & E2 & E3). enough (Q : v 1%nat = 0) by (unfold v in Q; simpl in Q; lra). apply (N v); [|lia].
      intros [|[|[|[|i]]]] Hi; [rewrite E0|rewrite E1|rewrite E2|rewrite E3|lia]; unfold v; simpl; try ring. rewrite P. ring.
    + set (v := fun i => match i with 0%nat => x2' - x2 | 1%nat => x1' - x1 | 2%nat => (x1' - x1) * (x2' - x2) | _ => (x1' - x1) * (y2' - y2) end).
      destruct (E v) as (E0 & E1 & E2 & E3). enough (Q : v 1%nat = 0) by (unfold v in Q; simpl in Q; lra). apply (N v); [|lia].
      intros [|[|[|[|i]]]] Hi; [rewrite E0|rewrite E1|rewrite E2|rewrite E3|lia]; unfold v; simpl; try ring. rewrite P. ring.
    + set (v := fun i => match i with 0%nat => x2' - x2 | 1%nat => x1' - x1 | 2%nat => (x1' - x1) * (x2' - x2) | _ => (x1' - x1) * (y2' - y2) end).
      destruct (E v) as (E0 & E1 & E2 & E3). enough (Q : v 1%nat = 0) by (unfold v in Q; simpl in Q; lra). apply (N v); [|lia].
      intros [|[|[|[|i]]]] Hi; [rewrite E0|rewrite E1|rewrite E2|rewrite E3|lia]; unfold v; simpl; try ring. rewrite P. ring.
  - intros P v Hv. destruct (E v) as (E0 & E1 & E2 & E3).
    rewrite Hv in E0, E1, E2, E3 by lia.
    set (D := (x1' - x1) * (y2' - y2) - (y1' - y1) * (x2' - x2)). assert (HD : D <> 0) by (unfold D; intros Q; apply P; lra).
    assert (A0 : v 0%nat = 0).
    { apply Rmult_eq_reg_l with D; auto. unfold D. rewrite Rmult_0_r.
      replace (((x1' - x1) * (y2' - y2) - (y1' - y1) * (x2' - x2)) * v 0%nat) with (((x1' - x1) * v 0%nat) * (y2' - y2) - ((y1' - y1) * v 0%nat) * (x2' - x2)) by ring.
      replace ((x1' - x1) * v 0%nat) with ((x2' - x2) * v 1%nat) by lra. replace ((y1' - y1) * v 0%nat) with ((y2' - y2) * v 1%nat) by lra. ring. }
    assert (A1 : v 1%nat = 0).
    { apply Rmult_eq_reg_l with D; auto. unfold D. rewrite Rmult_0_r.
      replace (((x1' - x1) * (y2' - y2) - (y1' - y1) * (x2' - x2)) * v 1%nat) with (((y2' - y2) * v 1%nat) * (x1' - x1) - ((x2' - x2) * v 1%nat) * (y1' - y1)) by ring.
      replace ((x2' - x2) * v 1%nat) with ((x1' - x1) * v 0%nat) by lra. replace ((y2' - y2) * v 1%nat) with ((y1' - y1) * v 0%nat) by lra. ring. }
    rewrite A0 in E0, E2. intros [|[|[|[|i]]]] Hi; auto; [lra|lra|lia].
Qed.
Lemma between_min a b t : 0 <= t <= 1 -> Rmin a b <= a + t * (b - a) <= Rmax a b.
Proof.
  intros H. unfold Rmin, Rmax. destruct (Rle_dec a b).
  - split; [assert (0 <= t * (b - a)) by (apply Rmult_le_pos; lra); lra|].
    assert (0 <= (1 - t) * (b - a)) by (apply Rmult_le_pos; lra). lra.
  - split; [assert (0 <= (1 - t) * (a - b)) by (apply Rmult_le_pos; lra); lra|].
    assert (0 <= t * (a - b)) by (apply Rmult_le_pos; lra). lra.
Qed.
Lemma seg_meet_iff la s t p : linalg_ok la -> In p (seg_meet la s t) <->
  ~ parallel (fst s) (snd s) (fst t) (snd t) /\ on_segment p (fst s) (snd s) /\ on_segment p (fst t) (snd t).
Proof.
  intros Hl. unfold seg_meet. pose proof (seg_eqs s t) as E. cbv zeta in E. split.
  - destruct (boxes_meet s t); [|intros []]. destruct (la_solve la 4 (seg_matrix s t) (seg_rhs s t)) as [T|] eqn:HT; [|intros []].
    destruct (unit_range (T 0%nat 0%nat)) eqn:U0; [|intros []]. destruct (unit_range (T 1%nat 0%nat)) eqn:U1; [|intros []]. cbn [andb].
    intros [<-|[]]. apply (solve_sol _ Hl) in HT. destruct HT as [N HT]. split; [apply seg_nonsingular; auto|].
    apply unit_range_iff in U0. apply unit_range_iff in U1.
    assert (Q : forall i, (i < 4)%nat -> mulv 4 (seg_matrix s t) (fun k => T k 0%nat) i = seg_rhs s t i 0%nat).
    { intros i Hi. rewrite <- (HT i 0%nat) by lia. reflexivity. }
    destruct (E (fun k => T k 0%nat)) as (E0 & E1 & E2 & E3).
    rewrite Q in E0, E1, E2, E3 by lia. unfold seg_rhs, lmat in E0, E1, E2, E3. simpl in E0, E1, E2, E3.
    split; [exists (T 0%nat 0%nat)|exists (T 1%nat 0%nat)]; (split; [auto|]); cbn [fst snd]; lra.
  - intros (P & (t1 & H1 & X1 & Y1) & (t2 & H2 & X2 & Y2)).
    assert (B : boxes_meet s t = true).
    { unfold boxes_meet. apply andb_true_iff. rewrite !overlap_iff.
      pose proof (between_min (fst (fst s)) (fst (snd s)) t1 H1). pose proof (between_min (fst (fst t)) (fst (snd t)) t2 H2).
      pose proof (between_min (snd (fst s)) (snd (snd s)) t1 H1). pose proof (between_min (snd (fst t)) (snd (snd t)) t2 H2). lra. }
    rewrite B. apply seg_nonsingular in P.
    destruct (la_solve la 4 (seg_matrix s t) (seg_rhs s t)) as [T|e] eqn:HT; [|apply (solve_err _ Hl) in HT; tauto].
    apply (solve_sol _ Hl) in HT. destruct HT as [_ HT].
    assert (Q : forall i, (i < 4)%nat -> mulv 4 (seg_matrix s t) (fun k => T k 0%nat) i = seg_rhs s t i 0%nat).
    { intros i Hi. rewrite <- (HT i 0%nat) by lia. reflexivity. }
    set (v := fun k => match k with 0%nat => T 0%nat 0%nat - t1 | 1%nat => T 1%nat 0%nat - t2 | 2%nat => T 2%nat 0%nat - fst p | _ => T 3%nat 0%nat - snd p end).
    assert (Z : forall i, (i < 4)%nat -> v i = 0).
    { apply P. destruct (E (fun k => T k 0%nat)) as (E0 & E1 & E2 & E3). destruct (E v) as (F0 & F1 & F2 & F3).
      rewrite Q in E0, E1, E2, E3 by lia. unfold seg_rhs, lmat in E0, E1, E2, E3. simpl in E0, E1, E2, E3.
      intros [|[|[|[|i]]]] Hi; [rewrite F0|rewrite F1|rewrite F2|rewrite F3|lia]; unfold v; lra. }
    assert (Z0 := Z 0%nat ltac:(lia)). assert (Z1 := Z 1%nat ltac:(lia)). assert (Z2 := Z 2%nat ltac:(lia)). assert (Z3 := Z 3%nat ltac:(lia)). simpl in Z0, Z1, Z2, Z3.
    assert (U0 : unit_range (T 0%nat 0%nat) = true) by (apply unit_range_iff; lra).
    assert (U1 : unit_range (T 1%nat 0%nat) = true) by (apply unit_range_iff; lra).
    rewrite U0, U1. left. destruct p. simpl in *. f_equal; lra.
Qed.
Lemma seg_meet_one la s t p q : In p (seg_meet la s t) -> In q (seg_meet la s t) -> seg_meet la s t = [p] /\ p = q.
Proof.
  unfold seg_meet. destruct (boxes_meet s t); [|intros []]. destruct (la_solve _ _ _ _); [|intros []]. destruct (_ && _)%bool; [|intros []].
  intros [<-|[]] [<-|[]]. auto.
Qed.
Lemma intersection_iff la c1 c2 p : linalg_ok la -> In p (intersection la c1 c2) <->
  exists a b a' b', consecutive a b c1 /\ consecutive a' b' c2 /\ ~ parallel a b a' b' /\ on_segment p a b /\ on_segment p a' b'.
Proof.
  intros Hl. unfold intersection. rewrite in_flat_map. split.
  - intros ([a b] & H1 & H2). apply in_flat_map in H2. destruct H2 as ([a' b'] & H2 & H3). apply (seg_meet_iff la _ _ p Hl) in H3.
    apply segments_iff in H1. apply segments_iff in H2. exists a, b, a', b'. simpl in H3. tauto.
  - intros (a & b & a' & b' & H1 & H2 & H3). exists (a, b). split; [apply segments_iff; auto|]. apply in_flat_map. exists (a', b'). split; [apply segments_iff; auto|].
    apply (seg_meet_iff la _ _ p Hl). auto.
Qed.

(** ** remove_dofs *)
Lemma kept_in n ds i : In i (kept_idx n ds) <-> (i < n)%nat /\ ~ In i ds.
Proof.
  unfold kept_idx. rewrite filter_In, in_seq, negb_true_iff. split; intros [A B]; (split; [lia|]).
  - intros Q. rewrite <- not_true_iff_false in B. apply B. apply existsb_exists. exists i. split; auto. apply Nat.eqb_refl.
  - apply not_true_iff_false. intros Q. apply existsb_exists in Q. destruct Q as (x & Hx & E). apply Nat.eqb_eq in E. subst. auto.
Qed.
Lemma filter_sorted (f : nat -> bool) l : Sorted.StronglySorted lt l -> Sorted.StronglySorted lt (filter f l).
Proof.
  induction 1 as [|a l H IH F]; simpl; [constructor|]. destruct (f a); auto. constructor; auto.
  apply Forall_forall. intros x Hx. apply filter_In in Hx. rewrite Forall_forall in F. apply F. tauto.
Qed.
Lemma seq_sorted k n : Sorted.StronglySorted lt (seq k n).
Proof. revert k. induction n; intros k; simpl; constructor; auto. apply Forall_forall. intros x Hx. apply in_seq in Hx. lia. Qed.
Lemma kept_sorted n ds : Sorted.StronglySorted lt (kept_idx n ds).
Proof. apply filter_sorted, seq_sorted. Qed.
(** two strictly increasing lists with the same members are equal *)
Lemma sorted_unique l l' : Sorted.StronglySorted lt l -> Sorted.StronglySorted lt l' -> (forall i, In i l <-> In i l') -> l = l'.
Proof.
  intros H. revert l'. induction H as [|a l H IH F]; intros l' H' E.
  - destruct l' as [|b l']; auto. exfalso. apply (proj2 (E b)). left; auto.
  - destruct H' as [|b l' H' F']; [exfalso; apply (proj1 (E a)); left; auto|].
    rewrite Forall_forall in F, F'.
    assert (a = b).
    { destruct (proj1 (E a) (or_introl eq_refl)) as [|A]; auto. destruct (proj2 (E b) (or_introl eq_refl)) as [|B]; auto. apply F' in A. apply F in B. lia. }
    subst b. f_equal. apply IH; auto. intros i. split; intros Hi.
    + destruct (proj1 (E i) (or_intror Hi)); auto. subst. apply F in Hi. lia.
    + destruct (proj2 (E i) (or_intror Hi)); auto. subst. apply F' in Hi. lia.
Qed.
Lemma third_kept m : kept_idx (3 * m) (every_third (3 * m)) = map (fun i => 3 * (i / 2) + i mod 2)%nat (seq 0 (2 * m)).
Proof.
  apply sorted_unique.
  - apply kept_sorted.
  - enough (Q : forall n k, Sorted.StronglySorted lt (map (fun i => 3 * (i / 2) + i mod 2)%nat (seq k n))) by apply Q.
    induction n as [|n IH]; intros k; cbn [seq map]; constructor; auto.
    apply Forall_forall. intros x Hx. apply in_map_iff in Hx. destruct Hx as (y & <- & Hy). apply in_seq in Hy.
    pose proof (Nat.div_mod k 2 ltac:(lia)). pose proof (Nat.div_mod y 2 ltac:(lia)).
    pose proof (Nat.mod_upper_bound k 2 ltac:(lia)). pose proof (Nat.mod_upper_bound y 2 ltac:(lia)).
    assert (k / 2 <= y / 2)%nat by (apply Nat.div_le_mono; lia). lia.
  - intros i. rewrite kept_in, in_map_iff. unfold every_third. rewrite filter_In, in_seq, Nat.eqb_eq. split.
    + intros [Hi N]. pose proof (Nat.div_mod i 3 ltac:(lia)). pose proof (Nat.mod_upper_bound i 3 ltac:(lia)).
      assert (i mod 3 <> 2)%nat by (intros Q; apply N; split; auto; lia).
      exists (2 * (i / 3) + i mod 3)%nat. rewrite in_seq.
      assert (D : ((2 * (i / 3) + i mod 3) / 2 = i / 3)%nat) by (symmetry; apply Nat.div_unique with (i mod 3); lia).
      assert (M : ((2 * (i / 3) + i mod 3) mod 2 = i mod 3)%nat) by (symmetry; apply Nat.mod_unique with (i / 3)%nat; lia).
      rewrite D, M. lia.
    + intros (y & <- & Hy). apply in_seq in Hy. pose proof (Nat.div_mod y 2 ltac:(lia)). pose proof (Nat.mod_upper_bound y 2 ltac:(lia)).
      split; [lia|]. intros [_ Q].
      assert (M : ((3 * (y / 2) + y mod 2) mod 3 = y mod 2)%nat) by (symmetry; apply Nat.mod_unique with (y / 2)%nat; lia). lia.
Qed.
Lemma every_third_ok n : forallb (fun d => d <? n)%nat (every_third n) = true.
Proof. apply forallb_forall. intros x Hx. unfold every_third in Hx. rewrite filter_In, in_seq in Hx. apply Nat.ltb_lt. lia. Qed.
Lemma remove_third m M : exists A, remove_dofs (3 * m, M)%nat None = Ok (2 * m, A)%nat /\
  forall i j, (i < 2 * m)%nat -> (j < 2 * m)%nat -> A i j = M (3 * (i / 2) + i mod 2)%nat (3 * (j / 2) + j mod 2)%nat.
Proof.
  unfold remove_dofs. cbn [default]. rewrite every_third_ok. cbn [negb]. rewrite third_kept, map_length, seq_length. eexists. split; [reflexivity|].
  intros i j Hi Hj. cbv beta.
  assert (Q : forall k, (k < 2 * m)%nat -> nth k (map (fun i => 3 * (i / 2) + i mod 2)%nat (seq 0 (2 * m))) 0%nat = (3 * (k / 2) + k mod 2)%nat).
  { intros k Hk. rewrite nth_indep with (d' := (3 * (0 / 2) + 0 mod 2)%nat) by (rewrite map_length, seq_length; auto). rewrite (map_nth (fun i => 3 * (i / 2) + i mod 2)%nat), seq_nth by auto. reflexivity. }
  rewrite !Q by auto. reflexivity.
Qed.
