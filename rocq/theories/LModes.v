(** Ordering of the eigenvalues. *)
From Coq Require Import Reals List Arith Bool Lia Lra Permutation Sorted ZArith.
From Coquelicot Require Import Complex.
From Verif Require Import PyBase CMat MDynamics LTransfer.
Import ListNotations.
Open Scope list_scope.
Open Scope R_scope.

Lemma rabs_between x a : Rabs x <= a -> - a <= x <= a.
Proof. unfold Rabs. destruct (Rcase_abs x); lra. Qed.
Lemma rhe_spec x : let k := round_half_even x in Rabs (x - IZR k) <= 1 / 2 /\ (Rabs (x - IZR k) = 1 / 2 -> Z.even k = true).
Proof.
  pose proof (base_Int_part x) as [B1 B2]. unfold round_half_even. cbv zeta. set (f := Int_part x) in *.
  destruct (Rlt_dec (x - IZR f) (1 / 2)); [|destruct (Rlt_dec (1 / 2) (x - IZR f))].
  - rewrite Rabs_pos_eq by lra. lra.
  - rewrite plus_IZR. rewrite Rabs_left by lra. lra.
  - assert (E : x - IZR f = 1 / 2) by lra. destruct (Z.even f) eqn:Ev.
    + rewrite Rabs_pos_eq by lra. split; [lra|auto].
    + rewrite plus_IZR. rewrite Rabs_left by lra. split; [lra|]. intros _. rewrite Z.even_add, Ev. reflexivity.
Qed.
Lemma rhe_unique x k l : Rabs (x - IZR k) <= 1 / 2 -> (Rabs (x - IZR k) = 1 / 2 -> Z.even k = true) ->
  Rabs (x - IZR l) <= 1 / 2 -> (Rabs (x - IZR l) = 1 / 2 -> Z.even l = true) -> k = l.
Proof.
  assert (W : forall k l, (k < l)%Z -> Rabs (x - IZR k) <= 1 / 2 -> (Rabs (x - IZR k) = 1 / 2 -> Z.even k = true) ->
    Rabs (x - IZR l) <= 1 / 2 -> (Rabs (x - IZR l) = 1 / 2 -> Z.even l = true) -> False).
  { clear. intros k l Hlt H1 E1 H2 E2. apply IZR_lt in Hlt as Hr.
    assert (A1 : - (1 / 2) <= x - IZR k <= 1 / 2) by (apply rabs_between; auto).
    assert (A2 : - (1 / 2) <= x - IZR l <= 1 / 2) by (apply rabs_between; auto).
    assert (L1 : (l <= k + 1)%Z) by (apply le_IZR; rewrite plus_IZR; lra).
    assert (l = (k + 1)%Z) by lia. subst l. rewrite plus_IZR in *.
    assert (Ek : Z.even k = true) by (apply E1; rewrite Rabs_pos_eq; lra).
    assert (El : Z.even (k + 1) = true) by (apply E2; rewrite Rabs_left; lra).
    rewrite Z.even_add, Ek in El. discriminate. }
  intros H1 E1 H2 E2. destruct (Z.lt_trichotomy k l) as [L|[L|L]]; auto; exfalso; eapply W; eauto.
Qed.
Lemma rhe_opp x : round_half_even (- x) = (- round_half_even x)%Z.
Proof.
  pose proof (rhe_spec (- x)) as [A1 A2]. pose proof (rhe_spec x) as [B1 B2]. cbv zeta in *.
  assert (E : Rabs (- x - IZR (- round_half_even x)) = Rabs (x - IZR (round_half_even x))).
  { rewrite opp_IZR. rewrite <- Rabs_Ropp. f_equal. ring. }
  apply (rhe_unique (- x)); auto; rewrite E; auto. intros H. rewrite Z.even_opp. auto.
Qed.
Lemma around10_opp x : around10 (- x) = - around10 x.
Proof. unfold around10. replace (- x * 10 ^ 10) with (- (x * 10 ^ 10)) by ring. rewrite rhe_opp, opp_IZR. field. Qed.
Lemma key_wd_conj z : key_wd (Cconj z) = - key_wd z.
Proof. unfold key_wd, Cconj. cbn [Im snd]. apply around10_opp. Qed.

(** ** sortedness *)
Definition lex_leP (ev : nat -> C) (i j : nat) : Prop :=
  key_wd (ev i) < key_wd (ev j) \/ key_wd (ev i) = key_wd (ev j) /\ key_wn (ev i) <= key_wn (ev j).
Lemma lex_le_spec ev i j : lex_le (ev i) (ev j) = true <-> lex_leP ev i j.
Proof.
  unfold lex_le, lex_leP. destruct (Rlt_dec _ _); [tauto|]. destruct (Req_EM_T _ _) as [E|E].
  - destruct (Rle_dec _ _); split; auto; try discriminate. intros [H|[_ H]]; tauto.
  - split; [discriminate|]. tauto.
Qed.
Lemma lex_total ev i j : lex_leP ev i j \/ lex_leP ev j i.
Proof. unfold lex_leP. destruct (Rtotal_order (key_wd (ev i)) (key_wd (ev j))) as [|[|]]; [auto| |right; left; lra]. destruct (Rle_or_lt (key_wn (ev i)) (key_wn (ev j))); [auto|right; right; split; lra]. Qed.
Lemma lex_trans ev i j k : lex_leP ev i j -> lex_leP ev j k -> lex_leP ev i k.
Proof. unfold lex_leP. intros [H|[H H']] [G|[G G']]; try (left; lra). right; split; lra. Qed.
Lemma insert_sorted ev i l : StronglySorted (lex_leP ev) l -> StronglySorted (lex_leP ev) (insert_idx ev i l).
Proof.
  induction l as [|j l IH]; intros H; simpl.
  - constructor; constructor.
  - inversion H as [|? ? H1 H2]; subst. destruct (lex_le (ev i) (ev j)) eqn:E.
    + apply lex_le_spec in E. constructor; auto. constructor; auto. apply Forall_impl with (2 := H2). intros a Ha. eapply lex_trans; eauto.
    + assert (E' : lex_leP ev j i). { destruct (lex_total ev i j) as [T|T]; auto. apply lex_le_spec in T. congruence. }
      constructor; auto. apply Forall_forall. intros a Ha. apply (Permutation_in _ (insert_idx_perm ev i l)) in Ha. destruct Ha as [<-|Ha]; auto.
      rewrite Forall_forall in H2. auto.
Qed.
Lemma lexsort_sorted ev n : StronglySorted (lex_leP ev) (lexsort ev n).
Proof. unfold lexsort. induction (seq 0 n); simpl; [constructor|]. apply insert_sorted; auto. Qed.
Lemma sorted_nth {A} (P : A -> A -> Prop) l d i j : StronglySorted P l -> (i < j)%nat -> (j < length l)%nat -> P (nth i l d) (nth j l d).
Proof.
  intros H. revert i j. induction H as [|a l H IH F]; intros i j Hij Hj; simpl in *; [lia|].
  destruct j as [|j]; [lia|]. destruct i as [|i].
  - rewrite Forall_forall in F. apply F, nth_In. lia.
  - apply IH; lia.
Qed.
Lemma sorted_perm_eq {A} (P : A -> A -> Prop) l l' : (forall x y, P x y -> P y x -> False) ->
  StronglySorted P l -> StronglySorted P l' -> Permutation l l' -> l = l'.
Proof.
  intros As H. revert l'. induction H as [|a l H IH F]; intros l' H' Pm.
  - symmetry. apply Permutation_nil. auto.
  - inversion H' as [|b l'' H1 F1]; subst; [apply Permutation_sym, Permutation_nil in Pm; discriminate|].
    assert (E : a = b).
    { assert (I1 : In a (b :: l'')) by (apply (Permutation_in _ Pm); left; auto).
      assert (I2 : In b (a :: l)) by (apply (Permutation_in _ (Permutation_sym Pm)); left; auto).
      destruct I1 as [|I1]; auto. destruct I2 as [|I2]; auto. rewrite Forall_forall in F, F1. exfalso. apply (As a b); auto. }
    subst b. f_equal. apply IH; auto. apply (Permutation_cons_inv Pm).
Qed.
Lemma sorted_impl {A} (P Q : A -> A -> Prop) l : (forall x y, In x l -> In y l -> P x y -> x <> y -> Q x y) -> NoDup l -> StronglySorted P l -> StronglySorted Q l.
Proof.
  intros HPQ ND H. revert HPQ ND. induction H as [|a l H IH F]; intros HPQ ND; constructor.
  - apply IH; [|inversion ND; auto]. intros x y Hx Hy. apply HPQ; right; auto.
  - apply Forall_forall. intros b Hb. rewrite Forall_forall in F. apply HPQ; [left; auto|right; auto|auto|]. intros <-. inversion ND; auto.
Qed.
Lemma sorted_rev {A} (P : A -> A -> Prop) l : StronglySorted P l -> StronglySorted (fun x y => P y x) (rev l).
Proof.
  induction 1 as [|a l H IH F]; simpl; [constructor|].
  assert (G : forall l a, StronglySorted (fun x y => P y x) l -> Forall (fun x => P a x) l -> StronglySorted (fun x y => P y x) (l ++ [a])).
  { clear. induction l as [|b l IH]; intros a H F; simpl; [repeat constructor|]. inversion H; subst. inversion F; subst. constructor; auto.
    apply Forall_app. split; auto. }
  apply G; auto. apply Forall_rev. auto.
Qed.
Lemma sorted_map {A B} (P : B -> B -> Prop) (f : A -> B) l : StronglySorted (fun x y => P (f x) (f y)) l -> StronglySorted P (map f l).
Proof. induction 1; simpl; constructor; auto. apply Forall_map. auto. Qed.

(** If the eigenvalues come in conjugate pairs with different (rounded) imaginary parts, sorting puts them in mirrored positions. *)
Lemma mirrored ev n (c : nat -> nat) : (forall i, (i < n)%nat -> (c i < n)%nat /\ c (c i) = i /\ ev (c i) = Cconj (ev i)) ->
  (forall i j, (i < n)%nat -> (j < n)%nat -> key_wd (ev i) = key_wd (ev j) -> i = j) ->
  lexsort ev n = rev (map c (lexsort ev n)).
Proof.
  intros Hc Hd. pose proof (lexsort_perm ev n) as Pm. set (L := lexsort ev n) in *.
  assert (In_n : forall x, In x L -> (x < n)%nat) by (intros x Hx; apply (Permutation_in _ Pm) in Hx; apply in_seq in Hx; lia).
  assert (ND : NoDup L) by (apply (Permutation_NoDup (Permutation_sym Pm)), seq_NoDup).
  set (P := fun i j => key_wd (ev i) < key_wd (ev j)).
  assert (S1 : StronglySorted P L).
  { apply (sorted_impl (lex_leP ev)); [|exact ND|exact (lexsort_sorted ev n)]. intros x y Hx Hy [H|[H _]] Hne; [exact H|]. exfalso. apply Hne, Hd; auto. }
  apply (sorted_perm_eq P); auto.
  - unfold P. intros; lra.
  - apply (sorted_rev (fun x y => P y x)). apply (sorted_map (fun x y => P y x) c).
    apply (sorted_impl P); auto. intros x y Hx Hy H _. unfold P in *. destruct (Hc x (In_n x Hx)) as (_ & _ & ->). destruct (Hc y (In_n y Hy)) as (_ & _ & ->).
    rewrite !key_wd_conj. lra.
  - apply NoDup_Permutation; auto.
    + apply NoDup_rev. apply NoDup_map_inv with (f := c). rewrite map_map. rewrite (map_ext_in _ (fun x => x)), map_id; auto.
      intros a Ha. apply Hc; auto.
    + intros x. rewrite <- in_rev, in_map_iff. split.
      * intros Hx. exists (c x). split; [apply Hc; auto|]. apply (Permutation_in _ (Permutation_sym Pm)), in_seq. destruct (Hc x (In_n x Hx)). lia.
      * intros (y & <- & Hy). apply (Permutation_in _ (Permutation_sym Pm)), in_seq. destruct (Hc y (In_n y Hy)). lia.
Qed.
Lemma index_nth ev n idx k : index ev (2 * n) = Ok idx -> (k < 2 * n)%nat ->
  nth k idx 0%nat = nth (if (k <? n)%nat then n + k else k - n)%nat (lexsort ev (2 * n)) 0%nat.
Proof.
  intros H Hk. apply index_perm in H as [_ ->]. set (L := lexsort ev (2 * n)).
  assert (E : (2 * n / 2 = n)%nat) by (rewrite Nat.mul_comm; apply Nat.div_mul; lia). rewrite E.
  assert (LL : length L = (2 * n)%nat) by (unfold L; rewrite (Permutation_length (lexsort_perm _ _)), seq_length; auto).
  destruct (Nat.ltb_spec k n).
  - rewrite app_nth1 by (rewrite skipn_length; lia). rewrite <- (firstn_skipn n L) at 2. rewrite app_nth2; rewrite firstn_length_le by lia; [|lia].
    f_equal. lia.
  - rewrite app_nth2; rewrite skipn_length, LL; [|lia]. replace (k - (2 * n - n))%nat with (k - n)%nat by lia.
    rewrite <- (firstn_skipn n L) at 2. rewrite app_nth1 by (rewrite firstn_length_le; lia). reflexivity.
Qed.
Lemma conjugate_position ev n (c : nat -> nat) idx k : (forall i, (i < 2 * n)%nat -> (c i < 2 * n)%nat /\ c (c i) = i /\ ev (c i) = Cconj (ev i)) ->
  (forall i j, (i < 2 * n)%nat -> (j < 2 * n)%nat -> key_wd (ev i) = key_wd (ev j) -> i = j) ->
  index ev (2 * n) = Ok idx -> (k < n)%nat ->
  ev (nth (2 * n - 1 - k) idx 0%nat) = Cconj (ev (nth k idx 0%nat)).
Proof.
  intros Hc Hd Hi Hk. rewrite (index_nth ev n idx k Hi), (index_nth ev n idx (2 * n - 1 - k) Hi) by lia.
  rewrite (proj2 (Nat.ltb_lt k n)), (proj2 (Nat.ltb_ge (2 * n - 1 - k) n)) by lia.
  pose proof (lexsort_perm ev (2 * n)) as Pm. pose proof (mirrored ev (2 * n) c Hc Hd) as M. set (L := lexsort ev (2 * n)) in *.
  assert (LL : length L = (2 * n)%nat) by (rewrite (Permutation_length Pm), seq_length; auto).
  rewrite M at 1. rewrite rev_nth by (rewrite map_length; lia). rewrite map_length, LL.
  replace (2 * n - S (2 * n - 1 - k - n))%nat with (n + k)%nat by lia.
  rewrite (nth_indep _ 0%nat (c 0%nat)) by (rewrite map_length; lia). rewrite map_nth.
  assert (B : (nth (n + k) L 0 < 2 * n)%nat).
  { assert (I : In (nth (n + k) L 0%nat) (seq 0 (2 * n))) by (apply (Permutation_in _ Pm), nth_In; lia). apply in_seq in I. lia. }
  apply Hc; auto.
Qed.
