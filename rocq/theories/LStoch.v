(** Lemmas for ross/stochastic. *)
From Coq Require Import Reals List String Ascii Bool Arith Lia Lra.
From Coquelicot Require Import Complex.
From Verif Require Import PyBase PyDict MatBase CMat MMaterial MShaft MDisk MBearing MRotor MDynamics MStoch SpecStoch.
Import ListNotations.
Open Scope string_scope.
Open Scope list_scope.
Local Notation length := List.length.

Lemma bind_ok {A B} (r : res A) (f : A -> res B) b : bind r f = Ok b -> exists a, r = Ok a /\ f a = Ok b.
Proof. destruct r as [a|e]; simpl; [eauto|discriminate]. Qed.
Ltac ob H := apply bind_ok in H; let a := fresh "a" in let E := fresh "E" in destruct H as (a & E & H).

Lemma mapM_F2 {A B} (f : A -> res B) l : forall l', mapM f l = Ok l' <-> Forall2 (fun x y => f x = Ok y) l l'.
Proof.
  induction l as [|x l IH]; intros l'; simpl; split; intros H.
  - injection H as <-. constructor.
  - inversion H. reflexivity.
  - ob H. ob H. injection H as <-. constructor; auto. apply IH; auto.
  - inversion H as [|? y ? l2 Hy Hl]; subst. apply IH in Hl. rewrite Hy. simpl. rewrite Hl. reflexivity.
Qed.
Lemma F2_len {A B} (P : A -> B -> Prop) l l' : Forall2 P l l' -> length l = length l'.
Proof. induction 1; simpl; auto. Qed.
Lemma F2_nth {A B} (P : A -> B -> Prop) l l' : Forall2 P l l' -> forall i x, nth_error l i = Some x -> exists y, nth_error l' i = Some y /\ P x y.
Proof. induction 1; intros [|i] z Hz; simpl in *; try discriminate; eauto. injection Hz as <-. eauto. Qed.
Lemma F2_nth' {A B} (P : A -> B -> Prop) l l' : Forall2 P l l' -> forall i y, nth_error l' i = Some y -> exists x, nth_error l i = Some x /\ P x y.
Proof. induction 1; intros [|i] z Hz; simpl in *; try discriminate; eauto. injection Hz as <-. eauto. Qed.
Lemma nth_error_seq n i k : nth_error (seq k n) i = if (i <? n)%nat then Some (k + i)%nat else None.
Proof.
  revert k i. induction n as [|n IH]; intros k [|i]; simpl; auto. { f_equal. lia. }
  rewrite IH. change (S i <? S n)%nat with (i <? n)%nat. destruct (i <? n)%nat; auto. f_equal. lia.
Qed.
Lemma F2_seq {B} (P : nat -> B -> Prop) n l : Forall2 P (seq 0 n) l -> length l = n /\ forall i y, nth_error l i = Some y -> P i y.
Proof.
  intros H. split. { apply F2_len in H. rewrite seq_length in H. auto. }
  intros i y Hy. destruct (F2_nth' _ _ _ H i y Hy) as (x & Hx & Hp). rewrite nth_error_seq in Hx. destruct (i <? n)%nat; [|discriminate].
  injection Hx as <-. exact Hp.
Qed.
Lemma seq_F2 {B} (P : nat -> B -> Prop) n : forall k l, length l = n -> (forall i y, nth_error l i = Some y -> P (k + i)%nat y) -> Forall2 P (seq k n) l.
Proof.
  induction n as [|n IH]; intros k [|y l] Hl H; simpl in *; try discriminate; constructor.
  - specialize (H 0%nat y eq_refl). rewrite Nat.add_0_r in H. exact H.
  - apply IH; [lia|]. intros i z Hz. replace (S k + i)%nat with (k + S i)%nat by lia. apply H. exact Hz.
Qed.

Lemma str_in_iff k l : str_in k l = true <-> In k l.
Proof.
  unfold str_in. rewrite existsb_exists. split; [intros (x & Hx & E); apply String.eqb_eq in E; subst; auto|].
  intros H. exists k. split; auto. apply String.eqb_refl.
Qed.
Lemma sv_len_iff v n : sv_len v = Ok n <-> entries v n.
Proof. destruct v; simpl; split; try discriminate; try tauto; congruence. Qed.
Lemma sv_get_iff v i x : sv_get v i = Ok x <-> entry v i x.
Proof.
  destruct v as [| | | |s| |l]; simpl; split; try discriminate; try tauto.
  - destruct (String.get i s) as [c|]; [|discriminate]. injection 1 as <-. eauto.
  - intros (c & -> & ->). reflexivity.
  - destruct (nth_error l i); [congruence|discriminate].
  - intros ->. reflexivity.
Qed.

Lemma row_sample e rnd i row : sample_row e rnd i = Ok row ->
  length row = length (st_attrs e) /\ sample_of (st_attrs e) rnd i (combine (map fst (st_attrs e)) row).
Proof.
  unfold sample_row, sample_of. intros H. apply mapM_F2 in H. split; [symmetry; eapply F2_len; eauto|].
  induction H as [|kv y l l' Hy Hl IH]; simpl; constructor; auto. simpl. destruct (str_in (fst kv) rnd) eqn:E.
  - split; auto. split; [intros _; apply sv_get_iff; auto|]. intros N. apply str_in_iff in E. tauto.
  - split; auto. split; [|congruence]. intros I. apply str_in_iff in I. congruence.
Qed.
Lemma sample_row_ok e rnd i : (forall k v, In (k, v) (st_attrs e) -> In k rnd -> exists x, entry v i x) -> is_ok (sample_row e rnd i).
Proof.
  unfold sample_row. induction (st_attrs e) as [|[k v] l IH]; intros H; simpl; [eexists; reflexivity|].
  destruct IH as [r Hr]. { intros k' v' I. apply H. right; auto. }
  destruct (str_in k rnd) eqn:E; simpl.
  - destruct (H k v (or_introl eq_refl)) as [x Hx]; [apply str_in_iff; auto|]. apply sv_get_iff in Hx. rewrite Hx. simpl. rewrite Hr. eexists; reflexivity.
  - rewrite Hr. eexists; reflexivity.
Qed.
Lemma sample_inj attrs rnd i kw kw' : sample_of attrs rnd i kw -> sample_of attrs rnd i kw' -> kw = kw'.
Proof.
  intros H. revert kw'. induction H as [|[k v] [k1 x] l l' (E & H1 & H2) Hl IH]; intros kw' H'; inversion H' as [|? [k2 y] ? l2 (E' & H1' & H2') Hl']; subst; auto.
  simpl in *. subst. f_equal; [|apply IH; auto]. f_equal. destruct (in_dec string_dec k rnd) as [I|N].
  - specialize (H1 I). specialize (H1' I). destruct v as [| | | |s| |vs]; simpl in *; try tauto; [|congruence].
    destruct H1 as (c & E1 & ->). destruct H1' as (c' & E2 & ->). congruence.
  - rewrite H2, H2'; auto.
Qed.

Lemma combine_prefix {B} (a b : list string) (r : list B) : length r = length a -> combine (a ++ b) r = combine a r.
Proof. revert r. induction a as [|x a IH]; intros [|y r] H; simpl in *; try discriminate; [destruct b; auto|]. rewrite IH; auto. Qed.
(** calling with the attributes in order is calling by keyword, when the parameters begin with the names of the attributes *)
Lemma call_row {A} (c : pyclass A) e rnd i row more : c_sig c = map fst (st_attrs e) ++ more -> sample_row e rnd i = Ok row ->
  exists kw, sample_of (st_attrs e) rnd i kw /\ call c row = call_by_keyword c kw.
Proof.
  intros S H. apply row_sample in H as (L & H). exists (combine (map fst (st_attrs e)) row). split; auto. unfold call, call_by_keyword. rewrite S.
  rewrite app_length, map_length, L. replace (_ <? _)%nat with false by (symmetry; apply Nat.ltb_ge; lia). rewrite combine_prefix; auto. rewrite map_length. auto.
Qed.

Lemma first_random_ok e rnd v : first_random e = Ok (rnd, v) <-> exists k rest, rnd = k :: rest /\ st_random e = Some rnd /\ dget (st_attrs e) k = Some v.
Proof.
  unfold first_random. destruct (st_random e) as [[|k rest]|]; split; try discriminate.
  - intros (k & r & -> & E & _). discriminate.
  - destruct (dget (st_attrs e) k) eqn:E; [|discriminate]. injection 1 as <- <-. eauto.
  - intros (k' & r & -> & E & H). injection E as -> ->. rewrite H. reflexivity.
  - intros (k & r & _ & E & _). discriminate.
Qed.

Lemma list_samples {A} (c : pyclass A) e els more : c_sig c = map fst (st_attrs e) ++ more -> st_list c e = Ok els ->
  exists k rest v n, st_random e = Some (k :: rest) /\ dget (st_attrs e) k = Some v /\ entries v n /\ length els = n /\
    forall i x, nth_error els i = Some x -> exists kw, sample_of (st_attrs e) (k :: rest) i kw /\ call_by_keyword c kw = Ok x.
Proof.
  intros S H. unfold st_list, random_rows in H. ob H. ob E. destruct a0 as [rnd v]. ob E. simpl in *. apply first_random_ok in E0 as (k & rest & -> & R & G).
  apply mapM_F2 in E. apply mapM_F2 in H. apply F2_seq in E as (L & E). exists k, rest, v, a0. repeat split; auto.
  - apply sv_len_iff; auto.
  - rewrite <- (F2_len _ _ _ H). auto.
  - intros i x Hx. destruct (F2_nth' _ _ _ H i x Hx) as (row & Hr & Hc). specialize (E i row Hr).
    destruct (call_row c e (k :: rest) i row more S E) as (kw & K & Q). exists kw. split; auto. congruence.
Qed.
Lemma list_samples_conv {A} (c : pyclass A) e els more k rest v : c_sig c = map fst (st_attrs e) ++ more ->
  st_random e = Some (k :: rest) -> dget (st_attrs e) k = Some v -> entries v (length els) ->
  (forall i x, nth_error els i = Some x -> exists kw, sample_of (st_attrs e) (k :: rest) i kw /\ call_by_keyword c kw = Ok x) ->
  st_list c e = Ok els.
Proof.
  intros S R G N H. unfold st_list, random_rows.
  assert (F : first_random e = Ok (k :: rest, v)) by (apply first_random_ok; eauto). rewrite F. simpl. apply sv_len_iff in N. rewrite N. simpl.
  assert (P : exists rows, mapM (sample_row e (k :: rest)) (seq 0 (length els)) = Ok rows /\ mapM (call c) rows = Ok els).
  2:{ destruct P as (rows & -> & Q). exact Q. }
  assert (W : forall i x, nth_error els i = Some x -> exists row, sample_row e (k :: rest) i = Ok row /\ call c row = Ok x).
  { intros i x Hx. destruct (H i x Hx) as (kw & K & Q).
    destruct (sample_row_ok e (k :: rest) i) as [row Hr].
    { intros k' v' I J. clear -K I J. induction K as [|a b l l' (E & H1 & _) Hl IH]; [destruct I|]. destruct I as [->|I]; auto. simpl in *. eauto. }
    exists row. split; auto. destruct (call_row c e (k :: rest) i row more S Hr) as (kw' & K' & ->). rewrite (sample_inj _ _ _ _ _ K' K). exact Q. }
  clear -W. assert (G : forall m l, (forall i x, nth_error l i = Some x -> exists row, sample_row e (k :: rest) (m + i) = Ok row /\ call c row = Ok x) ->
    exists rows, mapM (sample_row e (k :: rest)) (seq m (length l)) = Ok rows /\ mapM (call c) rows = Ok l).
  { intros m l. revert m. induction l as [|x l IH]; intros m V; simpl; [exists []; auto|].
    destruct (V 0%nat x eq_refl) as (row & Hr & Hc). rewrite Nat.add_0_r in Hr. destruct (IH (S m)) as (rows & Hs & Hq).
    { intros i y Hy. destruct (V (S i) y Hy) as (r & Q1 & Q2). exists r. rewrite Nat.add_succ_r in Q1. auto. }
    exists (row :: rows). rewrite Hr. simpl. rewrite Hs. simpl. rewrite Hc. simpl. rewrite Hq. auto. }
  apply (G 0%nat els). exact W.
Qed.
