(** Lemmas about modal analyses with the iterative solver. *)
From Coq Require Import Reals List Arith Bool Lia Lra Permutation Sorted.
From Coquelicot Require Import Complex.
From Verif Require Import PyBase MatBase SpecMat LMat CMat LCMat MRotor MDynamics SpecDynamics MResults MModal SpecModal LRotor6 LTransfer LModes LResponse LStoch.
Import ListNotations.
Open Scope list_scope.
Open Scope R_scope.

(** ** sorting *)
Notation lexC := before.
Lemma sorted_unique {A} (P : A -> A -> Prop) (l : list A) : forall l', StronglySorted P l -> StronglySorted P l' -> Permutation l l' ->
  (forall x y, In x l -> In y l -> P x y -> P y x -> x = y) -> l = l'.
Proof.
  induction l as [|a l IH]; intros [|b l'] S1 S2 Pm AS; auto.
  - apply Permutation_nil in Pm. discriminate.
  - apply Permutation_sym, Permutation_nil in Pm. discriminate.
  - inversion S1 as [|? ? S1' F1]; subst. inversion S2 as [|? ? S2' F2]; subst.
    assert (a = b).
    { assert (Ia : In a (b :: l')) by (apply (Permutation_in _ Pm); left; reflexivity).
      assert (Ib : In b (a :: l)) by (apply (Permutation_in _ (Permutation_sym Pm)); left; reflexivity).
      destruct Ia as [->|Ia]; [reflexivity|]. destruct Ib as [Ib|Ib]; [auto|].
      rewrite Forall_forall in F1, F2. apply AS; [left; reflexivity|right; exact Ib|apply F1; exact Ib|apply F2; exact Ia]. }
    subst b. f_equal. apply IH; auto.
    + apply (Permutation_cons_inv Pm).
    + intros x y Hx Hy. apply AS; right; auto.
Qed.
Lemma map_nth_seq {A} (l : list A) d : map (fun k => nth k l d) (seq 0 (length l)) = l.
Proof.
  induction l as [|x l IH]; [reflexivity|]. cbn [length seq map nth]. f_equal. rewrite <- seq_shift, map_map. exact IH.
Qed.
Definition sorted_values (l : list (C * cvec)) : list C := map (fun k => fst (nth k l pair0)) (lexsort (fun k => fst (nth k l pair0)) (length l)).
Lemma sorted_values_perm l : Permutation (sorted_values l) (map fst l).
Proof.
  unfold sorted_values. rewrite (Permutation_map _ (lexsort_perm _ _)).
  rewrite <- (map_map (fun k => nth k l pair0) fst), map_nth_seq. reflexivity.
Qed.
Lemma StronglySorted_map {A B} (f : A -> B) (P : A -> A -> Prop) (Q : B -> B -> Prop) l : (forall x y, P x y -> Q (f x) (f y)) -> StronglySorted P l -> StronglySorted Q (map f l).
Proof.
  intros H. induction 1 as [|a l S IH F]; cbn; constructor; auto. rewrite Forall_map. eapply Forall_impl; [|exact F]. intros b. apply H.
Qed.
Lemma sorted_values_sorted l : StronglySorted lexC (sorted_values l).
Proof. unfold sorted_values. eapply StronglySorted_map; [|apply lexsort_sorted]. intros x y Hxy. exact Hxy. Qed.
Lemma sort_pairs_spec l s : sort_pairs l = Ok s -> let h := (length l / 2)%nat in
  length l = (2 * h)%nat /\ Permutation s l /\ map fst s = skipn h (sorted_values l) ++ firstn h (sorted_values l).
Proof.
  intros H h. unfold sort_pairs in H. apply bind_ok in H as (idx & Hi & H). injection H as <-. pose proof Hi as Hi'.
  apply index_perm in Hi as [P E]. split; [|split].
  - unfold index in Hi'. destruct (Nat.eqb_spec (length (skipn (length l / 2) (lexsort (fun k => fst (nth k l pair0)) (length l)))) (length (firstn (length l / 2) (lexsort (fun k => fst (nth k l pair0)) (length l))))) as [e|]; [|discriminate].
    rewrite skipn_length, firstn_length in e. rewrite (Permutation_length (lexsort_perm _ _)), seq_length in e. fold h in e.
    pose proof (Nat.div_le_upper_bound (length l) 2 (length l)). rewrite Nat.min_l in e by lia. lia.
  - rewrite (Permutation_map _ P), map_nth_seq. reflexivity.
  - rewrite E, !map_app, !map_map. unfold sorted_values. rewrite <- skipn_map, <- firstn_map. reflexivity.
Qed.
Lemma sort_pairs_even l : Nat.even (length l) = true -> is_ok (sort_pairs l).
Proof.
  intros H. apply Nat.even_spec in H as [h Hh]. unfold sort_pairs, index. rewrite skipn_length, firstn_length, (Permutation_length (lexsort_perm _ _)), seq_length, Hh.
  replace (2 * h / 2)%nat with h by (rewrite Nat.mul_comm, Nat.div_mul; lia). rewrite (proj2 (Nat.eqb_eq _ _)) by lia. eexists. reflexivity.
Qed.
Lemma sort_pairs_odd l : Nat.even (length l) = false -> sort_pairs l = Err ValueError.
Proof.
  intros H. unfold sort_pairs, index. rewrite skipn_length, firstn_length, (Permutation_length (lexsort_perm _ _)), seq_length.
  destruct (Nat.eqb_spec (length l - length l / 2) (Nat.min (length l / 2) (length l))) as [e|]; [|reflexivity].
  exfalso. pose proof (Nat.div_le_upper_bound (length l) 2 (length l)). rewrite Nat.min_l in e by lia.
  assert (E : length l = (2 * (length l / 2))%nat) by lia. rewrite E, Nat.even_mul in H. discriminate.
Qed.
Lemma lexC_antisym (spec : list C) x y : told_apart spec -> In x spec -> In y spec -> lexC x y -> lexC y x -> x = y.
Proof. intros T Hx Hy [H|[H1 H2]] [K|[K1 K2]]; try lra. apply T; auto. lra. Qed.
Lemma sort_pairs_values l l' s s' : Permutation (map fst l) (map fst l') -> told_apart (map fst l) -> sort_pairs l = Ok s -> sort_pairs l' = Ok s' -> map fst s = map fst s'.
Proof.
  intros P T H H'. apply sort_pairs_spec in H as (_ & _ & ->). apply sort_pairs_spec in H' as (_ & _ & ->).
  assert (L : length l = length l') by (apply Permutation_length in P; rewrite !map_length in P; exact P). rewrite L.
  assert (E : sorted_values l = sorted_values l').
  { apply (sorted_unique lexC); [apply sorted_values_sorted|apply sorted_values_sorted| |].
    - rewrite !sorted_values_perm. exact P.
    - intros x y Hx Hy. apply (lexC_antisym (map fst l)); auto; apply (Permutation_in _ (sorted_values_perm l)); auto. }
  rewrite E. reflexivity.
Qed.

(** ** the nearest eigenvalues *)
Definition nearer (d : R) (z : C) : bool := if Rlt_dec (Cmod (z - 1)%C) d then true else false.
Lemma filter_none {A} (f : A -> bool) l : (forall x, In x l -> f x = false) -> filter f l = [].
Proof. intros H. induction l as [|a l IH]; [reflexivity|]. cbn. rewrite (H a) by (left; reflexivity). apply IH. intros; apply H; right; auto. Qed.
Lemma filter_all {A} (f : A -> bool) l : (forall x, In x l -> f x = true) -> filter f l = l.
Proof. intros H. induction l as [|a l IH]; [reflexivity|]. cbn. rewrite (H a) by (left; reflexivity). f_equal. apply IH. intros; apply H; right; auto. Qed.
Lemma filter_shorter {A} (f : A -> bool) l x : In x l -> f x = false -> (length (filter f l) < length l)%nat.
Proof.
  induction l as [|a l IH]; [contradiction|]. intros [->|H] E; cbn.
  - rewrite E. assert (L : (length (filter f l) <= length l)%nat) by (clear; induction l as [|b l IH]; cbn; [lia|destruct (f b); cbn; lia]). lia.
  - destruct (f a); cbn; specialize (IH H E); lia.
Qed.

Lemma nearest_same k spec near near' : well_cut spec k \/ (length spec <= k)%nat -> nearest_to_one k spec near -> nearest_to_one k spec near' -> Permutation near near'.
Proof.
  intros [W|W] N N'.
  - destruct W as (d & H1 & H2).
    assert (X : forall nn, nearest_to_one k spec nn -> Permutation nn (filter (nearer d) spec)).
    { intros nn Hn. assert (W' : well_cut spec k) by (exists d; auto).
      destruct Hn as (L & far & P & F). change (length (filter (nearer d) spec) = k) in H2.
      pose proof (filter_perm (nearer d) _ _ P) as Q. rewrite filter_app in Q.
      assert (LQ : (length (filter (nearer d) nn) + length (filter (nearer d) far) = k)%nat) by (rewrite <- H2, <- (Permutation_length Q), app_length; reflexivity).
      assert (All : forall x, In x nn -> nearer d x = true).
      { intros x Hx. destruct (nearer d x) eqn:E; [reflexivity|]. exfalso.
        assert (Hne : Cmod (x - 1)%C <> d) by (apply H1; apply (Permutation_in _ P), in_or_app; left; exact Hx).
        assert (filter (nearer d) far = []).
        { apply filter_none. intros y Hy. specialize (F x y Hx Hy). unfold nearer in *. destruct (Rlt_dec (Cmod (x - 1)%C) d); [discriminate|].
          destruct (Rlt_dec (Cmod (y - 1)%C) d); [lra|reflexivity]. }
        pose proof (filter_shorter _ _ _ Hx E) as S. rewrite H in LQ. cbn in LQ. lia. }
      rewrite (filter_all _ _ All) in Q, LQ. assert (E : filter (nearer d) far = []) by (destruct (filter (nearer d) far); [reflexivity|cbn in LQ; lia]).
      rewrite E, app_nil_r in Q. exact Q. }
    rewrite (X _ N), (X _ N'). reflexivity.
  - assert (X : forall nn, nearest_to_one k spec nn -> Permutation nn spec).
    { intros nn (L & far & P & _). pose proof (Permutation_length P) as E. rewrite app_length in E.
      destruct far as [|f far]; [rewrite app_nil_r in P; exact P|cbn in E; lia]. }
    rewrite (X _ N), (X _ N'). reflexivity.
Qed.

(** ** filters on pairs *)
Lemma filter_fst (f : C -> bool) (l : list (C * cvec)) : map fst (filter (fun p => f (fst p)) l) = filter f (map fst l).
Proof. induction l as [|p l IH]; [reflexivity|]. cbn. destruct (f (fst p)); cbn; rewrite IH; reflexivity. Qed.
Lemma filter_split {A} (f : A -> bool) l : Permutation (filter f l ++ filter (fun x => negb (f x)) l) l.
Proof.
  induction l as [|a l IH]; [constructor|]. cbn. destruct (f a); cbn; [constructor; exact IH|].
  etransitivity; [|constructor; exact IH]. symmetry. apply Permutation_middle.
Qed.
Lemma picked_filter (P : C -> Prop) (f : C -> bool) l kept : (forall z, f z = true <-> P z) -> Permutation kept (filter f l) -> picked P l kept.
Proof.
  intros H K. exists (filter (fun z => negb (f z)) l). split; [|split].
  - rewrite K. apply filter_split.
  - intros z Hz. apply (Permutation_in _ K) in Hz. apply filter_In in Hz. apply H. tauto.
  - intros z Hz Pz. apply filter_In in Hz as [_ Hz]. apply H in Pz. rewrite Pz in Hz. discriminate.
Qed.
Lemma eig_pairs_fst la N A : map fst (eig_pairs N (la_eig la N A)) = spectrum la N A.
Proof. unfold eig_pairs, spectrum. rewrite map_map. reflexivity. Qed.
Lemma not_rigid_spec z : not_rigid z = true <-> 1 / 10 < Cmod z.
Proof. unfold not_rigid. destruct (Rlt_dec (1 / 10) (Cmod z)); split; intros; try discriminate; auto; contradiction. Qed.
Lemma sync_keeps_spec z : sync_keeps z = true <-> Im z <> 0 /\ Rabs (Re z) < 1000 * Rabs (Im z).
Proof.
  unfold sync_keeps. destruct (Req_EM_T (Im z) 0) as [E|E]; cbn; [split; [discriminate|intros [H _]; contradiction]|].
  assert (P : 0 < Rabs (Im z)) by (apply Rabs_pos_lt; auto).
  unfold Rdiv. rewrite Rabs_mult, (Rabs_inv (Im z)).
  destruct (Rlt_dec (Rabs (Re z) * / Rabs (Im z)) 1000) as [H|H]; split; intros K; auto; try discriminate.
  - split; auto. apply (Rmult_lt_compat_r (Rabs (Im z))) in H; auto. rewrite Rmult_assoc, Rinv_l, Rmult_1_r in H by lra. exact H.
  - exfalso. apply H. apply (Rmult_lt_reg_r (Rabs (Im z))); auto. rewrite Rmult_assoc, Rinv_l, Rmult_1_r by lra. tauto.
Qed.

(** ** a modal analysis *)
Lemma modal_list_map q (f : C -> R) (l : list (C * cvec)) n : (forall ev i, q ev i = f (ev i)) ->
  modal_list q (fun k => fst (nth k l pair0)) (length l) n = map f (firstn (n / 2) (map fst l)).
Proof.
  intros H. unfold modal_list. rewrite <- firstn_map. f_equal. 
  transitivity (map f (map fst (map (fun k => nth k l pair0) (seq 0 (length l))))); [|rewrite map_nth_seq; reflexivity].
  rewrite !map_map. apply map_ext. intros k. apply H.
Qed.
Lemma run_modal_ok la eigs eig2 spl r speed nm sparse sync st m st' : run_modal la eigs eig2 spl r speed nm sparse sync st = (Ok m, st') ->
  eigen_full la eigs spl r speed nm None sparse sync st = (Ok (mo_pairs m), st') /\ mo_speed m = speed /\
  numbers_of (firstn (nm / 2) (map fst (mo_pairs m))) m /\
  mapM (fun p => rotor_shape eig2 r (snd p) true) (firstn (nm / 2) (mo_pairs m)) = Ok (mo_shapes m).
Proof.
  unfold run_modal, sbind, sres, sret. destruct (eigen_full la eigs spl r speed nm None sparse sync st) as [[l|e] s1] eqn:E; [|discriminate].
  destruct (mapM (fun p => rotor_shape eig2 r (snd p) true) (firstn (nm / 2) l)) as [sh|e] eqn:Es; [|discriminate].
  intros H. injection H as <- <-. cbn [mo_pairs mo_speed mo_shapes]. repeat split; auto; cbn [mo_wn mo_wd mo_damping mo_log_dec].
  - apply modal_list_map. intros; reflexivity.
  - apply modal_list_map. intros; reflexivity.
  - apply (modal_list_map _ (fun z => - Re z / Cmod z)). intros; reflexivity.
  - apply (modal_list_map _ (fun z => 2 * PI * (- Re z / Cmod z) / sqrt (1 - (- Re z / Cmod z) ^ 2))). intros; reflexivity.
Qed.
Lemma run_modal_numbers la eigs eig2 spl r speed nm sparse sync st l st' : eigen_full la eigs spl r speed nm None sparse sync st = (Ok l, st') ->
  (forall p, In p (firstn (nm / 2) l) -> is_ok (rotor_shape eig2 r (snd p) true)) ->
  exists m, run_modal la eigs eig2 spl r speed nm sparse sync st = (Ok m, st').
Proof.
  intros H S. unfold run_modal, sbind, sres, sret. rewrite H.
  destruct (mapM_ok (fun p : C * cvec => rotor_shape eig2 r (snd p) true) _ S) as [sh Hs]. cbv beta iota zeta.
  match goal with |- context [mapM ?f ?x] => assert (Hs2 : mapM f x = Ok sh) by exact Hs; rewrite Hs2 end. eexists. reflexivity.
Qed.
Lemma SSorted_app {A} (P : A -> A -> Prop) l l' : StronglySorted P (l ++ l') -> StronglySorted P l /\ StronglySorted P l' /\ forall x y, In x l -> In y l' -> P x y.
Proof.
  induction l as [|a l IH]; cbn; intros H; [repeat split; auto; [constructor|contradiction]|].
  inversion H as [|? ? S F]; subst. destruct (IH S) as (I1 & I2 & I3). rewrite Forall_app in F. destruct F as [F1 F2]. rewrite Forall_forall in F2.
  split; [constructor; auto|]. split; auto. intros x y [<-|Hx] Hy; auto.
Qed.
Lemma sort_pairs_order l s : sort_pairs l = Ok s -> split_order (map fst s).
Proof.
  intros H. apply sort_pairs_spec in H as (L & _ & E). exists (length l / 2)%nat, (skipn (length l / 2) (sorted_values l)), (firstn (length l / 2) (sorted_values l)).
  assert (Ls : length (sorted_values l) = length l) by (rewrite (Permutation_length (sorted_values_perm l)), map_length; reflexivity).
  pose proof (sorted_values_sorted l) as S. rewrite <- (firstn_skipn (length l / 2) (sorted_values l)) in S. apply SSorted_app in S as (S1 & S2 & S3).
  rewrite skipn_length, firstn_length, Ls. split; [exact E|]. repeat split; auto; lia.
Qed.
Lemma eigen_full_spec la eigs spl r speed nm sparse sync st l st' : linalg_ok la -> eigs_ok la eigs ->
  eigen_full la eigs spl r speed nm None sparse sync st = (Ok l, st') ->
  exists A, rotor_A la spl r speed None sync = Ok A /\
  (forall p, In p l -> forall i, (i < 2 * r_ndof r)%nat -> cmulv (2 * r_ndof r) (of_mat A) (snd p) i = (fst p * snd p i)%C) /\
  from_spectrum la eigs (2 * r_ndof r) (2 * nm) A sparse sync st (map fst l) /\ split_order (map fst l).
Proof.
  intros L E H. unfold eigen_full in H. destruct (rotor_A la spl r speed None sync) as [A|e] eqn:HA; [|discriminate]. exists A. split; [reflexivity|].
  unfold from_spectrum. set (N := (2 * r_ndof r)%nat) in *.
  assert (Dense : forall p, In p (eig_pairs N (la_eig la N A)) -> forall i, (i < N)%nat -> cmulv N (of_mat A) (snd p) i = (fst p * snd p i)%C).
  { intros p Hp i Hi. unfold eig_pairs in Hp. apply in_map_iff in Hp as (j & <- & Hj). apply in_seq in Hj. cbn [fst snd]. apply (eig_sol la L); auto; lia. }
  assert (DenseCase : forall s1, sort_pairs (eig_pairs N (la_eig la N A)) = Ok l /\ st' = s1 ->
     (forall p, In p l -> forall i, (i < N)%nat -> cmulv N (of_mat A) (snd p) i = (fst p * snd p i)%C) /\ Permutation (map fst l) (spectrum la N A) /\ split_order (map fst l)).
  { intros s1 [Hs _]. pose proof (sort_pairs_order _ _ Hs). apply sort_pairs_spec in Hs as (_ & P & _). split; [|split]; auto.
    - intros p Hp. apply Dense. apply (Permutation_in _ P). exact Hp.
    - rewrite (Permutation_map fst P), eig_pairs_fst. reflexivity. }
  destruct sync.
  - injection H as Hs <-. pose proof (sort_pairs_order _ _ Hs) as O. apply sort_pairs_spec in Hs as (_ & P & _). split; [|split]; auto.
    + intros p Hp. apply Dense. apply (Permutation_in _ P), filter_In in Hp. tauto.
    + apply (picked_filter _ sync_keeps); [exact sync_keeps_spec|]. rewrite (Permutation_map fst P), filter_fst, eig_pairs_fst. reflexivity.
  - destruct sparse.
    + destruct (eigs N A (2 * nm)%nat st) as [l0| |e] eqn:Ee.
      * injection H as Hs <-. pose proof (sort_pairs_order _ _ Hs) as O. apply sort_pairs_spec in Hs as (_ & P & _). split; [|split]; auto.
        -- intros p Hp. apply (eo_pair la eigs E N A (2 * nm) st l0 p Ee). apply (Permutation_in _ P), filter_In in Hp. tauto.
        -- exists (map fst l0). split.
           ++ split; [rewrite map_length; apply (eo_count la eigs E _ _ _ _ _ Ee)|]. exact (eo_near la eigs E _ _ _ _ _ Ee).
           ++ apply (picked_filter _ not_rigid); [exact not_rigid_spec|]. rewrite (Permutation_map fst P), filter_fst. reflexivity.
      * injection H as Hs <-. apply (DenseCase st). auto.
      * discriminate.
    + injection H as Hs <-. apply (DenseCase st). auto.
Qed.

(** ** the state monad *)
Lemma sbind_ok {A B} (m : St A) (f : A -> St B) st b st' : sbind m f st = (Ok b, st') -> exists a s1, m st = (Ok a, s1) /\ f a s1 = (Ok b, st').
Proof. unfold sbind. destruct (m st) as [[a|e] s1] eqn:E; [|discriminate]. intros H. exists a, s1. auto. Qed.
Lemma sres_ok {A} (r : res A) st a st' : sres r st = (Ok a, st') -> r = Ok a /\ st' = st.
Proof. unfold sres. intros H. injection H. auto. Qed.
Lemma smap_ok {A B} (f : A -> St B) l : forall st ys st', smap f l st = (Ok ys, st') -> Forall2 (fun x y => exists s s', f x s = (Ok y, s')) l ys.
Proof.
  induction l as [|x l IH]; intros st ys st' H; cbn in H.
  - injection H as <- <-. constructor.
  - apply sbind_ok in H as (y & s1 & H1 & H). apply sbind_ok in H as (ys' & s2 & H2 & H). injection H as <- <-. constructor; [eauto|]. eapply IH; eauto.
Qed.
Lemma F2_length {A B} (P : A -> B -> Prop) l l' : Forall2 P l l' -> length l = length l'.
Proof. induction 1; cbn; auto. Qed.
Lemma Forall2_nth_error {A B} (P : A -> B -> Prop) l l' : Forall2 P l l' -> forall i b, nth_error l' i = Some b -> exists a, nth_error l i = Some a /\ P a b.
Proof. induction 1; intros [|i] b0 H1; cbn in *; try discriminate; [injection H1 as <-; eauto|auto]. Qed.
Lemma item_ok {A} (l : list A) i x : item l i = Ok x <-> nth_error l i = Some x.
Proof. unfold item. destruct (nth_error l i); split; intros H; try discriminate; injection H as <-; reflexivity. Qed.
Lemma nth_error_seq n i a b : nth_error (seq a n) i = Some b -> b = (a + i)%nat /\ (i < n)%nat.
Proof.
  intros H. assert (L : (i < n)%nat) by (rewrite <- (seq_length n a); apply nth_error_Some; congruence). split; [|exact L].
  apply (nth_error_nth _ _ 0%nat) in H. rewrite seq_nth in H by auto. auto.
Qed.

(** ** searching with a function that may depend on the history *)
Lemma run_search_pure (f : R -> St R) (g : R -> res R) p : (forall s st, fst (f s st) = g s) -> forall st, fst (run_search f p st) = ask_pure g p.
Proof.
  intros H. induction p as [x|e|s next IH]; intros st; cbn; auto.
  unfold sbind. specialize (H s st). destruct (f s st) as [[y|e] s1]; cbn in H; rewrite <- H; cbn; auto.
Qed.


(** ** critical speeds *)
Definition analysis la eigs eig2 spl r (nm : nat) (s : R) : res modal := fst (run_modal la eigs eig2 spl r s nm true false None).
Definition field_f la eigs eig2 spl r (f : modal -> list R) (nm i : nat) (s : R) : St R :=
  sbind (run_modal la eigs eig2 spl r s nm true false) (fun m => sbind (sres (item (f m) i)) (fun w => sret (s - w))).
Lemma field_pure la eigs eig2 spl r f (nf : list R * list R * list R * list R -> list R) nm i s st : (forall m, f m = nf (numbers m)) -> steady la eigs eig2 spl r nm ->
  fst (field_f la eigs eig2 spl r f nm i s st) = mismatch (analysis la eigs eig2 spl r nm) f i s.
Proof.
  intros F S. unfold field_f, mismatch, analysis, sbind, sres, sret. specialize (S s st None). unfold outcome in S.
  destruct (run_modal la eigs eig2 spl r s nm true false st) as [[m|e] s1]; destruct (run_modal la eigs eig2 spl r s nm true false None) as [[m'|e'] s2]; cbn in S |- *; try discriminate.
  - assert (E : f m = f m') by (rewrite !F; congruence). unfold item. rewrite E. destruct (nth_error (f m') i); reflexivity.
  - congruence.
Qed.
(** an entry of the result and the analysis it comes from *)
Lemma critical_parts la eigs eig2 newton spl r nm st c st' : run_critical_speed la eigs eig2 newton spl r None nm st = (Ok c, st') ->
  exists m0 s0, run_modal la eigs eig2 spl r 0 nm true false st = (Ok m0, s0) /\
  Forall2 (fun i y => exists s s', run_search (field_f la eigs eig2 spl r mo_wn nm i) (newton (nth i (mo_wn m0) 0)) s = (Ok y, s')) (seq 0 (length (mo_wn m0))) (cs_wn c) /\
  Forall2 (fun i y => exists s s', run_search (field_f la eigs eig2 spl r mo_wd nm i) (newton (nth i (mo_wd m0) 0)) s = (Ok y, s')) (seq 0 (length (mo_wd m0))) (cs_wd c) /\
  length (cs_log_dec c) = length (cs_wd c) /\ length (cs_damping c) = length (cs_wd c) /\ length (cs_whirl c) = length (cs_wd c) /\
  forall k w, nth_error (cs_wd c) k = Some w -> exists m sa sb ld dr wh, run_modal la eigs eig2 spl r w nm true false sa = (Ok m, sb) /\
    nth_error (mo_log_dec m) k = Some ld /\ nth_error (mo_damping m) k = Some dr /\ nth_error (whirl_direction m) k = Some wh /\
    nth_error (cs_log_dec c) k = Some ld /\ nth_error (cs_damping c) k = Some dr /\ nth_error (cs_whirl c) k = Some wh.
Proof.
  unfold run_critical_speed. intros H. cbv zeta in H. apply sbind_ok in H as (m0 & s0 & H0 & H). apply sbind_ok in H as (wn & s1 & H1 & H).
  apply sbind_ok in H as (wd & s2 & H2 & H). apply sbind_ok in H as (rows & s3 & H3 & H). injection H as <- <-. cbn [cs_wn cs_wd cs_log_dec cs_damping cs_whirl].
  exists m0, s0. split; [exact H0|]. split; [exact (smap_ok _ _ _ _ _ H1)|]. split; [exact (smap_ok _ _ _ _ _ H2)|].
  apply smap_ok in H3. assert (L : length rows = length wd) by (rewrite <- (F2_length _ _ _ H3), combine_length, seq_length; lia).
  rewrite !map_length. split; [exact L|]. split; [exact L|]. split; [exact L|].
  intros k w Hk.
  assert (Kl : (k < length rows)%nat) by (rewrite L; apply nth_error_Some; congruence).
  destruct (nth_error rows k) as [row|] eqn:Er; [|apply nth_error_None in Er; lia].
  destruct (Forall2_nth_error _ _ _ H3 k row Er) as ([i w'] & Ha & sa & sb & Hr).
  assert (i = k /\ w' = w) as [-> ->].
  { clear - Ha Hk. revert Ha Hk. generalize (seq_length (length wd) 0). intros _.
    assert (X : forall l (a : nat) k i w', nth_error (combine (seq a (length l)) l) k = Some (i, w') -> i = (a + k)%nat /\ nth_error l k = Some (w' : R)).
    { induction l as [|x l IH]; intros a [|k0] i0 w0 E; cbn in E; try discriminate; [injection E as <- <-; split; [lia|auto]|].
      apply IH in E as [-> E]. split; auto. lia. }
    intros Ha Hk. apply X in Ha as [-> Ha]. rewrite Hk in Ha. injection Ha as <-. auto. }
  cbn [fst snd] in Hr. apply sbind_ok in Hr as (m & sm & Hm & Hr). apply sbind_ok in Hr as (ld & s5 & Hld & Hr). apply sbind_ok in Hr as (dr & s6 & Hdr & Hr).
  apply sbind_ok in Hr as (wh & s7 & Hwh & Hr). injection Hr as <- _. apply sres_ok in Hld as [Hld _]. apply sres_ok in Hdr as [Hdr _]. apply sres_ok in Hwh as [Hwh _].
  apply item_ok in Hld, Hdr, Hwh. exists m, sa, sm, ld, dr, wh. repeat split; auto; rewrite (map_nth_error _ _ _ Er); reflexivity.
Qed.
Lemma Forall2_mapM_nth {A B} (f : A -> res B) l ys k y : mapM f l = Ok ys -> nth_error ys k = Some y -> exists x, nth_error l k = Some x /\ f x = Ok y.
Proof. intros H Hk. apply mapM_F2 in H. apply (Forall2_nth_error _ _ _ H k y Hk). Qed.
Lemma nth_error_firstn {A} (l : list A) n k x : nth_error (firstn n l) k = Some x -> nth_error l k = Some x.
Proof. revert l k. induction n as [|n IH]; intros [|a l] [|k]; cbn; try discriminate; auto. Qed.
Lemma nth_error_map_some {A B} (f : A -> B) l k y : nth_error (map f l) k = Some y -> exists x, nth_error l k = Some x /\ y = f x.
Proof. revert k. induction l as [|a l IH]; intros [|k]; cbn; try discriminate; auto. intros H. injection H as <-. eauto. Qed.
(** the k-th numbers and label of a modal analysis belong to one eigenpair *)
Lemma modal_entry la eigs eig2 spl r s nm sa m sb k wh : linalg_ok la -> eigs_ok la eigs -> run_modal la eigs eig2 spl r s nm true false sa = (Ok m, sb) ->
  nth_error (whirl_direction m) k = Some wh ->
  exists A z v sh, rotor_A la spl r s None false = Ok A /\ (forall i, (i < 2 * r_ndof r)%nat -> cmulv (2 * r_ndof r) (of_mat A) v i = (z * v i)%C) /\
    nth_error (mo_pairs m) k = Some (z, v) /\ rotor_shape eig2 r v true = Ok sh /\ nth_error (mo_shapes m) k = Some sh /\ wh = mode_whirl sh /\
    nth_error (mo_wn m) k = Some (Cmod z) /\ nth_error (mo_wd m) k = Some (Im z) /\ nth_error (mo_damping m) k = Some (- Re z / Cmod z) /\
    nth_error (mo_log_dec m) k = Some (2 * PI * (- Re z / Cmod z) / sqrt (1 - (- Re z / Cmod z) ^ 2)).
Proof.
  intros L E H Hw. apply run_modal_ok in H as (H1 & _ & (N1 & N2 & N3 & N4) & Hs). unfold whirl_direction in Hw.
  apply nth_error_map_some in Hw as (sh & Hsh & ->). destruct (Forall2_mapM_nth _ _ _ _ _ Hs Hsh) as ([z v] & Hp & Hv). cbn [snd] in Hv.
  destruct (eigen_full_spec _ _ _ _ _ _ _ _ _ _ _ L E H1) as (A & HA & Hev & _).
  assert (Hv2 : nth_error (firstn (nm / 2) (map fst (mo_pairs m))) k = Some z) by (rewrite firstn_map; exact (map_nth_error fst _ _ Hp)).
  exists A, z, v, sh. apply nth_error_firstn in Hp. split; [exact HA|]. split.
  - apply nth_error_In in Hp. apply (Hev _ Hp).
  - split; [exact Hp|]. split; [exact Hv|]. split; [exact Hsh|]. split; [reflexivity|]. rewrite N1, N2, N3, N4.
    repeat split; rewrite (map_nth_error _ _ _ Hv2); reflexivity.
Qed.

(** ** a range of critical speeds *)
Fixpoint positions (a : nat) (mask : list bool) : list nat :=
  match mask with [] => [] | b :: mask => if b then a :: positions (S a) mask else positions (S a) mask end.
Lemma positions_ge mask : forall a k, In k (positions a mask) -> (a <= k)%nat.
Proof. induction mask as [|b mask IH]; intros a k H; cbn in H; [contradiction|]. destruct b; [destruct H as [<-|H]; [lia|]|]; apply IH in H; lia. Qed.
Lemma positions_sorted mask : forall a, StronglySorted lt (positions a mask).
Proof.
  induction mask as [|b mask IH]; intros a; cbn; [constructor|]. destruct b; [constructor|]; auto. apply Forall_forall. intros k H. apply positions_ge in H. lia.
Qed.
Lemma positions_in mask : forall a k, In (a + k)%nat (positions a mask) <-> nth_error mask k = Some true.
Proof.
  induction mask as [|b mask IH]; intros a k; cbn; [destruct k; split; [contradiction|discriminate|contradiction|discriminate]|].
  destruct k as [|k].
  - rewrite Nat.add_0_r. cbn. destruct b; split; intros H; try discriminate; auto; [left; auto|]. apply positions_ge in H. lia.
  - replace (a + S k)%nat with (S a + k)%nat by lia. cbn [nth_error]. rewrite <- (IH (S a) k). destruct b; cbn; [|tauto]. split; [intros [H|H]; [lia|auto]|auto].
Qed.
Lemma select_at {A} (l : list A) : forall mask a l0, length mask = length l -> (forall k, nth_error l0 (a + k)%nat = nth_error l k) ->
  at_positions (positions a mask) l0 (select mask l).
Proof.
  induction l as [|x l IH]; intros [|b mask] a l0 L H; cbn in *; try discriminate; [constructor|].
  assert (N : at_positions (positions (S a) mask) l0 (select mask l)).
  { apply IH; [lia|]. intros k. replace (S a + k)%nat with (a + S k)%nat by lia. rewrite (H (S k)). reflexivity. }
  unfold select. cbn. destruct b; cbn; [constructor|]; auto. specialize (H 0%nat). rewrite Nat.add_0_r in H. exact H.
Qed.
Lemma select_band {A} (l : list A) lo hi wd : length l = length wd -> at_positions (positions 0 (map (in_range lo hi) wd)) l (select (map (in_range lo hi) wd) l).
Proof. intros H. apply select_at; [rewrite map_length; auto|]. intros k. reflexivity. Qed.
Lemma in_range_spec lo hi x : in_range lo hi x = true <-> lo <= x <= hi.
Proof. unfold in_range. destruct (Rle_dec lo x), (Rle_dec x hi); cbn; split; intros; try discriminate; auto; tauto. Qed.

(** ** Campbell *)
Lemma fill_spread n l l' : fill n l = Ok l' -> spread n l l'.
Proof.
  unfold fill. destruct (Nat.eqb_spec (length l) n) as [E|E]; intros H; [injection H as <-; split; auto|].
  destruct l as [|x [|y l]]; try discriminate. injection H as <-. split; [apply repeat_length|]. right. eauto.
Qed.
Lemma at_map (idx : list nat) l d : (forall k, In k idx -> (k < length l)%nat) -> at_positions idx l (map (fun i => nth i l d : R) idx).
Proof.
  intros H. induction idx as [|k idx IH]; cbn; constructor; [|apply IH; intros; apply H; right; auto]. apply nth_error_nth'. apply H. left; auto.
Qed.
Lemma insert_by_perm key i l : Permutation (insert_by key i l) (i :: l).
Proof.
  induction l as [|j l IH]; cbn; auto. destruct (Rle_dec (key i) (key j)); auto. etransitivity; [constructor; exact IH|]. constructor.
Qed.
Lemma argsort_perm l : Permutation (argsort l) (seq 0 (length l)).
Proof. unfold argsort. induction (seq 0 (length l)) as [|i s IH]; cbn; auto. rewrite insert_by_perm. constructor. exact IH. Qed.
Lemma insert_by_sorted key i l : StronglySorted (fun a b => key a <= key b) l -> StronglySorted (fun a b => key a <= key b) (insert_by key i l).
Proof.
  induction 1 as [|j l S IH F]; cbn; [constructor; constructor|]. destruct (Rle_dec (key i) (key j)) as [H|H].
  - constructor; [constructor; auto|]. constructor; auto. eapply Forall_impl; [|exact F]. cbn. intros; lra.
  - constructor; auto. eapply Permutation_Forall; [symmetry; apply insert_by_perm|]. constructor; auto. lra.
Qed.
Lemma argsort_sorted l : StronglySorted (fun a b => nth a l 0 <= nth b l 0) (argsort l).
Proof. unfold argsort. induction (seq 0 (length l)) as [|i s IH]; cbn; [constructor|]. apply insert_by_sorted. exact IH. Qed.
Lemma modal_lengths la eigs eig2 spl r s nm sp sy sa m sb : run_modal la eigs eig2 spl r s nm sp sy sa = (Ok m, sb) ->
  length (mo_wd m) = length (mo_wn m) /\ length (mo_log_dec m) = length (mo_wn m) /\ length (mo_damping m) = length (mo_wn m) /\ length (mo_shapes m) = length (mo_wn m).
Proof.
  intros H. apply run_modal_ok in H as (_ & _ & (-> & -> & -> & ->) & Hs). rewrite !map_length. apply mapM_length in Hs.
  rewrite Hs, !firstn_length, map_length. auto.
Qed.
Lemma campbell_rows la eigs eig2 spl r speeds n by_wd st rows st' : run_campbell la eigs eig2 spl r speeds n by_wd st = (Ok rows, st') ->
  Forall2 (fun w row => cr_speed row = w /\ exists m sa sb idx, run_modal la eigs eig2 spl r w (2 * n) true false sa = (Ok m, sb) /\
    Permutation idx (seq 0 (length (mo_wn m))) /\
    (if by_wd then idx = seq 0 (length (mo_wn m)) else StronglySorted (fun a b => nth a (mo_wn m) 0 <= nth b (mo_wn m) 0) idx) /\
    row_from idx n (if by_wd then mo_wd m else mo_wn m) m row) speeds rows.
Proof.
  unfold run_campbell. intros H. apply smap_ok in H. revert H. generalize speeds rows. clear.
  intros speeds rows. induction 1 as [|w row ws rs H F IH]; constructor; auto. clear F IH. destruct H as (sa & s' & H).
  apply sbind_ok in H as (m & sm & Hm & H). cbv zeta in H. apply sbind_ok in H as (f & s1 & Hf & H). apply sbind_ok in H as (ld & s2 & Hld & H).
  apply sbind_ok in H as (dr & s3 & Hdr & H). apply sbind_ok in H as (wh & s4 & Hwh & H). apply sbind_ok in H as (z & s5 & _ & H). injection H as <- _.
  apply sres_ok in Hf as [Hf _]. apply sres_ok in Hld as [Hld _]. apply sres_ok in Hdr as [Hdr _]. apply sres_ok in Hwh as [Hwh _].
  destruct (modal_lengths _ _ _ _ _ _ _ _ _ _ _ _ Hm) as (L1 & L2 & L3 & L4).
  split; [reflexivity|]. exists m, sa, sm, (if by_wd then seq 0 (length (mo_wn m)) else argsort (mo_wn m)). split; [exact Hm|].
  assert (P : Permutation (if by_wd then seq 0 (length (mo_wn m)) else argsort (mo_wn m)) (seq 0 (length (mo_wn m)))) by (destruct by_wd; [reflexivity|apply argsort_perm]).
  split; [exact P|]. split; [destruct by_wd; [reflexivity|apply argsort_sorted]|].
  rewrite L1 in *. rewrite firstn_map in Hf, Hld, Hdr, Hwh. apply fill_spread in Hf, Hld, Hdr, Hwh.
  set (idx := if by_wd then seq 0 (length (mo_wn m)) else argsort (mo_wn m)) in *.
  assert (B : forall k, In k (firstn n idx) -> (k < length (mo_wn m))%nat).
  { intros k Hk. assert (Hi : In k idx) by (rewrite <- (firstn_skipn n idx); apply in_or_app; left; exact Hk).
    apply (Permutation_in _ P), in_seq in Hi. lia. }
  eexists _, _, _, _. split; [|split; [|split; [|split; [|split; [exact Hf|split; [exact Hld|split; [exact Hdr|exact Hwh]]]]]]]; apply at_map; intros k Hk; apply B in Hk.
  - destruct by_wd; lia.
  - lia.
  - lia.
  - unfold whirl_values, whirl_direction. rewrite !map_length. lia.
Qed.

(** ** clustering *)
Lemma insert_R_perm x l : Permutation (insert_R x l) (x :: l).
Proof. induction l as [|y l IH]; cbn; auto. destruct (Rle_dec x y); auto. etransitivity; [constructor; exact IH|]. constructor. Qed.
Lemma sort_R_perm l : Permutation (sort_R l) l.
Proof. unfold sort_R. induction l as [|x l IH]; cbn; auto. rewrite insert_R_perm. constructor. exact IH. Qed.
Lemma sort_R_sorted l : StronglySorted Rle (sort_R l).
Proof.
  unfold sort_R. induction l as [|x l IH]; cbn; [constructor|]. revert IH. generalize (fold_right insert_R [] l). clear. intros l H.
  induction H as [|j l S IH F]; cbn; [constructor; constructor|]. destruct (Rle_dec x j) as [H|H].
  - constructor; [constructor; auto|]. constructor; auto. eapply Forall_impl; [|exact F]. cbn. intros; lra.
  - constructor; auto. eapply Permutation_Forall; [symmetry; apply insert_R_perm|]. constructor; auto. lra.
Qed.

(** ** a function applied to the result *)
Definition after {A B} (p : A -> B) (x : res A * option vec) : res B * option vec := match x with (Ok a, s) => (Ok (p a), s) | (Err e, s) => (Err e, s) end.
Lemma sbind_after {A B C} (p : B -> C) (m : St A) (k' : A -> St C) (k : A -> St B) st : (forall a s, k' a s = after p (k a s)) -> sbind m k' st = after p (sbind m k st).
Proof. intros H. unfold sbind. destruct (m st) as [[a|e] s]; [apply H|reflexivity]. Qed.
