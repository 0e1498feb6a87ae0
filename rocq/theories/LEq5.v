(** The elements of a rotor compared with each other: Rotor.K, Rotor.C and rotor == rotor. *)
From Coq Require Import Reals Lra Lia String List Bool Arith Permutation Sorting.
From Verif Require Import PyBase PyDict MatBase MMaterial MShaft MDisk MBearing MRotor MDynamics MSave MEq SpecBearing SpecSave SpecEq LMaterial LRotor LRotorInit LRotor7 LSave LSave2 LSave3 LSave4 LEq LEq2 LEq3 LEq4.
Import ListNotations.
Open Scope list_scope.
Open Scope R_scope.

Definition cyl_obj (x : obj) : Prop := match x with IBrg o => brg_class o = BCylindrical | _ => False end.
Lemma py_tag np x y d d' : built x -> built y -> py_eq np (x, d) (y, d') = Ok true -> ~ (cyl_obj x /\ cyl_obj y) -> obj_tag x = obj_tag y.
Proof.
  intros B B' E N. destruct x as [s|k|o|p], y as [s'|k'|o'|p']; try (unfold py_eq, self_eq in E; cbn [fst snd] in E; destruct (proper_subclass _ _) in E; discriminate).
  - unfold py_eq, self_eq in E. cbn [fst snd] in E. cbn [obj_tag]. destruct (proper_subclass _ _) in E; injection E as E; apply andb_true_iff in E as (E & _);
      apply shaft_dict_iff in E as (_ & _ & _ & _ & _ & E & _); congruence.
  - unfold py_eq, self_eq in E. cbn [fst snd] in E. cbn [obj_tag]. destruct (proper_subclass _ _) in E; injection E as E; apply andb_true_iff in E as (E & _);
      apply disk_dict_iff in E as (_ & _ & _ & _ & _ & E & _); congruence.
  - rewrite brg_split in E. destruct (bclass_eqb _ _) eqn:CL; [|discriminate]. apply bclass_eqb_iff in CL. cbn [obj_tag].
    destruct o as [b|s|b|a b|sp w l dd c v b|c b]; try (rewrite (brg_equal np _ _ B B' CL) by (try assumption; try exact I; discriminate); reflexivity).
    + exfalso. apply N. split; [reflexivity|exact (eq_sym CL)].
    + destruct o' as [b'|s'|b'|a' b'|sp' w' l' dd' c' v' b'|c' b']; try (destruct c; discriminate). assert (c = c') by (destruct c, c'; cbn in CL; congruence). subst c'. rewrite brg_plain in E. discriminate.
  - apply (pm_py np _ _ _ _ B B') in E as (_ & ->). reflexivity.
Qed.
Definition comparable_obj (x y : obj) : Prop :=
  match x, y with IBrg o, IBrg o' => comparable o o' /\ (brg_class o = BCylindrical -> brg_class o' = BCylindrical -> b_n (brg_of o) <> b_n (brg_of o')) | _, _ => True end.
Lemma py_ok np x y d d' : built x -> built y -> comparable_obj x y -> exists c, py_eq np (x, d) (y, d') = Ok c.
Proof.
  intros B B' C. destruct x as [s|k|o|p], y as [s'|k'|o'|p']; try (unfold py_eq, self_eq; cbn [fst snd]; destruct (proper_subclass _ _); eexists; reflexivity).
  rewrite brg_split. destruct (bclass_eqb _ _) eqn:CL; [|eexists; reflexivity]. apply bclass_eqb_iff in CL. destruct C as (C & _). destruct (C CL) as (KA & TF). apply brg_ok; assumption.
Qed.
Lemma py_differ np x y d d' : built x -> built y -> comparable_obj x y -> obj_tag x <> obj_tag y -> py_eq np (x, d) (y, d') = Ok false.
Proof.
  intros B B' C N. destruct (py_ok np x y d d' B B' C) as ([|] & E); [|exact E]. exfalso.
  assert (X : ~ (cyl_obj x /\ cyl_obj y) -> False) by (intros X; apply N, (py_tag np x y d d' B B' E X)).
  apply X. intros (Cx & Cy). destruct x as [| |o|], y as [| |o'|]; cbn in Cx, Cy; try contradiction. destruct C as (_ & C).
  rewrite brg_split in E. destruct (bclass_eqb _ _); [|discriminate]. exact (C Cx Cy (cyl_node np o o' Cx Cy E)).
Qed.

(** ** list.index *)
Lemma index_from_self np l : forall j i x, nth_error l (i - j) = Some x -> (j <= i)%nat -> (forall k y, (k < i - j)%nat -> nth_error l k = Some y -> py_eq np y x = Ok false) -> index_from np j l i x = Ok i.
Proof.
  induction l as [|y l IH]; intros j i x E L H; [destruct (i - j)%nat; discriminate|]. cbn [index_from]. destruct (Nat.eqb_spec j i) as [->|NE]; [reflexivity|].
  rewrite (H 0%nat y ltac:(lia) eq_refl). cbn [bind]. apply IH; [|lia|].
  - replace (i - j)%nat with (S (i - S j)) in E by lia. exact E.
  - intros k z Hk Ez. apply (H (S k) z); [lia|exact Ez].
Qed.
Lemma index_from_err np l : forall j i x k y e, nth_error l k = Some y -> (j + k < i)%nat -> py_eq np y x = Err e -> (forall k' z, (k' < k)%nat -> nth_error l k' = Some z -> py_eq np z x <> Ok true) -> exists e', index_from np j l i x = Err e'.
Proof.
  induction l as [|z l IH]; intros j i x k y e E L Hy H; [destruct k; discriminate|]. cbn [index_from]. destruct (Nat.eqb_spec j i); [lia|]. destruct k as [|k].
  - injection E as ->. rewrite Hy. eexists. reflexivity.
  - assert (X := H 0%nat z ltac:(lia) eq_refl). destruct (py_eq np z x) as [[|]|]; [congruence| |eexists; reflexivity]. cbn [bind].
    apply (IH (S j) i x k y e E ltac:(lia) Hy). intros k' z' Hk E'. apply (H (S k') z'); [lia|exact E'].
Qed.

(** ** sorting *)
Lemma sorted_unique (l l' : list nat) : StronglySorted le l -> StronglySorted le l' -> Permutation l l' -> l = l'.
Proof.
  intros S. revert l'. induction S as [|x l S IH F]; intros l' S' P; [apply Permutation_nil in P; congruence|].
  destruct l' as [|y l']; [apply Permutation_sym, Permutation_nil in P; discriminate|]. inversion S' as [|? ? S1 F1]; subst.
  assert (E : x = y).
  { assert (A : In y (x :: l)) by (apply (Permutation_in _ (Permutation_sym P)); left; reflexivity). assert (A' : In x (y :: l')) by (apply (Permutation_in _ P); left; reflexivity).
    rewrite Forall_forall in F, F1. destruct A as [->|A]; [reflexivity|]. destruct A' as [->|A']; [reflexivity|]. apply F in A. apply F1 in A'. lia. }
  subst y. f_equal. apply IH; [exact S1|]. exact (Permutation_cons_inv P).
Qed.
Lemma sort_dup order R : StronglySorted le R -> Permutation order R -> map snd (sort_by fst (map (fun i : nat => (i, i)) order)) = R.
Proof.
  intros S P. set (l := sort_by fst (map (fun i : nat => (i, i)) order)).
  assert (PL : Permutation l (map (fun i => (i, i)) order)) by apply sort_by_perm.
  assert (D : forall p, In p l -> fst p = snd p) by (intros p H; apply (Permutation_in _ PL) in H; apply in_map_iff in H as (i & <- & _); reflexivity).
  assert (SL : StronglySorted (le_key fst) l) by apply sort_by_sorted.
  apply sorted_unique; [|exact S|].
  - clear P PL. clearbody l. induction SL as [|p l SL IH F]; [constructor|]. cbn [map]. constructor; [apply IH; intros; apply D; right; assumption|].
    rewrite Forall_forall in *. intros x Hx. apply in_map_iff in Hx as (q & <- & Hq). pose proof (F _ Hq) as L. unfold le_key in L. rewrite (D p), (D q) in L by (cbn; auto). exact L.
  - rewrite PL, map_map. cbn [snd]. rewrite map_id. exact P.
Qed.
Lemma filter_sorted (f : nat -> bool) (l : list nat) : StronglySorted le l -> StronglySorted le (filter f l).
Proof.
  induction 1 as [|x l S IH F]; cbn [filter]; [constructor|]. destruct (f x); [|exact IH]. constructor; [exact IH|]. rewrite Forall_forall in *. intros y Hy. apply filter_In in Hy as (Hy & _). auto.
Qed.
Lemma seq_sorted n : forall a, StronglySorted le (seq a n).
Proof. induction n as [|n IH]; intros a; cbn [seq]; constructor; [apply IH|]. apply Forall_forall. intros x Hx. apply in_seq in Hx. lia. Qed.
Lemma select_kept (g : elem -> bool) (l : list elem) : forall p,
  flat_map (fun i => match nth_error (p ++ l) i with Some e => [e] | None => [] end) (filter (fun i => match nth_error (p ++ l) i with Some e => g e | None => false end) (seq (length p) (length l))) = filter g l.
Proof.
  induction l as [|e l IH]; intros p; [reflexivity|]. cbn [length seq filter]. rewrite nth_error_app2, Nat.sub_diag by lia. cbn [nth_error].
  specialize (IH (p ++ [e])). rewrite app_length, Nat.add_1_r, <- app_assoc in IH. cbn [app] in IH. destruct (g e); [|exact IH]. cbn [flat_map]. rewrite nth_error_app2, Nat.sub_diag by lia. cbn [nth_error app]. rewrite IH. reflexivity.
Qed.
Lemma mapM_const {A B} (f : A -> res B) (g : A -> B) l : (forall x, In x l -> f x = Ok (g x)) -> mapM f l = Ok (map g l).
Proof. induction l as [|x l IH]; intros H; [reflexivity|]. cbn [mapM map]. rewrite (H x (or_introl eq_refl)). cbn [bind]. rewrite IH by (intros; apply H; right; assumption). reflexivity. Qed.
Lemma mapM_err {A B} (f : A -> res B) l x e : In x l -> f x = Err e -> exists e', mapM f l = Err e'.
Proof.
  induction l as [|y l IH]; intros H E; [destruct H|]. cbn [mapM]. destruct H as [->|H]; [rewrite E; eexists; reflexivity|]. destruct (f y); [|eexists; reflexivity]. cbn [bind]. destruct (IH H E) as (e' & ->). eexists. reflexivity.
Qed.

(** ** the elements of a rotor *)
Section Elements.
Variables (np : numpy) (sh : list oshaft) (dk : list odisk) (br : list obrg) (pm : list opm) (mn mx rt : option R) (tag : option string) (r : robj).
Hypothesis I : robj_init sh dk br pm mn mx rt tag = Ok r.
Hypothesis B : forall o, In o (map IShaft sh ++ map IDisk dk ++ map IBrg br ++ map IPm pm) -> built o.
Let L := ro_placed r.
Lemma placed_length : length (ro_elements r) = length (r_elements (ro_val r)) /\ length L = length (r_elements (ro_val r)).
Proof using I.
  assert (E : length (ro_elements r) = length (r_elements (ro_val r))) by (rewrite <- (map_length (fun o => tag_str (obj_tag o))), (elem_tags _ _ _ _ _ _ _ _ _ I), map_length; reflexivity).
  split; [exact E|]. change (length (combine (ro_elements r) (map (fun e => Some (r_dofs (ro_val r) e)) (r_elements (ro_val r)))) = length (r_elements (ro_val r))). rewrite combine_length, map_length. lia.
Qed.
Lemma placed_nth i : (i < length L)%nat -> exists x d, nth_error L i = Some (x, d) /\ nth_error (ro_elements r) i = Some x.
Proof using I.
  intros H. destruct (nth_error L i) as [[x d]|] eqn:E; [|apply nth_error_None in E; lia]. exists x, d. split; [reflexivity|].
  assert (M : map fst L = ro_elements r).
  { unfold L, ro_placed. destruct placed_length as (E1 & _). revert E1. generalize (r_elements (ro_val r)). generalize (ro_elements r). clear. induction l as [|a l IH]; intros [|b m] E; cbn in *; try congruence. f_equal. apply IH. lia. }
  rewrite <- M. exact (map_nth_error fst i L E).
Qed.
Lemma built_nth i x : nth_error (ro_elements r) i = Some x -> built x.
Proof using I B. intros H. exact (robj_built _ _ _ _ _ _ _ _ _ I B x (nth_error_In _ _ H)). Qed.
Lemma tags_differ i j x y : (i < j)%nat -> nth_error (ro_elements r) i = Some x -> nth_error (ro_elements r) j = Some y -> obj_tag x <> obj_tag y.
Proof using I.
  intros H Ex Ey Q. pose proof (rf_tags _ (rotor_facts _ _ _ _ _ (robj_val _ _ _ _ _ _ _ _ _ I))) as T. apply tags_unique_iff in T. rewrite <- (elem_tags _ _ _ _ _ _ _ _ _ I) in T.
  rewrite NoDup_nth_error in T. assert (X : i = j).
  { apply T; [rewrite map_length; apply nth_error_Some; congruence|]. rewrite !nth_error_map, Ex, Ey. cbn. rewrite Q. reflexivity. }
  lia.
Qed.
(** every pair in order *)
Definition pairwise {A} (P : A -> A -> Prop) (l : list A) : Prop := forall i j x y, (i < j)%nat -> nth_error l i = Some x -> nth_error l j = Some y -> P x y.
Lemma pairwise_app {A} (P : A -> A -> Prop) l l' : pairwise P l -> pairwise P l' -> (forall x y, In x l -> In y l' -> P x y) -> pairwise P (l ++ l').
Proof using.
  clear. intros H H' X i j x y Hij Ex Ey. destruct (Nat.lt_ge_cases j (length l)).
  - rewrite nth_error_app1 in Ex, Ey by lia. exact (H i j x y Hij Ex Ey).
  - rewrite nth_error_app2 in Ey by lia. destruct (Nat.lt_ge_cases i (length l)).
    + rewrite nth_error_app1 in Ex by lia. apply X; [exact (nth_error_In _ _ Ex)|exact (nth_error_In _ _ Ey)].
    + rewrite nth_error_app2 in Ex by lia. apply (H' (i - length l)%nat (j - length l)%nat); auto. lia.
Qed.
Lemma pairwise_map {A C} (f : A -> C) (P : C -> C -> Prop) l : (forall i j x y, (i < j)%nat -> nth_error l i = Some x -> nth_error l j = Some y -> P (f x) (f y)) -> pairwise P (map f l).
Proof using.
  clear. intros H i j x y Hij. rewrite !nth_error_map. destruct (nth_error l i) as [a|] eqn:Ei; [|discriminate]. destruct (nth_error l j) as [b|] eqn:Ej; [|discriminate]. cbn. intros E E'. injection E as <-. injection E' as <-. exact (H i j a b Hij Ei Ej).
Qed.
Lemma comparable_pairs : comparable_bearings r -> pairwise comparable_obj (ro_elements r).
Proof using.
  clear. intros C. unfold ro_elements. repeat apply pairwise_app; try (apply pairwise_map; intros; exact Logic.I);
    try (intros x y Hx Hy; repeat rewrite in_app_iff in Hy; repeat rewrite in_map_iff in *; repeat match goal with H : _ \/ _ |- _ => destruct H | H : exists _, _ |- _ => destruct H as (? & <- & _) end; exact Logic.I).
  apply pairwise_map. intros i j x y Hij Ex Ey. cbn [comparable_obj]. exact (C i j x y Hij Ex Ey).
Qed.
Lemma index_self i : comparable_bearings r -> (i < length L)%nat -> index_of np L i = Ok i.
Proof using I B.
  intros C H. destruct (placed_nth i H) as (x & d & E & Ex). unfold index_of. rewrite E. apply index_from_self; rewrite ?Nat.sub_0_r; auto with arith.
  intros k [y d'] Hk Ey. assert (Hk' : (k < length L)%nat) by lia. destruct (placed_nth k Hk') as (y' & d'' & E1 & E2). assert (y' = y) by congruence. subst y'.
  apply py_differ; [exact (built_nth _ _ E2)|exact (built_nth _ _ Ex)|exact (comparable_pairs C _ _ _ _ Hk E2 Ex)|exact (tags_differ _ _ _ _ Hk E2 Ex)].
Qed.
Lemma remaining_lt ignore i : In i (remaining r ignore) -> (i < length L)%nat.
Proof using I. intros H. apply filter_In in H as (H & _). apply in_seq in H. rewrite (proj2 placed_length). lia. Qed.
Lemma sorted_is ignore order : comparable_bearings r -> Permutation order (remaining r ignore) -> sorted_elements np L order = Ok (remaining r ignore).
Proof using I B.
  intros C P. unfold sorted_elements. rewrite (mapM_const _ (fun i => (i, i))).
  - cbn [bind]. f_equal. apply sort_dup; [apply filter_sorted, seq_sorted|exact P].
  - intros i Hi. rewrite index_self by (auto; apply (remaining_lt ignore), (Permutation_in _ P), Hi). reflexivity.
Qed.
Lemma assemble_is f ignore order : comparable_bearings r -> Permutation order (remaining r ignore) ->
  assemble_sorted np f r order = assemble (r_ndof (ro_val r)) (r_dofs (ro_val r)) f (kept ignore (r_elements (ro_val r))) mzero.
Proof using I B.
  intros C P. unfold assemble_sorted. fold L. rewrite (sorted_is ignore order C P). cbn [bind]. f_equal. unfold remaining, kept. exact (select_kept _ (r_elements (ro_val r)) []).
Qed.
(** ** two bearings that cannot be compared *)
Lemma bearing_place i o : nth_error (ro_br r) i = Some o -> nth_error (ro_elements r) (length (ro_sh r) + length (ro_dk r) + i) = Some (IBrg o).
Proof using.
  clear. intros E. unfold ro_elements. rewrite nth_error_app2 by (rewrite map_length; lia). rewrite nth_error_app2 by (rewrite !map_length; lia). rewrite !map_length.
  rewrite nth_error_app1 by (rewrite map_length; apply nth_error_Some_lt in E || (assert (i < length (ro_br r))%nat by (apply nth_error_Some; congruence)); lia).
  rewrite nth_error_map. replace (length (ro_sh r) + length (ro_dk r) + i - length (ro_sh r) - length (ro_dk r))%nat with i by lia. rewrite E. reflexivity.
Qed.
Lemma assemble_err f ignore order i j o o' : Permutation order (remaining r ignore) -> (i < j)%nat -> nth_error (ro_br r) i = Some o -> nth_error (ro_br r) j = Some o' ->
  brg_class o = brg_class o' -> brg_class o <> BCylindrical -> ~ keeps_arguments o \/ ~ fit (entries o) (entries o') -> ~ In (tag_str (b_tag (brg_of o'))) ignore ->
  exists e, assemble_sorted np f r order = Err e.
Proof using I B.
  intros P Hij Ei Ej CL NC BAD IG. set (a := (length (ro_sh r) + length (ro_dk r))%nat).
  pose proof (bearing_place _ _ Ei) as Pi. pose proof (bearing_place _ _ Ej) as Pj. fold a in Pi, Pj.
  assert (Lj : (a + j < length L)%nat) by (rewrite (proj2 placed_length), <- (proj1 placed_length); apply nth_error_Some; congruence).
  destruct (placed_nth _ Lj) as (xj & dj & Qj & Xj). rewrite Pj in Xj. injection Xj as <-.
  assert (Li : (a + i < length L)%nat) by lia. destruct (placed_nth _ Li) as (xi & di & Qi & Xi). rewrite Pi in Xi. injection Xi as <-.
  assert (ER : exists e, py_eq np (IBrg o, di) (IBrg o', dj) = Err e).
  { rewrite brg_split, CL, (proj2 (bclass_eqb_iff _ _) eq_refl). destruct BAD as [NK|NF]; [|apply brg_misfit; assumption].
    destruct o as [b|s|b|aa b|sp w l dd c v b|c b]; try (exfalso; apply NK; exact Logic.I). destruct o' as [b'|s'|b'|a' b'|sp' w' l' dd' c' v' b'|c' b']; try (destruct c; discriminate).
    assert (c = c') by (destruct c, c'; cbn in CL; congruence). subst c'. exists AttributeError. apply brg_plain. }
  destruct ER as (e & ER). assert (IX : exists e', index_of np L (a + j) = Err e').
  { unfold index_of. rewrite Qj. apply (index_from_err np L 0 (a + j) _ (a + i) _ e Qi ltac:(lia) ER). intros k [z dz] Hk Ez Q.
    assert (Lk : (k < length L)%nat) by lia. destruct (placed_nth k Lk) as (z' & d'' & E1 & E2). assert (z' = z) by congruence. subst z'.
    apply (tags_differ k (a + j) z (IBrg o') ltac:(lia) E2 Pj). apply (py_tag np z (IBrg o') dz dj (built_nth _ _ E2) (built_nth _ _ Pj) Q). intros (_ & X). cbn in X. congruence. }
  destruct IX as (e' & IX).
  assert (IN : In (a + j)%nat order).
  { apply (Permutation_in _ (Permutation_sym P)). unfold remaining. apply filter_In. split; [apply in_seq; rewrite <- (proj2 placed_length); lia|].
    pose proof (f_equal (fun l => nth_error l (a + j)) (elem_tags _ _ _ _ _ _ _ _ _ I)) as T. cbn beta in T. rewrite !nth_error_map, Pj in T. cbn [option_map] in T.
    destruct (nth_error (r_elements (ro_val r)) (a + j)) as [el|]; [|discriminate]. cbn in T. injection T as T. rewrite <- T. apply negb_true_iff.
    destruct (existsb _ ignore) eqn:EX; [|reflexivity]. exfalso. apply existsb_exists in EX as (t & Ht & EQ). apply String.eqb_eq in EQ. apply IG. rewrite EQ. exact Ht. }
  unfold assemble_sorted, sorted_elements. fold L.
  destruct (mapM_err (fun i => bind (index_of np L i) (fun k => Ok (k, i))) order (a + j)%nat e' IN) as (e'' & ->); [rewrite IX; reflexivity|]. eexists. reflexivity.
Qed.
End Elements.
