(** Lemmas about the assembly loops of a rotor. *)
From Coq Require Import Reals String List Arith Lia Lra Bool Permutation.
From Verif Require Import PyBase MatBase SpecMat MRotor SpecRotor LMat.
Import ListNotations.
Open Scope list_scope.
Open Scope R_scope.

Lemma suml_app l1 l2 : suml (l1 ++ l2) = suml l1 + suml l2.
Proof. induction l1; simpl; [ring|]. unfold suml in *. simpl. rewrite IHl1. ring. Qed.
Lemma suml_perm l1 l2 : Permutation l1 l2 -> suml l1 = suml l2.
Proof. induction 1; unfold suml in *; simpl; lra. Qed.
Lemma suml_map_ext {A} (f g : A -> R) l : (forall x, In x l -> f x = g x) -> suml (map f l) = suml (map g l).
Proof. induction l; intros H; simpl; [reflexivity|]. unfold suml in *. simpl. rewrite H, IHl; auto with datatypes. Qed.
Lemma suml_map_plus {A} (f g : A -> R) l : suml (map (fun x => f x + g x) l) = suml (map f l) + suml (map g l).
Proof. induction l; unfold suml in *; simpl; [ring|]. rewrite IHl. ring. Qed.
Lemma suml_map_scal {A} c (f : A -> R) l : suml (map (fun x => c * f x) l) = c * suml (map f l).
Proof. induction l; unfold suml in *; simpl; [ring|]. rewrite IHl. ring. Qed.
Lemma suml_nonneg l : (forall x, In x l -> 0 <= x) -> 0 <= suml l.
Proof.
  induction l; unfold suml in *; simpl; intros H; [lra|].
  assert (0 <= a) by auto. assert (0 <= fold_right Rplus 0 l) by auto. lra.
Qed.
Lemma suml_pos {A} (f : A -> R) l x : In x l -> 0 < f x -> (forall y, In y l -> 0 <= f y) -> 0 < suml (map f l).
Proof.
  induction l; simpl; [tauto|]. intros [->|H] Hx Hn; unfold suml in *; simpl.
  - assert (0 <= fold_right Rplus 0 (map f l)).
    { apply suml_nonneg. intros y Hy. apply in_map_iff in Hy as (z & <- & Hz). auto. }
    lra.
  - assert (0 <= f a) by auto. specialize (IHl H Hx (fun y Hy => Hn y (or_intror Hy))). lra.
Qed.
Lemma suml_zero {A} (f : A -> R) l : suml (map f l) = 0 -> (forall y, In y l -> 0 <= f y) -> forall x, In x l -> f x = 0.
Proof.
  intros H Hn x Hx. destruct (Rle_lt_or_eq_dec 0 (f x) (Hn x Hx)) as [Hp|E]; [|auto].
  pose proof (suml_pos f l x Hx Hp Hn). lra.
Qed.
Lemma sumn_suml {A} n (f : A -> nat -> R) l :
  sumn n (fun i => suml (map (fun x => f x i) l)) = suml (map (fun x => sumn n (f x)) l).
Proof.
  induction l; simpl.
  - apply sumn_0. reflexivity.
  - unfold suml in *. simpl. rewrite sumn_plus, IHl. reflexivity.
Qed.

(** ** fancy indexing *)
Lemma last_index_from_some k i dofs a : last_index_from k i dofs = Some a ->
  (k <= a)%nat /\ nth_error dofs (a - k) = Some i.
Proof.
  revert k. induction dofs as [|d dofs IH]; intros k; simpl; [discriminate|].
  destruct (last_index_from (S k) i dofs) as [b|] eqn:E.
  - intros [= ->]. destruct (IH _ E) as [Hle Hn]. split; [lia|].
    replace (a - k)%nat with (S (a - S k)) by lia. exact Hn.
  - destruct (Nat.eqb_spec d i) as [->|]; [|discriminate]. intros [= <-]. split; [lia|].
    rewrite Nat.sub_diag. reflexivity.
Qed.
Lemma last_index_from_none k i dofs : last_index_from k i dofs = None -> ~ In i dofs.
Proof.
  revert k. induction dofs as [|d dofs IH]; intros k; simpl; [tauto|].
  destruct (last_index_from (S k) i dofs) as [b|] eqn:E; [discriminate|].
  destruct (Nat.eqb_spec d i) as [->|]; [discriminate|]. intros _ [H|H]; [congruence|]. exact (IH _ E H).
Qed.
Lemma last_index_some i dofs a : last_index i dofs = Some a -> (a < length dofs)%nat /\ nth a dofs 0%nat = i.
Proof.
  intros H. apply last_index_from_some in H as [_ H]. rewrite Nat.sub_0_r in H. split.
  - apply nth_error_Some. congruence.
  - apply nth_error_nth. exact H.
Qed.
Lemma last_index_none i dofs : last_index i dofs = None -> ~ In i dofs.
Proof. apply last_index_from_none. Qed.

Lemma contribution_at dofs M i j a b : NoDup dofs -> last_index i dofs = Some a -> last_index j dofs = Some b ->
  contribution dofs (length dofs) M i j = M a b.
Proof.
  intros Hnd Hi Hj. apply last_index_some in Hi as [Ha Hi]. apply last_index_some in Hj as [Hb Hj].
  unfold contribution. rewrite (sumn_single _ _ a Ha), (sumn_single _ _ b Hb).
  - rewrite Hi, Hj, !Nat.eqb_refl. reflexivity.
  - intros k Hk Hne. destruct (Nat.eqb_spec (nth k dofs 0%nat) j) as [E|]; [|rewrite andb_false_r; reflexivity].
    exfalso. apply Hne. rewrite NoDup_nth with (d := 0%nat) in Hnd. apply Hnd; auto. congruence.
  - intros k Hk Hne. apply sumn_0. intros l Hl.
    destruct (Nat.eqb_spec (nth k dofs 0%nat) i) as [E|]; [|reflexivity].
    exfalso. apply Hne. rewrite NoDup_nth with (d := 0%nat) in Hnd. apply Hnd; auto. congruence.
Qed.
Lemma contribution_out dofs k M i j : (k <= length dofs)%nat -> ~ In i dofs \/ ~ In j dofs -> contribution dofs k M i j = 0.
Proof.
  intros Hk H. unfold contribution. apply sumn_0; intros a Ha. apply sumn_0; intros b Hb.
  destruct (Nat.eqb_spec (nth a dofs 0%nat) i) as [E|]; [|reflexivity].
  destruct (Nat.eqb_spec (nth b dofs 0%nat) j) as [E'|]; [|reflexivity].
  exfalso. destruct H as [H|H]; apply H; [rewrite <- E|rewrite <- E']; apply nth_In; lia.
Qed.

Lemma add_at_ok N dofs k M acc R' : add_at N dofs (k, M) acc = Ok R' ->
  length dofs = k /\ (forall d, In d dofs -> (d < N)%nat) /\
  (NoDup dofs -> forall i j, R' i j = acc i j + contribution dofs k M i j).
Proof.
  unfold add_at. simpl.
  destruct (existsb _ dofs) eqn:E1; [discriminate|].
  destruct (Nat.eqb_spec (length dofs) k) as [<-|]; simpl; [|discriminate].
  intros [= <-]. split; [reflexivity|]. split.
  - intros d Hd. destruct (Nat.ltb_spec d N); [auto|].
    assert (existsb (fun d => (N <=? d)%nat) dofs = true) by (apply existsb_exists; exists d; split; [auto|apply Nat.leb_le; lia]).
    congruence.
  - intros Hnd i j.
    destruct (last_index i dofs) as [a|] eqn:Hi.
    + destruct (last_index j dofs) as [b|] eqn:Hj.
      * rewrite (contribution_at dofs M i j a b Hnd Hi Hj). reflexivity.
      * apply last_index_none in Hj. rewrite contribution_out; [ring|lia|auto].
    + apply last_index_none in Hi. rewrite contribution_out; [ring|lia|auto].
Qed.
Lemma add_at_intro N dofs k M acc : length dofs = k -> (forall d, In d dofs -> (d < N)%nat) ->
  exists R', add_at N dofs (k, M) acc = Ok R'.
Proof.
  intros Hl Hd. unfold add_at. simpl.
  destruct (existsb _ dofs) eqn:E1.
  - apply existsb_exists in E1 as (d & Hi & Hle). apply Nat.leb_le in Hle. specialize (Hd d Hi). lia.
  - rewrite Hl, Nat.eqb_refl. simpl. eexists; reflexivity.
Qed.

Lemma assemble_ok N dofs f l acc R' : assemble N dofs f l acc = Ok R' ->
  (forall e, In e l -> exists k M, f e = Ok (k, M) /\ length (dofs e) = k /\ forall d, In d (dofs e) -> (d < N)%nat) /\
  ((forall e, In e l -> NoDup (dofs e)) ->
   forall i j, R' i j = acc i j + suml (map (fun e => contribution (dofs e) (el_size f e) (el_mat f e) i j) l)).
Proof.
  revert acc. induction l as [|e l IH]; intros acc; simpl.
  - intros [= ->]. split; [tauto|]. intros _ i j. unfold suml; simpl. ring.
  - destruct (f e) as [[k M]|] eqn:Hf; simpl; [|discriminate].
    destruct (add_at N (dofs e) (k, M) acc) as [A|] eqn:Ha; simpl; [|discriminate].
    intros H. destruct (IH _ H) as [IH1 IH2]. destruct (add_at_ok _ _ _ _ _ _ Ha) as (Hl & Hd & Hs). split.
    + intros e' [<-|He']; [|auto]. exists k, M. auto.
    + intros Hnd i j. rewrite IH2 by auto. rewrite Hs by auto.
      unfold suml; simpl. fold (suml (map (fun e => contribution (dofs e) (el_size f e) (el_mat f e) i j) l)).
      unfold el_size at 2, el_mat at 2. rewrite Hf. simpl. ring.
Qed.
Lemma assemble_intro N dofs f l acc :
  (forall e, In e l -> exists k M, f e = Ok (k, M) /\ length (dofs e) = k /\ forall d, In d (dofs e) -> (d < N)%nat) ->
  exists R', assemble N dofs f l acc = Ok R'.
Proof.
  revert acc. induction l as [|e l IH]; intros acc H; simpl; [eexists; reflexivity|].
  destruct (H e (or_introl eq_refl)) as (k & M & Hf & Hl & Hd). rewrite Hf. simpl.
  destruct (add_at_intro N (dofs e) k M acc Hl Hd) as [A ->]. simpl. apply IH. intros; apply H; right; auto.
Qed.

(** ** the bilinear form of an assembled matrix *)
Lemma contribution_bform N dofs k M x y : (k <= length dofs)%nat -> (forall d, In d dofs -> (d < N)%nat) ->
  bform N (contribution dofs k M) x y = bform k M (gather dofs x) (gather dofs y).
Proof.
  intros Hk Hd.
  assert (Hlt : forall a, (a < k)%nat -> (nth a dofs 0 < N)%nat) by (intros; apply Hd, nth_In; lia).
  unfold bform, contribution.
  (* push everything inside, then evaluate the indicator sums *)
  rewrite (sumn_ext N _ (fun i => sumn k (fun a => (if Nat.eqb (nth a dofs 0%nat) i then x i else 0) *
        sumn k (fun b => M a b * y (nth b dofs 0%nat))))).
  - rewrite sumn_swap. apply sumn_ext; intros a Ha. rewrite sumn_scal_r. unfold gather.
    rewrite (sumn_single N _ (nth a dofs 0%nat)); [rewrite Nat.eqb_refl; reflexivity|auto|].
    intros i Hi Hne. destruct (Nat.eqb_spec (nth a dofs 0%nat) i); [congruence|reflexivity].
  - intros i Hi. rewrite <- sumn_scal.
    rewrite (sumn_ext N _ (fun j => sumn k (fun a => sumn k (fun b =>
       (if Nat.eqb (nth a dofs 0%nat) i then x i else 0) * (M a b * (if Nat.eqb (nth b dofs 0%nat) j then y j else 0)))))).
    + rewrite sumn_swap. apply sumn_ext; intros a Ha. rewrite sumn_swap.
      rewrite (sumn_ext k _ (fun b => (if Nat.eqb (nth a dofs 0%nat) i then x i else 0) * (M a b * y (nth b dofs 0%nat)))).
      * apply sumn_scal.
      * intros b Hb. rewrite sumn_scal. f_equal. rewrite sumn_scal. f_equal.
        rewrite (sumn_single N _ (nth b dofs 0%nat)); [rewrite Nat.eqb_refl; reflexivity|auto|].
        intros j Hj Hne. destruct (Nat.eqb_spec (nth b dofs 0%nat) j); [congruence|reflexivity].
    + intros j Hj. rewrite <- sumn_scal_r, <- sumn_scal. apply sumn_ext; intros a Ha.
      rewrite <- sumn_scal_r, <- sumn_scal. apply sumn_ext; intros b Hb.
      destruct (Nat.eqb_spec (nth a dofs 0%nat) i); destruct (Nat.eqb_spec (nth b dofs 0%nat) j); simpl; ring.
Qed.

Lemma bform_suml {A} N (F : A -> mat) l x y :
  bform N (fun i j => suml (map (fun e => F e i j) l)) x y = suml (map (fun e => bform N (F e) x y) l).
Proof.
  induction l as [|e l IH].
  - unfold suml; simpl. unfold bform. apply sumn_0; intros i _. rewrite sumn_0; [ring|]. intros; ring.
  - unfold suml in *; simpl. rewrite <- IH. rewrite <- bform_plus. reflexivity.
Qed.

Lemma assemble_bform N dofs f l R' x y : assemble N dofs f l mzero = Ok R' ->
  (forall e, In e l -> NoDup (dofs e)) ->
  bform N R' x y = suml (map (fun e => bform (el_size f e) (el_mat f e) (gather (dofs e) x) (gather (dofs e) y)) l).
Proof.
  intros H Hnd. destruct (assemble_ok _ _ _ _ _ _ H) as [H1 H2]. specialize (H2 Hnd).
  rewrite (bform_ext N R' (fun i j => suml (map (fun e => contribution (dofs e) (el_size f e) (el_mat f e) i j) l))).
  - rewrite (bform_suml N (fun e => contribution (dofs e) (el_size f e) (el_mat f e))).
    apply suml_map_ext. intros e He. destruct (H1 e He) as (k & M & Hf & Hl & Hd).
    apply contribution_bform; [|auto]. unfold el_size. rewrite Hf. simpl. lia.
  - intros i j _ _. rewrite H2. unfold mzero. ring.
Qed.

Lemma contribution_trans dofs k M i j : contribution dofs k M j i = contribution dofs k (mtrans M) i j.
Proof.
  unfold contribution. rewrite sumn_swap. apply sumn_ext; intros a _. apply sumn_ext; intros b _.
  rewrite andb_comm. reflexivity.
Qed.
Lemma contribution_ext dofs k M M' i j : meq k M M' -> contribution dofs k M i j = contribution dofs k M' i j.
Proof.
  intros H. unfold contribution. apply sumn_ext; intros a Ha. apply sumn_ext; intros b Hb.
  destruct (andb _ _); [apply H; auto|reflexivity].
Qed.
Lemma assemble_symmetric N dofs f l R' : assemble N dofs f l mzero = Ok R' ->
  (forall e, In e l -> NoDup (dofs e)) -> (forall e, In e l -> symmetric (el_size f e) (el_mat f e)) ->
  symmetric N R'.
Proof.
  intros H Hnd Hs. destruct (assemble_ok _ _ _ _ _ _ H) as [_ H2]. specialize (H2 Hnd).
  intros i j _ _. rewrite !H2. f_equal. apply suml_map_ext. intros e He.
  rewrite (contribution_trans _ _ _ i j). apply contribution_ext. intros a b Ha Hb. apply Hs; auto.
Qed.
Lemma contribution_opp dofs k M i j : contribution dofs k (fun a b => - M a b) i j = - contribution dofs k M i j.
Proof.
  unfold contribution. rewrite <- sumn_opp. apply sumn_ext; intros a _. rewrite <- sumn_opp. apply sumn_ext; intros b _.
  destruct (andb _ _); ring.
Qed.
Lemma assemble_skew N dofs f l R' : assemble N dofs f l mzero = Ok R' ->
  (forall e, In e l -> NoDup (dofs e)) -> (forall e, In e l -> skew (el_size f e) (el_mat f e)) ->
  skew N R'.
Proof.
  intros H Hnd Hs. destruct (assemble_ok _ _ _ _ _ _ H) as [_ H2]. specialize (H2 Hnd).
  intros i j _ _. rewrite !H2. unfold mzero. rewrite !Rplus_0_l.
  replace (- suml (map (fun e => contribution (dofs e) (el_size f e) (el_mat f e) j i) l))
    with ((-1) * suml (map (fun e => contribution (dofs e) (el_size f e) (el_mat f e) j i) l)) by ring.
  rewrite <- suml_map_scal. apply suml_map_ext. intros e He.
  rewrite (contribution_trans _ _ _ i j).
  rewrite (contribution_ext _ _ _ (fun a b => - mtrans (el_mat f e) a b)).
  - rewrite contribution_opp. ring.
  - intros a b Ha Hb. apply Hs; auto.
Qed.
