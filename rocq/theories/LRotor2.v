(** Lemmas about assembled rotors: dofs of the elements, symmetry, energies. *)
From Coq Require Import Reals String List Arith Lia Lra Bool Permutation Sorted.
From Verif Require Import PyBase MatBase SpecMat MMaterial MShaft MDisk MBearing MRotor SpecShaft SpecRotor
  LMat LShaft LShaftEnergy LShaftProps LShaft6 LShaftEx LDisk LBearing LBearing2 LAssembly LRotor.
Import ListNotations.
Open Scope list_scope.
Open Scope R_scope.

Definition nat_size (e : elem) : nat :=
  match e with
  | EShaft six _ _ _ => if six then 12 else 8
  | EDisk six _ _ => if six then 6 else 4
  | EBrg _ b => brg_size b
  | EPm six _ _ => if six then 3 else 2
  end%nat.
(** the element matrices offered to the assembly loops *)
Inductive mkind (spl : list R -> list R -> R -> R) (w : R) : (elem -> res (nat * mat)) -> Prop :=
| is_M : mkind spl w (el_M spl w)
| is_K : mkind spl w (el_K spl w)
| is_C : mkind spl w (el_C spl w)
| is_G : mkind spl w (el_G spl).

Lemma sized_ok k r k' M : sized k r = Ok (k', M) -> k' = k /\ r = Ok M.
Proof. unfold sized, bind. destruct r; [intros [= <- <-]; auto|discriminate]. Qed.
Lemma el_size_nat spl w f e k M : mkind spl w f -> f e = Ok (k, M) -> k = nat_size e.
Proof.
  intros [] H; destruct e as [[] n t s|[] t d|t b|[] t p]; simpl in H; try (injection H; intros; subst; reflexivity);
    try (apply sized_ok in H as [-> _]; reflexivity).
  unfold bind in H. destruct (sized _ _) as [[k' M']|] eqn:E; [|discriminate].
  injection H; intros; subst. apply sized_ok in E as [-> _]. reflexivity.
Qed.

Lemma rf_shaft_n r six n t s : rfacts r -> In (EShaft six n t s) (r_elements r) -> (n <= r_n_last r)%nat.
Proof.
  intros F H. rewrite (rf_last _ F). apply max_list_ge.
  assert (In (EShaft six n t s) (r_shaft r)).
  { unfold r_elements in H. rewrite !in_app_iff in H. destruct H as [H|[H|[H|H]]]; [exact H| | |].
    - destruct (rf_disk _ F _ H) as (? & ? & ? & ?); discriminate.
    - destruct (rf_brg _ F _ H) as (? & ? & ?); discriminate.
    - destruct (rf_pm _ F _ H) as (? & ? & ? & ?); discriminate. }
  apply (in_map el_n) in H0. exact H0.
Qed.
Lemma rf_brg_in r t b : rfacts r -> In (EBrg t b) (r_elements r) -> In (EBrg t b) (r_brg r).
Proof.
  intros F H. unfold r_elements in H. rewrite !in_app_iff in H. destruct H as [H|[H|[H|H]]]; [| |exact H|].
  - destruct (rf_shaft _ F _ H) as (? & ? & ? & ? & ?); discriminate.
  - destruct (rf_disk _ F _ H) as (? & ? & ? & ?); discriminate.
  - destruct (rf_pm _ F _ H) as (? & ? & ? & ?); discriminate.
Qed.
Lemma rf_pm_in r x t b : rfacts r -> In (EPm x t b) (r_elements r) -> In (EPm x t b) (r_pm r).
Proof.
  intros F H. unfold r_elements in H. rewrite !in_app_iff in H. destruct H as [H|[H|[H|H]]]; [| | |exact H].
  - destruct (rf_shaft _ F _ H) as (? & ? & ? & ? & ?); discriminate.
  - destruct (rf_disk _ F _ H) as (? & ? & ? & ?); discriminate.
  - destruct (rf_brg _ F _ H) as (? & ? & ?); discriminate.
Qed.
Lemma rf_disk_in r x t b : rfacts r -> In (EDisk x t b) (r_elements r) -> In (EDisk x t b) (r_disk r).
Proof.
  intros F H. unfold r_elements in H. rewrite !in_app_iff in H. destruct H as [H|[H|[H|H]]]; [|exact H| |].
  - destruct (rf_shaft _ F _ H) as (? & ? & ? & ? & ?); discriminate.
  - destruct (rf_brg _ F _ H) as (? & ? & ?); discriminate.
  - destruct (rf_pm _ F _ H) as (? & ? & ? & ?); discriminate.
Qed.
Lemma rf_n_cond r e : rfacts r -> In e (r_elements r) -> match e with EShaft _ n _ _ => (n <= r_n_last r)%nat | _ => True end.
Proof. intros F H. destruct e; auto. eapply rf_shaft_n; eauto. Qed.
Lemma pm_matches_fam r e : rfacts r -> pm_matches r -> In e (r_elements r) -> pm_fam (r_nd r) e.
Proof. intros F Hp H. destruct e; simpl; auto. unfold fam. eapply Hp. eapply rf_pm_in; eauto. Qed.

(** the dofs of a point mass are distinct whatever its kind *)
Lemma pm_dofs nd last six t p : (nd = 4 \/ nd = 6)%nat ->
  el_dofs nd last (EPm six t p) = seq (node_start nd last (p_n p)) (if six then 3 else 2).
Proof.
  intros H. unfold el_dofs, dof_index. cbn [el_link el_n]. destruct six; cbn -[gidx node_start]; rewrite !gidx_start by auto; cons_lia.
Qed.

(** an element whose dof list has the size of its matrix has distinct dofs *)
Lemma el_nodup r e : rfacts r -> In e (r_elements r) -> length (r_dofs r e) = nat_size e -> NoDup (r_dofs r e).
Proof.
  intros F He Hl. unfold r_dofs in *. pose proof (rf_nd _ F) as Hnd. pose proof (rf_fam _ F _ He) as Hf.
  pose proof (rf_n_cond _ _ F He) as Hn.
  destruct e as [six n t s|six t d|t b|six t p].
  - rewrite el_dofs_acts; [apply acts_on_nodup; auto; discriminate|auto|auto|exact I|exact Hn|discriminate].
  - rewrite el_dofs_acts; [apply acts_on_nodup; auto; discriminate|auto|auto|exact I|exact I|discriminate].
  - assert (el_link (EBrg t b) <> Some (el_n (EBrg t b))).
    { intros E. exact (self_link_short _ _ _ _ E Hf Hl). }
    rewrite el_dofs_acts; [apply acts_on_nodup; auto|auto|auto|exact I|exact I|auto].
  - rewrite pm_dofs by auto. apply seq_NoDup.
Qed.
Lemma assembled_nodup spl w f r l acc A : rfacts r -> mkind spl w f -> incl l (r_elements r) ->
  assemble (r_ndof r) (r_dofs r) f l acc = Ok A -> forall e, In e l -> NoDup (r_dofs r e).
Proof.
  intros F Hk Hi HA e He. destruct (assemble_ok _ _ _ _ _ _ HA) as [H1 _].
  destruct (H1 e He) as (k & M & Hf & Hl & _). apply el_nodup; auto.
  rewrite Hl. eapply el_size_nat; eauto.
Qed.
Lemma assembled_acts spl w f r l acc A : rfacts r -> pm_matches r -> mkind spl w f -> incl l (r_elements r) ->
  assemble (r_ndof r) (r_dofs r) f l acc = Ok A -> forall e, In e l -> r_dofs r e = acts_on (r_nd r) (r_n_last r) e.
Proof.
  intros F Hp Hk Hi HA e He. destruct (assemble_ok _ _ _ _ _ _ HA) as [H1 _].
  destruct (H1 e He) as (k & M & Hf & Hl & _). assert (Hin := Hi e He). unfold r_dofs in *.
  apply el_dofs_acts; [apply rf_nd; auto|apply rf_fam; auto|apply pm_matches_fam; auto|apply rf_n_cond; auto|].
  destruct e; try discriminate. intros E. refine (self_link_short _ _ _ _ E (rf_fam _ F _ Hin) _).
  rewrite Hl. exact (el_size_nat _ _ _ _ _ _ Hk Hf).
Qed.

(** ** entries *)
Lemma assembled_entries spl w f r l A : rfacts r -> pm_matches r -> mkind spl w f -> incl l (r_elements r) ->
  assemble (r_ndof r) (r_dofs r) f l mzero = Ok A ->
  forall i j, A i j = suml (map (fun e => contribution (acts_on (r_nd r) (r_n_last r) e) (el_size f e) (el_mat f e) i j) l).
Proof.
  intros F Hp Hk Hi HA i j. destruct (assemble_ok _ _ _ _ _ _ HA) as [_ H2].
  rewrite H2 by (eapply assembled_nodup; eauto). unfold mzero. rewrite Rplus_0_l.
  apply suml_map_ext. intros e He. rewrite (assembled_acts _ _ _ _ _ _ _ F Hp Hk Hi HA e He). reflexivity.
Qed.
Lemma assembled_form spl w f r l A x y : rfacts r -> pm_matches r -> mkind spl w f -> incl l (r_elements r) ->
  assemble (r_ndof r) (r_dofs r) f l mzero = Ok A ->
  bform (r_ndof r) A x y =
  suml (map (fun e => bform (el_size f e) (el_mat f e) (gather (acts_on (r_nd r) (r_n_last r) e) x)
                            (gather (acts_on (r_nd r) (r_n_last r) e) y)) l).
Proof.
  intros F Hp Hk Hi HA. rewrite (assemble_bform _ _ _ _ _ _ _ HA) by (eapply assembled_nodup; eauto).
  apply suml_map_ext. intros e He. rewrite (assembled_acts _ _ _ _ _ _ _ F Hp Hk Hi HA e He). reflexivity.
Qed.
Lemma kept_incl ig l : incl (kept ig l) l.
Proof. intros e H. unfold kept in H. apply filter_In in H. tauto. Qed.
Lemma kept_nil l : kept [] l = l.
Proof. unfold kept. simpl. induction l; simpl; [reflexivity|]. rewrite IHl. reflexivity. Qed.

(** ** element matrices: symmetry *)
Definition eval_sym (f : elem -> res (nat * mat)) (e : elem) : Prop := symmetric (el_size f e) (el_mat f e).
Lemma mzero_sym n : symmetric n mzero. Proof. intros i j _ _; reflexivity. Qed.
Lemma mzero_skew n : skew n mzero. Proof. intros i j _ _; unfold mzero; ring. Qed.
Lemma el_M_sym spl w e : (match e with EBrg _ _ => eval_sym (el_M spl w) e | _ => True end) -> eval_sym (el_M spl w) e.
Proof.
  destruct e as [[] n t s|[] t d|t b|[] t p]; auto; intros _; unfold eval_sym, el_size, el_mat; simpl.
  - apply shaft6_M_sym.
  - apply shaft_M_sym.
  - apply disk6_M_sym.
  - apply disk_M_sym.
  - apply pmass6_M_sym.
  - apply pmass_M_sym.
Qed.
Lemma el_G_skew spl e : skew (el_size (el_G spl) e) (el_mat (el_G spl) e).
Proof.
  destruct e as [[] n t s|[] t d|t b|[] t p]; unfold el_size, el_mat; simpl.
  - apply (proj1 (proj2 (G_skew_all s))).
  - apply (proj1 (G_skew_all s)).
  - apply disk6_G_skew.
  - apply disk_G_skew.
  - unfold bind. destruct (sized _ _) as [[k M]|]; apply mzero_skew.
  - apply mzero_skew.
  - apply mzero_skew.
Qed.

Lemma mzero_bform n x y : bform n mzero x y = 0.
Proof. unfold bform, mzero. apply sumn_0. intros i _. rewrite sumn_0; [ring|intros; ring]. Qed.

(** ** existence *)
Lemma group_max_cons2 n p n' p' l : group_max ((n, p) :: (n', p') :: l) =
  if Nat.eqb n n' then match group_max ((n', p') :: l) with q :: g' => Rmax p q :: g' | [] => [p] end
  else p :: group_max ((n', p') :: l).
Proof. reflexivity. Qed.
Lemma bounds_acts r e : rfacts r -> regular r -> In e (r_elements r) -> links_ok r ->
  forall d, In d (acts_on (r_nd r) (r_n_last r) e) -> (d < r_ndof r)%nat.
Proof.
  intros F G He Hlk d Hd. pose proof (rf_nd _ F) as Hnd. rewrite (rf_ndof _ F).
  set (nd := r_nd r) in *. set (last := r_n_last r) in *. set (p := length (r_pm r)).
  assert (Hh := fun n => half_dofs nd last n Hnd).
  assert (Hhalf : forall n, (n < last + 2 + p)%nat -> In d (seq (node_start nd last n) (nd / 2)) -> (d < nd * (last + 2) + nd / 2 * p)%nat).
  { intros n Hn Hin. apply in_seq in Hin. specialize (Hh n).
    replace d with (node_start nd last n + (d - node_start nd last n))%nat by lia. apply node_below; auto. lia. }
  assert (Hfull : forall n, (n <= last + 1)%nat -> In d (seq (node_start nd last n) nd) -> (d < nd * (last + 2) + nd / 2 * p)%nat).
  { intros n Hn Hin. apply in_seq in Hin.
    replace d with (node_start nd last n + (d - node_start nd last n))%nat by lia. apply node_below; auto; [lia|].
    rewrite dofs_shaft by auto. lia. }
  assert (Hpm : forall e, In e (r_pm r) -> (el_n e < last + 2 + p)%nat).
  { intros e' He'. assert (In (el_n e') (seq (last + 2) p)).
    { apply (Permutation_in _ (reg_pm _ G)). apply in_map. exact He'. }
    apply in_seq in H. lia. }
  assert (Hloc : forall e, In e (r_brg r ++ r_disk r) -> (el_n e < last + 2 + p)%nat).
  { intros e' He'. pose proof (rf_loc _ F) as HL. unfold location_ok in HL. apply Nat.leb_le in HL.
    assert (el_n e' <= max_list (map el_n (r_shaft r ++ r_disk r ++ r_brg r)))%nat.
    { apply max_list_ge, in_map. rewrite !in_app_iff in *. tauto. }
    assert (max_list (map (fun e => S (el_n e)) (r_shaft r)) <= last + 1)%nat.
    { apply max_list_le. intros x Hx. apply in_map_iff in Hx as (e2 & <- & He2).
      unfold last. rewrite (rf_last _ F). pose proof (max_list_ge (map el_n (r_shaft r)) (el_n e2) (in_map _ _ _ He2)). lia. }
    assert (max_list (map el_n (r_pm r)) <= last + 1 + p)%nat.
    { apply max_list_le. intros x Hx. apply in_map_iff in Hx as (e2 & <- & He2). specialize (Hpm e2 He2). lia. }
    lia. }
  destruct e as [six n t s|six t dk|t b|six t q]; cbn [acts_on] in Hd.
  - pose proof (rf_shaft_n _ _ _ _ _ F He) as Hn. apply in_app_or in Hd as [Hd|Hd]; [apply (Hfull n)|apply (Hfull (S n))]; auto; lia.
  - apply rf_disk_in in He; [|auto].
    destruct (rf_dpos _ F) as (dpos & Hdp & _).
    assert (Hlen : (d_n dk < length (nodes_pos (r_shaft r)))%nat).
    { clear - Hdp He. revert dpos Hdp. induction (r_disk r) as [|e0 l IH]; [destruct He|].
      simpl. intros dpos Hdp. destruct (nth_error (nodes_pos (r_shaft r)) (el_n e0)) eqn:E; [|discriminate].
      destruct He as [->|He]; [apply nth_error_Some; simpl in E; congruence|].
      destruct (disk_positions _ l); [|discriminate]. eapply IH; eauto. }
    assert (Hlen2 : (length (nodes_pos (r_shaft r)) <= last + 2)%nat).
    { unfold nodes_pos. rewrite app_length. simpl.
      assert (Hgm : forall l m, StronglySorted (fun a b => (fst a <= fst b)%nat) l -> (forall q, In q l -> (m <= fst q <= last)%nat) ->
                (length (group_max l) <= last + 1 - m)%nat).
      { induction l as [|[n0 p0] l IH]; intros m Hs Hb; [simpl; lia|].
        inversion Hs as [|? ? Hs1 Hs2]; subst.
        destruct l as [|[n1 p1] l']; [simpl; specialize (Hb _ (or_introl eq_refl)); simpl in Hb; lia|].
        rewrite group_max_cons2. destruct (Nat.eqb_spec n0 n1) as [E|Hne].
        - assert (IH' : (length (group_max ((n1, p1) :: l')) <= last + 1 - m)%nat) by (apply IH; [exact Hs1|intros q Hq; apply Hb; right; exact Hq]).
          destruct (group_max ((n1, p1) :: l')) as [|q g] eqn:Eg; simpl length in *; [|lia].
          specialize (Hb _ (or_introl eq_refl)). simpl in Hb. lia.
        - cbn [length]. specialize (IH (S m) Hs1).
          assert (n0 < n1)%nat.
          { rewrite Forall_forall in Hs2. specialize (Hs2 _ (or_introl eq_refl)). simpl in Hs2. lia. }
          specialize (Hb (n0, p0) (or_introl eq_refl)) as Hb0. simpl in Hb0.
          assert (length (group_max ((n1, p1) :: l')) <= last + 1 - S m)%nat; [|lia].
          apply IH. intros q Hq. specialize (Hb q (or_intror Hq)). split; [|lia].
          destruct Hq as [<-|Hq]; [simpl; lia|]. inversion Hs1 as [|? ? _ Hs3]; subst. rewrite Forall_forall in Hs3.
          specialize (Hs3 q Hq). simpl in Hs3. lia. }
      assert (length (group_max (combine (map el_n (r_shaft r)) (map fst (MRotor.shaft_pos (r_shaft r))))) <= last + 1 - 0)%nat; [|lia].
      apply Hgm.
      - generalize (map fst (MRotor.shaft_pos (r_shaft r))). pose proof (rf_sorted _ F) as Hs. clear - Hs.
        induction Hs as [|e l Hs IH Hf]; intros ps; simpl; [constructor|]. destruct ps as [|p0 ps]; [constructor|].
        constructor; [auto|]. apply Forall_forall. intros [n z] Hin. apply in_combine_l in Hin. apply in_map_iff in Hin as (e' & <- & He').
        rewrite Forall_forall in Hf. apply (Hf e' He').
      - intros [n z] Hin. apply in_combine_l in Hin. simpl. split; [lia|]. unfold last. rewrite (rf_last _ F). apply max_list_ge. exact Hin. }
    apply (Hfull (d_n dk)); auto. lia.
  - pose proof (rf_brg_in _ _ _ F He) as Hb. apply in_app_or in Hd as [Hd|Hd].
    + apply (Hhalf (b_n (brg_base b))); auto. apply (Hloc (EBrg t b)). apply in_or_app. auto.
    + destruct (b_n_link (brg_base b)) as [m|] eqn:El; [|destruct Hd].
      apply (Hhalf m); auto. apply (Hlk (EBrg t b) m Hb). exact El.
  - apply (Hhalf (p_n q)); auto. apply (Hpm (EPm six t q)). apply rf_pm_in; auto.
Qed.

Lemma acts_on_length nd last e : el_fam nd e -> pm_fam nd e -> length (acts_on nd last e) = nat_size e.
Proof.
  destruct e as [six n t s|six t d|t b|six t p]; simpl; unfold fam; intros Hf Hp.
  - rewrite app_length, !seq_length. destruct six; subst; reflexivity.
  - rewrite seq_length. destruct six; subst; reflexivity.
  - rewrite app_length, seq_length. unfold brg_size. destruct b; subst nd; simpl brg_base;
      (match goal with |- context [match ?o with Some _ => _ | None => _ end] => destruct o end); rewrite ?seq_length; reflexivity.
  - rewrite seq_length. destruct six; subst; reflexivity.
Qed.
Lemma assembled_exists spl w f r l : rfacts r -> regular r -> links_ok r -> mkind spl w f -> incl l (r_elements r) ->
  (forall e, In e l -> is_ok (f e)) -> exists A, assemble (r_ndof r) (r_dofs r) f l mzero = Ok A.
Proof.
  intros F G Hlk Hk Hi Hev. apply assemble_intro. intros e He. destruct (Hev e He) as [[k M] Hf].
  exists k, M. split; [exact Hf|]. assert (Hin := Hi e He).
  assert (E : r_dofs r e = acts_on (r_nd r) (r_n_last r) e).
  { apply el_dofs_acts; [apply rf_nd; auto|apply rf_fam; auto|apply pm_matches_fam; auto; apply G|apply rf_n_cond; auto|].
    intros E. destruct e as [| |t b|]; try discriminate. destruct (Hlk (EBrg t b) _ (rf_brg_in _ _ _ F Hin) E). auto. }
  rewrite E. split.
  - rewrite acts_on_length; [symmetry; eapply el_size_nat; eauto|apply rf_fam; auto|apply pm_matches_fam; auto; apply G].
  - intros d Hd. eapply bounds_acts; eauto.
Qed.
