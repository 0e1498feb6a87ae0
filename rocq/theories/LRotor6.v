(** Numbering, order of the lists, ignored elements, positions: final forms. *)
From Coq Require Import Reals String List Arith Bool Lia Lra Permutation Sorted Psatz.
From Verif Require Import PyBase MatBase SpecMat LMat MShaft SpecShaft MDisk MBearing MRotor SpecRotor LAssembly LRotor LRotor2 LRotorPos LRotor3 LRotor4 LRotor5 LRotorInit LRotorInit2.
Import ListNotations.
Open Scope list_scope.
Open Scope R_scope.

(** ** numbering *)
Lemma entries r e k i : rfacts r -> regular r -> In e (r_elements r) -> In (k, i) (dof_index (r_nd r) (r_n_last r) e) ->
  i = (node_start (r_nd r) (r_n_last r) (snd k) + lpos (r_nd r) (fst k))%nat /\ letter_ok (r_nd r) (fst k) /\
  (lpos (r_nd r) (fst k) < node_dofs (r_nd r) (r_n_last r) (snd k))%nat.
Proof.
  intros F G He Hin.
  destruct (dof_index_entry _ _ _ _ (rf_nd _ F) (rf_fam _ F _ He) (pm_matches_fam _ _ F (reg_pm_dof _ G) He) (rf_n_cond _ _ F He) Hin) as (E1 & E2 & E3).
  cbn [fst snd] in *. split; [exact E1|]. split; [exact E2|].
  destruct e as [six n t s|six t d|t b|six t p]; auto.
  assert (Hd : (d_n d <= r_n_last r + 1)%nat) by (apply (disk_node_bound r F G (EDisk six t d)), rf_disk_in; auto).
  assert (Ek : snd k = d_n d).
  { unfold dof_index in Hin. cbn [el_link el_n] in Hin. apply in_map_iff in Hin as ([[l z] v] & E & Hin). cbn [fst snd] in E. injection E as <- _. cbn [snd].
    assert (z = 0%nat); [|lia]. clear - Hin. destruct six; simpl in Hin; repeat (destruct Hin as [E|Hin]; [injection E; auto|]); destruct Hin. }
  rewrite Ek, dofs_shaft by auto. pose proof (rf_nd _ F) as Hnd. destruct k as [l z]. cbn [fst] in *.
  destruct Hnd as [E4|E6]; [rewrite E4 in *|rewrite E6 in *]; destruct l; simpl in *; try lia; try discriminate.
Qed.

Lemma numbering_iff r e e' k k' i i' : rfacts r -> regular r -> In e (r_elements r) -> In e' (r_elements r) ->
  In (k, i) (dof_index (r_nd r) (r_n_last r) e) -> In (k', i') (dof_index (r_nd r) (r_n_last r) e') -> (k = k' <-> i = i').
Proof.
  intros F G He He' Hi Hi'. destruct (entries _ _ _ _ F G He Hi) as (E1 & E2 & E3). destruct (entries _ _ _ _ F G He' Hi') as (E1' & E2' & E3').
  split; [intros ->; congruence|]. intros ->. rewrite E1 in E1'. apply node_inj in E1' as [En El]; auto using rf_nd.
  apply lpos_inj in El; auto using rf_nd. destruct k, k'; simpl in *; congruence.
Qed.

Lemma r_dofs_acts r e : rfacts r -> regular r -> links_ok r -> In e (r_elements r) -> r_dofs r e = acts_on (r_nd r) (r_n_last r) e.
Proof.
  intros F G Hlk Hin. apply el_dofs_acts; [apply rf_nd; auto|apply rf_fam; auto|apply pm_matches_fam; auto; apply G|apply rf_n_cond; auto|].
  intros E. destruct e as [| |t b|]; try discriminate. destruct (Hlk (EBrg t b) _ (rf_brg_in _ _ _ F Hin) E). auto.
Qed.
Lemma numbering_bound r e k i : rfacts r -> regular r -> links_ok r -> In e (r_elements r) ->
  In (k, i) (dof_index (r_nd r) (r_n_last r) e) -> (i < r_ndof r)%nat.
Proof.
  intros F G Hlk He Hi. apply (bounds_acts r e F G He Hlk). rewrite <- r_dofs_acts by auto. unfold r_dofs, el_dofs. apply (in_map snd) in Hi. exact Hi.
Qed.
Lemma numbering_cover r i : rfacts r -> regular r -> links_ok r -> (i < r_ndof r)%nat ->
  exists e k, In e (r_elements r) /\ In (k, i) (dof_index (r_nd r) (r_n_last r) e).
Proof.
  intros F G Hlk Hi.
  assert (Hex : exists e, In e (r_elements r) /\ In i (acts_on (r_nd r) (r_n_last r) e)).
  { pose proof (rf_nd _ F) as Hnd. rewrite (rf_ndof _ F), <- node_start_total in Hi by auto.
    destruct (node_cover _ _ _ _ Hnd Hi) as (n & v & Hn & Hv & E).
    destruct (Nat.le_gt_cases n (r_n_last r + 1)) as [Hs|Hs].
    - assert (exists e k, In e (r_shaft r) /\ (k = n \/ S k = n) /\ el_n e = k) as (e & k & He & Hk & En).
      { destruct (Nat.eq_dec n (r_n_last r + 1)) as [->|Hne].
        - destruct (reg_shaft _ G (r_n_last r)) as (e & He & En); [lia|]. exists e, (r_n_last r). repeat split; auto; lia.
        - destruct (reg_shaft _ G n) as (e & He & En); [lia|]. exists e, n. auto. }
      exists e. split; [apply in_shaft_elements; auto|].
      destruct (rf_shaft _ F _ He) as (six & n' & t & s & ->). simpl in En. subst n'.
      rewrite dofs_shaft in Hv by auto. simpl acts_on. apply in_app_iff. destruct Hk as [-> | <-]; [left|right]; apply in_seq; lia.
    - assert (Hpn : In n (map el_n (r_pm r))).
      { eapply Permutation_in; [apply Permutation_sym, (reg_pm _ G)|]. apply in_seq. lia. }
      apply in_map_iff in Hpn as (e & En & He). exists e. split; [unfold r_elements; rewrite !in_app_iff; auto|].
      destruct (rf_pm _ F _ He) as (six & t & p & ->). simpl in *. subst n. unfold node_dofs in Hv. rewrite (proj2 (Nat.leb_gt (p_n p) (r_n_last r + 1))) in Hv by lia.
      apply in_seq. split; [lia|]. rewrite <- E. apply Nat.add_lt_mono_l; exact Hv. }
  destruct Hex as (e & He & Hin). rewrite <- r_dofs_acts in Hin by auto. unfold r_dofs, el_dofs in Hin.
  apply in_map_iff in Hin as ([k i'] & E & Hin). simpl in E. subst i'. exists e, k. auto.
Qed.

(** ** order of the element lists *)
Lemma mapi_const {A} (f : nat -> A -> elem) l i : (forall x i j, In x l -> f i x = f j x) -> mapi f i l = map (f 0%nat) l.
Proof.
  revert i. induction l as [|x l IH]; intros i H; simpl; [reflexivity|]. rewrite (H x i 0%nat) by (left; reflexivity). rewrite IH; [reflexivity|].
  intros; apply H; right; auto.
Qed.
Lemma rotor_init_lists shafts disks brgs pms r : rotor_init shafts disks brgs pms = Ok r ->
  r_shaft r = sort_n (mapi mk_shaft 0 shafts) /\ r_disk r = mapi mk_disk 0 disks /\ r_brg r = sort_n (mapi mk_brg 0 brgs) /\ r_pm r = mapi mk_pm 0 pms.
Proof.
  unfold rotor_init. destruct (tags_unique _); [|discriminate]. cbn [negb].
  destruct (check_number_dof _ _ _) as [nd|]; [|discriminate]. cbn [bind].
  destruct (location_ok _ _ _ _); [|discriminate]. cbn [negb].
  destruct (disk_positions _ _) as [dpos|]; [|discriminate]. cbn [bind]. cbv zeta.
  destruct (locate_all _ _) as [df|]; [|discriminate]. cbn [bind].
  destruct (heights_ok _ _ _ _) as [[]|]; [|discriminate]. cbn [bind].
  destruct (pm_ok _ _); [|discriminate]. cbn [negb]. intros [= <-]. auto.
Qed.
Lemma explicit_perm shafts disks brgs pms shafts' disks' brgs' pms' r r' :
  explicit shafts disks brgs pms ->
  Permutation shafts shafts' -> Permutation disks disks' -> Permutation brgs brgs' -> Permutation pms pms' ->
  rotor_init shafts disks brgs pms = Ok r -> rotor_init shafts' disks' brgs' pms' = Ok r' ->
  Permutation (r_shaft r) (r_shaft r') /\ Permutation (r_disk r) (r_disk r') /\ Permutation (r_brg r) (r_brg r') /\ Permutation (r_pm r) (r_pm r').
Proof.
  intros (X1 & X2 & X3 & X4) P1 P2 P3 P4 H H'.
  destruct (rotor_init_lists _ _ _ _ _ H) as (-> & -> & -> & ->). destruct (rotor_init_lists _ _ _ _ _ H') as (-> & -> & -> & ->).
  assert (C1 : forall l, Permutation shafts l -> mapi mk_shaft 0 l = map (mk_shaft 0) l).
  { intros l Pl. apply mapi_const. intros x i j Hx. apply Permutation_sym in Pl. destruct (X1 x (Permutation_in _ Pl Hx)) as [A B]. unfold mk_shaft, default_tag.
    destruct (s_n (rs_s x)), (s_tag (rs_s x)); congruence. }
  assert (C2 : forall l, Permutation disks l -> mapi mk_disk 0 l = map (mk_disk 0) l).
  { intros l Pl. apply mapi_const. intros x i j Hx. apply Permutation_sym in Pl. pose proof (X2 x (Permutation_in _ Pl Hx)) as A. unfold mk_disk, default_tag.
    destruct (d_tag (rd_d x)); congruence. }
  assert (C3 : forall l, Permutation brgs l -> mapi mk_brg 0 l = map (mk_brg 0) l).
  { intros l Pl. apply mapi_const. intros x i j Hx. apply Permutation_sym in Pl. pose proof (X3 x (Permutation_in _ Pl Hx)) as A. unfold mk_brg, default_tag.
    destruct (b_tag (brg_base x)); congruence. }
  assert (C4 : forall l, Permutation pms l -> mapi mk_pm 0 l = map (mk_pm 0) l).
  { intros l Pl. apply mapi_const. intros x i j Hx. apply Permutation_sym in Pl. pose proof (X4 x (Permutation_in _ Pl Hx)) as A. unfold mk_pm, default_tag.
    destruct (p_tag (rp_p x)); congruence. }
  rewrite (C1 shafts), (C1 shafts'), (C2 disks), (C2 disks'), (C3 brgs), (C3 brgs'), (C4 pms), (C4 pms') by auto.
  repeat split; try (apply Permutation_map; assumption).
  - etransitivity; [apply sort_n_perm|]. etransitivity; [|symmetry; apply sort_n_perm]. apply Permutation_map; auto.
  - etransitivity; [apply sort_n_perm|]. etransitivity; [|symmetry; apply sort_n_perm]. apply Permutation_map; auto.
Qed.

Lemma assemble_perm spl w f r r' l l' A : rfacts r -> rfacts r' -> mkind spl w f ->
  r_nd r = r_nd r' -> r_n_last r = r_n_last r' -> r_ndof r = r_ndof r' -> Permutation l l' -> incl l (r_elements r) -> incl l' (r_elements r') ->
  assemble (r_ndof r) (r_dofs r) f l mzero = Ok A ->
  exists A', assemble (r_ndof r') (r_dofs r') f l' mzero = Ok A' /\ forall i j, A i j = A' i j.
Proof.
  intros F F' Hk E1 E2 E3 Hp Hi Hi' HA. destruct (assemble_ok _ _ _ _ _ _ HA) as [H1 H2].
  assert (Ed : forall e, r_dofs r e = r_dofs r' e) by (intros; unfold r_dofs; rewrite E1, E2; reflexivity).
  destruct (assemble_intro (r_ndof r') (r_dofs r') f l' mzero) as [A' HA'].
  { intros e He. rewrite <- E3, <- Ed. apply H1. eapply Permutation_in; [apply Permutation_sym; exact Hp|exact He]. }
  exists A'. split; [exact HA'|]. intros i j. destruct (assemble_ok _ _ _ _ _ _ HA') as [_ H2'].
  rewrite H2 by (eapply assembled_nodup; eauto). rewrite H2' by (eapply assembled_nodup; eauto). f_equal.
  rewrite (suml_perm _ _ (Permutation_map _ Hp)). apply suml_map_ext. intros e He. rewrite Ed. reflexivity.
Qed.

Lemma perm_sizes r r' : rfacts r -> rfacts r' -> Permutation (r_shaft r) (r_shaft r') -> Permutation (r_pm r) (r_pm r') ->
  r_nd r = r_nd r' /\ r_n_last r = r_n_last r' /\ r_ndof r = r_ndof r'.
Proof.
  intros F F' P1 P4.
  assert (E1 : r_nd r = r_nd r').
  { pose proof (rf_nonempty _ F) as Hne. destruct (r_shaft r) as [|e l] eqn:E; [congruence|].
    assert (H1 : In e (r_elements r)) by (apply in_shaft_elements; rewrite E; left; reflexivity).
    assert (H2 : In e (r_elements r')) by (apply in_shaft_elements; eapply Permutation_in; [exact P1|left; reflexivity]).
    apply (rf_fam _ F) in H1. apply (rf_fam _ F') in H2.
    destruct (rf_shaft _ F e ltac:(rewrite E; left; reflexivity)) as (six & n & t & s & ->). simpl in *. unfold fam in *. congruence. }
  assert (E2 : r_n_last r = r_n_last r').
  { rewrite (rf_last _ F), (rf_last _ F'). apply max_list_perm. apply Permutation_map. exact P1. }
  split; [exact E1|]. split; [exact E2|]. rewrite (rf_ndof _ F), (rf_ndof _ F'), E1, E2, (Permutation_length P4). reflexivity.
Qed.

Lemma perm_elements r r' : Permutation (r_shaft r) (r_shaft r') -> Permutation (r_disk r) (r_disk r') -> Permutation (r_brg r) (r_brg r') -> Permutation (r_pm r) (r_pm r') ->
  Permutation (r_elements r) (r_elements r').
Proof. intros. unfold r_elements. repeat apply Permutation_app; auto. Qed.
Lemma filter_perm {A} (f : A -> bool) l l' : Permutation l l' -> Permutation (filter f l) (filter f l').
Proof.
  induction 1 as [|x l l' H IH|x y l|l l' l'' H1 IH1 H2 IH2]; simpl; auto.
  - destruct (f x); auto.
  - destruct (f x), (f y); auto. constructor.
  - etransitivity; eauto.
Qed.

(** ** ignored elements *)
Lemma kept_split ig (g : elem -> R) l :
  suml (map g l) = suml (map g (kept ig l)) + suml (map g (filter (fun e => existsb (String.eqb (el_tag e)) ig) l)).
Proof.
  unfold kept. induction l as [|e l IH]; unfold suml in *; simpl; [ring|].
  destruct (existsb (String.eqb (el_tag e)) ig); simpl; rewrite IH; ring.
Qed.

(** ** positions *)
Lemma positions r : rfacts r -> (forall k, (k <= r_n_last r)%nat -> exists e, In e (r_shaft r) /\ el_n e = k) -> layers_match r ->
  length (r_nodes_pos r) = (r_n_last r + 2)%nat /\ nth 0 (r_nodes_pos r) 0 = 0 /\
  (forall e, In e (r_shaft r) -> nth (S (el_n e)) (r_nodes_pos r) 0 = nth (el_n e) (r_nodes_pos r) 0 + sh_L e) /\
  r_shaft_pos r = map (fun e => (nth (el_n e) (r_nodes_pos r) 0, nth (S (el_n e)) (r_nodes_pos r) 0)) (r_shaft r).
Proof.
  intros F Hc Hl. destruct (layer_lengths r Hl) as [lam HL].
  destruct (nodes_pos_spec lam (r_shaft r) (r_n_last r) (rf_nonempty _ F) (rf_sorted _ F) (rf_last _ F) Hc HL) as [E Es].
  rewrite (rf_pos _ F), (rf_spos _ F).
  assert (HnP : forall n, (n <= r_n_last r + 1)%nat -> nth n (nodes_pos (r_shaft r)) 0 = sumn n lam).
  { intros n Hle. rewrite E. apply nth_error_nth. apply (map_nth_error (fun n => sumn n lam)). rewrite (nth_error_nth' _ 0%nat) by (rewrite seq_length; lia). rewrite seq_nth by lia. reflexivity. }
  assert (Hn : forall e, In e (r_shaft r) -> (el_n e <= r_n_last r)%nat) by (intros e He; rewrite (rf_last _ F); apply max_list_ge, in_map; exact He).
  split; [rewrite E, map_length, seq_length; reflexivity|]. split; [rewrite HnP by lia; reflexivity|]. split.
  - intros e He. specialize (Hn e He). rewrite !HnP by lia. rewrite (HL e He). reflexivity.
  - rewrite Es. apply map_ext_in. intros e He. specialize (Hn e He). rewrite !HnP by lia. reflexivity.
Qed.

Lemma disk_positions_inv pos dk l : disk_positions pos dk = Ok l -> l = map (fun e => nth (el_n e) pos 0) dk.
Proof.
  revert l. induction dk as [|d dk IH]; intros l; simpl; [intros [= <-]; reflexivity|].
  destruct (nth_error pos (el_n d)) as [p|] eqn:En; [|discriminate]. destruct (disk_positions pos dk) as [l'|]; [|discriminate].
  simpl. intros [= <-]. rewrite (nth_error_nth _ _ 0 En). f_equal. apply IH. reflexivity.
Qed.

Lemma cg_value r : rfacts r -> (forall k, (k <= r_n_last r)%nat -> exists e, In e (r_shaft r) /\ el_n e = k) -> layers_match r ->
  r_m r <> 0 ->
  r_m r * r_CG r = suml (map (fun e => sh_m e * (nth (el_n e) (r_nodes_pos r) 0 + sh_cg e)) (r_shaft r))
                 + suml (map (fun e => dk_m e * nth (el_n e) (r_nodes_pos r) 0) (r_disk r)).
Proof.
  intros F Hc Hl Hm. destruct (rf_dpos _ F) as (dpos & Hd & ->). apply disk_positions_inv in Hd. subst dpos.
  destruct (positions r F Hc Hl) as (_ & _ & _ & Es). rewrite <- (rf_spos _ F), Es, <- (rf_pos _ F).
  rewrite !combine_map_r, !map_map, !combine_map_r, !map_map. cbn [fst snd].
  rewrite Rmult_plus_distr_l, <- !suml_map_scal. f_equal; apply suml_map_ext; intros e _; field; auto.
Qed.
