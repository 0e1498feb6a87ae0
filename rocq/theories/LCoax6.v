(** Blocks of the matrices of a co-axial rotor; special cases of the numbering and of the positions. *)
From Coq Require Import Reals String List Bool Arith ZArith Lia Lra Permutation Sorted.
From Verif Require Import PyBase MatBase SpecMat LMat MMaterial MShaft MDisk MBearing MRotor MShare SpecRotor LAssembly LRotor LRotor2 LRotorInit2 LRotor6 MCoax SpecCoax LCoax LCoax2 LCoax3 LCoax4 LCoax5.
Import ListNotations.
Open Scope list_scope.
Open Scope R_scope.

Lemma first_node_le {A} (shafts : list (list A)) : forall j j' s, (j < j')%nat -> nth_error shafts j = Some s -> (j' < length shafts)%nat ->
  (first_node shafts j + length s + 1 <= first_node shafts j')%nat.
Proof.
  induction shafts as [|t shafts IH]; intros [|j] [|j'] s Hj E Hl; try lia; try discriminate; cbn [nth_error first_node] in *.
  - injection E as ->. lia.
  - cbn in Hl. specialize (IH j j' s ltac:(lia) E ltac:(lia)). lia.
Qed.
Lemma on_node_inj {A} (shafts : list (list A)) j j' n : on_node shafts j n -> on_node shafts j' n -> j = j'.
Proof.
  intros (s & E & H) (s' & E' & H'). assert (j < length shafts)%nat by (apply nth_error_Some; congruence).
  assert (j' < length shafts)%nat by (apply nth_error_Some; congruence).
  destruct (Nat.lt_trichotomy j j') as [Q|[Q|Q]]; [|exact Q|].
  - pose proof (first_node_le shafts j j' s Q E ltac:(assumption)). lia.
  - pose proof (first_node_le shafts j' j s' Q E' ltac:(assumption)). lia.
Qed.
Lemma node_start_inv last n m d k : (n <= last + 1)%nat -> (d < 4)%nat -> (k <= 4)%nat -> (m <= last + 1 \/ k <= 2)%nat ->
  In (4 * n + d)%nat (seq (node_start 4 last m) k) -> m = n.
Proof.
  intros Hn Hd Hk Hm H. apply in_seq in H. unfold node_start in H. destruct (Nat.leb_spec m (last + 1)); [lia|].
  change (4 / 2)%nat with 2%nat in H. lia.
Qed.

Section Blocks.
Variables (st : ref -> rshaft) (ax : ref -> R) (shafts : list (list ref)) (disks : list rdisk) (brgs : list rbrg) (pms : list rpmass).
Variables (tag : option string) (c : coax) (nm : names) (z : zpos) (dpos : list R).
Hypothesis F : cfacts st ax shafts disks brgs pms tag c nm z dpos.
Hypothesis P : proper shafts.
Hypothesis U : unnumbered st shafts.

Lemma on_node_last j n : on_node shafts j n -> (n <= r_n_last (cx_rot c) + 1)%nat.
Proof.
  intros (s & E & H). rewrite (cf_last _ _ _ _ _ _ _ _ _ _ _ F), (num_ns _ _ _ _ _ _ _ _ _ _ _ F P U).
  assert (Hs : (0 < length s)%nat). { pose proof (proj1 P s (nth_error_In _ _ E)). destruct s; [congruence|cbn; lia]. }
  enough (first_node shafts j + length s - 1 <= max_list (all_nodes shafts 0))%nat by lia. apply max_list_ge.
  rewrite <- (num_nodes _ _ _ _ _ _ _ _ _ _ _ F P U).
  destruct (nth_error s (length s - 1)) as [x|] eqn:Ex; [|apply nth_error_None in Ex; lia].
  rewrite map_map. apply in_map_iff. exists x. split.
  - cbn. rewrite (num_n _ _ _ _ _ _ _ _ _ _ _ F P U _ _ _ _ E Ex). cbn. lia.
  - apply in_concat. exists s. split; [eapply nth_error_In; eauto|eapply nth_error_In; eauto].
Qed.

Lemma blocks_zero spl w f l A j1 j2 n1 n2 d1 d2 : mkind spl w f -> incl l (r_elements (cx_rot c)) ->
  assemble (r_ndof (cx_rot c)) (cx_dofs c) f l mzero = Ok A ->
  on_node shafts j1 n1 -> on_node shafts j2 n2 -> j1 <> j2 -> (d1 < 4)%nat -> (d2 < 4)%nat ->
  (forall x, In x brgs -> ~ (brg_n x = n1 /\ brg_link x = Some n2) /\ ~ (brg_n x = n2 /\ brg_link x = Some n1)) ->
  A (4 * n1 + d1)%nat (4 * n2 + d2)%nat = 0.
Proof.
  intros Hk Hi HA O1 O2 Hj D1 D2 Hb. rewrite (cx_entries _ _ _ _ _ _ _ _ _ _ _ F _ _ _ _ _ Hk Hi HA).
  assert (N12 : n1 <> n2) by (intros <-; exact (Hj (on_node_inj _ _ _ _ O1 O2))).
  pose proof (on_node_last _ _ O1) as L1. pose proof (on_node_last _ _ O2) as L2. set (last := r_n_last (cx_rot c)) in *.
  replace (map _ l) with (map (fun _ : elem => 0) l); [induction l as [|e l IH]; [reflexivity|]|].
  - clear. induction (e :: l) as [|x l' IH]; [reflexivity|]. unfold suml in *. cbn. rewrite IH. ring.
  - apply map_ext_in. intros e He. symmetry. apply contribution_out.
    + destruct (assemble_ok _ _ _ _ _ _ HA) as [H1 _]. destruct (H1 e He) as (k & M & Hf & Hl & _).
      pose proof (proj1 (cx_acts _ _ _ _ _ _ _ _ _ _ _ F _ _ _ _ _ _ Hk Hi HA e He)) as Q. fold last in Q. rewrite <- Q, Hl. unfold el_size. rewrite Hf. apply Nat.le_refl.
    + intros [K1 K2]. apply Hi in He. pose proof (cf_shaft_n _ _ _ _ _ _ _ _ _ _ _ F e He) as Hn.
      unfold r_elements in He. rewrite !in_app_iff in He.
      destruct e as [six n t s|six t d|t b|six t p]; cbn [acts_on] in K1, K2; change (4 / 2)%nat with 2%nat in K1, K2; fold last in Hn.
      * assert (Hin : In (EShaft six n t s) (r_shaft (cx_rot c))).
        { destruct He as [He|[He|[He|He]]]; [exact He| | |]; exfalso.
          - rewrite (cf_dk _ _ _ _ _ _ _ _ _ _ _ F) in He. apply mapi_in in He as (? & ? & _ & ?). discriminate.
          - rewrite (cf_br _ _ _ _ _ _ _ _ _ _ _ F) in He. apply sort_n_in, mapi_in in He as (? & ? & _ & ?). discriminate.
          - rewrite (cf_pm _ _ _ _ _ _ _ _ _ _ _ F) in He. apply mapi_in in He as (? & ? & _ & ?). discriminate. }
        apply (in_map el_n) in Hin. rewrite (num_ns _ _ _ _ _ _ _ _ _ _ _ F P U) in Hin. apply all_nodes_in in Hin as (j & s' & k & E1 & E2 & E3).
        cbn [el_n] in E3. assert (Q : forall m d', (m <= last + 1)%nat -> (d' < 4)%nat ->
          In (4 * m + d')%nat (seq (node_start 4 last n) 4 ++ seq (node_start 4 last (S n)) 4) -> on_node shafts j m).
        { intros m d' Hm Hd H. apply in_app_or in H as [H|H].
          - apply node_start_inv in H; try lia. subst m. exists s'. split; [exact E1|lia].
          - apply node_start_inv in H; try lia. subst m. exists s'. split; [exact E1|lia]. }
        apply Hj. rewrite (on_node_inj _ _ _ _ O1 (Q _ _ L1 D1 K1)). exact (on_node_inj _ _ _ _ (Q _ _ L2 D2 K2) O2).
      * destruct (Nat.le_gt_cases (d_n d) (last + 1)) as [Q|Q].
        -- apply node_start_inv in K1; try lia. apply node_start_inv in K2; try lia.
        -- apply in_seq in K1. unfold node_start in K1. destruct (Nat.leb_spec (d_n d) (last + 1)); [lia|]. change (4 / 2)%nat with 2%nat in K1. lia.
      * assert (Hin : exists x, In x brgs /\ b = x).
        { destruct He as [He|[He|[He|He]]].
          - rewrite (cf_sh _ _ _ _ _ _ _ _ _ _ _ F) in He. apply sort_n_in, in_map_iff in He as (? & ? & _). discriminate.
          - rewrite (cf_dk _ _ _ _ _ _ _ _ _ _ _ F) in He. apply mapi_in in He as (? & ? & _ & ?). discriminate.
          - rewrite (cf_br _ _ _ _ _ _ _ _ _ _ _ F) in He. apply sort_n_in, mapi_in in He as (? & x & Hx & E). unfold mk_brg in E. injection E as _ ->. eauto.
          - rewrite (cf_pm _ _ _ _ _ _ _ _ _ _ _ F) in He. apply mapi_in in He as (? & ? & _ & ?). discriminate. }
        destruct Hin as (x & Hx & ->). destruct (Hb x Hx) as [B1 B2]. unfold brg_n, brg_link in *.
        assert (Q : forall m d', (m <= last + 1)%nat -> (d' < 4)%nat ->
          In (4 * m + d')%nat (seq (node_start 4 last (b_n (brg_base x))) 2 ++ match b_n_link (brg_base x) with Some m => seq (node_start 4 last m) 2 | None => [] end) ->
          b_n (brg_base x) = m \/ b_n_link (brg_base x) = Some m).
        { intros m d' Hm Hd H. apply in_app_or in H as [H|H]; [left; apply node_start_inv in H; lia|]. right.
          destruct (b_n_link (brg_base x)) as [y|]; [|destruct H]. f_equal. apply node_start_inv in H; lia. }
        destruct (Q _ _ L1 D1 K1), (Q _ _ L2 D2 K2); try congruence; [apply B1|apply B2]; split; assumption.
      * apply node_start_inv in K1; try lia. apply node_start_inv in K2; try lia.
Qed.
End Blocks.

(** ** the same object several times *)
Lemma name_repeat st an at_ x : forall k i nm, fst (name_shaft st an at_ i (repeat x (S k)) nm x) = match fst (nm x) with Some n => Some n | None => Some (i + an)%nat end.
Proof.
  induction k as [|k IH]; intros i nm.
  - cbn [repeat name_shaft]. unfold name_one. rewrite upd_same. cbn. destruct (fst (nm x)); reflexivity.
  - change (name_shaft st an at_ i (repeat x (S (S k))) nm) with (name_shaft st an at_ (S i) (repeat x (S k)) (name_one st an at_ i x nm)). rewrite IH. unfold name_one. rewrite upd_same. cbn [fst]. destruct (fst (nm x)); reflexivity.
Qed.
Lemma max_list_zeros l : (forall n, In n l -> n = 0%nat) -> max_list l = 0%nat.
Proof. intros H. assert (max_list l <= 0)%nat; [|lia]. apply max_list_le. intros n Hn. rewrite (H n Hn). lia. Qed.
Lemma concat_one {A} (l : list A) : concat [l] = l. Proof. cbn. apply app_nil_r. Qed.
Lemma repeated_last st ax x k disks brgs pms tag c : s_n (rs_s (st x)) = None ->
  coax_init st ax [repeat x (S k)] disks brgs pms tag = Returns (Ok c) -> r_n_last (cx_rot c) = 0%nat.
Proof.
  intros Hn Hc. destruct (coax_inv _ _ _ _ _ _ _ _ Hc) as (nm & z & dpos & F).
  rewrite (cf_last _ _ _ _ _ _ _ _ _ _ _ F), (cf_sh _ _ _ _ _ _ _ _ _ _ _ F). apply max_list_zeros. intros n H.
  apply in_map_iff in H as (e & <- & He). apply sort_n_in, in_map_iff in He as (y & <- & Hy). rewrite concat_one in Hy. apply repeat_spec in Hy. subst y.
  pose proof (cf_names _ _ _ _ _ _ _ _ _ _ _ F) as E. unfold coax_names in E.
  assert (E' : nm = name_shaft st 0 0 0 (repeat x (S k)) (given_names st)).
  { remember (repeat x (S k)) as l. cbn [name_shafts] in E. destruct (rev l); [discriminate|]. injection E as <-. reflexivity. }
  pose proof (name_repeat st 0 0 x k 0 (given_names st)) as Q. rewrite <- E' in Q. cbn [cx_elem el_n]. rewrite Q. unfold given_names. cbn [fst]. rewrite Hn. reflexivity.
Qed.
Lemma rotor_default_last shafts disks brgs pms r : (forall s, In s shafts -> s_n (rs_s s) = None) -> rotor_init shafts disks brgs pms = Ok r ->
  r_n_last r = (length shafts - 1)%nat.
Proof.
  intros Hn Hr. pose proof (rotor_facts _ _ _ _ _ Hr) as G. destruct (rotor_init_lists _ _ _ _ _ Hr) as (Es & _).
  assert (Q : forall o l, (forall s, In s l -> s_n (rs_s s) = None) -> map el_n (mapi mk_shaft o l) = seq o (length l)).
  { intros o l. revert o. induction l as [|x l IH]; intros o H; [reflexivity|]. cbn [length seq mapi map]. f_equal.
    - unfold mk_shaft. rewrite (H x (or_introl eq_refl)). reflexivity.
    - apply IH. intros y Hy. apply H. right. exact Hy. }
  rewrite (rf_last _ G), Es, sort_n_id by (apply ss_map_le; rewrite (Q _ _ Hn); apply seq_ss). rewrite (Q _ _ Hn).
  destruct shafts as [|s0 l]; [reflexivity|]. cbn [length] in *. apply Nat.le_antisymm.
  - apply max_list_le. intros x Hx. apply in_seq in Hx. lia.
  - apply max_list_ge, in_seq. lia.
Qed.
