(** Later constructions and earlier rotors. *)
From Coq Require Import Reals String List Arith Bool Lia Lra Permutation Sorted.
From Verif Require Import PyBase MatBase SpecMat MMaterial MShaft MDisk MBearing MRotor SpecRotor MShare SpecShare LAssembly LRotor LRotor2 LRotorPos LRotor5 LRotor6 LRotor7 LRotorInit LRotorInit2 LRotorInit3 LShare LShare2.
Import ListNotations.
Open Scope list_scope.
Open Scope R_scope.

(** ** the place of an element *)
Lemma gidx_same nd L L' n v : (nd = 4 \/ nd = 6)%nat -> (L' = L \/ n <= Nat.min L' L + 2)%nat -> gidx nd L' n v = gidx nd L n v.
Proof.
  intros Hnd [->|H]; [reflexivity|]. unfold gidx. destruct (Nat.leb_spec n (L' + 1)), (Nat.leb_spec n (L + 1)); auto; destruct Hnd as [-> | ->]; cbn [Nat.div2]; lia.
Qed.
Lemma el_dofs_same nd L L' e : (nd = 4 \/ nd = 6)%nat -> (L' = L \/ el_n e <= Nat.min L' L + 2)%nat -> (forall m, el_link e = Some m -> L' = L \/ m <= Nat.min L' L + 2)%nat ->
  el_dofs nd L' e = el_dofs nd L e.
Proof.
  intros Hnd Hn Hl. unfold el_dofs. f_equal. unfold dof_index.
  assert (B : map (fun p => ((fst (fst p), (snd (fst p) + el_n e)%nat), gidx nd L' (el_n e) (snd p))) (dof_mapping e) = map (fun p => ((fst (fst p), (snd (fst p) + el_n e)%nat), gidx nd L (el_n e) (snd p))) (dof_mapping e)).
  { apply map_ext. intros p. rewrite (gidx_same nd L L') by auto. reflexivity. }
  rewrite B. destruct (el_link e) as [m|]; [|reflexivity]. specialize (Hl m eq_refl). rewrite !(gidx_same nd L L' m) by auto. reflexivity.
Qed.

(** ** what is known once the elements are numbered *)
Record rch (h : heap) (c : call) (nd L : nat) : Prop := {
  rc_last : L = last_node (shafts_of h c);
  rc_nd : (nd = 4 \/ nd = 6)%nat;
  rc_sh : forall s, In s (shafts_of h c) -> nd = dofs_per_node (rs_six s);
  rc_dk : forall x, In x (c_dk c) -> nd = dofs_per_node (rd_six (fst (t_dk h c x))) /\ (d_n (rd_d (fst (t_dk h c x))) <= L + 1)%nat;
  rc_br : forall x, In x (c_br c) -> nd = dofs_per_node (brg_six (fst (t_br h c x))) }.
Lemma last_node_sorted l : l <> [] -> match rev (sort_n (mapi mk_shaft 0 l)) with e :: _ => el_n e | [] => 0%nat end = last_node l.
Proof.
  intros N. destruct (rev (sort_n (mapi mk_shaft 0 l))) as [|e m] eqn:E.
  - exfalso. apply N. assert (Q : sort_n (mapi mk_shaft 0 l) = []) by (rewrite <- (rev_involutive (sort_n _)), E; reflexivity).
    pose proof (Permutation_length (sort_n_perm (mapi mk_shaft 0 l))) as P. rewrite Q, LRotor.mapi_length in P. destruct l; [reflexivity|discriminate].
  - rewrite (sorted_last _ e m (sort_n_sorted _) E). unfold last_node. rewrite (max_list_perm _ _ (Permutation_map el_n (sort_n_perm _))). f_equal. generalize 0%nat. clear. induction l as [|s l IH]; intros i; [reflexivity|].
    cbn [mapi map el_n mk_shaft]. rewrite IH. unfold default. destruct (s_n (rs_s s)); reflexivity.
Qed.
Lemma nodes_pos_len l : (length (nodes_pos (sort_n (mapi mk_shaft 0 l))) <= last_node l + 2)%nat.
Proof.
  set (sh := sort_n (mapi mk_shaft 0 l)). unfold nodes_pos. rewrite app_length. cbn [length].
  assert (M : forall e, In e sh -> (el_n e <= last_node l)%nat).
  { intros e He. unfold sh in He. apply (proj1 (sort_n_in _ _)) in He. unfold last_node. apply max_list_ge. clear sh.
    assert (G : forall l i, In e (mapi mk_shaft i l) -> In (el_n e) (mapi (fun i s => default i (s_n (rs_s s))) i l)); [|apply G; exact He].
    clear. induction l as [|s l IH]; intros i H; simpl in H; [destruct H|]. destruct H as [<-|H]; simpl; [left; unfold default; destruct (s_n (rs_s s)); reflexivity|right; apply IH; auto]. }
  destruct (combine (map el_n sh) (map fst (MRotor.shaft_pos sh))) as [|[n p] q] eqn:E; [simpl; lia|].
  assert (H : (length (group_max ((n, p) :: q)) + n <= S (last_node l))%nat); [|lia].
  rewrite <- E. eapply group_max_length'; [| |exact E].
  - apply sorted_combine, sorted_map_n. apply sort_n_sorted.
  - intros z Hz. apply combine_in_fst in Hz. apply in_map_iff in Hz as (e & <- & He). auto.
Qed.
Lemma reach_facts h c nd L : reach h c = Some (nd, L) -> rch h c nd L.
Proof.
  unfold reach, reached. set (sh := sort_n (mapi mk_shaft 0 (shafts_of h c))). set (dk := mapi mk_disk 0 (vals (t_dk h c) (c_dk c))). set (br := sort_n (mapi mk_brg 0 (vals (t_br h c) (c_br c)))). set (pm := mapi mk_pm 0 (vals (t_pm h c) (c_pm c))).
  destruct (tags_unique _); [|discriminate]. cbn [negb]. destruct (check_number_dof sh dk br) as [nd'|] eqn:EC; [|discriminate]. destruct (location_ok sh dk br pm); [|discriminate]. cbn [negb].
  destruct (disk_positions _ dk) as [dpos|] eqn:ED; [|discriminate]. intros [= <- <-].
  destruct (check_number_dof_ok sh dk br nd') as (Hne & Hnd & Hf); auto.
  { intros e He. unfold sh in He. apply sort_n_in, mapi_in in He as (j & s & _ & ->). repeat eexists. }
  { intros e He. unfold dk in He. apply mapi_in in He as (j & s & _ & ->). repeat eexists. }
  { intros e He. unfold br in He. apply sort_n_in, mapi_in in He as (j & s & _ & ->). repeat eexists. }
  assert (NE : shafts_of h c <> []) by (intros Q; apply Hne; unfold sh; rewrite Q; reflexivity).
  assert (LN : match rev sh with e :: _ => el_n e | [] => 0%nat end = last_node (shafts_of h c)) by (apply last_node_sorted; auto).
  constructor.
  - apply LN.
  - exact Hnd.
  - intros s Hs. destruct (mapi_map_in mk_shaft _ 0 _ Hs) as (j & Hj). specialize (Hf (mk_shaft j s)). rewrite !in_app_iff in Hf. apply Hf. left. apply sort_n_in. exact Hj.
  - intros x Hx. assert (Hv : In (fst (t_dk h c x)) (vals (t_dk h c) (c_dk c))) by (apply (in_map (fun x => fst (t_dk h c x))); auto). destruct (mapi_map_in mk_disk _ 0 _ Hv) as (j & Hj). split.
    + specialize (Hf (mk_disk j (fst (t_dk h c x)))). rewrite !in_app_iff in Hf. apply Hf. auto.
    + pose proof (disk_pos_bound _ _ _ _ ED Hj) as B. pose proof (nodes_pos_len (shafts_of h c)) as B2. fold sh in B2. rewrite LN. cbn [el_n mk_disk] in B. lia.
  - intros x Hx. assert (Hv : In (fst (t_br h c x)) (vals (t_br h c) (c_br c))) by (apply (in_map (fun x => fst (t_br h c x))); auto). destruct (mapi_map_in mk_brg _ 0 _ Hv) as (j & Hj).
    specialize (Hf (mk_brg j (fst (t_br h c x)))). rewrite !in_app_iff in Hf. assert (F : el_fam nd' (mk_brg j (fst (t_br h c x)))) by (apply Hf; right; right; unfold br; apply sort_n_in; exact Hj).
    destruct (fst (t_br h c x)); exact F.
Qed.

(** ** a rotor whose elements are still where it put them *)
Record settled (h : heap) (hr : hrotor) : Prop := {
  se_nd : (r_nd (hr_val hr) = 4 \/ r_nd (hr_val hr) = 6)%nat;
  se_dk : forall x, In x (hr_dk hr) -> d_tag (rd_d (fst (h_dk h x))) <> None /\ snd (h_dk h x) = Some (el_dofs (r_nd (hr_val hr)) (r_n_last (hr_val hr)) (mk_disk 0 (fst (h_dk h x)))) /\
          r_nd (hr_val hr) = dofs_per_node (rd_six (fst (h_dk h x))) /\ (d_n (rd_d (fst (h_dk h x))) <= r_n_last (hr_val hr) + 1)%nat;
  se_br : forall x, In x (hr_br hr) -> b_tag (brg_base (fst (h_br h x))) <> None /\ snd (h_br h x) = Some (el_dofs (r_nd (hr_val hr)) (r_n_last (hr_val hr)) (mk_brg 0 (fst (h_br h x)))) /\
          r_nd (hr_val hr) = dofs_per_node (brg_six (fst (h_br h x)));
  se_pm : forall x, In x (hr_pm hr) -> p_tag (rp_p (fst (h_pm h x))) <> None /\ snd (h_pm h x) = Some (el_dofs (r_nd (hr_val hr)) (r_n_last (hr_val hr)) (mk_pm 0 (fst (h_pm h x)))) }.
Lemma built_settled h c hr : snd (build h c) = Ok hr -> settled (fst (build h c)) hr.
Proof.
  intros H. destruct (build_inv _ _ _ H) as (r & O & -> & RE). pose proof (reach_facts _ _ _ _ RE) as F. rewrite build_eq, RE. cbn [fst]. constructor; cbn [hr_val hr_dk hr_br hr_pm h_dk h_br h_pm].
  - apply F.
  - intros x Hx. rewrite numbered_fst, numbered_snd, (proj2 (existsb_eqb x _) Hx). split; [apply (tag_in disks_kind disks_ok); auto|]. split; [reflexivity|]. apply (rc_dk _ _ _ _ F x Hx).
  - intros x Hx. apply sort_refs_in in Hx. rewrite numbered_fst, numbered_snd, (proj2 (existsb_eqb x _) Hx). split; [apply (tag_in brgs_kind brgs_ok); auto|]. split; [reflexivity|]. apply (rc_br _ _ _ _ F x Hx).
  - intros x Hx. rewrite numbered_fst, numbered_snd, (proj2 (existsb_eqb x _) Hx). split; [apply (tag_in pms_kind pms_ok); auto|]. reflexivity.
Qed.
Lemma later_call h hr c : settled h hr -> fits h hr c -> (forall x, In x (hr_dk hr) -> h_dk (fst (build h c)) x = h_dk h x) /\ (forall x, In x (hr_br hr) -> h_br (fst (build h c)) x = h_br h x) /\
  (forall x, In x (hr_pm hr) -> h_pm (fst (build h c)) x = h_pm h x).
Proof.
  intros S Fi. rewrite build_eq. cbn [fst h_dk h_br h_pm].
  assert (P : forall {A} (p q : A * dofs), fst p = fst q -> snd p = snd q -> p = q) by (intros A [a b] [a' b']; cbn; congruence).
  split; [|split]; intros x Hx.
  - destruct (se_dk _ _ S x Hx) as (T & D & K & N). assert (E : t_dk h c x = h_dk h x) by (apply (tag_keeps disks_kind); auto).
    apply P; [rewrite numbered_fst, E; reflexivity|]. rewrite numbered_snd, E. destruct (reach h c) as [[nd L]|] eqn:RE; [|reflexivity]. pose proof (reach_facts _ _ _ _ RE) as F.
    destruct (existsb _ _) eqn:I; [|reflexivity]. apply existsb_eqb in I. rewrite D. destruct (rc_dk _ _ _ _ F x I) as (K2 & N2). rewrite E in K2, N2. rewrite K2, <- K. f_equal. cbn [disks_kind k_elem].
    apply el_dofs_same; [apply S|right; cbn [el_n mk_disk]; lia|discriminate].
  - destruct (se_br _ _ S x Hx) as (T & D & K). assert (E : t_br h c x = h_br h x) by (apply (tag_keeps brgs_kind); auto).
    apply P; [rewrite numbered_fst, E; reflexivity|]. rewrite numbered_snd, E. destruct (reach h c) as [[nd L]|] eqn:RE; [|reflexivity]. pose proof (reach_facts _ _ _ _ RE) as F.
    destruct (existsb _ _) eqn:I; [|reflexivity]. apply existsb_eqb in I. rewrite D. pose proof (rc_br _ _ _ _ F x I) as K2. rewrite E in K2. rewrite K2, <- K. f_equal. cbn [brgs_kind k_elem].
    destruct (fits_br _ _ _ Fi x Hx I) as (N1 & N2). rewrite (rc_last _ _ _ _ F). apply el_dofs_same; [apply S|exact N1|exact N2].
  - destruct (se_pm _ _ S x Hx) as (T & D). assert (E : t_pm h c x = h_pm h x) by (apply (tag_keeps pms_kind); auto).
    apply P; [rewrite numbered_fst, E; reflexivity|]. rewrite numbered_snd, E. destruct (reach h c) as [[nd L]|] eqn:RE; [|reflexivity]. pose proof (reach_facts _ _ _ _ RE) as F.
    destruct (existsb _ _) eqn:I; [|reflexivity]. apply existsb_eqb in I. rewrite D. destruct (fits_pm _ _ _ Fi x Hx I) as (N1 & N2).
    assert (K : nd = r_nd (hr_val hr)).
    { destruct (shafts_of h c) as [|s l] eqn:ES; [|rewrite (N2 s (or_introl eq_refl)); apply (rc_sh _ _ _ _ F); rewrite ES; left; auto].
      exfalso. clear - RE ES. unfold reach, reached in RE. rewrite ES in RE. cbn [mapi sort_n fold_right check_number_dof] in RE. destruct (negb _); discriminate. }
    rewrite K, (rc_last _ _ _ _ F). f_equal. cbn [pms_kind k_elem]. apply el_dofs_same; [apply S|exact N1|discriminate].
Qed.
Lemma settled_ext h h' hr : (forall x, In x (hr_dk hr) -> h_dk h' x = h_dk h x) -> (forall x, In x (hr_br hr) -> h_br h' x = h_br h x) -> (forall x, In x (hr_pm hr) -> h_pm h' x = h_pm h x) ->
  settled h hr -> settled h' hr.
Proof. intros A B C S. constructor; [apply S|intros x Hx; rewrite A by auto; apply S; auto|intros x Hx; rewrite B by auto; apply S; auto|intros x Hx; rewrite C by auto; apply S; auto]. Qed.
Lemma fits_ext h h' hr c : h_sh h' = h_sh h -> (forall x, In x (hr_br hr) -> h_br h' x = h_br h x) -> (forall x, In x (hr_pm hr) -> h_pm h' x = h_pm h x) -> fits h hr c -> fits h' hr c.
Proof. intros E B C [F1 F2]. constructor; intros x Hx Hc; unfold shafts_of in *; [rewrite B, E by auto; auto|rewrite C, E by auto; auto]. Qed.
Lemma elements_ext h h' hr : (forall x, In x (hr_dk hr) -> h_dk h' x = h_dk h x) -> (forall x, In x (hr_br hr) -> h_br h' x = h_br h x) -> (forall x, In x (hr_pm hr) -> h_pm h' x = h_pm h x) ->
  h_elements h' hr = h_elements h hr.
Proof. intros A B C. unfold h_elements. rewrite (now_ext disks_kind _ _ _ A), (now_ext brgs_kind _ _ _ B), (now_ext pms_kind _ _ _ C). reflexivity. Qed.
Lemma build_sh h c : h_sh (fst (build h c)) = h_sh h.
Proof. rewrite build_eq. reflexivity. Qed.
Lemma later_calls cs : forall h hr, settled h hr -> Forall (fits h hr) cs -> h_elements (run_calls h cs) hr = h_elements h hr.
Proof.
  induction cs as [|c cs IH]; intros h hr S F; [reflexivity|]. inversion F as [|? ? F1 F2]; subst. destruct (later_call h hr c S F1) as (A & B & C). cbn [run_calls fold_left]. fold (run_calls (fst (build h c)) cs).
  rewrite IH; [apply elements_ext; auto|eapply settled_ext; eauto|]. eapply Forall_impl; [|exact F2]. intros c'. apply fits_ext; auto. apply build_sh.
Qed.

(** ** tagged objects never change but for their numbers *)
Lemma build_tagged h c : (forall x, d_tag (rd_d (fst (h_dk h x))) <> None -> fst (h_dk (fst (build h c)) x) = fst (h_dk h x)) /\
  (forall x, b_tag (brg_base (fst (h_br h x))) <> None -> fst (h_br (fst (build h c)) x) = fst (h_br h x)) /\
  (forall x, p_tag (rp_p (fst (h_pm h x))) <> None -> fst (h_pm (fst (build h c)) x) = fst (h_pm h x)).
Proof.
  rewrite build_eq. cbn [fst h_dk h_br h_pm]. repeat split; intros x H; rewrite numbered_fst.
  - unfold t_dk. rewrite (tag_keeps disks_kind); auto.
  - unfold t_br. rewrite (tag_keeps brgs_kind); auto.
  - unfold t_pm. rewrite (tag_keeps pms_kind); auto.
Qed.
Lemma runs_tagged cs : forall h, h_sh (run_calls h cs) = h_sh h /\ (forall x, d_tag (rd_d (fst (h_dk h x))) <> None -> fst (h_dk (run_calls h cs) x) = fst (h_dk h x)) /\
  (forall x, b_tag (brg_base (fst (h_br h x))) <> None -> fst (h_br (run_calls h cs) x) = fst (h_br h x)) /\
  (forall x, p_tag (rp_p (fst (h_pm h x))) <> None -> fst (h_pm (run_calls h cs) x) = fst (h_pm h x)).
Proof.
  induction cs as [|c cs IH]; intros h; [repeat split; auto|]. cbn [run_calls fold_left]. fold (run_calls (fst (build h c)) cs). destruct (IH (fst (build h c))) as (I1 & I2 & I3 & I4). destruct (build_tagged h c) as (B1 & B2 & B3).
  split; [rewrite I1; apply build_sh|]. repeat split; intros x H; [rewrite I2, B1|rewrite I3, B2|rewrite I4, B3]; auto; [rewrite B1|rewrite B2|rewrite B3]; auto.
Qed.
(** the outcome depends only on the values after tagging *)
Lemma build_outcome_ext h h' c : h_sh h' = h_sh h -> (forall x, In x (c_dk c) -> fst (t_dk h' c x) = fst (t_dk h c x)) -> (forall x, In x (c_br c) -> fst (t_br h' c x) = fst (t_br h c x)) ->
  (forall x, In x (c_pm c) -> fst (t_pm h' c x) = fst (t_pm h c x)) -> snd (build h' c) = snd (build h c).
Proof.
  intros E A B C. rewrite !build_eq. cbn [snd]. rewrite (sort_refs_ext (t_br h' c) (t_br h c) (c_br c) B).
  assert (O : outcome h' c = outcome h c); [|rewrite O; reflexivity]. unfold outcome, shafts_of, vals. rewrite E. rewrite (map_ext_in _ _ _ A), (map_ext_in _ _ _ B), (map_ext_in _ _ _ C). reflexivity.
Qed.
Lemma all_tagged_outcome h h' c : all_tagged h c -> h_sh h' = h_sh h -> (forall x, d_tag (rd_d (fst (h_dk h x))) <> None -> fst (h_dk h' x) = fst (h_dk h x)) ->
  (forall x, b_tag (brg_base (fst (h_br h x))) <> None -> fst (h_br h' x) = fst (h_br h x)) -> (forall x, p_tag (rp_p (fst (h_pm h x))) <> None -> fst (h_pm h' x) = fst (h_pm h x)) ->
  snd (build h' c) = snd (build h c).
Proof.
  intros (T1 & T2 & T3) E A B C. apply build_outcome_ext; auto; intros x Hx; unfold t_dk, t_br, t_pm.
  - rewrite !(tag_keeps disks_kind); auto; cbn [disks_kind k_tag]; auto. rewrite A; auto.
  - rewrite !(tag_keeps brgs_kind); auto; cbn [brgs_kind k_tag]; auto. rewrite B; auto.
  - rewrite !(tag_keeps pms_kind); auto; cbn [pms_kind k_tag]; auto. rewrite C; auto.
Qed.
Lemma again h c cs : snd (build (run_calls (fst (build h c)) cs) c) = snd (build h c).
Proof.
  destruct (runs_tagged cs (fst (build h c))) as (R1 & R2 & R3 & R4).
  assert (A1 : forall x, In x (c_dk c) -> fst (h_dk (fst (build h c)) x) = fst (t_dk h c x)) by (intros x Hx; rewrite build_eq; cbn [fst h_dk]; apply numbered_fst).
  assert (A2 : forall x, In x (c_br c) -> fst (h_br (fst (build h c)) x) = fst (t_br h c x)) by (intros x Hx; rewrite build_eq; cbn [fst h_br]; apply numbered_fst).
  assert (A3 : forall x, In x (c_pm c) -> fst (h_pm (fst (build h c)) x) = fst (t_pm h c x)) by (intros x Hx; rewrite build_eq; cbn [fst h_pm]; apply numbered_fst).
  apply build_outcome_ext; [rewrite R1; apply build_sh| | |]; intros x Hx.
  - assert (T : d_tag (rd_d (fst (h_dk (fst (build h c)) x))) <> None) by (rewrite A1 by auto; apply (tag_in disks_kind disks_ok); auto).
    unfold t_dk at 1. rewrite (tag_keeps disks_kind); [rewrite R2, A1; auto|]. cbn [disks_kind k_tag]. rewrite R2; auto.
  - assert (T : b_tag (brg_base (fst (h_br (fst (build h c)) x))) <> None) by (rewrite A2 by auto; apply (tag_in brgs_kind brgs_ok); auto).
    unfold t_br at 1. rewrite (tag_keeps brgs_kind); [rewrite R3, A2; auto|]. cbn [brgs_kind k_tag]. rewrite R3; auto.
  - assert (T : p_tag (rp_p (fst (h_pm (fst (build h c)) x))) <> None) by (rewrite A3 by auto; apply (tag_in pms_kind pms_ok); auto).
    unfold t_pm at 1. rewrite (tag_keeps pms_kind); [rewrite R4, A3; auto|]. cbn [pms_kind k_tag]. rewrite R4; auto.
Qed.
