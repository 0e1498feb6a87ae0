(** The rotor object and the heap. *)
From Coq Require Import Reals String List Arith Bool Lia Lra Permutation Sorted.
From Verif Require Import PyBase MatBase SpecMat MMaterial MShaft MDisk MBearing MRotor SpecRotor MShare SpecShare LAssembly LRotor LRotor2 LRotorPos LRotor5 LRotor6 LRotor7 LRotorInit LRotorInit2 LRotorInit3 LShare.
Import ListNotations.
Open Scope list_scope.
Open Scope R_scope.

Lemma reached_init shafts d b p r : rotor_init shafts d b p = Ok r -> reached shafts d b p = Some (r_nd r, r_n_last r).
Proof.
  unfold rotor_init, reached. set (sh := sort_n (mapi mk_shaft 0 shafts)). set (dk := mapi mk_disk 0 d). set (br := sort_n (mapi mk_brg 0 b)). set (pm := mapi mk_pm 0 p).
  destruct (tags_unique _); [|discriminate]. cbn [negb]. destruct (check_number_dof sh dk br) as [nd|]; [|discriminate]. cbn [bind].
  destruct (location_ok sh dk br pm); [|discriminate]. cbn [negb]. destruct (disk_positions _ dk) as [dpos|]; [|discriminate]. cbn [bind]. cbv zeta.
  destruct (locate_all _ br) as [df|]; [|discriminate]. cbn [bind]. destruct (heights_ok _ _ _ _); [|discriminate]. cbn [bind]. destruct (pm_ok br pm); [|discriminate]. cbn [negb].
  intros [= <-]. reflexivity.
Qed.
Lemma init_lists shafts d b p r : rotor_init shafts d b p = Ok r ->
  r_shaft r = sort_n (mapi mk_shaft 0 shafts) /\ r_disk r = mapi mk_disk 0 d /\ r_brg r = sort_n (mapi mk_brg 0 b) /\ r_pm r = mapi mk_pm 0 p.
Proof.
  unfold rotor_init. set (sh := sort_n (mapi mk_shaft 0 shafts)). set (dk := mapi mk_disk 0 d). set (br := sort_n (mapi mk_brg 0 b)). set (pm := mapi mk_pm 0 p).
  destruct (tags_unique _); [|discriminate]. cbn [negb]. destruct (check_number_dof sh dk br) as [nd|]; [|discriminate]. cbn [bind].
  destruct (location_ok sh dk br pm); [|discriminate]. cbn [negb]. destruct (disk_positions _ dk) as [dpos|]; [|discriminate]. cbn [bind]. cbv zeta.
  destruct (locate_all _ br) as [df|]; [|discriminate]. cbn [bind]. destruct (heights_ok _ _ _ _); [|discriminate]. cbn [bind]. destruct (pm_ok br pm); [|discriminate]. cbn [negb].
  intros [= <-]. repeat split.
Qed.

(** ** the three stores after a call *)
Definition t_dk h c := tag_from disks_kind 0 (c_dk c) (h_dk h).
Definition t_br h c := tag_from brgs_kind 0 (c_br c) (h_br h).
Definition t_pm h c := tag_from pms_kind 0 (c_pm c) (h_pm h).
Definition outcome h c : res rotor := rotor_init (shafts_of h c) (vals (t_dk h c) (c_dk c)) (vals (t_br h c) (c_br c)) (vals (t_pm h c) (c_pm c)).
Definition reach h c : option (nat * nat) := reached (shafts_of h c) (vals (t_dk h c) (c_dk c)) (vals (t_br h c) (c_br c)) (vals (t_pm h c) (c_pm c)).
Definition numbered {A} (k : kind A) (o : option (nat * nat)) (l : list ref) (st : ref -> A * dofs) : ref -> A * dofs :=
  match o with None => st | Some (nd, n_last) => number_all k nd n_last l st end.
Lemma build_eq h c : build h c = (mkHeap (h_sh h) (numbered disks_kind (reach h c) (c_dk c) (t_dk h c)) (numbered brgs_kind (reach h c) (c_br c) (t_br h c)) (numbered pms_kind (reach h c) (c_pm c) (t_pm h c)),
  res_map (fun r => mkHRotor r (c_dk c) (sort_refs (t_br h c) (c_br c)) (c_pm c)) (outcome h c)).
Proof. unfold build. fold (t_dk h c) (t_br h c) (t_pm h c). fold (shafts_of h c). fold (outcome h c) (reach h c). destruct (reach h c) as [[nd n]|], (outcome h c); reflexivity. Qed.
Lemma numbered_fst {A} (k : kind A) o l st y : fst (numbered k o l st y) = fst (st y).
Proof. destruct o as [[nd n]|]; [apply number_spec|reflexivity]. Qed.
Lemma numbered_snd {A} (k : kind A) o l st y : snd (numbered k o l st y) =
  match o with Some (nd, n) => if existsb (Nat.eqb y) l then Some (el_dofs nd n (k_elem k 0 (fst (st y)))) else snd (st y) | None => snd (st y) end.
Proof. destruct o as [[nd n]|]; [apply number_spec|reflexivity]. Qed.

Lemma build_inv h c hr : snd (build h c) = Ok hr -> exists r, outcome h c = Ok r /\ hr = mkHRotor r (c_dk c) (sort_refs (t_br h c) (c_br c)) (c_pm c) /\ reach h c = Some (r_nd r, r_n_last r).
Proof.
  rewrite build_eq. cbn [snd]. destruct (outcome h c) as [r|] eqn:E; [|discriminate]. cbn [res_map]. intros [= <-]. exists r. split; [auto|]. split; [reflexivity|]. apply reached_init. exact E.
Qed.

Lemma now_numbered {A} (k : kind A) nd n l st : now k (numbered k (Some (nd, n)) l st) l = map (fun e => (e, Some (el_dofs nd n e))) (map (fun x => k_elem k 0 (fst (st x))) l).
Proof.
  unfold now. rewrite map_map. apply map_ext_in. intros x Hx. rewrite numbered_fst, numbered_snd. rewrite (proj2 (existsb_eqb x l) Hx). reflexivity.
Qed.
Lemma now_ext {A} (k : kind A) st st' l : (forall x, In x l -> st x = st' x) -> now k st l = now k st' l.
Proof. intros H. unfold now. apply map_ext_in. intros x Hx. rewrite H by auto. reflexivity. Qed.

Lemma elements_built h c hr : snd (build h c) = Ok hr -> h_elements (fst (build h c)) hr = map (fun e => (e, Some (r_dofs (hr_val hr) e))) (r_elements (hr_val hr)).
Proof.
  intros H. destruct (build_inv _ _ _ H) as (r & O & -> & RE). rewrite build_eq. cbn [fst]. unfold h_elements. cbn [hr_val hr_dk hr_br hr_pm h_dk h_br h_pm]. rewrite RE.
  destruct (init_lists _ _ _ _ _ O) as (Es & Ed & Eb & Ep). unfold r_elements. rewrite !map_app. f_equal.
  assert (D : now disks_kind (numbered disks_kind (Some (r_nd r, r_n_last r)) (c_dk c) (t_dk h c)) (c_dk c) = map (fun e => (e, Some (r_dofs r e))) (r_disk r)).
  { rewrite now_numbered, Ed. change (mapi mk_disk 0) with (mapi (k_elem disks_kind) 0). rewrite (mapi_tagged disks_kind disks_ok (vals (t_dk h c) (c_dk c)) (tagged_vals _ disks_ok _ _) 0). unfold vals. rewrite !map_map. reflexivity. }
  assert (P : now pms_kind (numbered pms_kind (Some (r_nd r, r_n_last r)) (c_pm c) (t_pm h c)) (c_pm c) = map (fun e => (e, Some (r_dofs r e))) (r_pm r)).
  { rewrite now_numbered, Ep. change (mapi mk_pm 0) with (mapi (k_elem pms_kind) 0). rewrite (mapi_tagged pms_kind pms_ok (vals (t_pm h c) (c_pm c)) (tagged_vals _ pms_ok _ _) 0). unfold vals. rewrite !map_map. reflexivity. }
  rewrite D, P. f_equal. f_equal. rewrite Eb. change (mapi mk_brg 0) with (mapi (k_elem brgs_kind) 0). rewrite (mapi_tagged brgs_kind brgs_ok (vals (t_br h c) (c_br c)) (tagged_vals _ brgs_ok _ _) 0). unfold vals. rewrite map_map.
  change (fun x => k_elem brgs_kind 0 (fst (t_br h c x))) with (fun x => mk_brg 0 (fst (t_br h c x))). rewrite <- sort_refs_elem. rewrite map_map. unfold now. apply map_ext_in. intros x Hx. apply sort_refs_in in Hx.
  rewrite numbered_fst, numbered_snd. rewrite (proj2 (existsb_eqb x (c_br c)) Hx). reflexivity.
Qed.

(** ** matrices *)
Lemma assemble_now_eq N f g (D : elem -> list nat) (F : elem -> elem) l : (forall e, f (F e) = g e) -> forall acc,
  assemble_now N f (map (fun e => (F e, Some (D e))) l) acc = assemble N D g l acc.
Proof.
  intros H. induction l as [|e l IH]; intros acc; [reflexivity|]. cbn [map assemble_now assemble]. rewrite H. destruct (g e) as [km|]; [|reflexivity]. cbn [bind]. destruct (add_at N (D e) km acc); [|reflexivity]. cbn [bind]. apply IH.
Qed.
Lemma kept_now_eq ignore (D : elem -> list nat) (F : elem -> elem) l : (forall e, el_tag (F e) = el_tag e) ->
  kept_now ignore (map (fun e => (F e, Some (D e))) l) = map (fun e => (F e, Some (D e))) (kept ignore l).
Proof. intros H. unfold kept_now, kept. induction l as [|e l IH]; [reflexivity|]. cbn [map filter fst]. rewrite H. destruct (negb _); cbn [map]; rewrite IH; reflexivity. Qed.
Lemma behaves h hr (r : rotor) (F : elem -> elem) : 
  (forall e, el_tag (F e) = el_tag e) -> (forall spl w e, el_M spl w (F e) = el_M spl w e) -> (forall spl w e, el_M_sync spl w (F e) = el_M_sync spl w e) -> (forall spl w e, el_K spl w (F e) = el_K spl w e) ->
  (forall spl w e, el_C spl w (F e) = el_C spl w e) -> (forall spl e, el_G spl (F e) = el_G spl e) ->
  h_elements h hr = map (fun e => (F e, Some (r_dofs r e))) (r_elements r) ->
  (let v := hr_val hr in
    (r_nd v, r_n_last v, r_ndof v, r_nodes_pos v, r_shaft_pos v, r_m_disks v, r_m_shaft v, r_m v, r_CG v, r_Ip v)
    = (r_nd r, r_n_last r, r_ndof r, r_nodes_pos r, r_shaft_pos r, r_m_disks r, r_m_shaft r, r_m r, r_CG r, r_Ip r)) -> behaves_as h hr r.
Proof.
  intros Ht HM HS HK HC HG E A. assert (EN : r_ndof (hr_val hr) = r_ndof r) by (cbv zeta in A; congruence).
  constructor; auto; intros; unfold now_M, now_M_sync, now_K, now_C, now_G; rewrite E, EN, ?kept_now_eq by auto; apply assemble_now_eq; auto.
Qed.
Lemma behaves_value h c hr : snd (build h c) = Ok hr -> behaves_as (fst (build h c)) hr (hr_val hr).
Proof. intros H. apply (behaves _ _ _ (fun e => e)); auto. apply elements_built; auto. Qed.

Lemma outcome_distinct h c : distinct c -> outcome h c = res_map norm_rotor (rotor_init (shafts_of h c) (disks_of h c) (brgs_of h c) (pms_of h c)) /\
  reach h c = reached (shafts_of h c) (disks_of h c) (brgs_of h c) (pms_of h c).
Proof.
  intros (N1 & N2 & N3). unfold outcome, reach. apply init_norm; unfold t_dk, t_br, t_pm; rewrite tag_vals by auto using disks_ok, brgs_ok, pms_ok;
    [apply (tagged_elems disks_kind disks_ok)|apply (tagged_elems brgs_kind brgs_ok)|apply (tagged_elems pms_kind pms_ok)].
Qed.
Lemma r_dofs_norm r e : r_dofs (norm_rotor r) (norm e) = r_dofs r e.
Proof. unfold r_dofs. cbn [r_nd r_n_last norm_rotor]. apply norm_dofs. Qed.
Lemma norm_shafts l : map norm (sort_n (mapi mk_shaft 0 l)) = sort_n (mapi mk_shaft 0 l).
Proof. rewrite <- sort_norm. f_equal. generalize 0%nat. induction l as [|s l IH]; intros i; [reflexivity|]. cbn [mapi map norm]. rewrite IH. reflexivity. Qed.
Lemma build_distinct h c r : distinct c -> rotor_init (shafts_of h c) (disks_of h c) (brgs_of h c) (pms_of h c) = Ok r ->
  exists hr, snd (build h c) = Ok hr /\ behaves_as (fst (build h c)) hr r.
Proof.
  intros D H. destruct (outcome_distinct h c D) as [O _]. rewrite H in O. cbn [res_map] in O.
  assert (B : exists hr, snd (build h c) = Ok hr) by (rewrite build_eq; cbn [snd]; rewrite O; eexists; reflexivity). destruct B as (hr & B). exists hr. split; [exact B|].
  pose proof (elements_built _ _ _ B) as E. destruct (build_inv _ _ _ B) as (r' & O' & Eh & _). rewrite O in O'. assert (V : hr_val hr = norm_rotor r) by (rewrite Eh; cbn [hr_val]; congruence).
  apply (behaves _ _ _ norm); auto using norm_tag, norm_M, norm_Ms, norm_K, norm_C, norm_G.
  - rewrite E, V. destruct (init_lists _ _ _ _ _ H) as (Es & _). unfold r_elements. cbn [r_shaft r_disk r_brg r_pm norm_rotor]. rewrite Es at 1. rewrite <- norm_shafts, <- Es, <- !map_app, map_map. apply map_ext. intros e. rewrite r_dofs_norm. reflexivity.
  - rewrite V. reflexivity.
Qed.

(** ** naming an object twice *)
Lemma NoDup_map_inv' {A B} (f : A -> B) l : NoDup (map f l) -> NoDup l.
Proof. apply NoDup_map_inv. Qed.
Lemma tags_all {A} (k : kind A) (K : kind_ok k) l st : map el_tag (mapi (k_elem k) 0 (vals (tag_from k 0 l st) l)) = map (fun x => el_tag (k_elem k 0 (fst (tag_from k 0 l st x)))) l.
Proof. rewrite (mapi_tagged k K _ (tagged_vals k K l st)). unfold vals. rewrite !map_map. reflexivity. Qed.
Lemma NoDup_app_l {A} (a b : list A) : NoDup (a ++ b) -> NoDup a.
Proof. induction a as [|x a IH]; intros H; [constructor|]. inversion H; subst. constructor; [|auto]. intros Q. apply H2. apply in_or_app; auto. Qed.
Lemma NoDup_app_r {A} (a b : list A) : NoDup (a ++ b) -> NoDup b.
Proof. induction a as [|x a IH]; intros H; [auto|]. inversion H; subst. auto. Qed.
Definition tag_list h c := map el_tag (sort_n (mapi mk_shaft 0 (shafts_of h c)) ++ mapi mk_disk 0 (vals (t_dk h c) (c_dk c)) ++ sort_n (mapi mk_brg 0 (vals (t_br h c) (c_br c))) ++ mapi mk_pm 0 (vals (t_pm h c) (c_pm c))).
Lemma bad_tags h c : ~ NoDup (tag_list h c) -> outcome h c = Err ValueError /\ reach h c = None.
Proof.
  intros H. unfold outcome, reach, rotor_init, reached. fold (tag_list h c). destruct (tags_unique (tag_list h c)) eqn:E; [|split; reflexivity]. apply tags_unique_iff in E. tauto.
Qed.
Lemma tag_list_parts h c : NoDup (tag_list h c) -> NoDup (map (fun x => el_tag (mk_disk 0 (fst (t_dk h c x)))) (c_dk c)) /\ NoDup (map (fun x => el_tag (mk_brg 0 (fst (t_br h c x)))) (c_br c)) /\ NoDup (map (fun x => el_tag (mk_pm 0 (fst (t_pm h c x)))) (c_pm c)).
Proof.
  unfold tag_list, t_dk, t_br, t_pm. rewrite !map_app. intros H. apply NoDup_app_r in H. pose proof (NoDup_app_l _ _ H) as H1. apply NoDup_app_r in H. pose proof (NoDup_app_l _ _ H) as H2. apply NoDup_app_r in H.
  split; [|split].
  - change (mapi mk_disk 0) with (mapi (k_elem disks_kind) 0) in H1. rewrite (tags_all disks_kind disks_ok) in H1. exact H1.
  - eapply Permutation_NoDup in H2; [|apply Permutation_map, sort_n_perm]. change (mapi mk_brg 0) with (mapi (k_elem brgs_kind) 0) in H2. rewrite (tags_all brgs_kind brgs_ok) in H2. exact H2.
  - change (mapi mk_pm 0) with (mapi (k_elem pms_kind) 0) in H. rewrite (tags_all pms_kind pms_ok) in H. exact H.
Qed.
Lemma twice_err h c : ~ distinct c -> snd (build h c) = Err ValueError.
Proof.
  intros N. rewrite build_eq. cbn [snd]. destruct (bad_tags h c) as [-> _]; [|reflexivity]. intros Q. apply N. destruct (tag_list_parts h c Q) as (A & B & C). repeat split; eapply NoDup_map_inv'; eauto.
Qed.
