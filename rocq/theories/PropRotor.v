(** Theorems about assembled rotors (C08 for rotors, C18-C23). *)
From Coq Require Import Reals String List Arith Bool Lia Lra Permutation.
From Verif Require Import PyBase MatBase SpecMat LMat MShaft SpecShaft MDisk MBearing MRotor SpecRotor LAssembly LRotor LRotor2 LRotorPos LRotor3 LRotor4 LRotor5 LRotorInit LRotorInit2 LRotor6 LRotor7 LRotorEx.
Import ListNotations.
Open Scope list_scope.
Open Scope R_scope.

(** the rotor all examples below use: two elements, a disk, three bearings, a support mass; 4 or 6 dofs *)
Example rotor_instance : forall six, exists r, rotor_init (exS six) (exD six) (exB six) (exP six) = Ok r /\
  regular r /\ links_ok r /\ layers_match r /\ well_formed (exS six) (exD six) (exB six) (exP six) 1 /\
  r_ndof r = (if six then 21 else 14)%nat.
Proof.
  intros six. destruct (ex_rotor six) as (r & H & X). exists r. split; [exact H|]. pose proof (rotor_facts _ _ _ _ _ H) as F.
  refine (conj (xf_reg _ _ X) (conj (xf_links _ _ X) (conj (xf_layers _ _ X) (conj (ex_wf six) _)))).
  rewrite (rf_ndof _ F), (xf_nd _ _ X), (xf_last _ _ X), (xf_pm _ _ X). destruct six; reflexivity.
Qed.

(** * C18: the numbering of the degrees of freedom *)
Theorem C18_numbering_bijective : forall shafts disks brgs pms r, rotor_init shafts disks brgs pms = Ok r -> regular r -> links_ok r ->
  let entry e k i := In e (r_elements r) /\ In (k, i) (dof_index (r_nd r) (r_n_last r) e) in
  (forall e e' k k' i i', entry e k i -> entry e' k' i' -> (k = k' <-> i = i')) /\
  (forall e k i, entry e k i -> (i < r_ndof r)%nat) /\
  (forall i, (i < r_ndof r)%nat -> exists e k, entry e k i).
Proof.
  intros shafts disks brgs pms r H G Hl entry. pose proof (rotor_facts _ _ _ _ _ H) as F. split; [|split].
  - intros e e' k k' i i' [A B] [A' B']. exact (numbering_iff r e e' k k' i i' F G A A' B B').
  - intros e k i [A B]. eapply numbering_bound; eauto.
  - intros i Hi. destruct (numbering_cover r i F G Hl Hi) as (e & k & A & B). exists e, k. split; auto.
Qed.
Theorem C18_element_dofs : forall shafts disks brgs pms r, rotor_init shafts disks brgs pms = Ok r -> regular r -> links_ok r ->
  r_ndof r = (r_nd r * (r_n_last r + 2) + r_nd r / 2 * length (r_pm r))%nat /\ (r_nd r = 4 \/ r_nd r = 6)%nat /\
  forall e, In e (r_elements r) -> map snd (dof_index (r_nd r) (r_n_last r) e) = acts_on (r_nd r) (r_n_last r) e.
Proof.
  intros shafts disks brgs pms r H G Hl. pose proof (rotor_facts _ _ _ _ _ H) as F.
  split; [apply rf_ndof; auto|]. split; [apply rf_nd; auto|]. intros e He. exact (r_dofs_acts r e F G Hl He).
Qed.

(** * C19: assembly *)
Theorem C19_sum_of_elements : forall spl shafts disks brgs pms r w ig A, rotor_init shafts disks brgs pms = Ok r -> pm_matches r ->
  (rotor_M spl r w = Ok A -> sum_of (el_M spl (default 0 w)) r (r_elements r) A) /\
  (forall w, rotor_K spl r w ig = Ok A -> sum_of (el_K spl w) r (untagged ig r) A) /\
  (forall w, rotor_C spl r w ig = Ok A -> sum_of (el_C spl w) r (untagged ig r) A) /\
  (rotor_G spl r = Ok A -> sum_of (el_G spl) r (r_elements r) A).
Proof.
  intros spl shafts disks brgs pms r w ig A H Hp. pose proof (rotor_facts _ _ _ _ _ H) as F.
  split; [|split; [|split]].
  - intros HA. exact (assembled_entries _ _ _ _ _ _ F Hp (is_M spl (default 0 w)) (incl_refl _) HA).
  - intros w' HA. exact (assembled_entries _ _ _ _ _ _ F Hp (is_K spl w') (kept_incl _ _) HA).
  - intros w' HA. exact (assembled_entries _ _ _ _ _ _ F Hp (is_C spl w') (kept_incl _ _) HA).
  - intros HA. exact (assembled_entries _ _ _ _ _ _ F Hp (is_G spl 0) (incl_refl _) HA).
Qed.
Theorem C19_matrices_exist : forall spl shafts disks brgs pms r w ig, rotor_init shafts disks brgs pms = Ok r -> regular r -> links_ok r ->
  ((forall e, In e (r_brg r) -> is_ok (el_M spl (default 0 w) e)) -> is_ok (rotor_M spl r w)) /\
  (forall w, (forall e, In e (r_brg r) -> is_ok (el_K spl w e)) -> is_ok (rotor_K spl r w ig)) /\
  (forall w, (forall e, In e (r_brg r) -> is_ok (el_C spl w e)) -> is_ok (rotor_C spl r w ig)) /\
  ((forall e, In e (r_brg r) -> is_ok (el_K spl 0 e)) -> is_ok (rotor_G spl r)).
Proof.
  intros spl shafts disks brgs pms r w ig H G Hl. pose proof (rotor_facts _ _ _ _ _ H) as F.
  assert (X : forall f : elem -> res (nat * mat), (forall e, match e with EBrg _ _ => True | _ => is_ok (f e) end) -> (forall e, In e (r_brg r) -> is_ok (f e)) ->
    forall e, In e (r_elements r) -> is_ok (f e)).
  { intros f Hf Hb e He. destruct e as [six n t s|six t d|t b|six t p]; try apply (Hf (EShaft six n t s)); try apply (Hf (EDisk six t d)); try apply (Hf (EPm six t p)).
    apply Hb, rf_brg_in; auto. }
  split; [|split; [|split]].
  - intros Hb. apply (assembled_exists spl (default 0 w) _ r _ F G Hl (is_M _ _) (incl_refl _)). apply X; auto.
    intros [[] ? ? ?|[] ? ?|? ?|[] ? ?]; simpl; try exact I; eexists; reflexivity.
  - intros w' Hb. apply (assembled_exists spl w' _ r _ F G Hl (is_K _ _) (kept_incl _ _)). intros e He. apply kept_incl in He. revert e He. apply X; auto.
    intros [[] ? ? ?|[] ? ?|? ?|[] ? ?]; simpl; try exact I; eexists; reflexivity.
  - intros w' Hb. apply (assembled_exists spl w' _ r _ F G Hl (is_C _ _) (kept_incl _ _)). intros e He. apply kept_incl in He. revert e He. apply X; auto.
    intros [[] ? ? ?|[] ? ?|? ?|[] ? ?]; simpl; try exact I; eexists; reflexivity.
  - intros Hb. apply (assembled_exists spl 0 _ r _ F G Hl (is_G _ _) (incl_refl _)). apply X.
    + intros [[] ? ? ?|[] ? ?|? ?|[] ? ?]; simpl; try exact I; eexists; reflexivity.
    + intros e He. destruct (Hb e He) as [v Hv]. destruct (rf_brg _ F _ He) as (t & b & ->). unfold el_G. rewrite Hv. eexists. reflexivity.
Qed.
Theorem C19_symmetry : forall spl shafts disks brgs pms r w A, rotor_init shafts disks brgs pms = Ok r ->
  (rotor_M spl r w = Ok A -> (forall e, In e (r_brg r) -> symmetric (el_size (el_M spl (default 0 w)) e) (el_mat (el_M spl (default 0 w)) e)) ->
     symmetric (r_ndof r) A) /\
  (rotor_G spl r = Ok A -> skew (r_ndof r) A).
Proof.
  intros spl shafts disks brgs pms r w A H. pose proof (rotor_facts _ _ _ _ _ H) as F. split.
  - intros HA Hb. apply (assemble_symmetric _ _ _ _ _ HA).
    + exact (assembled_nodup _ _ _ _ _ _ _ F (is_M spl (default 0 w)) (incl_refl _) HA).
    + intros e He. apply el_M_sym. destruct e; auto. apply Hb, rf_brg_in; auto.
  - intros HA. apply (assemble_skew _ _ _ _ _ HA).
    + exact (assembled_nodup _ _ _ _ _ _ _ F (is_G spl 0) (incl_refl _) HA).
    + intros e He. apply el_G_skew.
Qed.
Theorem C19_order_irrelevant : forall spl shafts disks brgs pms shafts' disks' brgs' pms' r r' w ig A,
  explicit shafts disks brgs pms ->
  Permutation shafts shafts' -> Permutation disks disks' -> Permutation brgs brgs' -> Permutation pms pms' ->
  rotor_init shafts disks brgs pms = Ok r -> rotor_init shafts' disks' brgs' pms' = Ok r' ->
  (rotor_M spl r w = Ok A -> exists A', rotor_M spl r' w = Ok A' /\ forall i j, A i j = A' i j) /\
  (forall w, rotor_K spl r w ig = Ok A -> exists A', rotor_K spl r' w ig = Ok A' /\ forall i j, A i j = A' i j) /\
  (forall w, rotor_C spl r w ig = Ok A -> exists A', rotor_C spl r' w ig = Ok A' /\ forall i j, A i j = A' i j) /\
  (rotor_G spl r = Ok A -> exists A', rotor_G spl r' = Ok A' /\ forall i j, A i j = A' i j).
Proof.
  intros spl shafts disks brgs pms shafts' disks' brgs' pms' r r' w ig A X P1 P2 P3 P4 H H'.
  pose proof (rotor_facts _ _ _ _ _ H) as F. pose proof (rotor_facts _ _ _ _ _ H') as F'.
  destruct (explicit_perm _ _ _ _ _ _ _ _ _ _ X P1 P2 P3 P4 H H') as (Q1 & Q2 & Q3 & Q4).
  destruct (perm_sizes r r' F F' Q1 Q4) as (E1 & E2 & E3).
  pose proof (perm_elements r r' Q1 Q2 Q3 Q4) as Q.
  split; [|split; [|split]].
  - intros HA. exact (assemble_perm _ _ _ _ _ _ _ _ F F' (is_M spl (default 0 w)) E1 E2 E3 Q (incl_refl _) (incl_refl _) HA).
  - intros w' HA. exact (assemble_perm _ _ _ _ _ _ _ _ F F' (is_K spl w') E1 E2 E3 (filter_perm _ _ _ Q) (kept_incl _ _) (kept_incl _ _) HA).
  - intros w' HA. exact (assemble_perm _ _ _ _ _ _ _ _ F F' (is_C spl w') E1 E2 E3 (filter_perm _ _ _ Q) (kept_incl _ _) (kept_incl _ _) HA).
  - intros HA. exact (assemble_perm _ _ _ _ _ _ _ _ F F' (is_G spl 0) E1 E2 E3 Q (incl_refl _) (incl_refl _) HA).
Qed.
Theorem C19_ignored_contribution : forall spl shafts disks brgs pms r w ig A B, rotor_init shafts disks brgs pms = Ok r -> pm_matches r ->
  (rotor_K spl r w [] = Ok A -> rotor_K spl r w ig = Ok B -> sum_of (el_K spl w) r (tagged ig r) (fun i j => A i j - B i j)) /\
  (rotor_C spl r w [] = Ok A -> rotor_C spl r w ig = Ok B -> sum_of (el_C spl w) r (tagged ig r) (fun i j => A i j - B i j)).
Proof.
  intros spl shafts disks brgs pms r w ig A B H Hp. pose proof (rotor_facts _ _ _ _ _ H) as F. split.
  - intros HA HB i j. unfold rotor_K in HA. rewrite kept_nil in HA.
    rewrite (assembled_entries _ _ _ _ _ _ F Hp (is_K spl w) (incl_refl _) HA i j).
    rewrite (assembled_entries _ _ _ _ _ _ F Hp (is_K spl w) (kept_incl _ _) HB i j). rewrite (kept_split ig). unfold tagged. ring.
  - intros HA HB i j. unfold rotor_C in HA. rewrite kept_nil in HA.
    rewrite (assembled_entries _ _ _ _ _ _ F Hp (is_C spl w) (incl_refl _) HA i j).
    rewrite (assembled_entries _ _ _ _ _ _ F Hp (is_C spl w) (kept_incl _ _) HB i j). rewrite (kept_split ig). unfold tagged. ring.
Qed.
Example C19_instance : forall six, explicit (exS six) (exD six) (exB six) (exP six) /\
  exists r, rotor_init (exS six) (exD six) (exB six) (exP six) = Ok r /\ pm_matches r /\
  forall spl w, (forall e, In e (r_brg r) -> is_ok (el_M spl w e) /\ is_ok (el_K spl w e) /\ is_ok (el_C spl w e)) /\ is_ok (rotor_K spl r w ["b1"%string]).
Proof.
  intros six. split.
  - split; [|split; [|split]].
    + unfold exS; intros x Hx; cases_in; split; discriminate.
    + unfold exD; intros x Hx; cases_in; discriminate.
    + unfold exB; intros x Hx; cases_in; rewrite brg_tag_ex; discriminate.
    + unfold exP; intros x Hx; cases_in; discriminate.
  - destruct (ex_rotor six) as (r & H & X). exists r. split; [exact H|]. split; [apply (reg_pm_dof _ (xf_reg _ _ X))|]. intros spl w.
    assert (Y : forall e, In e (r_brg r) -> is_ok (el_M spl w e) /\ is_ok (el_K spl w e) /\ is_ok (el_C spl w e)).
    { rewrite (xf_brg _ _ X). intros e He. cases_in; apply ex_coef_psd. }
    split; [exact Y|]. apply (C19_matrices_exist spl _ _ _ _ r None ["b1"%string] H (xf_reg _ _ X) (xf_links _ _ X)). intros e He. apply Y; auto.
Qed.

(** * C08 for the whole rotor *)
Theorem C08_rotor_gyroscopic_no_work : forall spl shafts disks brgs pms r A, rotor_init shafts disks brgs pms = Ok r -> rotor_G spl r = Ok A ->
  skew (r_ndof r) A /\ forall v, bform (r_ndof r) A v v = 0.
Proof.
  intros spl shafts disks brgs pms r A H HA. destruct (C19_symmetry spl _ _ _ _ r None A H) as [_ K]. specialize (K HA).
  split; [exact K|]. intros v. apply bform_skew_0; auto.
Qed.

(** * C20: mass *)
Theorem C20_total_mass : forall spl shafts disks brgs pms r w A c, rotor_init shafts disks brgs pms = Ok r -> regular r ->
  (forall e, In e (r_shaft r) -> good_shaft e) ->
  (c = 0 \/ c = 1 \/ c = 2 /\ r_nd r = 6 /\ (forall e, In e (r_shaft r) -> cylinder e))%nat ->
  rotor_M spl r w = Ok A ->
  let x := translation (r_nd r) (r_n_last r) c in
  bform (r_ndof r) A x x = r_m r + suml (map (moved_mass (el_M spl (default 0 w)) c) (r_brg r ++ r_pm r)).
Proof. intros spl shafts disks brgs pms r w A c H. exact (rotor_total_mass spl w r A c (rotor_facts _ _ _ _ _ H)). Qed.
Theorem C20_mass_positive_definite : forall spl shafts disks brgs pms r w A, rotor_init shafts disks brgs pms = Ok r -> regular r ->
  (forall e, In e (r_elements r) -> good_inertia (el_M spl (default 0 w)) e) -> rotor_M spl r w = Ok A ->
  pos_def (r_ndof r) A /\
  (forall x, (forall i, (i < r_ndof r)%nat -> mulv (r_ndof r) A x i = 0) -> forall i, (i < r_ndof r)%nat -> x i = 0).
Proof.
  intros spl shafts disks brgs pms r w A H G Hi HA.
  pose proof (rotor_M_pd spl w r A (rotor_facts _ _ _ _ _ H) G Hi HA) as P. split; [exact P|].
  intros x Hx i Hin. destruct (Req_dec (x i) 0) as [E|E]; [exact E|]. exfalso.
  assert (Hp : 0 < bform (r_ndof r) A x x) by (apply P; exists i; split; [exact Hin|exact E]).
  assert (Hz : bform (r_ndof r) A x x = 0); [|lra].
  rewrite bform_mulv. unfold dot. apply sumn_0. intros j Hj. rewrite Hx by auto. ring.
Qed.
Example C20_instance : forall spl w six, exists r A, rotor_init (exS six) (exD six) (exB six) (exP six) = Ok r /\
  regular r /\ (forall e, In e (r_elements r) -> good_inertia (el_M spl (default 0 w)) e) /\ rotor_M spl r w = Ok A /\
  (forall e, In e (r_shaft r) -> cylinder e) /\ (forall e, In e (r_shaft r) -> good_shaft e).
Proof.
  intros spl w six. destruct (ex_rotor six) as (r & H & X). pose proof (rotor_facts _ _ _ _ _ H) as F.
  destruct (proj1 (C19_matrices_exist spl _ _ _ _ r w [] H (xf_reg _ _ X) (xf_links _ _ X))) as [A HA].
  { rewrite (xf_brg _ _ X). intros e He. cases_in; apply ex_coef_psd. }
  exists r, A. split; [exact H|]. split; [apply X|]. split; [|split; [exact HA|split; [apply X|]]].
  - intros e He. eapply ex_inertia; eauto.
  - intros e He. assert (Hg : good_inertia (el_M spl 0) e) by (eapply ex_inertia; eauto; apply in_shaft_elements; auto).
    destruct (rf_shaft _ F _ He) as (? & ? & ? & ? & ->). exact Hg.
Qed.

(** * C21: stiffness *)
Theorem C21_free_rotor_kernel : forall spl shafts disks pms r w A x, rotor_init shafts disks [] pms = Ok r ->
  (forall k, (k <= r_n_last r)%nat -> exists e, In e (r_shaft r) /\ el_n e = k) -> layers_match r ->
  (forall e, In e (r_shaft r) -> no_load e) -> rotor_K spl r w [] = Ok A ->
  ((forall i, (i < r_ndof r)%nat -> mulv (r_ndof r) A x i = 0) <-> rigid_motion r x).
Proof.
  intros spl shafts disks pms r w A x H Hc Hl Hs HA. apply (bare_kernel spl w); auto; [eapply rotor_facts; eauto|].
  destruct (rotor_init_lists _ _ _ _ _ H) as (_ & _ & -> & _). reflexivity.
Qed.
Theorem C21_supported_rotor_definite : forall spl shafts disks brgs pms r w A, rotor_init shafts disks brgs pms = Ok r -> regular r -> layers_match r ->
  (forall e, In e (r_shaft r) -> no_load e) ->
  (forall e, In e (r_brg r) -> pos_semidef (el_size (el_K spl w) e) (el_mat (el_K spl w) e)) ->
  (exists n m, (n < m <= r_n_last r + 1)%nat /\ held (el_K spl w) r n /\ held (el_K spl w) r m) ->
  (forall e, In e (r_pm r) -> held (el_K spl w) r (el_n e)) ->
  rotor_K spl r w [] = Ok A ->
  pos_semidef (r_ndof r) A /\ (r_nd r = 4%nat -> pos_def (r_ndof r) A) /\
  (r_nd r = 6%nat -> forall x, bform (r_ndof r) A x x = 0 <-> axis_rotation r x).
Proof.
  intros spl shafts disks brgs pms r w A H G Hl Hs Hb Hh Hp HA. pose proof (rotor_facts _ _ _ _ _ H) as F.
  destruct (rotor_K_sympsd spl w r A F (reg_pm_dof _ G) (fun e He => no_load_compression _ (Hs e He)) Hb HA) as [P _].
  split; [exact P|]. split.
  - intros H4 x (i & Hi & Hx). destruct (Rle_lt_or_eq_dec 0 _ (P x)) as [Hlt|Heq]; [exact Hlt|].
    pose proof (grounded_kernel spl w r A x F G Hl Hs Hb Hh Hp HA (eq_sym Heq)) as K. rewrite H4 in K. simpl in K. exfalso. apply Hx, K; auto.
  - intros H6 x. split.
    + intros Hz. pose proof (grounded_kernel spl w r A x F G Hl Hs Hb Hh Hp HA Hz) as K. rewrite H6 in K. exact K.
    + exact (axis_rotation_free spl w r A x F G Hl H6 Hs HA).
Qed.
Example C21_instance : forall spl w six, exists r A, rotor_init (exS six) (exD six) (exB six) (exP six) = Ok r /\ regular r /\ layers_match r /\
  (forall e, In e (r_shaft r) -> no_load e) /\
  (forall e, In e (r_brg r) -> pos_semidef (el_size (el_K spl w) e) (el_mat (el_K spl w) e)) /\
  (exists n m, (n < m <= r_n_last r + 1)%nat /\ held (el_K spl w) r n /\ held (el_K spl w) r m) /\
  (forall e, In e (r_pm r) -> held (el_K spl w) r (el_n e)) /\ rotor_K spl r w [] = Ok A.
Proof.
  intros spl w six. destruct (ex_rotor six) as (r & H & X).
  destruct (proj1 (proj2 (C19_matrices_exist spl _ _ _ _ r None [] H (xf_reg _ _ X) (xf_links _ _ X))) w) as [A HA].
  { rewrite (xf_brg _ _ X). intros e He. cases_in; apply ex_coef_psd. }
  destruct (ex_held spl w six r X) as (H0 & H2 & H3).
  exists r, A. split; [exact H|]. split; [apply X|]. split; [apply X|]. split; [apply X|]. split; [|split; [|split; [|exact HA]]].
  - rewrite (xf_brg _ _ X). intros e He. cases_in; apply ex_brg_psd.
  - exists 0%nat, 2%nat. rewrite (xf_last _ _ X). split; [lia|auto].
  - rewrite (xf_pm _ _ X). intros e He. cases_in. exact H3.
Qed.
Example C21_free_instance : exists r, rotor_init (exS false) (exD false) [] [] = Ok r /\ layers_match r /\
  (forall k, (k <= r_n_last r)%nat -> exists e, In e (r_shaft r) /\ el_n e = k) /\ (forall e, In e (r_shaft r) -> no_load e) /\
  forall spl w, is_ok (rotor_K spl r w []).
Proof.
  eexists. split; [reflexivity|]. cbn [r_shaft r_n_last]. split; [|split; [|split]].
  - intros e e' He He' _. simpl in He, He'. destruct He as [<-|[<-|[]]], He' as [<-|[<-|[]]]; reflexivity.
  - intros [|[|k]] Hk; simpl in Hk; [eexists; split; [left; reflexivity|reflexivity]|eexists; split; [right; left; reflexivity|reflexivity]|lia].
  - intros e He. simpl in He. destruct He as [<-|[<-|[]]]; simpl; eexists; (split; [apply ex_shaft_init|]); (split; [apply ex_sargs_good|]); split; reflexivity.
  - intros spl w. eexists. reflexivity.
Qed.

(** * C22: validation *)
(** whatever is accepted satisfies this *)
Theorem C22_accepted_is_sane : forall shafts disks brgs pms r, rotor_init shafts disks brgs pms = Ok r -> accepted shafts disks brgs pms r.
Proof. exact rotor_accepted. Qed.
Theorem C22_duplicate_tags_rejected : forall shafts disks brgs pms i j t, i <> j ->
  nth_error (given_tags shafts disks brgs pms) i = Some (Some t) -> nth_error (given_tags shafts disks brgs pms) j = Some (Some t) ->
  rotor_init shafts disks brgs pms = Err ValueError.
Proof. exact duplicate_tags_err. Qed.
(** whatever is well formed is accepted *)
Theorem C22_well_formed_accepted : forall shafts disks brgs pms last, well_formed shafts disks brgs pms last ->
  exists r, rotor_init shafts disks brgs pms = Ok r /\ r_n_last r = last.
Proof. intros shafts disks brgs pms last H. destruct (init_ok _ _ _ _ _ H) as (r & E & El & _). eauto. Qed.
(** accepted although a shaft node is missing: a disk on a node no shaft element touches, a singular mass matrix *)
Theorem C22_gap_refuted :
  (exists shafts disks r, rotor_init shafts disks [] [] = Ok r /\ exists d, In d disks /\
     forall e, In e (r_shaft r) -> el_n e <> d_n (rd_d d) /\ S (el_n e) <> d_n (rd_d d)) /\
  (exists shafts r, rotor_init shafts [] [] [] = Ok r /\ exists i, (i < r_ndof r)%nat /\
     forall spl w, exists A, rotor_M spl r w = Ok A /\ forall j, A i j = 0).
Proof.
  split.
  - destruct gap_accepted as (r & H & K). do 3 eexists. split; [exact H|]. exists (ex_disk false 2 "d0"). split; [left; reflexivity|exact K].
  - destruct gap_singular as (r & H & Hn & K). do 2 eexists. split; [exact H|]. exists 8%nat. split; [exact Hn|exact K].
Qed.
(** accepted although a bearing is linked to a node that does not exist, or to its own node: only computing a matrix fails *)
Theorem C22_link_refuted : forall m, (m = 0 \/ 3 <= m)%nat ->
  exists shafts brgs r, rotor_init shafts [] brgs [] = Ok r /\ r_n_last r = 1%nat /\
    map (fun b => (brg_n b, brg_link b)) brgs = [(0%nat, Some m)] /\ forall spl w A, rotor_K spl r w [] <> Ok A.
Proof.
  intros m Hm. destruct (bad_link_accepted m Hm) as (r & H & K). do 3 eexists. split; [exact H|]. split; [|split; [reflexivity|exact K]].
  destruct (init_ok _ _ _ _ _ (bad_link_wf false m)) as (r' & H' & E & _). congruence.
Qed.
(** accepted although the dof counts are mixed: the axial mass of one support is added to a radial direction of the next *)
Theorem C22_mixed_point_mass_refuted : exists shafts brgs p q r, rotor_init shafts [] brgs [p; q] = Ok r /\
  rp_six p = true /\ rp_six q = false /\ r_nd r = 4%nat /\ p_mz (rp_p p) <> 0 /\
  forall spl w, exists A i, rotor_M spl r w = Ok A /\ i = node_start 4 (r_n_last r) (p_n (rp_p q)) /\
    A i i = p_mx (rp_p q) + p_mz (rp_p p).
Proof.
  destruct mixed_mass_accepted as (r & H & K). do 5 eexists. split; [exact H|]. split; [reflexivity|]. split; [reflexivity|].
  destruct (rotor_init_lists _ _ _ _ _ H) as (Es & _). pose proof (rotor_facts _ _ _ _ _ H) as F.
  split; [apply (el_fam_nd r false 0 "s0" (ex_shaft 0 "s0") F); rewrite Es; left; reflexivity|]. split; [simpl; lra|].
  intros spl w. destruct (K spl w) as (A & HA & E). exists A, 14%nat. split; [exact HA|]. split; [|exact E].
  destruct (init_ok _ _ _ _ _ mix_wf) as (r' & H' & El & _). assert (r' = r) by congruence. subst r'. rewrite El. reflexivity.
Qed.
(** accepted although a point mass sits on the shaft: the rotor has dofs without mass *)
Theorem C22_point_mass_on_shaft_refuted : exists shafts brgs p r, rotor_init shafts [] brgs [p] = Ok r /\ (p_n (rp_p p) <= r_n_last r)%nat /\
  exists i, (i < r_ndof r)%nat /\ forall spl w, exists A, rotor_M spl r w = Ok A /\ forall j, A i j = 0.
Proof.
  destruct onshaft_accepted as (r & H & Hn & K). do 4 eexists. split; [exact H|]. split; [simpl; lia|]. exists 13%nat. rewrite Hn. split; [lia|exact K].
Qed.
(** rejected although it is valid: a bearing and a seal on the last node of the shaft *)
Theorem C22_bearing_and_seal_at_end_refuted : exists shafts b0 b1 b2, rotor_init shafts [] [b0; b1; b2] [] = Err IndexError /\
  is_ok (rotor_init shafts [] [b0; b1] []) /\ brg_n b1 = brg_n b2 /\ brg_n b1 = length shafts.
Proof.
  do 4 eexists. split; [exact two_at_end_rejected|]. split; [|split; reflexivity].
  assert (W : well_formed (exS false) [] [ex_brg false 0 None "b0"; ex_brg false 2 None "b1"] [] 1).
  { destruct (bad_link_wf false 5). constructor; auto.
    - exists ["s0"; "s1"; "b0"; "b1"]%string. split; [reflexivity|apply tags_unique_iff; reflexivity].
    - exists false. repeat split; unfold exS; intros x Hx; cases_in; reflexivity.
    - cbn. repeat (constructor; [simpl; lia|]). constructor.
    - intros b Hb; cases_in; rewrite brg_n_ex; left; lia.
    - intros b m Hb; cases_in; discriminate.
    - intros p []. }
  destruct (init_ok _ _ _ _ _ W) as (r & H & _). exists r. exact H.
Qed.

(** * C23: positions, mass, centre of gravity *)
Theorem C23_node_positions : forall shafts disks brgs pms r, rotor_init shafts disks brgs pms = Ok r ->
  (forall k, (k <= r_n_last r)%nat -> exists e, In e (r_shaft r) /\ el_n e = k) -> layers_match r ->
  length (r_nodes_pos r) = (r_n_last r + 2)%nat /\ nth 0 (r_nodes_pos r) 0 = 0 /\
  (forall e, In e (r_shaft r) -> nth (S (el_n e)) (r_nodes_pos r) 0 = nth (el_n e) (r_nodes_pos r) 0 + sh_L e).
Proof.
  intros shafts disks brgs pms r H Hc Hl. destruct (positions r (rotor_facts _ _ _ _ _ H) Hc Hl) as (A & B & C & _). auto.
Qed.
Theorem C23_mass_and_centre_of_gravity : forall shafts disks brgs pms r, rotor_init shafts disks brgs pms = Ok r ->
  r_m r = suml (map dk_m (r_disk r)) + suml (map sh_m (r_shaft r)) /\ r_m_disks r = suml (map dk_m (r_disk r)) /\
  r_m_shaft r = suml (map sh_m (r_shaft r)) /\ r_Ip r = suml (map sh_Im (r_shaft r)) + suml (map dk_Ip (r_disk r)) /\
  ((forall k, (k <= r_n_last r)%nat -> exists e, In e (r_shaft r) /\ el_n e = k) -> layers_match r -> r_m r <> 0 ->
   r_m r * r_CG r = suml (map (fun e => sh_m e * (nth (el_n e) (r_nodes_pos r) 0 + sh_cg e)) (r_shaft r))
                  + suml (map (fun e => dk_m e * nth (el_n e) (r_nodes_pos r) 0) (r_disk r))).
Proof.
  intros shafts disks brgs pms r H. pose proof (rotor_facts _ _ _ _ _ H) as F.
  split; [apply F|]. split; [apply F|]. split; [apply F|]. split; [apply F|]. exact (cg_value r F).
Qed.
Example C23_instance : exists r, rotor_init (exS false) (exD false) (exB false) (exP false) = Ok r /\ layers_match r /\
  (forall k, (k <= r_n_last r)%nat -> exists e, In e (r_shaft r) /\ el_n e = k) /\ r_m r <> 0.
Proof.
  destruct (ex_rotor false) as (r & H & X). exists r. split; [exact H|]. split; [apply X|]. split; [apply (reg_shaft _ (xf_reg _ _ X))|].
  rewrite (rf_mass _ (rotor_facts _ _ _ _ _ H)), (xf_disk _ _ X), (xf_shaft _ _ X). unfold suml. simpl. pose proof PI_RGT_0. nra.
Qed.

Print Assumptions C18_numbering_bijective.
Print Assumptions C19_order_irrelevant.
Print Assumptions C19_ignored_contribution.
Print Assumptions C08_rotor_gyroscopic_no_work.
Print Assumptions C20_total_mass.
Print Assumptions C20_mass_positive_definite.
Print Assumptions C21_free_rotor_kernel.
Print Assumptions C21_supported_rotor_definite.
Print Assumptions C22_accepted_is_sane.
Print Assumptions C22_well_formed_accepted.
Print Assumptions C22_mixed_point_mass_refuted.
Print Assumptions C23_mass_and_centre_of_gravity.
