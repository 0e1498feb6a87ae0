(** C31 and C35: intersection of curves, removal of dofs and conversion of 6-dof rotors to 4 dofs. *)
From Coq Require Import Reals String List Arith Lia Lra Bool Permutation Sorted.
From Verif Require Import PyBase MatBase SpecMat MMaterial MShaft MDisk MBearing MRotor SpecShaft SpecRotor
  LMat LShaft LShaft6 LShaftEx LAssembly LRotor LRotor2 LRotorInit2 LRotor6 LRotorEx CMat MDynamics LDynEx MResults SpecResults SpecUtils LResults7 LResults8.
Import ListNotations.
Open Scope list_scope.
Open Scope string_scope.
Open Scope R_scope.

(** ** C31: intersection returns exactly the points where a segment of one curve crosses a segment of the other, the
    parallel ones left out *)
Theorem C31_intersection_iff : forall la c1 c2 p, linalg_ok la ->
  (In p (intersection la c1 c2) <->
   exists a b a' b', consecutive a b c1 /\ consecutive a' b' c2 /\ ~ parallel a b a' b' /\ on_segment p a b /\ on_segment p a' b').
Proof. intros la c1 c2 p Hl. exact (intersection_iff la c1 c2 p Hl). Qed.
Theorem C31_sound : forall la c1 c2 p, linalg_ok la -> In p (intersection la c1 c2) -> on_polyline p c1 /\ on_polyline p c2.
Proof.
  intros la c1 c2 p Hl H. apply (intersection_iff la c1 c2 p Hl) in H. destruct H as (a & b & a' & b' & H1 & H2 & _ & H3 & H4).
  split; [exists a, b|exists a', b']; auto.
Qed.
Theorem C31_complete : forall la c1 c2 p a b a' b', linalg_ok la -> consecutive a b c1 -> consecutive a' b' c2 ->
  ~ parallel a b a' b' -> on_segment p a b -> on_segment p a' b' -> In p (intersection la c1 c2).
Proof. intros la c1 c2 p a b a' b' Hl H1 H2 H3 H4 H5. apply (intersection_iff la c1 c2 p Hl). exists a, b, a', b'. auto. Qed.
(** the order of the curves does not matter for the set of points *)
Theorem C31_symmetric : forall la c1 c2 p, linalg_ok la -> (In p (intersection la c1 c2) <-> In p (intersection la c2 c1)).
Proof.
  intros la c1 c2 p Hl. rewrite !intersection_iff by auto. 
  split; intros (a & b & a' & b' & H1 & H2 & H3 & H4 & H5); exists a', b', a, b; repeat split; auto; intros Q; apply H3; unfold parallel in *; lra.
Qed.
(** overlapping parallel segments are missed *)
Theorem C31_overlap_refuted : forall la, linalg_ok la -> exists c1 c2 p, on_polyline p c1 /\ on_polyline p c2 /\ intersection la c1 c2 = [].
Proof.
  intros la Hl. exists [(0, 0); (2, 0)], [(1, 0); (3, 0)], (3 / 2, 0). split; [|split].
  - exists (0, 0), (2, 0). split; [exists [], []; reflexivity|]. exists (3 / 4). cbn [fst snd]. lra.
  - exists (1, 0), (3, 0). split; [exists [], []; reflexivity|]. exists (1 / 4). cbn [fst snd]. lra.
  - destruct (intersection la [(0, 0); (2, 0)] [(1, 0); (3, 0)]) as [|q l] eqn:E; auto. exfalso.
    assert (H : In q (intersection la [(0, 0); (2, 0)] [(1, 0); (3, 0)])) by (rewrite E; left; auto).
    apply (intersection_iff la _ _ q Hl) in H. destruct H as (a & b & a' & b' & H1 & H2 & H3 & _).
    apply segments_iff in H1. apply segments_iff in H2. destruct H1 as [[= <- <-]|[]]. destruct H2 as [[= <- <-]|[]]. apply H3. unfold parallel. simpl. lra.
Qed.
(** a crossing at a common end of two segments is returned twice *)
Theorem C31_once_refuted : forall la, linalg_ok la -> exists c1 c2, ~ NoDup (intersection la c1 c2).
Proof.
  intros la Hl. exists [(0, 0); (1, 1); (2, 0)], [(0, 1); (2, 1)].
  assert (A : In (1, 1) (seg_meet la ((0, 0) : pt, (1, 1) : pt) ((0, 1) : pt, (2, 1) : pt))).
  { apply seg_meet_iff; auto. cbn [fst snd]. split; [unfold parallel; simpl; lra|]. split; [exists 1|exists (1 / 2)]; cbn [fst snd]; lra. }
  assert (B : In (1, 1) (seg_meet la ((1, 1) : pt, (2, 0) : pt) ((0, 1) : pt, (2, 1) : pt))).
  { apply seg_meet_iff; auto. cbn [fst snd]. split; [unfold parallel; simpl; lra|]. split; [exists 0|exists (1 / 2)]; cbn [fst snd]; lra. }
  unfold intersection. cbn [segments flat_map]. rewrite !app_nil_r.
  destruct (seg_meet_one la _ _ _ _ A A) as [-> _]. destruct (seg_meet_one la _ _ _ _ B B) as [-> _].
  intros N. inversion N as [|x l H1 H2]; subst. apply H1. left. auto.
Qed.
Example C31_instance : exists la, linalg_ok la /\ In (1, 1) (intersection la [(0, 0); (2, 2)] [(0, 2); (2, 0)]).
Proof.
  exists la0. split; [exact la0_ok|]. apply (C31_complete la0 _ _ _ (0, 0) (2, 2) (0, 2) (2, 0)); [exact la0_ok|exists [], []; reflexivity|exists [], []; reflexivity| | |].
  - unfold parallel. simpl. lra.
  - exists (1 / 2). simpl. lra.
  - exists (1 / 2). simpl. lra.
Qed.

(** ** C35 *)
(** the kept indices are the others, in increasing order *)
Theorem C35_remove_dofs : forall n M ds, (forall d, In d ds -> (d < n)%nat) -> exists k A, remove_dofs (n, M) (Some ds) = Ok (length k, A) /\
  StronglySorted lt k /\ (forall i, In i k <-> (i < n)%nat /\ ~ In i ds) /\
  forall i j, (i < length k)%nat -> (j < length k)%nat -> A i j = M (nth i k 0%nat) (nth j k 0%nat).
Proof.
  intros n M ds H. exists (kept_idx n ds). unfold remove_dofs. cbn [default].
  assert (E : forallb (fun d => d <? n)%nat ds = true) by (apply forallb_forall; intros x Hx; apply Nat.ltb_lt; auto). rewrite E. cbn [negb].
  eexists. split; [reflexivity|]. split; [apply kept_sorted|]. split; [intros i; apply kept_in|auto].
Qed.
Theorem C35_remove_rejected_iff : forall n M ds, (exists e, remove_dofs (n, M) (Some ds) = Err e) <-> exists d, In d ds /\ (n <= d)%nat.
Proof.
  intros n M ds. unfold remove_dofs. cbn [default]. destruct (forallb (fun d => d <? n)%nat ds) eqn:E; cbn [negb]; split.
  - intros [e H]; discriminate.
  - intros (d & Hd & Q). rewrite forallb_forall in E. apply E in Hd. apply Nat.ltb_lt in Hd. lia.
  - intros _. apply not_true_iff_false in E. destruct (existsb (fun d => n <=? d)%nat ds) eqn:X.
    + apply existsb_exists in X. destruct X as (d & Hd & Q). apply Nat.leb_le in Q. eauto.
    + exfalso. apply E. apply forallb_forall. intros d Hd. apply Nat.ltb_lt. destruct (le_lt_dec n d); auto. exfalso.
      apply not_true_iff_false in X. apply X. apply existsb_exists. exists d. split; auto. apply Nat.leb_le; auto.
  - eauto.
Qed.
(** by default z and theta (and the z of the supports) go; two of three dofs stay *)
Theorem C35_remove_default : forall m M, exists A, remove_dofs (3 * m, M)%nat None = Ok (2 * m, A)%nat /\
  forall a b c d, (a < m)%nat -> (b < m)%nat -> (c < 2)%nat -> (d < 2)%nat -> A (2 * a + c)%nat (2 * b + d)%nat = M (3 * a + c)%nat (3 * b + d)%nat.
Proof.
  intros m M. destruct (remove_third m M) as (A & E & H). exists A. split; auto. intros a b c d Ha Hb Hc Hd. rewrite H by lia.
  fold (up3 (2 * a + c)) (up3 (2 * b + d)). rewrite !up3_add. assert (Q : forall x, (x < 2)%nat -> up3 x = x) by (intros [|[|x]] Hx; [reflexivity|reflexivity|lia]).
  rewrite !Q; auto.
Qed.
(** A converted rotor is the rotor made of the same elements with lateral dofs only: same number of dofs, mass, stiffness and
    damping matrix for every frequency and every set of ignored elements; the gyroscopic matrix too when the shaft is cylindrical. *)
Lemma six_all shafts disks brgs pms r : rotor_init shafts disks brgs pms = Ok r -> r_nd r = 6%nat -> (forall p, In p pms -> rp_six p = true) ->
  forall e, In e (r_elements r) -> six_elem e.
Proof.
  intros H N P e He. pose proof (rotor_facts _ _ _ _ _ H) as F. pose proof (rf_fam _ F e He) as Q. rewrite N in Q.
  destruct (rotor_init_lists _ _ _ _ _ H) as (_ & _ & _ & Ep).
  destruct e as [six n t s|six t d|t [x b|b]|six t p]; cbn in Q |- *; unfold fam in Q; try (destruct six; congruence); try discriminate; auto.
  apply (rf_pm_in _ _ _ _ F) in He. rewrite Ep in He. apply mapi_in in He. destruct He as (j & x & Hx & E). injection E; intros; subst. auto.
Qed.
Theorem C35_conversion : forall shafts disks brgs pms r, rotor_init shafts disks brgs pms = Ok r -> r_nd r = 6%nat -> (forall p, In p pms -> rp_six p = true) ->
  exists r4, rotor_init (map lat_shaft shafts) (map lat_disk disks) (map lat_brg brgs) (map lat_pm pms) = Ok r4 /\ r_nd r4 = 4%nat /\
  r_nodes_pos r4 = r_nodes_pos r /\ r_m r4 = r_m r /\ r_CG r4 = r_CG r /\ r_Ip r4 = r_Ip r /\
  let same A6 A4 := forall A, A6 = Ok A -> exists B B', converted r A6 = Ok (r_ndof r4, B) /\ A4 = Ok B' /\ meq (r_ndof r4) B B' in
  forall spl, (forall freq, same (rotor_M spl r freq) (rotor_M spl r4 freq)) /\
    (forall freq ig, same (rotor_K spl r freq ig) (rotor_K spl r4 freq ig)) /\
    (forall freq ig, same (rotor_C spl r freq ig) (rotor_C spl r4 freq ig)) /\
    ((forall e, In e (r_shaft r) -> good_cylinder e) -> same (rotor_G spl r) (rotor_G spl r4)).
Proof.
  intros shafts disks brgs pms r H N P. pose proof (six_all _ _ _ _ _ H N P) as S6. pose proof (rotor_facts _ _ _ _ _ H) as F.
  destruct (lat_init _ _ _ _ _ H S6) as (r4 & H4 & E1 & E2 & E3 & E4 & N4 & L4 & NP & X1 & X2 & X3). pose proof (rotor_facts _ _ _ _ _ H4) as F4.
  exists r4. do 6 (split; [auto|]). intros same spl.
  assert (PM : pm_matches r).
  { intros six t p Hp. assert (Q := S6 (EPm six t p)). unfold r_elements in Q. rewrite !in_app_iff in Q. cbn in Q. rewrite Q by auto. auto. }
  assert (PM4 : pm_matches r4).
  { intros six t p Hp. rewrite E4 in Hp. apply in_map_iff in Hp. destruct Hp as ([| | |six' t' p'] & Q & _); try discriminate. injection Q; intros; subst. auto. }
  assert (EL : r_elements r4 = map lat_elem (r_elements r)) by (unfold r_elements; rewrite E1, E2, E3, E4, !map_app; reflexivity).
  assert (KE : forall ig, kept ig (r_elements r4) = map lat_elem (kept ig (r_elements r))).
  { intros ig. unfold kept. rewrite EL. apply filter_lat. intros e. rewrite lat_tag. reflexivity. }
  assert (LP : length (r_pm r4) = length (r_pm r)) by (rewrite E4; apply map_length).
  assert (GO : forall w f l, mkind spl w f -> incl l (r_elements r) -> (forall e, In e l -> same_lat f e) -> same (assemble (r_ndof r) (r_dofs r) f l mzero) (assemble (r_ndof r4) (r_dofs r4) f (map lat_elem l) mzero)).
  { intros w f l Hk Hi Hs A HA. destruct (lat_assembled spl w f r r4 l A F PM F4 PM4 Hk N N4 L4 LP Hi) as (B & B' & Q1 & Q2 & Q3); auto.
    - rewrite EL. intros x Hx. apply in_map_iff in Hx. destruct Hx as (y & <- & Hy). apply in_map. auto.
    - exists B, B'. split; [|auto]. rewrite HA. exact Q1. }
  split; [|split; [|split]].
  - intros freq. unfold rotor_M. rewrite EL. apply (GO (default 0 freq)); [constructor|apply incl_refl|]. intros e He. apply same_lat_M. auto.
  - intros freq ig. unfold rotor_K. rewrite KE. apply (GO freq); [constructor|apply kept_incl|]. intros e He. apply kept_incl in He. apply same_lat_K. auto.
  - intros freq ig. unfold rotor_C. rewrite KE. apply (GO freq); [constructor|apply kept_incl|]. intros e He. apply kept_incl in He. apply same_lat_C. auto.
  - intros Hc. unfold rotor_G. rewrite EL. apply (GO 0); [constructor|apply incl_refl|]. intros e He. apply same_lat_G; auto.
    destruct e; cbn; auto. unfold r_elements in He. rewrite !in_app_iff in He. destruct He as [He|[He|[He|He]]]; [exact (Hc _ He)| | |].
    + destruct (rf_disk _ F _ He) as (? & ? & ? & ?); discriminate.
    + destruct (rf_brg _ F _ He) as (? & ? & ?); discriminate.
    + destruct (rf_pm _ F _ He) as (? & ? & ? & ?); discriminate.
Qed.
(** not so with a conical element: one hollow cone is enough *)
Definition cone_args : shaft_args := mkShaftArgs 1 0 2 None (Some 4) (Some ex_material) (Some 0%nat) 0 0 true true true Cowper (Some "s0") 0 0.
Definition cone_shaft : shaft := match shaft_init cone_args with Ok s => s | Err _ => ex_shaft 0 "s0" end.
Lemma cone_init : shaft_init cone_args = Ok cone_shaft. Proof. reflexivity. Qed.
Lemma cone_good : good_args cone_args.
Proof. split; [unfold good_geometry, right_id, right_od; simpl; lra|]. exists ex_material; split; [reflexivity|]. unfold good_material; simpl; lra. Qed.
Lemma cone_wf : well_formed [mkRShaft true cone_shaft] [] [] [] 0.
Proof.
  constructor; try (intros ? []; fail).
  - exists ["s0"]. split; [reflexivity|]. repeat constructor. intros [].
  - exists true. repeat split; intros x Hx; cases_in; reflexivity.
  - intros s Hs; cases_in. exists 0%nat. split; [reflexivity|lia].
  - intros [|k] Hk; [|lia]. exists (mkRShaft true cone_shaft). split; [left|]; reflexivity.
  - intros s s' Hs Hs'; cases_in; reflexivity.
  - intros s Hs; cases_in; simpl; lra.
  - constructor.
  - intros b m [].
Qed.
Theorem C35_conversion_gyro_refuted : exists shafts r r4, rotor_init shafts [] [] [] = Ok r /\ r_nd r = 6%nat /\ (forall s, In s shafts -> exists a, shaft_init a = Ok (rs_s s) /\ good_args a) /\
  rotor_init (map lat_shaft shafts) [] [] [] = Ok r4 /\
  forall spl, exists A B B', rotor_G spl r = Ok A /\ converted r (Ok A) = Ok (r_ndof r4, B) /\ rotor_G spl r4 = Ok B' /\ ~ meq (r_ndof r4) B B'.
Proof.
  destruct (init_ok _ _ _ _ _ cone_wf) as (r & H & E & Hl & Hc & _). pose proof (rotor_facts _ _ _ _ _ H) as F.
  destruct (rotor_init_lists _ _ _ _ _ H) as (Es & Ed & Eb & Ep). change (sort_n _) with [EShaft true 0 "s0" cone_shaft] in Es. simpl in Ed, Eb, Ep.
  assert (N : r_nd r = 6%nat) by (apply (el_fam_nd r true 0 "s0" cone_shaft); [exact F|rewrite Es; left; reflexivity]).
  assert (S6 := six_all _ _ _ _ _ H N ltac:(intros p [])).
  destruct (lat_init _ _ _ _ _ H S6) as (r4 & H4 & E1 & E2 & E3 & E4 & N4 & L4 & _). pose proof (rotor_facts _ _ _ _ _ H4) as F4.
  exists [mkRShaft true cone_shaft], r, r4. split; [exact H|]. split; [exact N|]. split.
  { intros s Hs; cases_in. exists cone_args. split; [apply cone_init|apply cone_good]. }
  split; [exact H4|]. intros spl.
  assert (D : r_ndof r = 12%nat) by (rewrite (rf_ndof _ F), N, E, Ep; reflexivity).
  assert (D4 : r_ndof r4 = 8%nat) by (rewrite (rf_ndof _ F4), N4, L4, E, E4, Ep; reflexivity).
  assert (EL : r_elements r = [EShaft true 0 "s0" cone_shaft]) by (unfold r_elements; rewrite Es, Ed, Eb, Ep; reflexivity).
  assert (EL4 : r_elements r4 = [EShaft false 0 "s0" cone_shaft]) by (unfold r_elements; rewrite E1, E2, E3, E4, Es, Ed, Eb, Ep; reflexivity).
  assert (HA : rotor_G spl r = Ok (fun i j => match last_index i (seq 0 12), last_index j (seq 0 12) with Some a, Some b => mzero i j + shaft6_G cone_shaft a b | _, _ => mzero i j end)).
  { unfold rotor_G. rewrite EL, D. unfold r_dofs. rewrite N, E. reflexivity. }
  assert (HB : rotor_G spl r4 = Ok (fun i j => match last_index i (seq 0 8), last_index j (seq 0 8) with Some a, Some b => mzero i j + shaft_G cone_shaft a b | _, _ => mzero i j end)).
  { unfold rotor_G. rewrite EL4, D4. unfold r_dofs. rewrite N4, L4, E. reflexivity. }
  rewrite HA. eexists. destruct (remove_third 4 (fun i j => match last_index i (seq 0 12), last_index j (seq 0 12) with Some a, Some b => mzero i j + shaft6_G cone_shaft a b | _, _ => mzero i j end)) as (B & HR & EB).
  exists B. eexists. split; [reflexivity|]. split; [unfold converted, bind; rewrite D, D4; exact HR|]. split; [exact HB|]. rewrite D4. intros Q.
  assert (R : meq 8 (fun i j => shaft6_G cone_shaft (lat6 i) (lat6 j)) (shaft_G cone_shaft)).
  { intros i j Hi Hj. specialize (Q i j Hi Hj). rewrite EB in Q by lia. fold (up3 i) (up3 j) in Q. rewrite <- !lat6_up3 in Q by lia. revert Q.
    assert (Z : forall k, (k < 8)%nat -> last_index (lat6 k) (seq 0 12) = Some (lat6 k) /\ last_index k (seq 0 8) = Some k).
    { intros k Hk. do 8 (destruct k as [|k]; [split; reflexivity|]). lia. }
    destruct (Z i Hi) as [-> ->]. destruct (Z j Hj) as [-> ->]. unfold mzero. rewrite !Rplus_0_l. auto. }
  apply (shaft6_G_lat_conv _ _ cone_init cone_good eq_refl) in R.
  assert (V : s_phi cone_shaft = 63 / 4 /\ s_gama cone_shaft = 4).
  { pose proof PI_RGT_0. split; cbn; field; lra. }
  destruct V as [V1 V2]. rewrite V1, V2 in R. lra.
Qed.
Example C35_instance : exists shafts disks brgs pms r, rotor_init shafts disks brgs pms = Ok r /\ r_nd r = 6%nat /\ (forall p, In p pms -> rp_six p = true) /\
  pms <> [] /\ (forall e, In e (r_shaft r) -> good_cylinder e) /\ forall spl, exists A, rotor_K spl r 0 [] = Ok A.
Proof.
  destruct (ex_rotor true) as (r & H & X). exists (exS true), (exD true), (exB true), (exP true), r. split; [exact H|]. split; [apply X|]. split; [|split; [|split]].
  - unfold exP. intros p Hp; cases_in; reflexivity.
  - discriminate.
  - rewrite (xf_shaft _ _ X). intros e He. cases_in; cbn; [exists (ex_sargs 0 "s0")|exists (ex_sargs 1 "s1")]; (split; [reflexivity|]); (split; [apply ex_sargs_good|]); split; reflexivity.
  - intros spl. destruct (assembled_exists spl 0 (el_K spl 0) r (r_elements r) (rotor_facts _ _ _ _ _ H) (xf_reg _ _ X) (xf_links _ _ X) (is_K _ _) (incl_refl _)) as [A HA].
    + intros e He. destruct (rotor_init_lists _ _ _ _ _ H) as (Es & Ed & Eb & Ep). unfold r_elements in He. rewrite !in_app_iff, (xf_shaft _ _ X), Ed, Eb, Ep, sort_n_in in He. unfold exD, exB, exP in He.
      destruct He as [He|[He|[He|He]]]; cbn [mapi] in He; cases_in; eexists; reflexivity.
    + exists A. unfold rotor_K. rewrite kept_nil. exact HA.
Qed.

Print Assumptions C31_intersection_iff.
Print Assumptions C31_overlap_refuted.
Print Assumptions C31_once_refuted.
Print Assumptions C35_remove_dofs.
Print Assumptions C35_remove_default.
Print Assumptions C35_conversion.
Print Assumptions C35_conversion_gyro_refuted.
