(** C48: static analysis. *)
From Coq Require Import Reals String List Arith Bool Lia Lra Permutation Sorted.
From Verif Require Import PyBase PyDict MatBase CMat SpecMat LMat MMaterial LMaterial MShaft MDisk MBearing MRotor SpecBeam SpecShaft SpecRotor LShaft LShaftEnergy LShaftProps LShaft6 LShaftEx LBearing LBearing2
  LAssembly LRotor LRotor2 LRotor3 LRotor4 LRotor5 LRotor6 LRotor7 LRotorInit LRotorInit2 LRotorInit3 LRotorEx MDynamics LDynEx MResults MSection LSection LSection2 MStatic SpecStatic LResults7 LResults8 LStatic LStatic2 LStatic3 LStatic4 LStatic5 LStatic6 LStatic7.
Import ListNotations.
Open Scope list_scope.
Open Scope string_scope.
Open Scope R_scope.

Lemma cnt_count r k : cnt r k = INR (support_count r k).
Proof.
  unfold cnt, support_count. induction (supports r) as [|n l IH]; [reflexivity|]. cbn [map filter]. unfold suml in *. cbn [fold_right]. rewrite IH, (Nat.eqb_sym k n).
  destruct (Nat.eqb n k); [cbn [length]; rewrite S_INR; ring|ring].
Qed.
Lemma work_ext f r x y x' y' e : (forall i, x i = x' i) -> (forall i, y i = y' i) -> work f r x y e = work f r x' y' e.
Proof. intros H1 H2. unfold work. apply bform_vext; intros i _; unfold gather; auto. Qed.
Lemma brg_nodal_facts spl r ra u nodal weight : rfacts r -> core spl r ra u nodal weight ->
  let d := st_brg_nodal (result_of r ra u nodal weight) in
  NoDup (keys d) /\ (forall p, In p d -> snd p = reaction_of nodal weight (fst p)) /\ (forall n, In n (keys d) <-> In n (supports r)).
Proof.
  intros F C. cbn [st_brg_nodal result_of]. destruct (nset_fold el_n (reaction_of nodal weight) (r_brg ra) [] ltac:(constructor) ltac:(intros p [])) as (D1 & D2 & D3).
  split; [exact D1|]. split; [exact D2|]. intros n. rewrite D3. pose proof (aux_brg_nodes _ _ _ (co_aux _ _ _ _ _ _ C)) as Pm. cbn [keys map In].
  split; [intros [[]|H]; apply (Permutation_in _ Pm H)|intros H; right; apply (Permutation_in _ (Permutation_sym Pm) H)].
Qed.

(** The deflection is in equilibrium: for every virtual lateral displacement v, the work of the elastic forces of the
    shaft plus that of the supports (stiffness 10^20 at every node that carries the shaft) equals the work of the weight of the shaft elements and disks.
    The reported reactions are the forces of those supports. *)
Theorem C48_equilibrium : forall la spl shafts disks brgs pms r st, rotor_init shafts disks brgs pms = Ok r -> apart r -> linalg_ok la ->
  run_static la spl r = Ok st ->
  exists u, lateral_motion r u /\
    (length (st_displacement_y st) = r_n_last r + 2)%nat /\
    (forall k, (k < r_n_last r + 2)%nat -> nth k (st_displacement_y st) 0 = u (r_nd r * k + 1)%nat) /\
    (forall v, lateral_motion r v ->
       suml (map (work (el_K spl 0) r v u) (r_shaft r)) + 10 ^ 20 * suml (map (support_work r v u) (supports r))
       = - g0 * suml (map (work (el_M spl 0) r v (lift r)) ((r_shaft r ++ r_disk r)%list))) /\
    (forall k F, lookup (st_brg_nodal st) k = Some F <-> In k (supports r) /\ F = - 10 ^ 20 * INR (support_count r k) * u (r_nd r * k + 1)%nat).
Proof.
  intros la spl shafts disks brgs pms r st H Ha Hla Hst. pose proof (rotor_facts _ _ _ _ _ H) as F.
  destruct (run_static_inv la spl r st F Ha Hla Hst) as (ra & u & nodal & weight & C & ->).
  assert (Eu : forall k, wide (r_nd r) u (r_nd r * k + 1)%nat = u (4 * k + 1)%nat).
  { intros k. rewrite <- (wide_node (r_nd r) u k 1 (rf_nd _ F)) by lia. f_equal. unfold rot. destruct (rf_nd _ F) as [-> | ->]; reflexivity. }
  exists (wide (r_nd r) u). split; [apply wide_lateral|]. split; [cbn [st_displacement_y result_of]; rewrite map_length, seq_length; reflexivity|].
  split.
  { intros k Hk. cbn [st_displacement_y result_of]. rewrite (nth_indep _ 0 ((fun k => u (4 * k + 1)%nat) 0%nat)) by (rewrite map_length, seq_length; exact Hk).
    rewrite (map_nth (fun k => u (4 * k + 1)%nat)), seq_nth by exact Hk. rewrite Eu. reflexivity. }
  split.
  - intros v Hv. set (w := narrow (r_nd r) v). pose proof (wide_narrow r v (rf_nd _ F) Hv) as Ev. fold w in Ev.
    pose proof (co_eq _ _ _ _ _ _ C w) as E. rewrite <- (wide_G r w u (rf_nd _ F)) in E. unfold W, P in E.
    rewrite (suml_map_ext (work (el_K spl 0) r v (wide (r_nd r) u)) (work (el_K spl 0) r (wide (r_nd r) w) (wide (r_nd r) u))) by (intros e _; apply work_ext; auto).
    rewrite (suml_map_ext (support_work r v (wide (r_nd r) u)) (support_work r (wide (r_nd r) w) (wide (r_nd r) u))) by (intros n _; unfold support_work; rewrite !Ev; reflexivity).
    rewrite (suml_map_ext (work (el_M spl 0) r v (lift r)) (work (el_M spl 0) r (wide (r_nd r) w) (wide (r_nd r) up4))) by (intros e _; apply work_ext; [auto|intros i; symmetry; apply (up4_lift r (rf_nd _ F))]).
    exact E.
  - intros k Fo. destruct (brg_nodal_facts spl r ra u nodal weight F C) as (D1 & D2 & D3). rewrite (lookup_in _ _ _ D1). rewrite Eu, <- cnt_count. split.
    + intros I. assert (Hk : In k (supports r)) by (apply D3; change k with (fst (k, Fo)); apply in_map, I). split; [exact Hk|].
      pose proof (D2 _ I) as E. cbn [fst snd] in E. rewrite E. apply (reaction_value spl r ra u nodal weight C). apply (support_node r F k Hk).
    + intros [Hk ->]. rewrite <- (reaction_value spl r ra u nodal weight C) by apply (support_node r F k Hk). apply D3 in Hk. unfold keys in Hk. apply in_map_iff in Hk as ([k' v'] & E & Hk). cbn [fst] in E. subst k'.
      pose proof (D2 _ Hk) as E. cbn [fst snd] in E. rewrite <- E. exact Hk.
Qed.

(** The reactions carry the weight of the rotor, acting at its centre of gravity. *)
Theorem C48_reactions : forall la spl shafts disks brgs pms r st, rotor_init shafts disks brgs pms = Ok r -> apart r -> linalg_ok la -> layers_match r ->
  (forall e, In e (r_shaft r) -> no_load e) -> run_static la spl r = Ok st ->
  NoDup (map fst (st_brg_nodal st)) /\ (forall n, In n (map fst (st_brg_nodal st)) <-> In n (supports r)) /\
  suml (map snd (st_brg_nodal st)) = g0 * r_m r /\
  (r_m r <> 0 -> suml (map (fun p => zpos r (fst p) * snd p) (st_brg_nodal st)) = g0 * r_m r * r_CG r).
Proof.
  intros la spl shafts disks brgs pms r st H Ha Hla Hl Hs Hst. pose proof (rotor_facts _ _ _ _ _ H) as F.
  destruct (run_static_inv la spl r st F Ha Hla Hst) as (ra & u & nodal & weight & C & ->).
  pose proof (cover_of r F (co_cover _ _ _ _ _ _ C)) as Hc. destruct (brg_nodal_facts spl r ra u nodal weight F C) as (D1 & D2 & D3).
  split; [exact D1|]. split; [exact D3|]. set (d := st_brg_nodal (result_of r ra u nodal weight)) in *.
  assert (S : forall h : nat -> R, suml (map (fun p => h (fst p) * snd p) d) = - 10 ^ 20 * suml (map (fun n => h n * u (4 * n + 1)%nat) (supports r))).
  { intros h. rewrite (suml_map_ext _ (fun p => (fun k => - 10 ^ 20 * ((h k * u (4 * k + 1)%nat) * cnt r k)) (fst p))).
    2:{ intros p Hp. rewrite (D2 p Hp). assert (Hk : In (fst p) (supports r)) by (apply D3; apply in_map, Hp). rewrite (reaction_value spl r ra u nodal weight C) by apply (support_node r F _ Hk). ring. }
    rewrite <- (map_map fst (fun k => - 10 ^ 20 * ((h k * u (4 * k + 1)%nat) * cnt r k))). rewrite suml_map_scal. f_equal. unfold cnt. apply keys_sum; [exact D1|]. intros n Hn. apply D3. exact Hn. }
  split.
  - pose proof (balance spl r F Hc Hl Hs ra u nodal weight C 1 0 (or_introl eq_refl)) as E. rewrite <- (S (fun n => 1 + 0 * zpos r n)) in E.
    rewrite (suml_map_ext _ snd) in E by (intros; ring). rewrite E. ring.
  - intros Hm. pose proof (balance spl r F Hc Hl Hs ra u nodal weight C 0 1 (or_intror Hm)) as E. rewrite <- (S (fun n => 0 + 1 * zpos r n)) in E.
    rewrite (suml_map_ext (fun p => (0 + 1 * zpos r (fst p)) * snd p) (fun p => zpos r (fst p) * snd p)) in E by (intros; ring). rewrite E. ring.
Qed.

(** Shearing force and bending moment of a shaft of cylinders (two elements or more): every row is the resultant (the moment) of all loads
    to the right of the two ends of an element. *)
Lemma cyl_args e : no_load e -> cylinder e -> plain_cyl e.
Proof.
  destruct e as [six n t s| | |]; simpl; auto. intros (a & Hi & Hg & _) (a' & Hi' & C1 & C2). exists a. split; [exact Hi|]. split; [exact Hg|].
  pose proof (shaft_init_facts _ _ Hi) as F. pose proof (shaft_init_facts _ _ Hi') as F'. split.
  - rewrite <- (f_idr _ _ F), <- (f_idl _ _ F), (f_idr _ _ F'), (f_idl _ _ F'). exact C1.
  - rewrite <- (f_odr _ _ F), <- (f_odl _ _ F), (f_odr _ _ F'), (f_odl _ _ F'). exact C2.
Qed.
Lemma map_seq_ext {A} (f g : nat -> A) n : (forall j, (j < n)%nat -> f j = g j) -> map f (seq 0 n) = map g (seq 0 n).
Proof. intros H. apply map_ext_in. intros j Hj. apply in_seq in Hj. apply H. lia. Qed.
Lemma force_reaction spl r ra u nodal weight k : rfacts r -> core spl r ra u nodal weight -> (k <= r_n_last r + 1)%nat ->
  force_at (st_brg_nodal (result_of r ra u nodal weight)) k = reaction_of nodal weight k.
Proof.
  intros F C Hk. destruct (brg_nodal_facts spl r ra u nodal weight F C) as (D1 & D2 & D3). unfold force_at.
  destruct (lookup (st_brg_nodal (result_of r ra u nodal weight)) k) as [v|] eqn:E.
  - apply (lookup_in _ _ _ D1) in E. apply D2 in E. exact E.
  - cbn [default]. symmetry. apply (react_zero spl r ra u nodal weight C k Hk). intros X. apply D3 in X. unfold keys in X. apply in_map_iff in X as ([k' v'] & E' & X). cbn [fst] in E'. subst k'.
    apply (lookup_in _ _ _ D1) in X. congruence.
Qed.
Lemma node_load_ext r f g k : f k = g k -> node_load r f k = node_load r g k.
Proof. intros H. unfold node_load. rewrite H. reflexivity. Qed.
Lemma resultant_ext r f g j i : (forall k, (k <= r_n_last r + 1)%nat -> f k = g k) -> resultant r f j i = resultant r g j i.
Proof. intros H. unfold resultant. f_equal. apply suml_map_ext. intros k Hk. apply in_seq in Hk. apply node_load_ext, H. lia. Qed.
Lemma moment_ext r f g j : (forall k, (k <= r_n_last r + 1)%nat -> f k = g k) -> moment_right r f j = moment_right r g j.
Proof. intros H. unfold moment_right. f_equal. apply suml_map_ext. intros k Hk. apply in_seq in Hk. rewrite (node_load_ext r f g k) by (apply H; lia). reflexivity. Qed.
Theorem C48_diagrams : forall la spl shafts disks brgs pms r st, rotor_init shafts disks brgs pms = Ok r -> apart r -> linalg_ok la -> layers_match r ->
  (forall e, In e (r_shaft r) -> no_load e) -> (forall e, In e (r_shaft r) -> cylinder e) -> run_static la spl r = Ok st -> (1 <= r_n_last r)%nat ->
  let react := force_at (st_brg_nodal st) in
  let rows := seq 0 (r_n_last r + 1) in
  st_axis st = map (fun j => (zpos r j, zpos r (S j))) rows /\
  st_Vx st = map (fun j => (resultant r react j j, resultant r react j (S j))) rows /\
  st_Bm st = map (fun j => (- moment_right r react j, - moment_right r react (S j))) rows.
Proof.
  intros la spl shafts disks brgs pms r st H Ha Hla Hl Hs Hcy Hst HN. pose proof (rotor_facts _ _ _ _ _ H) as F.
  destruct (run_static_inv la spl r st F Ha Hla Hst) as (ra & u & nodal & weight & C & ->).
  pose proof (cover_of r F (co_cover _ _ _ _ _ _ C)) as Hc. pose proof (fun e He => cyl_args e (Hs e He) (Hcy e He)) as Hy.
  assert (EN : (length (r_nodes_pos r) - 1 = r_n_last r + 1)%nat) by (rewrite (nodes_pos_length r F Hc); lia).
  assert (Er : forall k, (k <= r_n_last r + 1)%nat -> force_at (st_brg_nodal (result_of r ra u nodal weight)) k = reaction_of nodal weight k) by (intros; apply (force_reaction spl); auto).
  cbv zeta. split; [|split]; cbn [st_axis st_Vx st_Bm result_of]; rewrite EN; apply map_seq_ext; intros j Hj.
  - apply (ax_row r Hc j Hj).
  - rewrite (v_row spl r F Hc Hl Hs Hy ra u nodal weight C j ltac:(lia) Hj). rewrite !(resultant_ext r _ _ _ _ Er). reflexivity.
  - rewrite (m_row spl r F Hc Hl Hs Hy ra u nodal weight C j ltac:(lia) Hj). rewrite !(moment_ext r _ _ _ Er). reflexivity.
Qed.

Lemma NoDup_app_r {A} (l l' : list A) : NoDup (l ++ l')%list -> NoDup l'.
Proof. induction l as [|a l IH]; [auto|]. intros H. apply IH. apply NoDup_cons_iff in H. apply H. Qed.

(** Weight of the shaft, and of the disks by node and by tag; reactions by tag. *)
Lemma dset_fold {A} (key : A -> string) (val : A -> R) l : forall d, NoDup (map key l) ->
  let d' := fold_left (fun d e => dset d (key e) (val e)) l d in
  (forall e, In e l -> dget d' (key e) = Some (val e)) /\ (forall k, ~ In k (map key l) -> dget d' k = dget d k).
Proof.
  induction l as [|a l IH]; intros d Hn; cbv zeta; cbn [fold_left].
  - split; [intros e []|reflexivity].
  - cbn [map] in Hn. apply NoDup_cons_iff in Hn as [N1 N2]. destruct (IH (dset d (key a) (val a)) N2) as [I1 I2]. split.
    + intros e [<-|He]; [|apply I1, He]. rewrite I2 by exact N1. apply dget_dset_same.
    + intros k Hk. cbn [map In] in Hk. rewrite I2 by tauto. apply dget_dset_other. intros E. apply Hk. left. exact E.
Qed.
Lemma nset_get d n v : lookup (nset d n v) n = Some v.
Proof. induction d as [|[m w] d IH]; cbn [nset lookup]; [rewrite Nat.eqb_refl; reflexivity|]. destruct (Nat.eqb_spec n m) as [->|N]; cbn [lookup]; [rewrite Nat.eqb_refl; reflexivity|]. destruct (Nat.eqb_spec n m); [congruence|exact IH]. Qed.
Lemma nset_get_other d n v k : k <> n -> lookup (nset d n v) k = lookup d k.
Proof.
  intros N. induction d as [|[m w] d IH]; cbn [nset lookup]; [destruct (Nat.eqb_spec k n); [congruence|reflexivity]|].
  destruct (Nat.eqb_spec n m) as [->|N']; cbn [lookup]; [destruct (Nat.eqb_spec k m); [congruence|reflexivity]|]. destruct (Nat.eqb k m); [reflexivity|exact IH].
Qed.
(** the last value written for a node is the one kept *)
Lemma nset_last {A} (key : A -> nat) (val : A -> R) l : forall d,
  let d' := fold_left (fun d e => nset d (key e) (val e)) l d in
  (forall l1 e l2, l = (l1 ++ e :: l2)%list -> (forall e', In e' l2 -> key e' <> key e) -> lookup d' (key e) = Some (val e)) /\ (forall k, ~ In k (map key l) -> lookup d' k = lookup d k).
Proof.
  induction l as [|a l IH]; intros d; cbv zeta; cbn [fold_left].
  - split; [intros [|? ?] e l2 E; discriminate|reflexivity].
  - destruct (IH (nset d (key a) (val a))) as [I1 I2]. split.
    + intros [|b l1] e l2 E Hl; cbn [app] in E; injection E as -> ->.
      * rewrite I2; [apply nset_get|]. intros X. apply in_map_iff in X as (e' & E & He'). apply (Hl e' He' E).
      * apply (I1 l1 e l2 eq_refl Hl).
    + intros k Hk. cbn [map In] in Hk. rewrite I2 by tauto. apply nset_get_other. intros ->. apply Hk. left. reflexivity.
Qed.
Theorem C48_weights : forall la spl shafts disks brgs pms r st, rotor_init shafts disks brgs pms = Ok r -> apart r -> linalg_ok la ->
  run_static la spl r = Ok st ->
  st_w_shaft st = g0 * r_m_shaft r /\
  (forall e, In e (r_disk r) -> dget (st_disk_tag st) (el_tag e) = Some (g0 * dk_m e)) /\
  (forall l1 e l2, r_disk r = (l1 ++ e :: l2)%list -> (forall e', In e' l2 -> el_n e' <> el_n e) -> lookup (st_disk_nodal st) (el_n e) = Some (g0 * dk_m e)).
Proof.
  intros la spl shafts disks brgs pms r st H Ha Hla Hst. pose proof (rotor_facts _ _ _ _ _ H) as F.
  destruct (run_static_inv la spl r st F Ha Hla Hst) as (ra & u & nodal & weight & C & ->). pose proof (co_aux _ _ _ _ _ _ C) as Fa.
  cbn [st_w_shaft st_disk_tag st_disk_nodal result_of]. split; [rewrite (rf_mshaft _ F); unfold grav, g0; ring|]. rewrite (af_disk _ _ _ Fa).
  split.
  - intros e He. pose proof (rf_tags _ F) as T. apply tags_unique_iff in T. unfold r_elements in T. rewrite map_app in T. apply NoDup_app_r in T. rewrite map_app in T. apply NoDup_app_l in T.
    destruct (dset_fold el_tag (fun e => - dk_m e * grav) (map place_elem (r_disk r)) []) as [D _].
    + rewrite map_map, (map_ext (fun e => el_tag (place_elem e)) el_tag) by (intros; apply place_tag). exact T.
    + specialize (D (place_elem e) (in_map _ _ _ He)). rewrite place_tag, place_dm in D. rewrite D. f_equal. unfold grav, g0. ring.
  - intros l1 e l2 E Hl. destruct (nset_last el_n (fun e => - dk_m e * grav) (map place_elem (r_disk r)) []) as [D _].
    specialize (D (map place_elem l1) (place_elem e) (map place_elem l2)). rewrite place_n, place_dm in D. rewrite D.
    + f_equal. unfold grav, g0. ring.
    + rewrite E, map_app. reflexivity.
    + intros e' He'. apply in_map_iff in He' as (x & <- & Hx). rewrite place_n. apply Hl, Hx.
Qed.
(** The reactions by tag never use the tags of the bearings of the rotor: the keys are "Bearing 0", "Bearing 1", ... for the bearings that carry the shaft, in node order. *)
Theorem C48_reaction_tags : forall la spl shafts disks brgs pms r st, rotor_init shafts disks brgs pms = Ok r -> apart r -> linalg_ok la ->
  run_static la spl r = Ok st ->
  (forall i, (i < length (supports r))%nat -> dget (st_brg_tag st) ("Bearing " ++ str i) = lookup (st_brg_nodal st) (nth i (supports r) 0%nat)) /\
  (forall t, In t (map fst (st_brg_tag st)) -> exists i, (i < length (supports r))%nat /\ t = "Bearing " ++ str i).
Proof.
  intros la spl shafts disks brgs pms r st H Ha Hla Hst. pose proof (rotor_facts _ _ _ _ _ H) as F.
  destruct (run_static_inv la spl r st F Ha Hla Hst) as (ra & u & nodal & weight & C & ->). pose proof (co_aux _ _ _ _ _ _ C) as Fa. pose proof (af_facts _ _ _ Fa) as Fr.
  destruct (brg_nodal_facts spl r ra u nodal weight F C) as (D1 & D2 & D3).
  destruct (af_brg _ _ _ Fa) as (bl & L & Eb).
  assert (Bs : forall b, In b bl -> b_tag (brg_base b) = None /\ match b with RB4 true _ => False | _ => True end).
  { intros b Hb. destruct (forall2_in_r _ _ _ _ L Hb) as (e & _ & S). split; [apply (as_tag _ _ _ _ _ S)|apply (as_seal _ _ _ _ _ S)]. }
  pose proof (aux_tags bl Bs 0) as Et.
  assert (En : map brg_n bl = supports r) by (unfold supports; clear -L; unfold aux_list in L; induction L as [|e b l l' H L IH]; [reflexivity|]; cbn [map]; rewrite IH, (as_n _ _ _ _ _ H); reflexivity).
  assert (Em : map el_n (mapi mk_brg 0 bl) = map brg_n bl) by (generalize 0%nat; clear; induction bl as [|b l IH]; intros i; cbn [mapi map]; [reflexivity|rewrite IH; reflexivity]).
  assert (Len : length bl = length (supports r)) by (rewrite <- En, map_length; reflexivity).
  assert (Lm : length (mapi mk_brg 0 bl) = length bl) by (generalize 0%nat; clear; induction bl as [|b l IH]; intros i; cbn [mapi length]; [reflexivity|rewrite IH; reflexivity]).
  set (d := st_brg_nodal (result_of r ra u nodal weight)) in *. cbn [st_brg_tag result_of].
  pose proof (rf_tags _ Fr) as T. apply tags_unique_iff in T. unfold r_elements in T. rewrite map_app in T. apply NoDup_app_r in T. rewrite map_app in T. apply NoDup_app_r in T. rewrite map_app in T. apply NoDup_app_l in T.
  split.
  - intros i Hi. destruct (dset_fold el_tag (fun e => reaction_of nodal weight (el_n e)) (r_brg ra) [] T) as [Dt _].
    set (dflt := EBrg "" (RB4 false (mkBearing 0 None None "" 0 None (fun _ => ([], IConst 0))))).
    set (e := nth i (mapi mk_brg 0 bl) dflt). assert (He : In e (mapi mk_brg 0 bl)) by (apply nth_In; rewrite Lm, Len; exact Hi).
    assert (Te : el_tag e = "Bearing " ++ str i).
    { unfold e. rewrite <- (map_nth el_tag). rewrite (nth_indep _ _ ((fun j => "Bearing " ++ str j) 0%nat)) by (rewrite map_length, Lm, Len; exact Hi).
      rewrite Et. rewrite (map_nth (fun j => "Bearing " ++ str j)), seq_nth by (rewrite Len; exact Hi). reflexivity. }
    assert (Ne : el_n e = nth i (supports r) 0%nat).
    { unfold e. rewrite <- (map_nth el_n). rewrite (nth_indep _ _ 0%nat) by (rewrite map_length, Lm, Len; exact Hi). rewrite Em, En. reflexivity. }
    assert (Hr : In e (r_brg ra)) by (rewrite Eb; apply sort_n_in; exact He).
    specialize (Dt e Hr). rewrite Te in Dt. rewrite Dt, Ne.
    assert (Hk : In (nth i (supports r) 0%nat) (keys d)) by (apply D3, nth_In, Hi).
    symmetry. unfold keys in Hk. apply in_map_iff in Hk as ([k v] & E & Hk). cbn [fst] in E. subst k. pose proof (D2 _ Hk) as Ev. cbn [fst snd] in Ev. rewrite <- Ev. apply (lookup_in _ _ _ D1), Hk.
  - intros t Ht. assert (X : In t (map el_tag (r_brg ra))).
    { assert (Q : forall l (d0 : dict R), In t (map fst (fold_left (fun d e => dset d (el_tag e) (reaction_of nodal weight (el_n e))) l d0)) -> In t (map fst d0) \/ In t (map el_tag l)).
      { induction l as [|a l IH]; intros d0 Hx; [left; exact Hx|]. cbn [fold_left] in Hx. apply IH in Hx as [Hx|Hx]; [|right; right; exact Hx].
        cbn [map In]. assert (Hd : forall (dd : dict R) k v, In t (map fst (dset dd k v)) -> In t (map fst dd) \/ t = k).
        { clear. induction dd as [|[k' v'] dd IH]; intros k v X; cbn [dset map fst] in X; [destruct X as [<-|[]]; auto|]. destruct (String.eqb k k').
          - destruct X as [<-|X]; [auto|left; right; exact X].
          - destruct X as [<-|X]; [left; left; reflexivity|]. apply IH in X as [X|X]; [left; right; exact X|auto]. }
        apply Hd in Hx as [Hx|Hx]; [left; exact Hx|right; left; symmetry; exact Hx]. }
      apply Q in Ht as [[]|Ht]. exact Ht. }
    rewrite Eb in X. apply (Permutation_in _ (Permutation_map el_tag (sort_n_perm _))) in X. rewrite Et in X. apply in_map_iff in X as (i & <- & Hi). apply in_seq in Hi. exists i. split; [lia|reflexivity].
Qed.

(** When the analysis succeeds. *)
Theorem C48_solvable : forall la spl shafts disks brgs pms r, rotor_init shafts disks brgs pms = Ok r -> apart r -> linalg_ok la -> layers_match r ->
  (forall k, (k <= r_n_last r)%nat -> exists e, In e (r_shaft r) /\ el_n e = k) ->
  (forall e, In e (r_shaft r) -> no_load e) -> NoDup (supports r) -> free_tags r ->
  ((forall t b, In (EBrg t b) (r_brg r) -> exists b', b = RB4 true b') -> run_static la spl r = Err ValueError) /\
  ((exists t b, In (EBrg t b) (r_brg r) /\ forall b', b <> RB4 true b') ->
    ((exists n m, In n (supports r) /\ In m (supports r) /\ n <> m) -> exists st, run_static la spl r = Ok st) /\
    ((forall n m, In n (supports r) -> In m (supports r) -> n = m) -> run_static la spl r = Err LinAlgError)).
Proof.
  intros la spl shafts disks brgs pms r H Ha Hla Hl Hc Hs Hnd Ht. pose proof (rotor_facts _ _ _ _ _ H) as F. split.
  - intros Hb. unfold run_static. assert (E : forallb is_seal (r_brg r) = true); [|rewrite E; reflexivity]. apply forallb_forall. intros e He. destruct (rf_brg _ F e He) as (t & b & ->). destruct (Hb t b He) as (b' & ->). reflexivity.
  - intros (t & b & Hb & Hnb). apply run_static_total; auto. apply Bool.not_true_is_false. intros E. rewrite forallb_forall in E. specialize (E _ Hb). unfold is_seal in E.
    destruct b as [[] b'|b']; try discriminate. apply (Hnb b'). reflexivity.
Qed.
(** without a bearing that is not a seal: always the error *)
Theorem C48_no_bearing : forall la spl r, (forall e, In e (r_brg r) -> exists t b, e = EBrg t (RB4 true b)) -> run_static la spl r = Err ValueError.
Proof. intros la spl r H. unfold run_static. assert (E : forallb is_seal (r_brg r) = true); [|rewrite E; reflexivity]. apply forallb_forall. intros e He. destruct (H e He) as (t & b & ->). reflexivity. Qed.

(** a two-element rotor with a disk, one bearing to the ground, and one on a supporting mass; 4 and 6 dofs *)
Lemma ex_static six : exists r, rotor_init (exS six) (exD six) (exB six) (exP six) = Ok r /\ ex_facts six r /\ apart r /\ supports r = [0; 2]%nat /\ free_tags r.
Proof.
  destruct (ex_rotor six) as (r & H & X). exists r. split; [exact H|]. split; [exact X|]. pose proof (rotor_facts _ _ _ _ _ H) as F.
  assert (Hlen : length (r_nodes_pos r) = 3%nat) by (rewrite (nodes_pos_length r F (reg_shaft _ (xf_reg _ _ X))), (xf_last _ _ X); reflexivity).
  assert (Hcar : carriers r = [EBrg "b0" (ex_brg six 0 (Some 3%nat) "b0"); EBrg "b1" (ex_brg six 2 None "b1")]).
  { unfold carriers, carries. rewrite (xf_brg _ _ X), Hlen. destruct six; reflexivity. }
  split; [|split].
  - intros e m He. rewrite Hcar in He. rewrite Hlen. destruct He as [<-|[<-|[]]]; destruct six; simpl; intros [=<-]; lia.
  - unfold supports. rewrite Hcar. destruct six; reflexivity.
  - intros e i He. rewrite (xf_shaft _ _ X), (xf_disk _ _ X) in He. destruct He as [<-|[<-|[<-|[]]]]; discriminate.
Qed.
Example C48_instance : forall six spl, exists r st, rotor_init (exS six) (exD six) (exB six) (exP six) = Ok r /\ apart r /\ linalg_ok la0 /\ layers_match r /\
  (forall k, (k <= r_n_last r)%nat -> exists e, In e (r_shaft r) /\ el_n e = k) /\
  (forall e, In e (r_shaft r) -> no_load e /\ cylinder e) /\ NoDup (supports r) /\ free_tags r /\ run_static la0 spl r = Ok st /\ r_n_last r = 1%nat.
Proof.
  intros six spl. destruct (ex_static six) as (r & H & X & Ha & Es & Ht).
  assert (Hnd : NoDup (supports r)) by (rewrite Es; constructor; [simpl; intuition lia|constructor; [simpl; tauto|constructor]]).
  destruct (C48_solvable la0 spl _ _ _ _ r H Ha la0_ok (xf_layers _ _ X) (reg_shaft _ (xf_reg _ _ X)) (xf_load _ _ X) Hnd Ht) as [_ Q].
  destruct Q as [Q _]; [exists "b1", (ex_brg six 2 None "b1"); split; [rewrite (xf_brg _ _ X); right; left; reflexivity|intros b'; destruct six; discriminate]|].
  destruct Q as [st Hst]; [exists 0%nat, 2%nat; rewrite Es; simpl; auto|]. exists r, st. split; [exact H|]. split; [exact Ha|]. split; [apply la0_ok|]. split; [apply (xf_layers _ _ X)|].
  split; [apply (reg_shaft _ (xf_reg _ _ X))|]. split; [intros e He; split; [apply (xf_load _ _ X)|apply (xf_cyl _ _ X)]; exact He|]. split; [exact Hnd|]. split; [exact Ht|]. split; [exact Hst|apply (xf_last _ _ X)].
Qed.

(** A shaft of a single element: the diagrams are not those of its loads. Two equal supports of a cylinder with nothing on it: the right end of the shearing force should be +W/2
    but is 0, and the bending moment at the left end should be 0 but is WL/4. *)
Theorem C48_single_element_refuted : forall spl, exists r st m, (exists shafts disks brgs pms, rotor_init shafts disks brgs pms = Ok r) /\ apart r /\ layers_match r /\
  (forall e, In e (r_shaft r) -> no_load e /\ cylinder e) /\ run_static la0 spl r = Ok st /\ r_n_last r = 0%nat /\ 0 < m /\ r_m r = m /\ zpos r 1 = 1 /\
  (forall k, (k <= 1)%nat -> force_at (st_brg_nodal st) k = g0 * m / 2) /\
  resultant r (force_at (st_brg_nodal st)) 0 1 = g0 * m / 2 /\ moment_right r (force_at (st_brg_nodal st)) 0 = 0 /\
  st_Vx st = [(- (g0 * m / 2), 0)] /\ st_Bm st = [(g0 * m / 4, 0)].
Proof.
  intros spl. set (S0 := [ex_rshaft false 0 "s0"]). set (B0 := [ex_brg false 0 None "b0"; ex_brg false 1 None "b1"]).
  destruct (init_final S0 [] B0 [] 0) as (r & Hr & Hlast & Hlay & Hcov & _).
  { constructor; unfold S0, B0; simpl.
    - apply tags_unique_iff. reflexivity.
    - exists false. repeat split; intros x Hx; repeat destruct Hx as [<-|Hx]; try contradiction; reflexivity.
    - intros e Hx; repeat destruct Hx as [<-|Hx]; try contradiction; simpl; lia.
    - intros k Hk. destruct k as [|k]; [eexists; split; [left; reflexivity|reflexivity]|lia].
    - intros e e' Hx Hy; repeat destruct Hx as [<-|Hx]; try contradiction; repeat destruct Hy as [<-|Hy]; try contradiction; reflexivity.
    - intros e Hx; repeat destruct Hx as [<-|Hx]; try contradiction; simpl; lra.
    - contradiction.
    - change (NoDup [0; 1]%nat). constructor; [simpl; intuition lia|constructor; [simpl; tauto|constructor]].
    - intros e Hx; repeat destruct Hx as [<-|Hx]; try contradiction; left; unfold brg_n; simpl; lia.
    - intros e m Hx Hm; repeat destruct Hx as [<-|Hx]; try contradiction; discriminate.
    - contradiction. }
  pose proof (rotor_facts _ _ _ _ _ Hr) as F. destruct (rotor_init_lists _ _ _ _ _ Hr) as (Es & Ed & Eb & Ep).
  assert (Es' : r_shaft r = [EShaft false 0 "s0" (ex_shaft 0 "s0")]) by (rewrite Es; reflexivity). clear Es. rename Es' into Es.
  assert (Eb' : r_brg r = [EBrg "b0" (ex_brg false 0 None "b0"); EBrg "b1" (ex_brg false 1 None "b1")]) by (rewrite Eb; reflexivity). clear Eb. rename Eb' into Eb.
  assert (Ed' : r_disk r = []) by (rewrite Ed; reflexivity). clear Ed. rename Ed' into Ed.
  assert (Hlen : length (r_nodes_pos r) = 2%nat) by (rewrite (nodes_pos_length r F Hcov), Hlast; reflexivity).
  assert (Hcar : carriers r = r_brg r) by (unfold carriers, carries; rewrite Eb, Hlen; reflexivity).
  assert (Ha : apart r) by (intros e m He Hm; rewrite Hcar, Eb in He; destruct He as [<-|[<-|[]]]; discriminate).
  assert (Hsup : supports r = [0; 1]%nat) by (unfold supports; rewrite Hcar, Eb; reflexivity).
  assert (Hld : forall e, In e (r_shaft r) -> no_load e) by (rewrite Es; intros e [<-|[]]; eexists; (split; [apply ex_shaft_init|]); (split; [apply ex_sargs_good|]); split; reflexivity).
  assert (Hcy : forall e, In e (r_shaft r) -> cylinder e) by (rewrite Es; intros e [<-|[]]; eexists; (split; [apply ex_shaft_init|]); split; reflexivity).
  assert (Hnd : NoDup (supports r)) by (rewrite Hsup; constructor; [simpl; intuition lia|constructor; [simpl; tauto|constructor]]).
  assert (Hft : free_tags r) by (intros e i He; rewrite Es, Ed in He; destruct He as [<-|[]]; discriminate).
  destruct (C48_solvable la0 spl _ _ _ _ r Hr Ha la0_ok Hlay Hcov Hld Hnd Hft) as [_ Q].
  destruct Q as [Q _]; [exists "b1", (ex_brg false 1 None "b1"); split; [rewrite Eb; right; left; reflexivity|intros b'; discriminate]|].
  destruct Q as [st Hst]; [exists 0%nat, 1%nat; rewrite Hsup; simpl; auto|].
  set (s := ex_shaft 0 "s0"). set (m := s_m s).
  pose proof (shaft_positive _ _ (ex_shaft_init 0 "s0") (ex_sargs_good 0 "s0")) as Ps. fold s in Ps.
  assert (Hm : 0 < m).
  { unfold m, s. rewrite (shaft_mass_poly _ _ (ex_shaft_init 0 "s0") (ex_sargs_good 0 "s0")). fold s. destruct (cyl_flat _ _ (ex_shaft_init 0 "s0") (ex_sargs_good 0 "s0")) as (Z1 & Z2 & _); [split; reflexivity|]. fold s in Z1, Z2. rewrite Z1, Z2.
    destruct Ps. assert (0 < mrho (s_material s) * s_A_l s) by (apply Rmult_lt_0_compat; [|assumption]; simpl; lra). nra. }
  assert (HL : s_L s = 1) by reflexivity.
  assert (Ecg : s_beam_cg s = 1 / 2) by (destruct (cyl_flat _ _ (ex_shaft_init 0 "s0") (ex_sargs_good 0 "s0")) as (_ & _ & Z); [split; reflexivity|]; fold s in Z; rewrite Z, HL; reflexivity).
  destruct (run_static_inv la0 spl r st F Ha la0_ok Hst) as (ra & u & nodal & weight & C & E).
  pose proof (fun e He => cyl_args e (Hld e He) (Hcy e He)) as Hy.
  destruct (positions r F Hcov Hlay) as (_ & Z0 & Hp & _). specialize (Hp (EShaft false 0 "s0" s) ltac:(rewrite Es; left; reflexivity)). cbn [el_n sh_L] in Hp. rewrite Z0, HL in Hp. replace (0 + 1) with 1 in Hp by ring.
  assert (Erm : r_m r = m) by (rewrite (rf_mass _ F), Ed, Es; unfold suml; cbn [map fold_right sh_m]; fold s; fold m; ring).
  set (R0 := reaction_of nodal weight).
  assert (Dm : forall k, disk_mass r k = 0) by (intros k; unfold disk_mass; rewrite Ed; reflexivity).
  assert (Wh : forall b q, (b + q * 0) * R0 0%nat + (b + q * 1) * R0 1%nat = g0 * (m * (b + q * (1 / 2)))).
  { intros b q. pose proof (whole spl r F Hcov Hlay Hld ra u nodal weight C b q) as Wq. fold R0 in Wq. rewrite Hlast, Es in Wq. cbn [seq map Nat.add] in Wq. unfold suml in Wq. cbn [fold_right] in Wq.
    cbn [sh_m sh_cg el_n] in Wq. fold s in Wq. fold m in Wq. unfold node_load in Wq. rewrite !Dm, Ecg in Wq. unfold zpos in Wq. rewrite Z0, Hp in Wq. lra. }
  pose proof (Wh 1 0) as W1. pose proof (Wh 0 1) as W2.
  assert (R1 : R0 1%nat = g0 * m / 2) by lra. assert (R0' : R0 0%nat = g0 * m / 2) by lra.
  assert (Er : forall k, (k <= r_n_last r + 1)%nat -> force_at (st_brg_nodal st) k = R0 k) by (intros; rewrite E; apply (force_reaction spl); auto).
  exists r, st, m. split; [exists S0, [], B0, []; exact Hr|]. split; [exact Ha|]. split; [exact Hlay|]. split; [intros e He; split; [apply Hld|apply Hcy]; exact He|]. split; [exact Hst|]. split; [exact Hlast|]. split; [exact Hm|]. split; [exact Erm|].
  split; [unfold zpos; exact Hp|]. split; [|split; [|split; [|split]]].
  - intros k Hk. rewrite Er by (rewrite Hlast; lia). destruct k as [|[|k]]; [exact R0'|exact R1|lia].
  - rewrite (resultant_ext r _ _ _ _ Er). unfold resultant. rewrite Hlast, Es. cbn [seq map Nat.add Nat.sub filter el_n Nat.leb]. unfold suml. cbn [fold_right]. unfold node_load. rewrite Dm. fold s. rewrite R1. cbn [map fold_right]. ring.
  - rewrite (moment_ext r _ _ _ Er). apply (moment_start spl r F Hcov Hlay Hld ra u nodal weight C).
  - rewrite E. cbn [st_Vx result_of]. rewrite Hlen. cbn [Nat.sub seq map]. unfold vx_row. cbn [vx_loop fst snd]. unfold elm_forces. cbn [fst snd Nat.eqb]. unfold elm_weight. cbn [Nat.eqb].
    pose proof (load_at spl r F Hy ra u nodal weight C 0 ltac:(rewrite Hlast; lia)) as L0. pose proof (load_at spl r F Hy ra u nodal weight C 1 ltac:(rewrite Hlast; lia)) as L1. cbv beta in L0, L1. rewrite L0, L1. unfold node_load. rewrite !Dm. fold R0. rewrite R0', R1. f_equal. f_equal; field.
  - rewrite E. cbn [st_Bm result_of]. rewrite Hlen. cbn [Nat.sub seq map mx_row Nat.eqb]. unfold area. rewrite (ax_row r Hcov 0 ltac:(rewrite Hlast; lia)). unfold vx_row. cbn [vx_loop fst snd]. unfold elm_forces. cbn [fst snd Nat.eqb]. unfold elm_weight. cbn [Nat.eqb].
    pose proof (load_at spl r F Hy ra u nodal weight C 0 ltac:(rewrite Hlast; lia)) as L0. pose proof (load_at spl r F Hy ra u nodal weight C 1 ltac:(rewrite Hlast; lia)) as L1. cbv beta in L0, L1. rewrite L0, L1. unfold node_load. rewrite !Dm. fold R0. rewrite R0', R1. unfold zpos. rewrite Hp, Z0. f_equal. f_equal. field.
Qed.

(** Two disks on one node: the dictionary by node keeps the weight of the last one only. *)
Theorem C48_disks_overwritten_refuted : forall la spl shafts disks brgs pms r st l1 e1 l2 e2 l3, rotor_init shafts disks brgs pms = Ok r -> apart r -> linalg_ok la ->
  run_static la spl r = Ok st -> r_disk r = (l1 ++ e1 :: l2 ++ e2 :: l3)%list -> el_n e1 = el_n e2 -> (forall e', In e' l3 -> el_n e' <> el_n e2) ->
  lookup (st_disk_nodal st) (el_n e1) = Some (g0 * dk_m e2).
Proof.
  intros la spl shafts disks brgs pms r st l1 e1 l2 e2 l3 H Ha Hla Hst E En Hl. destruct (C48_weights la spl _ _ _ _ r st H Ha Hla Hst) as (_ & _ & Q). rewrite En.
  apply (Q (l1 ++ e1 :: l2)%list e2 l3); [|exact Hl]. rewrite E, <- app_assoc. reflexivity.
Qed.

Example C48_disks_instance : forall spl, exists r st, (exists shafts disks brgs pms, rotor_init shafts disks brgs pms = Ok r) /\ apart r /\
  r_disk r = [EDisk false "d0" (mkDisk 1 5 1 2 (Some "d0")); EDisk false "d1" (mkDisk 1 7 1 2 (Some "d1"))] /\
  run_static la0 spl r = Ok st /\ lookup (st_disk_nodal st) 1 = Some (g0 * 7).
Proof.
  intros spl. set (S0 := [ex_rshaft false 0 "s0"]). set (B0 := [ex_brg false 0 None "b0"; ex_brg false 1 None "b1"]). set (D0 := [ex_disk false 1 "d0"; mkRDisk false (mkDisk 1 7 1 2 (Some "d1"))]).
  destruct (init_final S0 D0 B0 [] 0) as (r & Hr & Hlast & Hlay & Hcov & _).
  { constructor; unfold S0, B0, D0; simpl.
    - apply tags_unique_iff. reflexivity.
    - exists false. repeat split; intros x Hx; repeat destruct Hx as [<-|Hx]; try contradiction; reflexivity.
    - intros e Hx; repeat destruct Hx as [<-|Hx]; try contradiction; simpl; lia.
    - intros k Hk. destruct k as [|k]; [eexists; split; [left; reflexivity|reflexivity]|lia].
    - intros e e' Hx Hy; repeat destruct Hx as [<-|Hx]; try contradiction; repeat destruct Hy as [<-|Hy]; try contradiction; reflexivity.
    - intros e Hx; repeat destruct Hx as [<-|Hx]; try contradiction; simpl; lra.
    - intros e Hx; repeat destruct Hx as [<-|Hx]; try contradiction; simpl; lia.
    - change (NoDup [0; 1]%nat). constructor; [simpl; intuition lia|constructor; [simpl; tauto|constructor]].
    - intros e Hx; repeat destruct Hx as [<-|Hx]; try contradiction; left; unfold brg_n; simpl; lia.
    - intros e m Hx Hm; repeat destruct Hx as [<-|Hx]; try contradiction; discriminate.
    - contradiction. }
  pose proof (rotor_facts _ _ _ _ _ Hr) as F. destruct (rotor_init_lists _ _ _ _ _ Hr) as (Es & Ed & Eb & Ep).
  assert (Es' : r_shaft r = [EShaft false 0 "s0" (ex_shaft 0 "s0")]) by (rewrite Es; reflexivity). clear Es. rename Es' into Es.
  assert (Eb' : r_brg r = [EBrg "b0" (ex_brg false 0 None "b0"); EBrg "b1" (ex_brg false 1 None "b1")]) by (rewrite Eb; reflexivity). clear Eb. rename Eb' into Eb.
  assert (Ed' : r_disk r = [EDisk false "d0" (mkDisk 1 5 1 2 (Some "d0")); EDisk false "d1" (mkDisk 1 7 1 2 (Some "d1"))]) by (rewrite Ed; reflexivity). clear Ed. rename Ed' into Ed.
  assert (Hlen : length (r_nodes_pos r) = 2%nat) by (rewrite (nodes_pos_length r F Hcov), Hlast; reflexivity).
  assert (Hcar : carriers r = r_brg r) by (unfold carriers, carries; rewrite Eb, Hlen; reflexivity).
  assert (Ha : apart r) by (intros e m He Hm; rewrite Hcar, Eb in He; destruct He as [<-|[<-|[]]]; discriminate).
  assert (Hsup : supports r = [0; 1]%nat) by (unfold supports; rewrite Hcar, Eb; reflexivity).
  assert (Hld : forall e, In e (r_shaft r) -> no_load e) by (rewrite Es; intros e [<-|[]]; eexists; (split; [apply ex_shaft_init|]); (split; [apply ex_sargs_good|]); split; reflexivity).
  assert (Hnd : NoDup (supports r)) by (rewrite Hsup; constructor; [simpl; intuition lia|constructor; [simpl; tauto|constructor]]).
  assert (Hft : free_tags r) by (intros e i He; rewrite Es, Ed in He; destruct He as [<-|[<-|[<-|[]]]]; discriminate).
  destruct (C48_solvable la0 spl _ _ _ _ r Hr Ha la0_ok Hlay Hcov Hld Hnd Hft) as [_ Q].
  destruct Q as [Q _]; [exists "b1", (ex_brg false 1 None "b1"); split; [rewrite Eb; right; left; reflexivity|intros b'; discriminate]|].
  destruct Q as [st Hst]; [exists 0%nat, 1%nat; rewrite Hsup; simpl; auto|].
  exists r, st. split; [exists S0, D0, B0, []; exact Hr|]. split; [exact Ha|]. split; [exact Ed|]. split; [exact Hst|].
  exact (C48_disks_overwritten_refuted la0 spl _ _ _ _ r st [] _ [] _ [] Hr Ha la0_ok Hst Ed eq_refl (fun _ => False_ind _)).
Qed.

Print Assumptions C48_equilibrium.
Print Assumptions C48_reactions.
Print Assumptions C48_diagrams.
Print Assumptions C48_weights.
Print Assumptions C48_reaction_tags.
Print Assumptions C48_solvable.
Print Assumptions C48_single_element_refuted.
Print Assumptions C48_disks_overwritten_refuted.
