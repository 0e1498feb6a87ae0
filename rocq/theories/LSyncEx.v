(** A small rotor for the synchronous mass matrix: one shaft element, a disk and two bearings. *)
From Coq Require Import Reals String List Arith Bool Lia Lra Permutation.
From Coquelicot Require Import Coquelicot.
From Verif Require Import PyBase MatBase SpecMat LMat CMat LCMat MMaterial MShaft SpecShaft LShaftEx MDisk LDisk MBearing LBearing2 MRotor SpecRotor LAssembly LRotor LRotor2 LRotor3 LRotorPos LRotorInit LRotorInit2 LRotorInit3 LRotor5 LRotor6 LShaftProps LRotorEx
  MDynamics SpecDynamics LDynamics LDynEx LDynEx2 SpecSync LSync.
Import ListNotations.
Open Scope list_scope.
Open Scope R_scope.

(** a shaft without gyroscopic effect (gyroscopic=False) *)
Definition sy_args : shaft_args := mkShaftArgs 1 0 2 None None (Some ex_material) (Some 0%nat) 0 0 true true false Cowper (Some "s0"%string) 0 0.
Definition sy_shaft : shaft := match shaft_init sy_args with Ok s => s | Err _ => ex_shaft 0 "s0" end.
Lemma sy_init : shaft_init sy_args = Ok sy_shaft. Proof. reflexivity. Qed.
Lemma sy_good : good_args sy_args.
Proof.
  split; [unfold good_geometry, right_id, right_od; simpl; lra|].
  exists ex_material; split; [reflexivity|]. unfold good_material; simpl; lra.
Qed.
Definition sy_disk : disk := mkDisk 0 5 2 1 (Some "d0"%string).
Definition syS six := [mkRShaft six sy_shaft].
Definition syD six := [mkRDisk six sy_disk].
Definition syB six := [ex_brg six 0 None "b0"; ex_brg six 1 None "b1"].
Lemma sy_wf six : well_formed (syS six) (syD six) (syB six) [] 0.
Proof.
  constructor.
  - exists ["s0"; "d0"; "b0"; "b1"]%string. split; [destruct six; reflexivity|]. apply tags_unique_iff. reflexivity.
  - exists six. repeat split; unfold syS, syD, syB; intros x Hx; cases_in; try reflexivity; apply brg_six_ex.
  - unfold syS. intros s Hs; cases_in. exists 0%nat. split; [reflexivity|lia].
  - intros k Hk. exists (mkRShaft six sy_shaft). split; [left; reflexivity|]. replace k with 0%nat by lia. reflexivity.
  - unfold syS. intros s s' Hs Hs'; cases_in; reflexivity.
  - unfold syS. intros s Hs; cases_in; simpl; lra.
  - unfold syD. intros s Hs; cases_in; simpl; lia.
  - unfold syB. cbn [map]. rewrite !brg_n_ex. repeat (constructor; [simpl; lia|]). constructor.
  - unfold syB. intros b Hb; cases_in; rewrite brg_n_ex; left; lia.
  - unfold syB. intros b m Hb; cases_in; rewrite brg_link_ex; discriminate.
  - intros p [].
Qed.
Record sy_facts (six : bool) (r : rotor) : Prop := {
  sy_reg : regular r; sy_links : links_ok r; sy_nd : r_nd r = (if six then 6 else 4)%nat; sy_last : r_n_last r = 0%nat; sy_ndof : r_ndof r = (if six then 12 else 8)%nat;
  sy_s : r_shaft r = [EShaft six 0 "s0" sy_shaft]; sy_d : r_disk r = [EDisk six "d0" sy_disk];
  sy_b : r_brg r = [EBrg "b0" (ex_brg six 0 None "b0"); EBrg "b1" (ex_brg six 1 None "b1")]; sy_p : r_pm r = [] }.
Lemma sy_rotor six : exists r, rotor_init (syS six) (syD six) (syB six) [] = Ok r /\ sy_facts six r.
Proof.
  destruct (init_ok _ _ _ _ _ (sy_wf six)) as (r & H & E & Hl & Hc & _).
  exists r. split; [exact H|]. pose proof (rotor_facts _ _ _ _ _ H) as F.
  destruct (rotor_init_lists _ _ _ _ _ H) as (Es & Ed & Eb & Ep).
  assert (Es' : r_shaft r = [EShaft six 0 "s0" sy_shaft]) by (rewrite Es; reflexivity).
  assert (Ed' : r_disk r = [EDisk six "d0" sy_disk]) by (rewrite Ed; reflexivity).
  assert (Eb' : r_brg r = [EBrg "b0" (ex_brg six 0 None "b0"); EBrg "b1" (ex_brg six 1 None "b1")]) by (rewrite Eb; destruct six; reflexivity).
  assert (Ep' : r_pm r = []) by (rewrite Ep; reflexivity).
  assert (Hnd : r_nd r = (if six then 6 else 4)%nat) by (eapply el_fam_nd; [exact F|rewrite Es'; left; reflexivity]).
  constructor; auto.
  - constructor; auto.
    + rewrite Ep', E. reflexivity.
    + intros x t p Hin. rewrite Ep' in Hin. destruct Hin.
  - intros e m Hin Hm. rewrite Eb' in Hin. cases_in; destruct six; discriminate.
  - rewrite (rf_ndof _ F), Ep', E, Hnd. destruct six; reflexivity.
Qed.
Lemma sy_elements six r : sy_facts six r -> r_elements r = [EShaft six 0 "s0" sy_shaft; EDisk six "d0" sy_disk; EBrg "b0" (ex_brg six 0 None "b0"); EBrg "b1" (ex_brg six 1 None "b1")].
Proof. intros X. unfold r_elements. rewrite (sy_s _ _ X), (sy_d _ _ X), (sy_b _ _ X), (sy_p _ _ X). reflexivity. Qed.
Lemma sy_dofs six r e : rfacts r -> sy_facts six r -> In e (r_elements r) -> r_dofs r e = acts_on (r_nd r) (r_n_last r) e.
Proof.
  intros F X He. apply el_dofs_acts; [apply rf_nd; auto|apply rf_fam; auto|apply pm_matches_fam; auto; apply reg_pm_dof, (sy_reg _ _ X)|apply rf_n_cond; auto|].
  rewrite (sy_elements _ _ X) in He. cases_in; cbn [el_link]; try discriminate; destruct six; discriminate.
Qed.
Lemma sy_G i j : shaft_G sy_shaft i j = 0 /\ shaft6_G sy_shaft i j = 0.
Proof. split; reflexivity. Qed.
Lemma sy_sync_pd spl f r Ms : rfacts r -> sy_facts false r -> rotor_M_sync spl r f = Ok Ms -> pos_def (r_ndof r) Ms.
Proof.
  intros F X Hs x (i & Hi & Hx). unfold rotor_M_sync in Hs. pose proof (sync_nodup _ _ _ _ F Hs) as Nd. set (w := default 0 f) in *.
  rewrite (assemble_bform _ _ _ _ _ _ _ Hs Nd). pose proof (sy_dofs _ _ (EShaft false 0 "s0" sy_shaft) F X) as D1.
  rewrite (sy_elements _ _ X) in *. cbn [map]. specialize (D1 (or_introl eq_refl)).
  assert (B : forall t b y, b = ex_brg false 0 None t \/ b = ex_brg false 1 None t -> bform (el_size (el_M_sync spl w) (EBrg t b)) (el_mat (el_M_sync spl w) (EBrg t b)) y y = 0).
  { intros t b y Hb. unfold el_size, el_mat. rewrite el_M_sync_other by exact I. destruct Hb as [-> | ->]; [apply (ex_brg_M spl w false 0 None t t y)|apply (ex_brg_M spl w false 1 None t t y)]. }
  unfold suml. cbn [fold_right]. rewrite (B "b0"%string), (B "b1"%string) by auto.
  assert (S1 : 0 < bform (el_size (el_M_sync spl w) (EShaft false 0 "s0" sy_shaft)) (el_mat (el_M_sync spl w) (EShaft false 0 "s0" sy_shaft))
     (gather (r_dofs r (EShaft false 0 "s0" sy_shaft)) x) (gather (r_dofs r (EShaft false 0 "s0" sy_shaft)) x)).
  { change (0 < bform 8 (sync_shaft (shaft_M sy_shaft) (shaft_G sy_shaft)) (gather (r_dofs r (EShaft false 0 "s0" sy_shaft)) x) (gather (r_dofs r (EShaft false 0 "s0" sy_shaft)) x)).
    rewrite (bform_ext 8 _ (shaft_M sy_shaft)).
    - apply (shaft_M_pd _ _ sy_init sy_good). rewrite (sy_ndof _ _ X) in Hi. exists i. split; [exact Hi|].
      rewrite D1, (sy_nd _ _ X). rewrite gather_shaft by lia. exact Hx.
    - intros a b Ha Hb. rewrite sync_shaft_entry by auto. rewrite (proj1 (sy_G a (b + 1))), (proj1 (sy_G a (b - 1))). destruct (Bool.eqb _ _); [|reflexivity]. destruct (Nat.even b); ring. }
  assert (S2 : 0 <= bform (el_size (el_M_sync spl w) (EDisk false "d0" sy_disk)) (el_mat (el_M_sync spl w) (EDisk false "d0" sy_disk))
     (gather (r_dofs r (EDisk false "d0" sy_disk)) x) (gather (r_dofs r (EDisk false "d0" sy_disk)) x)).
  { generalize (gather (r_dofs r (EDisk false "d0" sy_disk)) x) as y. intros y.
    change (0 <= bform 4 (sync_disk (disk_M sy_disk) (disk_G sy_disk)) y y).
    replace (bform 4 (sync_disk (disk_M sy_disk) (disk_G sy_disk)) y y) with (5 * y 0%nat ^ 2 + 5 * y 1%nat ^ 2 + y 2%nat ^ 2 + y 3%nat ^ 2) by (unfold bform; cbn; ring).
    pose proof (pow2_ge_0 (y 0%nat)). pose proof (pow2_ge_0 (y 1%nat)). pose proof (pow2_ge_0 (y 2%nat)). pose proof (pow2_ge_0 (y 3%nat)). lra. }
  lra.
Qed.
(** with 6 dofs per node the synchronous mass matrix of this rotor is its mass matrix *)
Lemma mset_same X (M : mat) i j v : (forall a b, X a b = M a b) -> v = M i j -> forall a b, mset X i j v a b = M a b.
Proof. intros HX Hv a b. unfold mset. destruct (Nat.eqb_spec a i), (Nat.eqb_spec b j); subst; cbn [andb]; auto. Qed.
Lemma sync6_shaft M G i j : (forall a b, G a b = 0) -> sync_shaft M G i j = M i j.
Proof.
  intros Z. unfold sync_shaft. assert (H : forall X, (forall a b, X a b = M a b) -> forall a b, fold_left (sync_row G) (seq 0 8) X a b = M a b).
  { induction (seq 0 8) as [|k l IH]; intros X HX a b; [apply HX|]. cbn [fold_left]. apply IH. clear IH a b. intros a b.
    unfold sync_row. destruct (existsb (Nat.eqb k) _); repeat apply mset_same; auto; rewrite Z, HX; ring. }
  apply H. reflexivity.
Qed.
Lemma sync6_disk d i j : sync_disk (disk6_M d) (disk6_G d) i j = disk6_M d i j.
Proof. unfold sync_disk. apply mset_same; [apply mset_same; [reflexivity|cbn; ring]|cbn; ring]. Qed.
Lemma sy_sync6 spl f r Ms M : rfacts r -> sy_facts true r -> rotor_M_sync spl r f = Ok Ms -> rotor_M spl r f = Ok M -> forall i j, Ms i j = M i j.
Proof.
  intros F X Hs HM i j. unfold rotor_M_sync, rotor_M in *. pose proof (sync_nodup _ _ _ _ F Hs) as Nd.
  rewrite (proj2 (assemble_ok _ _ _ _ _ _ Hs) Nd), (proj2 (assemble_ok _ _ _ _ _ _ HM) Nd). f_equal. apply suml_map_ext. intros e He.
  rewrite (sy_elements _ _ X) in He. cases_in.
  - apply (contribution_ext _ 12 (sync_shaft (shaft6_M sy_shaft) (shaft6_G sy_shaft)) (shaft6_M sy_shaft)). intros a b _ _. apply sync6_shaft. intros c e. apply sy_G.
  - apply (contribution_ext _ 6 (sync_disk (disk6_M sy_disk) (disk6_G sy_disk)) (disk6_M sy_disk)). intros a b _ _. apply sync6_disk.
  - unfold el_size, el_mat. rewrite el_M_sync_other by exact I. reflexivity.
  - unfold el_size, el_mat. rewrite el_M_sync_other by exact I. reflexivity.
Qed.
Lemma sy_G6 spl r G z : rfacts r -> sy_facts true r -> rotor_G spl r = Ok G -> mulv (r_ndof r) G z 3%nat = z 4%nat.
Proof.
  intros F X HG. rewrite <- bform_basis by (rewrite (sy_ndof _ _ X); lia). unfold rotor_G in HG.
  rewrite (assembled_form spl 0 _ _ _ _ (basis 3) z F (reg_pm_dof _ (sy_reg _ _ X)) (is_G spl 0) (incl_refl _) HG).
  rewrite (sy_elements _ _ X), (sy_nd _ _ X), (sy_last _ _ X). cbn [map]. unfold suml. cbn [fold_right].
  rewrite (bform_ext (el_size (el_G spl) (EShaft true 0 "s0" sy_shaft)) _ mzero) by (intros; apply sy_G). rewrite mzero_bform.
  change (el_mat (el_G spl) (EBrg "b0" (ex_brg true 0 None "b0"))) with mzero. change (el_mat (el_G spl) (EBrg "b1" (ex_brg true 1 None "b1"))) with mzero.
  rewrite !mzero_bform. change (el_size (el_G spl) (EDisk true "d0" sy_disk)) with 6%nat. change (el_mat (el_G spl) (EDisk true "d0" sy_disk)) with (disk6_G sy_disk).
  unfold bform, gather, basis. cbn. ring.
Qed.
(** the 6-dof whirl of the rotations of the first node *)
Definition whirl6 (w : R) : R -> vec := fun t i => if Nat.eqb i 3 then cos (w * t) else if Nat.eqb i 4 then sin (w * t) else 0.
Definition whirl6_v (w : R) : R -> vec := fun t i => if Nat.eqb i 3 then - w * sin (w * t) else if Nat.eqb i 4 then w * cos (w * t) else 0.
Lemma whirl6_circular w : circular6 w (whirl6 w).
Proof.
  intros t n. unfold whirl6. rewrite Rmult_0_r, cos_0, sin_0. cbv zeta.
  destruct n as [|n].
  - cbn. repeat split; ring.
  - assert (A : forall i, (6 * S n + i =? 3)%nat = false) by (intros; apply Nat.eqb_neq; lia). assert (B : forall i, (6 * S n + i =? 4)%nat = false) by (intros; apply Nat.eqb_neq; lia).
    rewrite <- !Nat.add_assoc. cbn [Nat.add]. rewrite !A, !B. repeat split; ring.
Qed.
Lemma whirl6_moves w : moves (whirl6 w) (whirl6_v w) (fun t i => - w ^ 2 * whirl6 w t i).
Proof.
  intros t i. unfold whirl6, whirl6_v. destruct (Nat.eqb i 3); [|destruct (Nat.eqb i 4)].
  - split; (auto_derive; [exact I|]; ring).
  - split; (auto_derive; [exact I|]; ring).
  - split; [apply (is_derive_const 0)|]. replace (- w ^ 2 * 0) with 0 by ring. apply (is_derive_const 0).
Qed.
Lemma sy_G4 spl r G z : rfacts r -> sy_facts false r -> rotor_G spl r = Ok G -> mulv (r_ndof r) G z 2%nat = z 3%nat.
Proof.
  intros F X HG. rewrite <- bform_basis by (rewrite (sy_ndof _ _ X); lia). unfold rotor_G in HG.
  rewrite (assembled_form spl 0 _ _ _ _ (basis 2) z F (reg_pm_dof _ (sy_reg _ _ X)) (is_G spl 0) (incl_refl _) HG).
  rewrite (sy_elements _ _ X), (sy_nd _ _ X), (sy_last _ _ X). cbn [map]. unfold suml. cbn [fold_right].
  rewrite (bform_ext (el_size (el_G spl) (EShaft false 0 "s0" sy_shaft)) _ mzero) by (intros; apply sy_G). rewrite mzero_bform.
  change (el_mat (el_G spl) (EBrg "b0" (ex_brg false 0 None "b0"))) with mzero. change (el_mat (el_G spl) (EBrg "b1" (ex_brg false 1 None "b1"))) with mzero.
  rewrite !mzero_bform. change (el_size (el_G spl) (EDisk false "d0" sy_disk)) with 4%nat. change (el_mat (el_G spl) (EDisk false "d0" sy_disk)) with (disk_G sy_disk).
  unfold bform, gather, basis. cbn. ring.
Qed.
