(** C33 and C34: cutting a shaft into elements (section, from_section) and refining a rotor (convergence). *)
From Coq Require Import Reals String List Arith Bool Lia Lra Permutation Sorted Psatz.
From Verif Require Import PyBase MatBase SpecMat LMat MMaterial MShaft SpecShaft LShaftEx MDisk MBearing MRotor SpecRotor LAssembly LRotor LRotor2 LRotorPos LRotor5 LRotorInit LRotorInit2 LRotorInit3 LRotor6 LRotorEx MSection SpecSection LSection LSection2 LSection3 LSection4 LSection5 LSection6.
Import ListNotations.
Open Scope list_scope.
Open Scope string_scope.
Open Scope R_scope.

(** ** C33: ShaftElement.section *)
(** element i of the ne elements is the part of the piece from i L / ne to (i + 1) L / ne, with the options it was given *)
Theorem C33_section : forall L ne il ol ir or m n shear rotary gyro alpha beta, L <> 0 -> (0 < ne)%nat ->
  let IR := match ir with Some d => d | None => il end in
  let OR := match or with Some d => d | None => ol end in
  exists els, section L ne il ol ir or (Some m) n shear rotary gyro alpha beta = Ok els /\ length els = ne /\
    (forall i d, (i < ne)%nat -> is_part L il ol IR OR (INR i * (L / INR ne)) ((INR i + 1) * (L / INR ne)) m (nth i els d)) /\
    joined els /\ suml (map s_L els) = L /\
    forall s, In s els -> s_n s = n /\ s_axial_force s = 0 /\ s_torque s = 0 /\ s_alpha s = alpha /\ s_beta s = beta /\
      s_shear_effects s = shear /\ s_rotary_inertia s = rotary /\ s_gyroscopic s = gyro.
Proof.
  intros L ne il ol ir or m n sh ro gy al be HL Hn IR OR. unfold section. cbv zeta. destruct (Nat.eqb_spec ne 0); [lia|]. destruct (Req_EM_T L 0); [congruence|].
  change (default il ir) with IR. change (default ol or) with OR.
  match goal with |- context [collect (map ?f ?l)] => destruct (collect_ok f l) as [els E] end; [intros i _; apply cut_exists|].
  rewrite E. exists els. destruct (cut_piece _ _ _ _ _ _ _ _ _ _ _ _ _ _ HL Hn E) as [P Q]. split; [reflexivity|]. split; [apply (pc_len _ _ _ _ _ _ _ _ P)|].
  split; [apply (pc_part _ _ _ _ _ _ _ _ P)|]. split; [apply (pc_joined _ _ _ _ _ _ _ _ P)|]. split; [apply (pc_L _ _ _ _ _ _ _ _ P)|].
  intros s Hs. destruct (Q s Hs) as (? & _ & ? & ? & ? & ? & ? & ? & ?). repeat split; auto.
Qed.
(** mass, polar inertia and first moment of mass are those of one element with the same ends *)
Theorem C33_section_mass : forall L ne il ol ir or m n shear rotary gyro alpha beta els a s,
  section L ne il ol ir or (Some m) n shear rotary gyro alpha beta = Ok els ->
  a_L a = L -> a_idl a = il -> a_odl a = ol -> a_idr a = ir -> a_odr a = or -> a_material a = Some m -> shaft_init a = Ok s ->
  good_geometry L il ol (right_id a) (right_od a) ->
  suml (map s_m els) = s_m s /\ suml (map s_Im els) = s_Im s /\ mass_moment 0 els = s_m s * s_beam_cg s.
Proof.
  intros L ne il ol ir or m n sh ro gy al be els a s H E1 E2 E3 E4 E5 E6 Ha G. unfold section in H. cbv zeta in H.
  destruct (Nat.eqb_spec ne 0); [discriminate|]. destruct (Req_EM_T L 0); [discriminate|]. apply cut_piece in H as [P _]; [|auto|lia].
  assert (F : s_L s = a_L a /\ s_material s = m /\ s_idl s = a_idl a /\ s_odl s = a_odl a /\ s_idr s = right_id a /\ s_odr s = right_od a).
  { unfold shaft_init in Ha. cbv zeta in Ha. rewrite E6 in Ha.
    destruct (a_shear_effects a); [destruct (shear_kappa _ _ _ _ _ _); [|discriminate]|]; injection Ha as <-; repeat split; reflexivity. }
  destruct F as (F1 & F2 & F3 & F4 & F5 & F6).
  rewrite <- E1, <- E2, <- E3 in G. destruct (elem_mass a s Ha G) as (M1 & M2 & M3). rewrite F1, F2, F3, F4, F5, F6 in *.
  rewrite E1, E2, E3 in *. unfold right_id, right_od in *. rewrite E4, E5, ?E2, ?E3 in *. unfold default in P.
  rewrite (pc_mass _ _ _ _ _ _ _ _ P G), (pc_polar _ _ _ _ _ _ _ _ P G), (pc_moment _ _ _ _ _ _ _ _ P G). auto.
Qed.
Theorem C33_section_errors : forall L ne il ol ir or m n shear rotary gyro alpha beta,
  (L = 0 -> section L ne il ol ir or m n shear rotary gyro alpha beta = Err ZeroDivision) /\
  section L 0 il ol ir or m n shear rotary gyro alpha beta = Err ZeroDivision /\
  (L <> 0 -> (0 < ne)%nat -> section L ne il ol ir or None n shear rotary gyro alpha beta = Err AttributeError).
Proof.
  intros. unfold section. cbv zeta. split; [|split; [reflexivity|]].
  - intros ->. destruct (Nat.eqb ne 0); [reflexivity|]. destruct (Req_EM_T 0 0); [reflexivity|congruence].
  - intros HL Hn. destruct (Nat.eqb_spec ne 0); [lia|]. destruct (Req_EM_T L 0); [congruence|]. destruct ne; [lia|]. reflexivity.
Qed.

(** ** C33: Rotor.from_section *)
Theorem C33_from_section : forall lens il ol ir or mt disks brgs nel r,
  from_section lens il ol ir or (Some mt) (Some disks) (Some brgs) nel = Ok r ->
  built_from lens il ol (right_ends il ir) (right_ends ol or) mt disks brgs nel r.
Proof. intros lens il ol ir or mt disks brgs nel r H. exact (from_section_built _ _ _ _ _ _ _ _ _ _ H). Qed.
(** the number of elements per section does not change mass, polar inertia, centre of gravity and length *)
Theorem C33_mesh_independent : forall lens il ol ir or mt disks brgs n1 n2 r1 r2,
  from_section lens il ol ir or (Some mt) (Some disks) (Some brgs) n1 = Ok r1 ->
  from_section lens il ol ir or (Some mt) (Some disks) (Some brgs) n2 = Ok r2 ->
  good_sections lens il ol (right_ends il ir) (right_ends ol or) ->
  r_m r1 = r_m r2 /\ r_Ip r1 = r_Ip r2 /\ (r_m r1 <> 0 -> r_CG r1 = r_CG r2) /\
  last (r_nodes_pos r1) 0 = suml lens /\ last (r_nodes_pos r2) 0 = suml lens.
Proof.
  intros lens il ol ir or mt disks brgs n1 n2 r1 r2 H1 H2 G. destruct (from_section_mesh _ _ _ _ _ _ _ _ _ _ _ _ H1 H2 G) as (A & B & C).
  assert (L : forall n r, from_section lens il ol ir or (Some mt) (Some disks) (Some brgs) n = Ok r -> last (r_nodes_pos r) 0 = suml lens).
  { intros n r H. pose proof (from_section_built _ _ _ _ _ _ _ _ _ _ H) as Bf. rewrite <- section_start_all, <- (bf_ends _ _ _ _ _ _ _ _ _ _ Bf) by lia.
    pose proof (bf_nodes _ _ _ _ _ _ _ _ _ _ Bf) as Hl. clear -Hl. revert Hl. generalize (n * length lens)%nat as k. generalize (r_nodes_pos r) as l.
    induction l as [|x l IH]; intros k Hl; [discriminate|]. destruct k; simpl in *; [destruct l; [reflexivity|discriminate]|]. injection Hl as Hl. destruct l; [discriminate|]. apply IH; exact Hl. }
  repeat split; eauto.
Qed.
(** with meaningful data the rotor is built *)
Theorem C33_from_section_accepts : forall lens il ol ir or mt disks brgs nel, good_section_input lens il ol ir or mt disks brgs nel ->
  exists r, from_section lens il ol ir or (Some mt) (Some disks) (Some brgs) nel = Ok r.
Proof. intros. apply from_section_ok. assumption. Qed.
(** lists of the wrong length are refused *)
Theorem C33_from_section_rejects : forall lens il ol ir or mt disks brgs nel,
  (length il <> length lens \/ length ol <> length lens -> from_section lens il ol ir or mt disks brgs nel = Err ValueError) /\
  (forall ol' mt', length il = length lens -> length ol = length lens -> length ol' <> length lens \/ length (right_ends il ir) <> length lens ->
     from_section lens il ol ir (Some ol') (Some mt') disks brgs nel = Err ValueError) /\
  (forall r, from_section lens il ol ir or mt disks brgs nel = Ok r ->
     mt <> None /\ (0 < nel)%nat /\ lens <> [] /\ ~ In 0 lens /\
     forall k, (k < length lens)%nat -> (k < length (right_ends il ir))%nat /\ (k < length (right_ends ol or))%nat).
Proof.
  intros lens il ol ir or mt disks brgs nel. split; [|split].
  - intros H. unfold from_section. destruct (Nat.eqb_spec (length lens) (length ol)); [|reflexivity]. destruct (Nat.eqb_spec (length lens) (length il)); [|reflexivity]. exfalso. destruct H; congruence.
  - intros ol' mt' Hi Ho H. unfold from_section. rewrite Hi, Ho, Nat.eqb_refl. cbn [andb negb]. cbv zeta. cbn [default].
    change (default il ir) with (right_ends il ir).
    destruct (Nat.eqb_spec (length lens) (length ol')); [|reflexivity]. destruct (Nat.eqb_spec (length lens) (length (right_ends il ir))); [|reflexivity]. exfalso. destruct H; congruence.
  - intros r H. destruct (from_section_inv _ _ _ _ _ _ _ _ _ _ H) as (mt' & dk' & br' & ps & E1 & E2 & E3 & Hil & Hol & Hps & Hk & Hpl & Hi).
    assert (Hne : lens <> []).
    { intros ->. destruct ps; [|discriminate]. pose proof (rotor_facts _ _ _ _ _ Hi) as F.
      assert (Cr : chain_rotor (concat []) r) by (eapply chain_facts; [|exact Hi]; intros s []). apply (rf_nonempty _ F). rewrite (cr_shaft _ _ Cr). reflexivity. }
    assert (H0 : (0 < length lens)%nat) by (destruct lens; [congruence|simpl; lia]).
    split; [congruence|]. split; [destruct (Hk 0%nat H0) as (m & _ & Q & _); exact Q|]. split; [exact Hne|]. split.
    + intros Hin. apply (In_nth _ _ 0) in Hin as (k & Hlt & E). destruct (Hk k Hlt) as (m & _ & _ & Q & _). congruence.
    + intros k Hlt. destruct (Hk k Hlt) as (m & _ & _ & _ & Q1 & Q2 & _). auto.
Qed.
(** from_section cannot be called without disks or without bearings although both arguments default to None *)
Theorem C33_defaults_refuted : forall lens il ol ir or mt disks brgs nel r,
  from_section lens il ol ir or mt None brgs nel <> Ok r /\ from_section lens il ol ir or mt disks None nel <> Ok r.
Proof.
  intros. split; intros H; destruct (from_section_inv _ _ _ _ _ _ _ _ _ _ H) as (mt' & dk' & br' & ps & E1 & E2 & E3 & _); congruence.
Qed.
(** the node a bearing is linked to is not multiplied: it moves along the shaft as the number of elements grows *)
Theorem C33_link_refuted : exists lens il ol mt brgs r1 r2 e1 e2 m,
  from_section lens il ol None None (Some mt) (Some []) (Some brgs) 1 = Ok r1 /\ from_section lens il ol None None (Some mt) (Some []) (Some brgs) 2 = Ok r2 /\
  In e1 (r_brg r1) /\ In e2 (r_brg r2) /\ el_link e1 = Some m /\ el_link e2 = Some m /\
  nth m (r_nodes_pos r1) 0 = 1 /\ nth m (r_nodes_pos r2) 0 = 1 / 2.
Proof.
  set (brgs := [ex_brg false 0 (Some 1%nat) "b0"]).
  assert (OK : forall nel, (0 < nel)%nat -> exists r, from_section [1; 1] [0; 0] [1; 1] None None (Some (MatOne ex_material)) (Some []) (Some brgs) nel = Ok r).
  { intros nel Hn. apply from_section_ok. constructor; cbn [length right_ends]; auto; try lia.
    - intros L [<-|[<-|[]]]; lra.
    - intros d [].
    - intros b [<-|[]]. split; [reflexivity|]. split; [rewrite brg_n_ex; lia|]. intros m [= <-]. simpl. lia.
    - constructor; [intros []|constructor].
    - exists ["b0"]. split; [reflexivity|]. split; [constructor; [intros []|constructor]|]. intros t k [<-|[]]. discriminate. }
  destruct (OK 1%nat ltac:(lia)) as [r1 H1]. destruct (OK 2%nat ltac:(lia)) as [r2 H2].
  pose proof (from_section_built _ _ _ _ _ _ _ _ _ _ H1) as B1. pose proof (from_section_built _ _ _ _ _ _ _ _ _ _ H2) as B2.
  destruct (bf_brg _ _ _ _ _ _ _ _ _ _ B1 _ (or_introl eq_refl)) as (e1 & I1 & _ & L1 & _).
  destruct (bf_brg _ _ _ _ _ _ _ _ _ _ B2 _ (or_introl eq_refl)) as (e2 & I2 & _ & L2 & _).
  exists [1; 1], [0; 0], [1; 1], (MatOne ex_material), brgs, r1, r2, e1, e2, 1%nat. repeat (split; [assumption|]). split.
  - pose proof (bf_ends _ _ _ _ _ _ _ _ _ _ B1 1%nat ltac:(simpl; lia)) as E. simpl in E. rewrite E. unfold section_start. simpl. ring.
  - pose proof (bf_pos _ _ _ _ _ _ _ _ _ _ B2 0%nat 1%nat ltac:(simpl; lia) ltac:(lia)) as E. simpl in E. rewrite E. unfold section_start. simpl. field.
Qed.
(** a shaft of two sections, the second one tapered, of different materials, with a disk and two bearings *)
Example C33_instance : exists lens il ol ir or mt disks brgs, good_section_input lens il ol ir or mt disks brgs 4 /\
  good_sections lens il ol (right_ends il ir) (right_ends ol or) /\
  exists r, from_section lens il ol ir or (Some mt) (Some disks) (Some brgs) 4 = Ok r /\ length (r_nodes_pos r) = 9%nat /\
    nth 4 (r_nodes_pos r) 0 = 1 /\ nth 5 (r_nodes_pos r) 0 = 3 / 2.
Proof.
  set (disks := [ex_disk false 1 "d0"]). set (brgs := [ex_brg false 0 None "b0"; ex_brg false 2 None "b1"]).
  set (mt := MatList [ex_material; mkMaterial "m2" 7 10 26 (3 / 10) ""]).
  assert (G : good_section_input [1; 2] [0; 0] [1; 1] (Some [0; 0]) (Some [1; 3]) mt disks brgs 4).
  { constructor; cbn [length right_ends]; auto; try lia.
    - intros L [<-|[<-|[]]]; lra.
    - reflexivity.
    - intros d [<-|[]]. split; [reflexivity|simpl; lia].
    - intros b [<-|[<-|[]]]; (split; [reflexivity|]); (split; [rewrite brg_n_ex; lia|discriminate]).
    - unfold brgs. cbn [map]. rewrite !brg_n_ex. constructor; [simpl; intuition lia|constructor; [simpl; tauto|constructor]].
    - exists ["d0"; "b0"; "b1"]. split; [reflexivity|]. split; [apply tags_unique_iff; reflexivity|].
      intros t k [<-|[<-|[<-|[]]]]; discriminate. }
  exists [1; 2], [0; 0], [1; 1], (Some [0; 0]), (Some [1; 3]), mt, disks, brgs. split; [exact G|]. split.
  { intros [|[|i]] Hi; unfold good_geometry, right_ends; simpl in *; try lia; lra. }
  destruct (from_section_ok _ _ _ _ _ _ _ _ _ G) as [r Hr]. exists r. split; [exact Hr|]. pose proof (from_section_built _ _ _ _ _ _ _ _ _ _ Hr) as B.
  split; [apply (bf_nodes _ _ _ _ _ _ _ _ _ _ B)|].
  pose proof (bf_pos _ _ _ _ _ _ _ _ _ _ B 1%nat 0%nat ltac:(simpl; lia) ltac:(lia)) as E0.
  pose proof (bf_pos _ _ _ _ _ _ _ _ _ _ B 1%nat 1%nat ltac:(simpl; lia) ltac:(lia)) as E1. unfold section_start in E0, E1.
  cbn [Nat.mul Nat.add firstn suml fold_right nth length] in E0, E1. rewrite E0, E1. simpl. lra.
Qed.

(** ** C34: Rotor.convergence *)
(** When convergence returns after k passes, the passes refined the original rotor with 2, 4, ..., 2^k elements per element; the lists hold
    the number of elements, the frequency and the relative change of every pass; it stopped at the first change not above the limit and
    the rotor has become the last refined one. *)
Theorem C34_convergence : forall fuel wn err_max r out, (exists shafts disks brgs pms, rotor_init shafts disks brgs pms = Ok r) -> refinable r ->
  convergence fuel wn err_max r = Some (Ok out) ->
  exists k Rs ws, (1 <= k)%nat /\ wn r = Ok (ws 0%nat) /\
    (forall i, (1 <= i <= k)%nat -> refinement (2 ^ i) r (Rs i) /\ wn (Rs i) = Ok (ws i)) /\
    cv_rotor out = Rs k /\
    cv_el_num out = map (fun i => 2 ^ i * length (r_shaft r))%nat (seq 1 k) /\
    cv_eigv out = map ws (seq 1 k) /\
    length (cv_errors out) = k /\
    (forall i, (1 <= i <= k)%nat -> ws (i - 1)%nat <> 0 ->
       nth_error (cv_errors out) (i - 1) = Some (Finite (Rabs (1 - ws i / ws (i - 1)%nat))) /\
       if (i <? k)%nat then err_max < Rabs (1 - ws i / ws (i - 1)%nat) else Rabs (1 - ws i / ws (i - 1)%nat) <= err_max).
Proof.
  intros fuel wn err_max r out (shafts & disks & brgs & pms & Hr) Hf H. pose proof (rotor_facts _ _ _ _ _ Hr) as F. unfold convergence in H.
  destruct (wn r) as [w0|] eqn:Ew; [|discriminate].
  destruct (conv_loop_spec wn err_max r fuel 0 (fun _ => r) (fun _ => w0) [] [] [] out) as (k & Rs & ws & Hk & E0 & Hrun & Hstop & ->).
  - constructor; intros; lia.
  - intros; lia.
  - reflexivity.
  - reflexivity.
  - reflexivity.
  - exact H.
  - exists k, Rs, ws. cbn [cv_rotor cv_el_num cv_eigv cv_errors]. split; [lia|]. split; [rewrite E0; reflexivity|].
    assert (HR : forall i, (1 <= i <= k)%nat -> refinement (2 ^ i) r (Rs i)).
    { intros i Hi. apply refine_refinement; auto; [|apply (cn_ref _ _ _ _ _ _ Hrun i Hi)]. apply Nat.neq_0_lt_0, Nat.pow_nonzero. lia. }
    split; [intros i Hi; split; [auto|apply (cn_wn _ _ _ _ _ _ Hrun i Hi)]|]. split; [reflexivity|]. split.
    { apply map_ext_in. intros i Hi. apply in_seq in Hi. apply (re_count _ _ _ (HR i ltac:(lia))). }
    split; [reflexivity|]. split; [rewrite map_length, seq_length; reflexivity|]. intros i Hi Hw.
    assert (Erc : rel_change (ws (i - 1)%nat) (ws i) = Finite (Rabs (1 - ws i / ws (i - 1)%nat))) by (unfold rel_change; destruct (Req_EM_T (ws (i - 1)%nat) 0); [congruence|reflexivity]).
    split.
    + rewrite nth_error_map. rewrite (nth_error_nth' (seq 1 k) 0%nat) by (rewrite seq_length; lia). rewrite seq_nth by lia. cbn [option_map]. replace (1 + (i - 1))%nat with i by lia. rewrite Erc. reflexivity.
    + destruct (Nat.ltb_spec i k) as [Hlt|Hge].
      * pose proof (cn_go _ _ _ _ _ _ Hrun i ltac:(lia)) as Ha. rewrite Erc in Ha. unfold above in Ha. destruct (Rlt_dec err_max _) as [Hlt'|]; [exact Hlt'|discriminate].
      * replace k with i in Hstop by lia. rewrite Erc in Hstop. unfold above in Hstop. destruct (Rlt_dec err_max _) as [|Hge']; [discriminate|apply Rnot_lt_le; exact Hge'].
Qed.
(** a 4-dof rotor of cylinders without supports can be refined *)
Theorem C34_refine_accepts : forall nel r, (exists shafts disks brgs pms, rotor_init shafts disks brgs pms = Ok r) -> (0 < nel)%nat -> refinable r ->
  r_nd r = 4%nat -> r_pm r = [] -> (forall e m, In e (r_brg r) -> el_link e = Some m -> (m <= length (r_shaft r))%nat) -> NoDup (map el_n (r_brg r)) ->
  (forall e k, In e (r_disk r ++ r_brg r) -> el_tag e <> default_tag "ShaftElement " k None) ->
  exists r', refine nel r = Ok r' /\ refinement nel r r'.
Proof.
  intros nel r (shafts & disks & brgs & pms & Hr) Hn Hf H1 H2 H3 H4 H5. pose proof (rotor_facts _ _ _ _ _ Hr) as F.
  destruct (refine_ok nel r F Hn Hf H1 H2 H3 H4 H5) as [r' E]. exists r'. split; [exact E|]. apply refine_refinement; auto.
Qed.
(** a support (a bearing on a node behind the shaft) makes convergence fail *)
Theorem C34_supports_refuted : forall nel r r', (exists shafts disks brgs pms, rotor_init shafts disks brgs pms = Ok r) -> (0 < nel)%nat -> unlayered r ->
  (exists e, In e (r_brg r) /\ (r_n_last r + 1 < el_n e)%nat) -> refine nel r <> Ok r'.
Proof.
  intros nel r r' (shafts & disks & brgs & pms & Hr) Hn U (e & He & Hlt) H. pose proof (rotor_facts _ _ _ _ _ Hr) as F.
  unfold refine in H. destruct (collect _) as [sh|] eqn:E; [|discriminate]. cbn [bind] in H. apply collect_all in E.
  change (flat_map el_shaft (r_shaft r)) with (shafts_of r) in E.
  assert (Hnone : forall s, In s sh -> s_n s = None).
  { intros x Hx. assert (exists a, In a (flat_map (refine_shaft nel) (shafts_of r)) /\ shaft_init a = Ok x) as (a & Ha & Hax).
    { clear -E Hx. induction E as [|a y l l' Hay _ IH]; [destruct Hx|]. destruct Hx as [->|Hx]; [exists a; simpl; auto|]. destruct (IH Hx) as (b & ? & ?). exists b; simpl; auto. }
    apply in_flat_map in Ha as (s & Hs & Ha). destruct (refine_shaft_args _ _ _ Ha) as (_ & _ & Q & _). destruct (init_fields _ _ Hax) as (_ & _ & P & _). congruence. }
  pose proof (chain_facts _ _ _ _ _ Hnone H) as Cr. pose proof (rotor_facts _ _ _ _ _ H) as F'. destruct (rotor_init_lists _ _ _ _ _ H) as (_ & _ & Eb & Ep).
  assert (Hlen : length sh = (nel * length (r_shaft r))%nat).
  { rewrite <- (proj1 (forall2_nth _ _ _ E)). rewrite <- (proj1 (flat_one _ (rf_shaft _ F))). change (flat_map el_shaft (r_shaft r)) with (shafts_of r).
    induction (shafts_of r) as [|s l IH]; simpl; [lia|]. rewrite app_length, refine_shaft_length. 
    clear E. rewrite Nat.mul_succ_r, Nat.add_comm. f_equal. clear. induction l as [|s l IH]; simpl; [lia|]. rewrite app_length, refine_shaft_length, IH. lia. }
  destruct (rf_brg _ F e He) as (t & b & ->).
  rewrite brgs_map in Eb by apply (rf_brg _ F).
  pose proof (in_map (fun e => match e with EBrg t (RB4 s b) => EBrg t (RB4 s (scale_bearing nel (tag_bearing t b)))
                | EBrg t (RB6 b) => EBrg t (RB6 (mkBearing6 (scale_bearing nel (tag_bearing t (b6 b))) (b6_kzz b) (b6_czz b) (b6_mzz b))) | _ => e end) _ _ He) as Hin.
  rewrite <- sort_n_in, <- Eb in Hin.
  assert (Hbig : exists e', In e' (r_brg r') /\ el_n e' = (nel * el_n (EBrg t b))%nat) by (destruct b; (eexists; split; [exact Hin|reflexivity])).
  destruct Hbig as (e' & He' & En). pose proof (rf_loc _ F') as Hl. unfold location_ok in Hl. apply Nat.leb_le in Hl. rewrite Ep in Hl. simpl in Hl.
  assert (Hge : (el_n e' <= max_list (map el_n (r_shaft r' ++ r_disk r' ++ r_brg r')))%nat) by (apply max_list_ge, in_map; rewrite !in_app_iff; auto).
  assert (Hmx : (max_list (map (fun e => S (el_n e)) (r_shaft r')) <= r_n_last r' + 1)%nat).
  { apply max_list_le. intros x Hx. apply in_map_iff in Hx as (y & <- & Hy). rewrite (rf_last _ F'). pose proof (max_list_ge (map el_n (r_shaft r')) (el_n y) ltac:(apply in_map; auto)). lia. }
  pose proof (cr_last _ _ Cr). pose proof (lr_last _ _ (unlayered_facts r F U)) as HL. rewrite (proj1 (flat_one _ (rf_shaft _ F))) in HL. nia.
Qed.
(** the refined elements carry no axial force, torque or proportional damping, whatever the original ones had *)
Theorem C34_loads_dropped_refuted : forall nel r r' e, refine nel r = Ok r' -> In e (r_shaft r') -> exists n t s, e = EShaft false n t s /\
  s_axial_force s = 0 /\ s_torque s = 0 /\ s_alpha s = 0 /\ s_beta s = 0.
Proof.
  intros nel r r' e H He. unfold refine in H. destruct (collect _) as [sh|] eqn:E; [|discriminate]. cbn [bind] in H. apply collect_all in E.
  destruct (rotor_init_lists _ _ _ _ _ H) as (Es & _). rewrite Es in He. rewrite sort_n_in in He. apply mapi_in in He as (j & x & Hx & ->).
  apply in_map_iff in Hx as (y & <- & Hy). 
  assert (exists a, In a (flat_map (refine_shaft nel) (flat_map el_shaft (r_shaft r))) /\ shaft_init a = Ok y) as (a & Ha & Hax).
  { clear -E Hy. induction E as [|a z l l' Haz _ IH]; [destruct Hy|]. destruct Hy as [->|Hx]; [exists a; simpl; auto|]. destruct (IH Hx) as (b & ? & ?). exists b; simpl; auto. }
  apply in_flat_map in Ha as (s & Hs & Ha). destruct (refine_shaft_args _ _ _ Ha) as (_ & _ & _ & _ & _ & Q1 & Q2 & Q3 & Q4). destruct (init_fields _ _ Hax) as (_ & _ & _ & _ & P1 & P2 & P3 & P4).
  unfold mk_shaft. simpl. repeat eexists; congruence.
Qed.
(** refining a solid tapered element changes the mass: the left end of the second element is not where the first one ends *)
Definition one_taper (d D : R) : shaft_args := mkShaftArgs 1 0 d (Some 0) (Some D) (Some ex_material) (Some 0%nat) 0 0 true true true Cowper (Some "s0") 0 0.
Theorem C34_tapered_refuted : forall d D, 0 < d -> 0 < D -> d <> D -> exists s r r',
  shaft_init (one_taper d D) = Ok s /\ rotor_init [mkRShaft false s] [] [] [] = Ok r /\ refine 2 r = Ok r' /\ r_m r' <> r_m r.
Proof.
  intros d D Hd HD Hne. destruct (init_of_refine_args (one_taper d D)) as [s Hs]; [discriminate|reflexivity|].
  destruct (init_fields _ _ Hs) as (P1 & P2 & P3 & P4 & _). simpl in P1, P2, P3, P4. injection P2 as P2.
  destruct (init_final [mkRShaft false s] [] [] [] 0) as (r & Hr & Hlast & _).
  { constructor; simpl.
    - repeat constructor; auto.
    - exists false. repeat split; intros x [] ; try contradiction; subst; reflexivity.
    - intros e [<-|[]]. unfold mk_shaft. simpl. rewrite P3. simpl. lia.
    - intros k Hk. eexists. split; [left; reflexivity|]. unfold mk_shaft. simpl. rewrite P3. simpl. lia.
    - intros e e' [<-|[]] [<-|[]] _. reflexivity.
    - intros x [<-|[]]. simpl. lra.
    - contradiction.
    - constructor.
    - contradiction.
    - contradiction.
    - contradiction. }
  pose proof (rotor_facts _ _ _ _ _ Hr) as F. destruct (rotor_init_lists _ _ _ _ _ Hr) as (Es & Ed & Eb & _). simpl in Es, Ed, Eb.
  assert (Hsh : shafts_of r = [s]) by (unfold shafts_of; rewrite Es; reflexivity).
  destruct (refine_bare 2 r F ltac:(lia)) as (sh & r' & Hr' & HF & Cr & F' & Ed').
  { rewrite Hsh. intros x [<-|[]]. lra. }
  { exact Ed. }
  { exact Eb. }
  exists s, r, r'. split; [exact Hs|]. split; [exact Hr|]. split; [exact Hr'|].
  assert (Fi : s_idl s = 0 /\ s_odl s = d /\ s_idr s = 0 /\ s_odr s = D).
  { unfold shaft_init in Hs. cbn in Hs. injection Hs as <-. repeat split; reflexivity. }
  rewrite (rf_mass _ F), (rf_mass _ F'), Ed, Ed', (cr_shaft _ _ Cr), (chain_map sh_m s_m) by reflexivity. rewrite Es. 
  rewrite Hsh in HF. cbn [flat_map app] in HF. rewrite app_nil_r in HF. unfold refine_shaft in HF. cbn [seq refine_loop] in HF. cbv zeta in HF.
  inversion HF as [|a1 s1 l1 l1' A1 HF1 X1 X2]; subst. inversion HF1 as [|a2 s2 l2 l2' A2 HF2 X3 X4]; subst. inversion HF2; subst. clear HF HF1 HF2.
  destruct Fi as (I1 & I2 & I3 & I4). rewrite I1, I2, I3, I4, P1 in A1, A2.
  assert (M0 : s_m s = mass_f (mrho ex_material) 1 0 d 0 D).
  { destruct (elem_mass _ _ Hs) as (M & _); [unfold good_geometry, right_id, right_od; simpl; lra|]. rewrite I1, I2, I3, I4, P1, <- P2 in M. exact M. }
  simpl INR in A1, A2.
  set (m := ((1 + 1 - 0 - 1) * d + (0 + 1) * D) / (1 + 1)) in *. assert (Em : m = (d + D) / 2) by (unfold m; field).
  assert (M1 : s_m s1 = mass_f (mrho ex_material) (1 / 2) 0 d 0 m).
  { destruct (elem_mass _ _ A1) as (M & _); [unfold good_geometry, right_id, right_od; simpl; rewrite Em; lra|]. rewrite M. destruct (init_diams _ _ A1) as (-> & -> & -> & ->). destruct (init_fields _ _ A1) as (-> & Q & _). unfold right_id, right_od. cbn [a_L a_idl a_odl a_idr a_odr a_material] in *. injection Q as <-.
    rewrite <- P2. f_equal; try field. }
  assert (M2 : s_m s2 = mass_f (mrho ex_material) (1 / 2) 0 ((3 * d + D) / 4) 0 m).
  { destruct (elem_mass _ _ A2) as (M & _); [unfold good_geometry, right_id, right_od; simpl; rewrite Em; lra|]. rewrite M. destruct (init_diams _ _ A2) as (-> & -> & -> & ->). destruct (init_fields _ _ A2) as (-> & Q & _). unfold right_id, right_od. cbn [a_L a_idl a_odl a_idr a_odr a_material] in *. injection Q as <-.
    rewrite <- P2, Em. f_equal; try field. }
  simpl. rewrite M0, M1, M2, Em. unfold mass_f, outer2. intros Q.
  assert (Hrho : 0 < mrho ex_material) by (simpl; lra). pose proof PI_RGT_0 as HPI.
  assert (Q' : mrho ex_material * PI / 12 * ((D - d) * (15 / 32 * d + 21 / 32 * D)) = 0).
  { transitivity (0 + (mrho ex_material * (PI * (1 / 12) * (d ^ 2 + d * D + D ^ 2 - (0 ^ 2 + 0 * 0 + 0 ^ 2))) + 0) - (0 + (mrho ex_material * (PI * (1 / 2 / 12) * (d ^ 2 + d * ((d + D) / 2) + ((d + D) / 2) ^ 2 - (0 ^ 2 + 0 * 0 + 0 ^ 2))) +
      (mrho ex_material * (PI * (1 / 2 / 12) * (((3 * d + D) / 4) ^ 2 + (3 * d + D) / 4 * ((d + D) / 2) + ((d + D) / 2) ^ 2 - (0 ^ 2 + 0 * 0 + 0 ^ 2))) + 0)))); [field|]. unfold Rdiv in *. lra. }
  assert (N : (D - d) * (15 / 32 * d + 21 / 32 * D) = 0).
  { apply Rmult_eq_reg_l with (mrho ex_material * PI / 12); [rewrite Q'; ring|]. apply Rgt_not_eq. apply Rdiv_lt_0_compat; [apply Rmult_lt_0_compat; auto|lra]. }
  apply Rmult_integral in N as [N|N]; lra.
Qed.
(** refining a shaft of two layers puts the layers one behind the other *)
Theorem C34_layers_refuted : exists shafts r r', rotor_init shafts [] [] [] = Ok r /\ (forall s, In s (shafts_of r) -> good_cyl s) /\
  refine 2 r = Ok r' /\ last (r_nodes_pos r) 0 = 1 /\ last (r_nodes_pos r') 0 = 2.
Proof.
  destruct (init_final [ex_rshaft false 0 "s0"; ex_rshaft false 0 "s1"] [] [] [] 0) as (r & Hr & Hlast & Hlay & Hcov & _).
  { constructor; simpl.
    - apply tags_unique_iff. reflexivity.
    - exists false. repeat split; intros x Hx; repeat destruct Hx as [<-|Hx]; try contradiction; reflexivity.
    - intros e Hx; repeat destruct Hx as [<-|Hx]; try contradiction; simpl; lia.
    - intros k Hk. eexists. split; [left; reflexivity|]. simpl. lia.
    - intros e e' Hx Hy; repeat destruct Hx as [<-|Hx]; try contradiction; repeat destruct Hy as [<-|Hy]; try contradiction; reflexivity.
    - intros e Hx; repeat destruct Hx as [<-|Hx]; try contradiction; simpl; lra.
    - contradiction.
    - constructor.
    - contradiction.
    - contradiction.
    - contradiction. }
  pose proof (rotor_facts _ _ _ _ _ Hr) as F. destruct (rotor_init_lists _ _ _ _ _ Hr) as (Es & Ed & Eb & _). simpl in Ed, Eb.
  assert (Es' : r_shaft r = [EShaft false 0 "s0" (ex_shaft 0 "s0"); EShaft false 0 "s1" (ex_shaft 0 "s1")]) by (rewrite Es; reflexivity). clear Es. rename Es' into Es.
  assert (Hsh : shafts_of r = [ex_shaft 0 "s0"; ex_shaft 0 "s1"]) by (unfold shafts_of; rewrite Es; reflexivity).
  destruct (refine_bare 2 r F ltac:(lia)) as (sh & r' & Hr' & HF & Cr & F' & Ed').
  { rewrite Hsh. intros x [<-|[<-|[]]]; simpl; lra. }
  { exact Ed. }
  { exact Eb. }
  eexists. exists r, r'. split; [exact Hr|]. split.
  { rewrite Hsh. intros x [<-|[<-|[]]]; (split; [eexists; split; [apply ex_shaft_init|apply ex_sargs_good]|split; reflexivity]). }
  split; [exact Hr'|]. split.
  - rewrite (rf_pos _ F), Es. unfold nodes_pos. rewrite last_last. simpl. ring.
  - assert (Hlen : length sh = 4%nat) by (rewrite <- (proj1 (forall2_nth _ _ _ HF)), Hsh; reflexivity).
    pose proof (cr_plen _ _ Cr) as Hp. rewrite Hlen in Hp.
    assert (El : last (r_nodes_pos r') 0 = nth 4 (r_nodes_pos r') 0) by (destruct (r_nodes_pos r') as [|a [|b [|c [|e [|f [|]]]]]]; try discriminate; reflexivity).
    rewrite El, (cr_pos _ _ Cr 4 (ex_shaft 0 "s0")) by lia. rewrite Hsh in HF.
    assert (HLs : forall i, (i < 4)%nat -> s_L (nth i sh (ex_shaft 0 "s0")) = 1 / 2).
    { intros i Hi. destruct (forall2_nth _ _ _ HF) as [Hl Hn]. specialize (Hn i (ex_sargs 0 "s0") (ex_shaft 0 "s0") ltac:(rewrite Hl, Hlen; exact Hi)).
      destruct (init_fields _ _ Hn) as (-> & _).
      assert (Hin : In (nth i (flat_map (refine_shaft 2) [ex_shaft 0 "s0"; ex_shaft 0 "s1"]) (ex_sargs 0 "s0")) (flat_map (refine_shaft 2) [ex_shaft 0 "s0"; ex_shaft 0 "s1"])) by (apply nth_In; rewrite Hl, Hlen; exact Hi).
      apply in_flat_map in Hin as (x & Hx & Hin). destruct (refine_shaft_args _ _ _ Hin) as (-> & _). destruct Hx as [<-|[<-|[]]]; simpl; field. }
    cbn [sumn]. rewrite !HLs by lia. lra.
Qed.
(** a mode with frequency zero in the original and in the first refined rotor ends the loop at once, whatever the limit *)
Theorem C34_zero_frequency_refuted : forall fuel wn err_max r r', wn r = Ok 0 -> refine 2 r = Ok r' -> wn r' = Ok 0 ->
  convergence (S fuel) wn err_max r = Some (Ok (mkConv r' [length (r_shaft r')] [0] [NaN])).
Proof.
  intros fuel wn err_max r r' H1 H2 H3. unfold convergence. rewrite H1. cbn [conv_loop]. rewrite H2, H3. cbv zeta. unfold rel_change.
  destruct (Req_EM_T 0 0); [|congruence]. reflexivity.
Qed.
(** a 4-dof rotor of two cylinders, a disk and two bearings: refined twice, the frequency settling after the second pass *)
Example C34_instance : exists r wn out k, (exists shafts disks brgs pms, rotor_init shafts disks brgs pms = Ok r) /\ refinable r /\
  convergence k wn (1 / 10) r = Some (Ok out) /\ cv_el_num out = [4; 8]%nat.
Proof.
  set (S0 := [ex_rshaft false 0 "s0"; ex_rshaft false 1 "s1"]). set (D0 := [ex_disk false 1 "d0"]). set (B0 := [ex_brg false 0 None "b0"; ex_brg false 2 None "b1"]).
  destruct (init_final S0 D0 B0 [] 1) as (r & Hr & Hlast & Hlay & Hcov & _).
  { constructor; unfold S0, D0, B0; simpl.
    - apply tags_unique_iff. reflexivity.
    - exists false. repeat split; intros x Hx; repeat destruct Hx as [<-|Hx]; try contradiction; reflexivity.
    - intros e Hx; repeat destruct Hx as [<-|Hx]; try contradiction; simpl; lia.
    - intros k Hk. destruct k as [|[|k]]; [eexists; split; [left; reflexivity|reflexivity]|eexists; split; [right; left; reflexivity|reflexivity]|lia].
    - intros e e' Hx Hy; repeat destruct Hx as [<-|Hx]; try contradiction; repeat destruct Hy as [<-|Hy]; try contradiction; reflexivity.
    - intros e Hx; repeat destruct Hx as [<-|Hx]; try contradiction; simpl; lra.
    - intros e Hx; repeat destruct Hx as [<-|Hx]; try contradiction; simpl; lia.
    - change (NoDup [0; 2]%nat). constructor; [simpl; intuition lia|constructor; [simpl; tauto|constructor]].
    - intros e Hx; repeat destruct Hx as [<-|Hx]; try contradiction; left; unfold brg_n; simpl; lia.
    - intros e m Hx Hm; repeat destruct Hx as [<-|Hx]; try contradiction; discriminate.
    - contradiction. }
  pose proof (rotor_facts _ _ _ _ _ Hr) as F. destruct (rotor_init_lists _ _ _ _ _ Hr) as (Es & Ed & Eb & Ep).
  assert (Es' : r_shaft r = [EShaft false 0 "s0" (ex_shaft 0 "s0"); EShaft false 1 "s1" (ex_shaft 1 "s1")]) by (rewrite Es; reflexivity). clear Es. rename Es' into Es.
  assert (Hf : refinable r).
  { constructor.
    - intros k e He. rewrite Es in He. destruct k as [|[|k]]; simpl in He; [injection He as <-; reflexivity|injection He as <-; reflexivity|destruct k; discriminate].
    - intros s Hs. unfold shafts_of in Hs. rewrite Es in Hs. simpl in Hs. destruct Hs as [<-|[<-|[]]]; (split; [eexists; split; [apply ex_shaft_init|apply ex_sargs_good]|split; reflexivity]). }
  assert (Hnd : r_nd r = 4%nat).
  { pose proof (rf_fam _ F (EShaft false 0 "s0" (ex_shaft 0 "s0"))) as Q. unfold r_elements in Q. rewrite Es in Q. specialize (Q (or_introl eq_refl)). simpl in Q. congruence. }
  assert (Hex : forall nel, (0 < nel)%nat -> exists r', refine nel r = Ok r' /\ refinement nel r r').
  { intros nel Hn. apply C34_refine_accepts; auto.
    - exists S0, D0, B0, []. exact Hr.
    - intros e m He Hm. rewrite Eb in He. rewrite sort_n_in in He. unfold B0 in He. simpl in He. destruct He as [<-|[<-|[]]]; discriminate.
    - rewrite Eb. unfold B0. simpl. constructor; [simpl; intuition lia|constructor; [simpl; tauto|constructor]].
    - intros e k He. rewrite Ed, Eb in He. apply in_app_or in He as [He|He]; [|rewrite sort_n_in in He]; unfold D0, B0 in He; simpl in He;
        repeat destruct He as [<-|He]; try contradiction; discriminate. }
  destruct (Hex 2%nat ltac:(lia)) as (r2 & E2 & R2). destruct (Hex 4%nat ltac:(lia)) as (r4 & E4 & R4).
  assert (N0 : length (r_shaft r) = 2%nat) by (rewrite Es; reflexivity).
  pose proof (re_count _ _ _ R2) as N2. pose proof (re_count _ _ _ R4) as N4. rewrite N0 in N2, N4. simpl in N2, N4.
  exists r, (fun x => Ok (if Nat.eqb (length (r_shaft x)) 2 then 2 else 1)), (mkConv r4 [4; 8]%nat [1; 1] [Finite (Rabs (1 - 1 / 2)); Finite (Rabs (1 - 1 / 1))]), 2%nat.
  split; [exists S0, D0, B0, []; exact Hr|]. split; [exact Hf|]. split; [|reflexivity].
  unfold convergence. rewrite N0. cbn [conv_loop Nat.eqb Nat.mul Nat.add]. rewrite E2, N2. cbn [Nat.eqb]. cbv zeta. unfold rel_change at 1.
  destruct (Req_EM_T 2 0) as [Q|_]; [lra|]. unfold above at 1. destruct (Rlt_dec (1 / 10) (Rabs (1 - 1 / 2))) as [_|Q].
  - rewrite E4, N4. cbn [Nat.eqb]. unfold rel_change, above. destruct (Req_EM_T 2 0) as [Q|_]; [lra|]. destruct (Req_EM_T 1 0) as [Q|_]; [lra|]. destruct (Rlt_dec (1 / 10) (Rabs (1 - 1 / 1))) as [Q|_]; [|reflexivity].
    exfalso. replace (1 - 1 / 1) with 0 in Q by field. rewrite Rabs_R0 in Q. lra.
  - exfalso. apply Q. rewrite Rabs_right; lra.
Qed.

Print Assumptions C33_section.
Print Assumptions C33_from_section.
Print Assumptions C33_mesh_independent.
Print Assumptions C34_convergence.
Print Assumptions C34_tapered_refuted.
Print Assumptions C34_layers_refuted.
