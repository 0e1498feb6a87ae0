(** Comparison of shaft elements, disks and point masses. *)
From Coq Require Import Reals Lra Lia String List Bool Arith.
From Verif Require Import PyBase PyDict MatBase MMaterial MShaft MDisk MBearing MRotor MDynamics MSave MEq SpecBearing SpecSave SpecEq LMaterial LEq LEq2 LEq3.
Import ListNotations.
Open Scope list_scope.
Open Scope R_scope.

Lemma meth_inj a b : meth_str a = meth_str b -> a = b.
Proof. destruct a, b; cbn; congruence. Qed.
Lemma material_eqb_iff m m' : material_eqb m m' = true <-> close (mrho m) (mrho m') /\ close (mE m) (mE m') /\ close (mG_s m) (mG_s m') /\ close (mPoisson m) (mPoisson m').
Proof. unfold material_eqb. rewrite !andb_true_iff, !closeb_iff. tauto. Qed.
Lemma close_refl a : close a a.
Proof. unfold close. replace (a - a) with 0 by ring. rewrite Rabs_R0. pose proof (Rabs_pos a). nra. Qed.
Lemma shaft_dict_iff a b : shaft_dict_eq a b = true <->
  close_material (s_material (os_s a)) (s_material (os_s b)) /\ s_shear_effects (os_s a) = s_shear_effects (os_s b) /\ s_rotary_inertia (os_s a) = s_rotary_inertia (os_s b) /\
  s_gyroscopic (os_s a) = s_gyroscopic (os_s b) /\ s_n (os_s a) = s_n (os_s b) /\ s_tag (os_s a) = s_tag (os_s b) /\ os_meth a = os_meth b /\ shaft_reals (os_s a) = shaft_reals (os_s b).
Proof.
  unfold shaft_dict_eq, close_material. cbv zeta. rewrite !andb_true_iff, material_eqb_iff, !Bool.eqb_true_iff, !String.eqb_eq, reals_eq.
  rewrite (opt_eqb_iff Nat.eqb Nat.eqb_eq), (opt_eqb_iff String.eqb String.eqb_eq). split.
  - intros ((((((((H1 & H2) & H3) & H4) & H5) & H6) & H7) & H8) & H9). apply meth_inj in H8. tauto.
  - intros (H1 & H3 & H4 & H5 & H6 & H7 & H8 & H9). rewrite H8. tauto.
Qed.
Lemma res_true (b : bool) : Ok b = Ok true <-> b = true.
Proof. split; congruence. Qed.
Lemma shaft_py np a b d d' : os_six a = os_six b -> (py_eq np (IShaft a, d) (IShaft b, d') = Ok true <-> d = d' /\ shaft_dict_eq a b = true).
Proof.
  intros S. unfold py_eq, self_eq. cbn [fst snd obj_class]. rewrite S.
  replace (proper_subclass _ _) with false by (destruct (os_six b); reflexivity). rewrite res_true, andb_true_iff, dofs_eqb_iff. tauto.
Qed.
Lemma disk_dict_iff a b : disk_dict_eq a b = true <-> close_disk a b.
Proof.
  unfold disk_dict_eq, close_disk. cbv zeta. rewrite !andb_true_iff, !closeb_iff, String.eqb_eq, (opt_eqb_iff String.eqb String.eqb_eq). tauto.
Qed.
Lemma disk_py np a b d d' : od_six a = od_six b -> (py_eq np (IDisk a, d) (IDisk b, d') = Ok true <-> d = d' /\ close_disk a b).
Proof.
  intros S. unfold py_eq, self_eq. cbn [fst snd obj_class]. rewrite S.
  replace (proper_subclass _ _) with false by (destruct (od_six b); reflexivity). rewrite res_true, andb_true_iff, dofs_eqb_iff, disk_dict_iff. tauto.
Qed.
Lemma pmass_mz n m mx my t p : pmass_init n m mx my t = Ok p -> p_mz p = 0.
Proof. unfold pmass_init. destruct m, mx, my; cbn; intros E; try discriminate; injection E as <-; reflexivity. Qed.
Lemma pm_py np a b d d' : built_pm a -> built_pm b -> (py_eq np (IPm a, d) (IPm b, d') = Ok true <-> d = d' /\ a = b).
Proof.
  intros B B'. 
  assert (X : forall a b, built_pm a -> built_pm b -> (pm_dict_eq a b = true <-> a = b)).
  { clear. intros a b B B'. unfold pm_dict_eq. rewrite !andb_true_iff, Bool.eqb_true_iff, Nat.eqb_eq, !req_iff, String.eqb_eq, (opt_eqb_iff String.eqb String.eqb_eq).
    destruct B as (n & m & mx & my & mz & t & p & I & M & t0 & P). destruct B' as (n' & m' & mx' & my' & mz' & t' & p' & I' & M' & t0' & P').
    destruct a as [six q om co], b as [six' q' om' co']. cbn [op_six op_p op_m op_color] in *. split.
    - intros ((((((S & H1) & H2) & H3) & H4) & H5) & H6). subst six' co'. destruct six.
      + apply req_iff in H4. f_equal; [|congruence]. destruct q, q'; cbn in *; congruence.
      + apply (opt_eqb_iff req req_iff) in H4. f_equal; [|exact H4]. assert (Z : p_mz p = 0 /\ p_mz p' = 0) by (split; eapply pmass_mz; eassumption).
        destruct Z as (Z & Z'). subst q q'. cbn in *. congruence.
    - intros E. injection E as -> -> -> ->. repeat split; auto. destruct six'; [apply req_iff; reflexivity|apply (opt_eqb_iff req req_iff); reflexivity]. }
  unfold py_eq, self_eq. cbn [fst snd obj_class]. destruct (proper_subclass _ _); rewrite res_true, andb_true_iff, dofs_eqb_iff, X by assumption; split; intros (H & H'); split; congruence.
Qed.

(** ** shafts made by the constructor *)
Lemma init_reals a b s t : shaft_init a = Ok s -> shaft_init b = Ok t ->
  (s_L s, s_idl s, s_odl s, s_idr s, s_odr s) = (s_L t, s_idl t, s_odl t, s_idr t, s_odr t) ->
  (s_axial_force s, s_torque s, s_alpha s, s_beta s) = (s_axial_force t, s_torque t, s_alpha t, s_beta t) ->
  (s_shear_effects s, a_method a) = (s_shear_effects t, a_method b) ->
  mrho (s_material s) = mrho (s_material t) -> mPoisson (s_material s) = mPoisson (s_material t) ->
  mE (s_material s) * mG_s (s_material t) = mE (s_material t) * mG_s (s_material s) -> mE (s_material s) <> 0 -> mE (s_material t) <> 0 -> mG_s (s_material s) <> 0 -> mG_s (s_material t) <> 0 ->
  shaft_reals s = shaft_reals t.
Proof.
  unfold shaft_init. destruct (a_material a) as [m|]; [|discriminate]. destruct (a_material b) as [m'|]; [|discriminate]. cbv zeta.
  generalize (default (a_idl a) (a_idr a)), (default (a_odl a) (a_odr a)), (default (a_idl b) (a_idr b)), (default (a_odl b) (a_odr b)). intros idr odr idr' odr'.
  assert (RT : forall E G E' G', E * G' = E' * G -> E <> 0 -> E' <> 0 -> G / E = G' / E') by (intros E G E' G' H N N'; apply (Rmult_eq_reg_r (E * E')); [field_simplify; auto; lra|apply Rmult_integral_contrapositive_currified; assumption]).
  assert (SL : forall E G E' G' x y, E * G' = E' * G -> E <> 0 -> E' <> 0 -> G * x / (E * y) = G' * x / (E' * y)).
  { intros E G E' G' x y H N N'. unfold Rdiv. rewrite !Rinv_mult. replace (G * x * (/ E * / y)) with ((G / E) * (x * / y)) by (unfold Rdiv; ring). rewrite (RT _ _ _ _ H N N'). unfold Rdiv. ring. }
  destruct (a_shear_effects a) eqn:SA; destruct (a_shear_effects b) eqn:SB; try (destruct (shear_kappa (a_method a) _ _ _ _ _) as [k|] eqn:KA; [|discriminate]);
    try (destruct (shear_kappa (a_method b) _ _ _ _ _) as [k'|] eqn:KB; [|discriminate]); intros IA IB; injection IA as <-; injection IB as <-;
    cbn [s_L s_idl s_odl s_idr s_odr s_axial_force s_torque s_alpha s_beta s_shear_effects s_material]; intros D1 D2 D3 ER EP EQ N1 N2 N3 N4; try congruence; clear SA SB.
  - revert KA KB. injection D1 as -> -> -> -> ->. injection D2 as -> -> -> ->. injection D3 as E3. rewrite E3, EP. intros KA KB. assert (EK : k = k') by congruence. subst k'. clear KA KB.
    unfold shaft_reals. cbn [s_axial_force s_torque s_L s_idl s_odl s_idr s_odr s_alpha s_beta s_A_l s_A_r s_Ie_l s_Ie_r s_volume s_m s_a1 s_a2 s_b1 s_b2 s_gama s_delta s_A s_Ie s_beam_cg s_slenderness s_Im s_kappa s_phi].
    rewrite ER. do 24 (apply f_equal2; [reflexivity|]). apply f_equal2; [rewrite !Rmult_assoc; apply SL; assumption|]. do 2 (apply f_equal2; [reflexivity|]). apply f_equal2; [|reflexivity].
    rewrite !(Rmult_comm 12), !(Rmult_assoc _ 12). rewrite !(Rmult_assoc (mG_s _)). apply SL; auto. lra.
  - injection D1 as -> -> -> -> ->. injection D2 as -> -> -> ->. unfold shaft_reals.
    cbn [s_axial_force s_torque s_L s_idl s_odl s_idr s_odr s_alpha s_beta s_A_l s_A_r s_Ie_l s_Ie_r s_volume s_m s_a1 s_a2 s_b1 s_b2 s_gama s_delta s_A s_Ie s_beam_cg s_slenderness s_Im s_kappa s_phi].
    rewrite ER. do 24 (apply f_equal2; [reflexivity|]). apply f_equal2; [rewrite !Rmult_assoc; apply SL; assumption|reflexivity].
Qed.
Lemma place_reals s s' : same_but_place s s' -> shaft_reals s' = shaft_reals s.
Proof. intros (n & t & ->). reflexivity. Qed.
Lemma built_poisson m : built_material m -> mE m = 2 * mG_s m * (1 + mPoisson m).
Proof.
  intros (name & rho & E & G & nu & color & I). unfold material_init in I. destruct (has_space name); [discriminate|]. destruct (negb _); [discriminate|].
  destruct E as [e|], G as [g|], nu as [p|]; try discriminate; [destruct (Req_EM_T (2 * g) 0) as [|N]|destruct (Req_EM_T (2 * (1 + p)) 0) as [|N]|]; try discriminate; injection I as <-; cbn.
  - field. lra.
  - field. lra.
  - ring.
Qed.
Lemma poisson_same m m' : built_material m -> built_material m' -> mE m * mG_s m' = mE m' * mG_s m -> mG_s m <> 0 -> mG_s m' <> 0 -> mPoisson m = mPoisson m'.
Proof.
  intros B B' H N N'. pose proof (built_poisson _ B) as P. pose proof (built_poisson _ B') as P'. rewrite P, P' in H.
  assert (X : (mG_s m * mG_s m') * (mPoisson m - mPoisson m') = 0) by lra. apply Rmult_integral in X as [X|X]; [|lra]. apply Rmult_integral in X. tauto.
Qed.
Lemma shaft_alike a b : built_shaft a -> built_shaft b -> has_body a -> has_body b -> (shaft_dict_eq a b = true <-> alike a b).
Proof.
  intros (BM & aa & s & Ma & Ia & Pa) (BM' & bb & t & Mb & Ib & Pb) (L1 & V1 & A1 & I1 & E1 & G1) (L2 & V2 & A2 & I2 & E2 & G2). rewrite shaft_dict_iff. unfold alike, same_arguments, close_material. cbv zeta. split.
  - intros ((C1 & C2 & C3 & C4 & C5) & H1 & H2 & H3 & H4 & H5 & H6 & H7).
    assert (EM : s_m (os_s a) = mrho (s_material (os_s a)) * s_volume (os_s a) /\ s_slenderness (os_s a) = mG_s (s_material (os_s a)) * s_A (os_s a) * s_L (os_s a) ^ 2 / (mE (s_material (os_s a)) * s_Ie (os_s a))).
    { destruct Pa as (n & tg & ->). revert Ia. clear. unfold shaft_init. destruct (a_material aa); [|discriminate]. cbv zeta. destruct (a_shear_effects aa); [destruct (shear_kappa _ _ _ _ _ _); [|discriminate]|]; intros E; injection E as <-; split; reflexivity. }
    assert (EM' : s_m (os_s b) = mrho (s_material (os_s b)) * s_volume (os_s b) /\ s_slenderness (os_s b) = mG_s (s_material (os_s b)) * s_A (os_s b) * s_L (os_s b) ^ 2 / (mE (s_material (os_s b)) * s_Ie (os_s b))).
    { destruct Pb as (n & tg & ->). revert Ib. clear. unfold shaft_init. destruct (a_material bb); [|discriminate]. cbv zeta. destruct (a_shear_effects bb); [destruct (shear_kappa _ _ _ _ _ _); [|discriminate]|]; intros E; injection E as <-; split; reflexivity. }
    destruct EM as (EM & ES). destruct EM' as (EM' & ES'). unfold shaft_reals in H7. injection H7 as F1 F2 F3 F4 F5 F6 F7 F8 F9 F10 F11 F12 F13 F14 F15 F16 F17 F18 F19 F20 F21 F22 F23 F24 F25 F26 F27 F28.
    rewrite F14 in *. rewrite F22, F23, F3 in *. split; [repeat split; congruence|]. split; [exact C5|]. split; [|split; [|auto]].
    + assert (X : (mrho (s_material (os_s a)) - mrho (s_material (os_s b))) * s_volume (os_s b) = 0) by lra. apply Rmult_integral in X as [X|X]; lra.
    + rewrite ES, ES' in F25.
      set (x := s_A (os_s b) * s_L (os_s b) ^ 2) in *. assert (X : 0 < x) by (apply Rmult_lt_0_compat; [lra|apply pow_lt; lra]).
      rewrite !(Rmult_assoc (mG_s _)) in F25. fold x in F25. set (y := s_Ie (os_s b)) in *. set (e := mE (s_material (os_s a))) in *. set (e' := mE (s_material (os_s b))) in *. set (g := mG_s (s_material (os_s a))) in *. set (g' := mG_s (s_material (os_s b))) in *.
      assert (Z : e' * g * (x / y) = e * g' * (x / y)).
      { replace (e' * g * (x / y)) with (e * e' * (g * x / (e * y))) by (field; lra). rewrite F25. field. lra. }
      apply Rmult_eq_reg_r in Z; [lra|]. assert (0 < x / y) by (apply Rdiv_lt_0_compat; lra). lra.
  - intros ((D1 & D2 & D3 & D4) & EC & ER & EQ & CE & CG).
    assert (N1 : mE (s_material (os_s a)) <> 0) by lra. assert (N2 : mE (s_material (os_s b)) <> 0) by lra. assert (N3 : mG_s (s_material (os_s a)) <> 0) by lra. assert (N4 : mG_s (s_material (os_s b)) <> 0) by lra.
    pose proof (poisson_same _ _ BM BM' EQ N3 N4) as EP.
    split; [rewrite ER, EP; auto using close_refl|]. injection D3 as S1 S2 S3 S4. injection D4 as T1 T2. do 6 (split; [assumption|]).
    rewrite (place_reals _ _ Pa), (place_reals _ _ Pb). destruct Pa as (n & tg & Pa). destruct Pb as (n' & tg' & Pb). rewrite Pa, Pb in *. cbn in D1, D2, S1, ER, EP, EQ, N1, N2, N3, N4.
    apply (init_reals _ _ _ _ Ia Ib); auto. congruence.
Qed.
