(** Rotors compared with ==; matrices of equal elements. *)
From Coq Require Import Reals Lra Lia String List Bool Arith FunctionalExtensionality.
From Verif Require Import PyBase PyDict MatBase MMaterial MShaft MDisk MBearing MRotor MDynamics MSave MEq SpecBearing SpecSave SpecEq LRotor LSave LSave2 LSave3 LSave4 LEq LEq2 LEq3 LEq4 LEq5.
Import ListNotations.
Open Scope list_scope.
Open Scope R_scope.

(** ** an element equals itself *)
Definition keeps_obj (x : obj) : Prop := match x with IBrg o => keeps_arguments o | _ => True end.
Lemma py_refl np x d : keeps_obj x -> py_eq np (x, d) (x, d) = Ok true.
Proof.
  intros K. destruct x as [s|k|o|p].
  - apply shaft_py; [reflexivity|]. split; [reflexivity|]. apply shaft_dict_iff. unfold close_material. auto 20 using close_refl.
  - apply disk_py; [reflexivity|]. split; [reflexivity|]. unfold close_disk. auto 20 using close_refl.
  - rewrite brg_split, (proj2 (bclass_eqb_iff _ _) eq_refl). apply brg_refl, K.
  - unfold py_eq, self_eq. cbn [fst snd obj_class]. replace (proper_subclass _ _) with false by (destruct (op_six p); reflexivity). f_equal. apply andb_true_iff. split; [|apply dofs_eqb_iff; reflexivity].
    unfold pm_dict_eq. rewrite !andb_true_iff, Bool.eqb_true_iff, Nat.eqb_eq, !req_iff, String.eqb_eq, (opt_eqb_iff String.eqb String.eqb_eq). repeat split; auto.
    destruct (op_six p); [apply req_iff; reflexivity|apply (opt_eqb_iff req req_iff); reflexivity].
Qed.
Lemma py_plain np c b b' d d' : py_eq np (IBrg (OPlain c b), d) (IBrg (OPlain c b'), d') = Err AttributeError.
Proof. rewrite brg_split, (proj2 (bclass_eqb_iff _ _) eq_refl). apply brg_plain. Qed.

(** ** lists *)
Lemma lists_true np l l' : lists_eq np l l' = Ok true <-> Forall2 (fun x y => py_eq np x y = Ok true) l l'.
Proof.
  split.
  - revert l'. induction l as [|x l IH]; intros [|y l'] E; cbn [lists_eq] in E; try discriminate; [constructor|].
    destruct (py_eq np x y) as [[|]|] eqn:P; try discriminate. constructor; auto.
  - induction 1 as [|x y l l' P F IH]; [reflexivity|]. cbn [lists_eq]. rewrite P. exact IH.
Qed.
Lemma lists_refl np l : (forall x, In x l -> keeps_obj (fst x)) -> lists_eq np l l = Ok true.
Proof. intros H. apply lists_true. induction l as [|[x d] l IH]; constructor; [apply py_refl, (H (x, d)); left; reflexivity|apply IH; intros; apply H; right; assumption]. Qed.
Lemma lists_differ np l l' : Forall2 (fun x y => exists c, py_eq np x y = Ok c) l l' -> (exists i x y, nth_error l i = Some x /\ nth_error l' i = Some y /\ py_eq np x y = Ok false) -> lists_eq np l l' = Ok false.
Proof.
  induction 1 as [|x y l l' (c & P) F IH]; intros (i & a & b & Ea & Eb & N); [destruct i; discriminate|]. cbn [lists_eq]. rewrite P. cbn [bind]. destruct c; [|reflexivity].
  destruct i as [|i]; [cbn in Ea, Eb; congruence|]. apply IH. exists i, a, b. auto.
Qed.
Lemma lists_plain np l c b d : In (IBrg (OPlain c b), d) l -> lists_eq np l l = Err AttributeError.
Proof.
  induction l as [|[x dx] l IH]; intros H; [destruct H|]. cbn [lists_eq].
  assert (K : keeps_obj x \/ exists c b, x = IBrg (OPlain c b)) by (destruct x as [| |[]|]; cbn; eauto). destruct K as [K|(c' & b' & ->)]; [|rewrite py_plain; reflexivity].
  rewrite (py_refl np x dx K). cbn [bind]. apply IH. destruct H as [H|H]; [|exact H]. injection H as -> _. destruct K.
Qed.
Lemma opt_req o o' : opt_eqb req o o' = true <-> o = o'.
Proof. apply opt_eqb_iff, req_iff. Qed.
Lemma rotor_true np r r' : rotor_eq np r r' = Ok true <-> Forall2 (fun x y => py_eq np x y = Ok true) (ro_placed r) (ro_placed r') /\ ro_min r = ro_min r' /\ ro_max r = ro_max r' /\ ro_rated r = ro_rated r'.
Proof.
  unfold rotor_eq. destruct (Nat.eqb_spec (length (ro_placed r)) (length (ro_placed r'))) as [E|NE].
  - destruct (lists_eq np _ _) as [c|] eqn:Q; cbn [bind].
    + rewrite <- lists_true, Q, !res_true, !andb_true_iff, !opt_req. tauto.
    + split; [discriminate|]. intros (F & _). apply lists_true in F. congruence.
  - cbn [bind andb]. split; [discriminate|]. intros (F & _). exfalso. apply NE. clear NE. induction F; cbn; auto.
Qed.

(** ** a rotor that comes back from a file *)
Section Loaded.
Variables (np : numpy) (sh : list oshaft) (dk : list odisk) (br : list obrg) (pm : list opm) (mn mx rt : option R) (tag : option string) (r : robj).
Hypothesis I : robj_init sh dk br pm mn mx rt tag = Ok r.
Lemma again_dofs : map (fun e => Some (r_dofs (ro_val (again r)) e)) (r_elements (ro_val (again r))) = map (fun e => Some (r_dofs (ro_val r) e)) (r_elements (ro_val r)).
Proof using.
  clear. cbn [again ro_val]. assert (E : r_elements (f_rotor Fb (ro_val r)) = map Fb (r_elements (ro_val r))) by (unfold r_elements, f_rotor; cbn [r_shaft r_disk r_brg r_pm]; rewrite !map_app; reflexivity).
  rewrite E, map_map. apply map_ext. intros e. rewrite (dofs_f Fb Fb_keeps). reflexivity.
Qed.
Lemma again_elements : ro_elements (again r) = map back (ro_elements r).
Proof using. clear. unfold ro_elements, again; cbn [ro_sh ro_dk ro_br ro_pm]; rewrite !map_app, !map_map; reflexivity. Qed.
Lemma again_placed : ro_placed (again r) = map (fun p => (back (fst p), snd p)) (ro_placed r).
Proof using.
  unfold ro_placed. rewrite again_dofs, again_elements. generalize (map (fun e => Some (r_dofs (ro_val r) e)) (r_elements (ro_val r))). generalize (ro_elements r). clear.
  induction l as [|x l IH]; intros [|d m]; cbn [map combine]; try reflexivity. rewrite IH. reflexivity.
Qed.
Lemma placed_in x : In x (ro_placed r) -> In (fst x) (ro_elements r).
Proof using. clear. destruct x as [x d]. intros H. exact (in_combine_l _ _ _ _ H). Qed.
Definition no_seal (x : obj) : Prop := match x with IBrg (OSeal _) => False | _ => True end.
Lemma back_same x : no_seal x -> back x = x.
Proof using. clear. destruct x as [| |[]|]; cbn; intros H; try reflexivity; contradiction. Qed.
Lemma loaded_equal : (forall o, In o (ro_elements r) -> keeps_obj o /\ no_seal o) -> rotor_eq np r (again r) = Ok true.
Proof using.
  intros H. apply rotor_true. rewrite again_placed. cbn [again ro_min ro_max ro_rated]. split; [|auto].
  assert (E : map (fun p => (back (fst p), snd p)) (ro_placed r) = ro_placed r).
  { rewrite <- (map_id (ro_placed r)) at 2. apply map_ext_in. intros [x d] Hx. cbn. rewrite back_same; [reflexivity|]. apply H. exact (placed_in _ Hx). }
  rewrite E. apply lists_true, lists_refl. intros x Hx. apply H, placed_in, Hx.
Qed.
(** a seal comes back half as large *)
Lemma built_half s : built_brg (OSeal s) -> built_brg (OSeal (mkSeal (half (sl_bearing s)) (sl_leakage s))).
Proof using.
  clear. intros (a & lk & s0 & I & T & L). exists (bearing_saved (sl_bearing s)), lk, (mkSeal (half (sl_bearing s)) lk). rewrite (seal_again _ _ _ _ I T L). cbn [sl_bearing sl_leakage].
  split; [reflexivity|]. split; [|exact L]. exists (b_tag (half (sl_bearing s))). destruct (half (sl_bearing s)); reflexivity.
Qed.
Lemma seal_half_ok s d : built_brg (OSeal s) -> exists c, py_eq np (IBrg (OSeal s), d) (back (IBrg (OSeal s)), d) = Ok c /\ (b_scale_factor (sl_bearing s) <> 0 -> c = false).
Proof using.
  clear. intros B. cbn [back back_brg]. rewrite brg_split. cbn [brg_class bclass_eqb].
  destruct (brg_ok np (OSeal s) (OSeal (mkSeal (half (sl_bearing s)) (sl_leakage s))) B (built_half s B) eq_refl Logic.I) as (c & E); [split; [left; reflexivity|exact Logic.I]|].
  exists c. split; [exact E|]. intros N. destruct c; [|reflexivity]. exfalso. apply N.
  assert (Q : OSeal s = OSeal (mkSeal (half (sl_bearing s)) (sl_leakage s))) by (apply (brg_equal np _ _ B (built_half s B)); first [reflexivity|exact Logic.I|discriminate|exact E]).
  assert (X : b_scale_factor (sl_bearing s) = b_scale_factor (sl_bearing s) / 2) by (injection Q as Q; rewrite Q at 1; reflexivity). lra.
Qed.
Lemma loaded_seal s : (forall o, In o (ro_elements r) -> built o /\ keeps_obj o) -> In (IBrg (OSeal s)) (ro_elements r) -> b_scale_factor (sl_bearing s) <> 0 -> rotor_eq np r (again r) = Ok false.
Proof using I.
  intros H HS N. unfold rotor_eq. rewrite again_placed. rewrite map_length, Nat.eqb_refl.
  rewrite lists_differ; [reflexivity| |].
  - assert (X : forall x, In x (ro_placed r) -> built (fst x) /\ keeps_obj (fst x)) by (intros x Hx; apply H, placed_in, Hx). revert X. generalize (ro_placed r). clear.
    induction l as [|[x d] l IH]; intros X; cbn [map]; constructor; [|apply IH; intros; apply X; right; assumption]. cbn [fst snd].
    destruct (X _ (or_introl eq_refl)) as (B & K). cbn [fst] in B, K. destruct x as [s|k|[b|s|b|a b|sp w l' dd c v b|c b]|p]; cbn [back back_brg]; try (exists true; apply py_refl; exact K).
    destruct (seal_half_ok s d B) as (c & E & _). exists c. exact E.
  - apply In_nth_error in HS as (i & Ei). assert (Li : (i < length (ro_placed r))%nat) by (rewrite (proj2 (placed_length _ _ _ _ _ _ _ _ _ I)), <- (proj1 (placed_length _ _ _ _ _ _ _ _ _ I)); apply nth_error_Some; congruence).
    destruct (placed_nth _ _ _ _ _ _ _ _ _ I i Li) as (x & d & E1 & E2). assert (x = IBrg (OSeal s)) by congruence. subst x.
    exists i, (IBrg (OSeal s), d), (back (IBrg (OSeal s)), d). split; [exact E1|]. split; [exact (map_nth_error (fun p => (back (fst p), snd p)) i (ro_placed r) E1)|].
    assert (B : built_brg (OSeal s)) by (apply (H (IBrg (OSeal s))), (nth_error_In _ _ Ei)). destruct (seal_half_ok s d B) as (c & E & F). rewrite (F N) in E. exact E.
Qed.
Lemma rotor_plain c b : In (IBrg (OPlain c b)) (ro_elements r) -> rotor_eq np r r = Err AttributeError.
Proof using I.
  intros HS. unfold rotor_eq. rewrite Nat.eqb_refl. apply In_nth_error in HS as (i & Ei).
  assert (Li : (i < length (ro_placed r))%nat) by (rewrite (proj2 (placed_length _ _ _ _ _ _ _ _ _ I)), <- (proj1 (placed_length _ _ _ _ _ _ _ _ _ I)); apply nth_error_Some; congruence).
  destruct (placed_nth _ _ _ _ _ _ _ _ _ I i Li) as (x & d & E1 & E2). assert (x = IBrg (OPlain c b)) by congruence. subst x. rewrite (lists_plain np _ c b d (nth_error_In _ _ E1)). reflexivity.
Qed.
End Loaded.

(** ** the matrices of equal shaft elements *)
Lemma same_matrices s t : shaft_reals s = shaft_reals t -> s_shear_effects s = s_shear_effects t -> s_rotary_inertia s = s_rotary_inertia t -> s_gyroscopic s = s_gyroscopic t -> mrho (s_material s) = mrho (s_material t) ->
  shaft_M s = shaft_M t /\ shaft_G s = shaft_G t /\ shaft6_M s = shaft6_M t /\ shaft6_G s = shaft6_G t /\ shaft6_Kst s = shaft6_Kst t /\
  (mE (s_material s) = mE (s_material t) -> shaft_K s = shaft_K t /\ shaft_C s = shaft_C t) /\
  (mE (s_material s) = mE (s_material t) -> mG_s (s_material s) = mG_s (s_material t) -> shaft6_K s = shaft6_K t /\ shaft6_C s = shaft6_C t).
Proof.
  destruct s as [m n tg af tq se ri gy L il ol ir orr al be Al Ar Il Ir V ms a1 a2 b1 b2 ga de A Ie cg sl Im ka ph], t as [m' n' tg' af' tq' se' ri' gy' L' il' ol' ir' orr' al' be' Al' Ar' Il' Ir' V' ms' a1' a2' b1' b2' ga' de' A' Ie' cg' sl' Im' ka' ph']. unfold shaft_reals. cbn [s_axial_force s_torque s_L s_idl s_odl s_idr s_odr s_alpha s_beta s_A_l s_A_r s_Ie_l s_Ie_r s_volume s_m s_a1 s_a2 s_b1 s_b2 s_gama s_delta s_A s_Ie s_beam_cg s_slenderness s_Im s_kappa s_phi s_material s_shear_effects s_rotary_inertia s_gyroscopic].
  intros E -> -> -> ER. injection E. intros; subst. 
  repeat split; intros; try (extensionality i; extensionality j);
    unfold shaft_C, shaft_M, shaft_G, shaft_K, shaft6_C, shaft6_M, shaft6_G, shaft6_Kst, shaft6_K;
    cbn [s_axial_force s_torque s_L s_idl s_odl s_idr s_odr s_alpha s_beta s_A_l s_A_r s_Ie_l s_Ie_r s_volume s_m s_a1 s_a2 s_b1 s_b2 s_gama s_delta s_A s_Ie s_beam_cg s_slenderness s_Im s_kappa s_phi s_material s_shear_effects s_rotary_inertia s_gyroscopic];
    rewrite ?ER; repeat match goal with H : mE _ = mE _ |- _ => rewrite H; clear H | H : mG_s _ = mG_s _ |- _ => rewrite H; clear H end; reflexivity.
Qed.
