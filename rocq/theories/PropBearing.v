(** Theorems about bearings and seals (properties C13-C17, C55, C56). *)
From Coq Require Import Reals String List Bool Arith Lia Lra.
From Coquelicot Require Import Coquelicot.
From Verif Require Import PyBase MatBase SpecMat MBearing SpecBearing LMat LBearing LBearing2.
Import ListNotations.
Open Scope list_scope.
Open Scope R_scope.

(** scipy's UnivariateSpline is not modelled; the theorems hold for every function [spl] obeying its
    documented smoothing contract ([smoothing_spline]). The contract can be met: *)
Example spline_contract_satisfiable : exists spl, smoothing_spline spl.
Proof. exact (ex_intro _ ex_spl ex_spl_contract). Qed.
Example bearings_exist :
  (exists b, bearing_init (ex_bargs (CScal 1000000) None) = Ok b) /\
  (exists b, bearing_init (ex_bargs (CArr [1; 2; 4; 8]) (Some [0; 10; 20; 50])) = Ok b) /\
  (exists b, bearing_init (ex_bargs (CArr [1; 2; 4; 8; 16]) (Some [0; 1; 2; 3; 4])) = Ok b).
Proof.
  repeat split; apply ex_bargs_ok; simpl; auto; repeat split; try lra; discriminate.
Qed.

(** C13: a number is that number at every frequency. *)
Theorem C13_scalar_is_constant : forall spl a b c v w, smoothing_spline spl ->
  (match ba_frequency a with Some f => increasing f /\ f <> [] | None => True end) ->
  bearing_init a = Ok b -> resolve a c = CScal v -> eval_coef spl b c w = Ok v.
Proof. exact coef_scalar. Qed.
(** A table of up to four points is reproduced exactly. *)
Theorem C13_short_table_exact : forall spl a b c l f i x y, smoothing_spline spl ->
  ba_frequency a = Some f -> increasing f -> (1 <= length f <= 4)%nat ->
  bearing_init a = Ok b -> resolve a c = CArr l ->
  nth_error f i = Some x -> nth_error l i = Some y -> eval_coef spl b c x = Ok y.
Proof. exact coef_table. Qed.
(** A longer table is only approximated, with an absolute error that does not depend on the
    magnitude of the data ... *)
Theorem C13_long_table_close : forall spl a b c l f i x y, smoothing_spline spl ->
  ba_frequency a = Some f -> increasing f -> (5 <= length f)%nat ->
  bearing_init a = Ok b -> resolve a c = CArr l ->
  nth_error f i = Some x -> nth_error l i = Some y ->
  exists v, eval_coef spl b c x = Ok v /\ (v - y) ^ 2 <= INR (length f) * (1 + 1 / 1000).
Proof. exact coef_table_close. Qed.
(** ... so tables of five or more points are in general not reproduced. *)
Theorem C13_long_table_refuted : forall spl, smoothing_spline spl ->
  exists a b f l i x y, ba_frequency a = Some f /\ increasing f /\ resolve a kxx = CArr l /\ bearing_init a = Ok b /\
    nth_error f i = Some x /\ nth_error l i = Some y /\ eval_coef spl b kxx x <> Ok y.
Proof. exact table_refuted. Qed.
(** With increasing frequencies, construction succeeds exactly when every coefficient is a number
    or has as many entries as the frequency table (one without a table). *)
Theorem C13_lengths_checked : forall a,
  (match ba_frequency a with Some f => increasing f /\ f <> [] | None => True end) ->
  (is_ok (bearing_init a) <-> forall c, arg_length_ok (ba_frequency a) (resolve a c)).
Proof. exact bearing_length_iff. Qed.
(** A decreasing table of four or more points is accepted but the bearing cannot be evaluated. *)
Theorem C13_unordered_refuted : exists a b, bearing_init a = Ok b /\ ba_frequency a = Some [3; 2; 1; 0] /\
  forall spl w, bearing_K spl b w = Err TypeError.
Proof. exact unordered_refuted. Qed.
(** Which argument each coefficient comes from. *)
Theorem C13_defaults : forall a,
  resolve a kxx = ba_kxx a /\ resolve a cxx = ba_cxx a /\
  resolve a kxy = ba_kxy a /\ resolve a kyx = ba_kyx a /\ resolve a cxy = ba_cxy a /\ resolve a cyx = ba_cyx a /\
  resolve a mxy = ba_mxy a /\ resolve a myx = ba_myx a /\
  (forall v, ba_kyy a = Some v -> resolve a kyy = v) /\ (ba_kyy a = None -> resolve a kyy = ba_kxx a) /\
  (forall v, ba_cyy a = Some v -> resolve a cyy = v) /\ (ba_cyy a = None -> resolve a cyy = ba_cxx a) /\
  (forall v, ba_mxx a = Some v -> resolve a mxx = v) /\ (ba_mxx a = None -> resolve a mxx = CScal 0) /\
  (forall v, ba_myy a = Some v -> resolve a myy = v) /\
  (forall v, ba_myy a = None -> ba_mxx a = Some v -> resolve a myy = v) /\
  (ba_myy a = None -> ba_mxx a = None -> resolve a myy = CScal 0).
Proof. exact resolve_spec. Qed.

(** C14: without n_link the matrices are the 2x2 (3x3) coefficient matrices; with n_link the force
    on the shaft node is that matrix times the relative displacement ... *)
Theorem C14_stiffness : forall spl b w vxx vxy vyx vyy,
  eval_coef spl b kxx w = Ok vxx -> eval_coef spl b kxy w = Ok vxy ->
  eval_coef spl b kyx w = Ok vyx -> eval_coef spl b kyy w = Ok vyy ->
  exists A, bearing_K spl b w = Ok A /\
    (b_n_link b = None -> A 0%nat 0%nat = vxx /\ A 0%nat 1%nat = vxy /\ A 1%nat 0%nat = vyx /\ A 1%nat 1%nat = vyy) /\
    (forall n, b_n_link b = Some n -> forall x,
       mulv 4 A x 0%nat = vxx * (x 0%nat - x 2%nat) + vxy * (x 1%nat - x 3%nat) /\
       mulv 4 A x 1%nat = vyx * (x 0%nat - x 2%nat) + vyy * (x 1%nat - x 3%nat)).
Proof. exact (fun spl b w => block2_entries spl b w kxx kxy kyx kyy). Qed.
Theorem C14_damping : forall spl b w vxx vxy vyx vyy,
  eval_coef spl b cxx w = Ok vxx -> eval_coef spl b cxy w = Ok vxy ->
  eval_coef spl b cyx w = Ok vyx -> eval_coef spl b cyy w = Ok vyy ->
  exists A, bearing_C spl b w = Ok A /\
    (b_n_link b = None -> A 0%nat 0%nat = vxx /\ A 0%nat 1%nat = vxy /\ A 1%nat 0%nat = vyx /\ A 1%nat 1%nat = vyy) /\
    (forall n, b_n_link b = Some n -> forall x,
       mulv 4 A x 0%nat = vxx * (x 0%nat - x 2%nat) + vxy * (x 1%nat - x 3%nat) /\
       mulv 4 A x 1%nat = vyx * (x 0%nat - x 2%nat) + vyy * (x 1%nat - x 3%nat)).
Proof. exact (fun spl b w => block2_entries spl b w cxx cxy cyx cyy). Qed.
Theorem C14_mass : forall spl b w vxx vxy vyx vyy,
  eval_coef spl b mxx w = Ok vxx -> eval_coef spl b mxy w = Ok vxy ->
  eval_coef spl b myx w = Ok vyx -> eval_coef spl b myy w = Ok vyy ->
  exists A, bearing_M spl b w = Ok A /\
    (b_n_link b = None -> A 0%nat 0%nat = vxx /\ A 0%nat 1%nat = vxy /\ A 1%nat 0%nat = vyx /\ A 1%nat 1%nat = vyy) /\
    (forall n, b_n_link b = Some n -> forall x,
       mulv 4 A x 0%nat = vxx * (x 0%nat - x 2%nat) + vxy * (x 1%nat - x 3%nat) /\
       mulv 4 A x 1%nat = vyx * (x 0%nat - x 2%nat) + vyy * (x 1%nat - x 3%nat)).
Proof. exact (fun spl b w => block2_entries spl b w mxx mxy myx myy). Qed.
Theorem C14_stiffness_6dof : forall spl b w vxx vxy vyx vyy vzz,
  eval_coef spl (b6 b) kxx w = Ok vxx -> eval_coef spl (b6 b) kxy w = Ok vxy ->
  eval_coef spl (b6 b) kyx w = Ok vyx -> eval_coef spl (b6 b) kyy w = Ok vyy -> eval_interp spl (snd (b6_kzz b)) w = Ok vzz ->
  exists A, bearing6_K spl b w = Ok A /\
    (b_n_link (b6 b) = None -> forall x,
       mulv 3 A x 0%nat = vxx * x 0%nat + vxy * x 1%nat /\ mulv 3 A x 1%nat = vyx * x 0%nat + vyy * x 1%nat /\
       mulv 3 A x 2%nat = vzz * x 2%nat) /\
    (forall n, b_n_link (b6 b) = Some n -> forall x,
       mulv 6 A x 0%nat = vxx * (x 0%nat - x 3%nat) + vxy * (x 1%nat - x 4%nat) /\
       mulv 6 A x 1%nat = vyx * (x 0%nat - x 3%nat) + vyy * (x 1%nat - x 4%nat) /\
       mulv 6 A x 2%nat = vzz * (x 2%nat - x 5%nat)).
Proof. exact (fun spl b w => block3_entries spl b w kxx kxy kyx kyy (snd (b6_kzz b))). Qed.
Theorem C14_damping_6dof : forall spl b w vxx vxy vyx vyy vzz,
  eval_coef spl (b6 b) cxx w = Ok vxx -> eval_coef spl (b6 b) cxy w = Ok vxy ->
  eval_coef spl (b6 b) cyx w = Ok vyx -> eval_coef spl (b6 b) cyy w = Ok vyy -> eval_interp spl (snd (b6_czz b)) w = Ok vzz ->
  exists A, bearing6_C spl b w = Ok A /\
    (b_n_link (b6 b) = None -> forall x,
       mulv 3 A x 0%nat = vxx * x 0%nat + vxy * x 1%nat /\ mulv 3 A x 1%nat = vyx * x 0%nat + vyy * x 1%nat /\
       mulv 3 A x 2%nat = vzz * x 2%nat) /\
    (forall n, b_n_link (b6 b) = Some n -> forall x,
       mulv 6 A x 0%nat = vxx * (x 0%nat - x 3%nat) + vxy * (x 1%nat - x 4%nat) /\
       mulv 6 A x 1%nat = vyx * (x 0%nat - x 3%nat) + vyy * (x 1%nat - x 4%nat) /\
       mulv 6 A x 2%nat = vzz * (x 2%nat - x 5%nat)).
Proof. exact (fun spl b w => block3_entries spl b w cxx cxy cyx cyy (snd (b6_czz b))). Qed.
Theorem C14_mass_6dof : forall spl b w vxx vxy vyx vyy vzz,
  eval_coef spl (b6 b) mxx w = Ok vxx -> eval_coef spl (b6 b) mxy w = Ok vxy ->
  eval_coef spl (b6 b) myx w = Ok vyx -> eval_coef spl (b6 b) myy w = Ok vyy -> eval_interp spl (snd (b6_mzz b)) w = Ok vzz ->
  exists A, bearing6_M spl b w = Ok A /\
    (b_n_link (b6 b) = None -> forall x,
       mulv 3 A x 0%nat = vxx * x 0%nat + vxy * x 1%nat /\ mulv 3 A x 1%nat = vyx * x 0%nat + vyy * x 1%nat /\
       mulv 3 A x 2%nat = vzz * x 2%nat) /\
    (forall n, b_n_link (b6 b) = Some n -> forall x,
       mulv 6 A x 0%nat = vxx * (x 0%nat - x 3%nat) + vxy * (x 1%nat - x 4%nat) /\
       mulv 6 A x 1%nat = vyx * (x 0%nat - x 3%nat) + vyy * (x 1%nat - x 4%nat) /\
       mulv 6 A x 2%nat = vzz * (x 2%nat - x 5%nat)).
Proof. exact (fun spl b w => block3_entries spl b w mxx mxy myx myy (snd (b6_mzz b))). Qed.
(** ... the force on the linked node is the opposite, and equal displacements give no force. *)
Theorem C14_linked_action_reaction : forall spl b w b6d n,
  (b_n_link b = Some n -> forall A, bearing_K spl b w = Ok A \/ bearing_C spl b w = Ok A \/ bearing_M spl b w = Ok A ->
     forall x i, (i < 2)%nat -> mulv 4 A x (2 + i)%nat = - mulv 4 A x i /\
       ((forall j, (j < 2)%nat -> x (2 + j)%nat = x j) -> mulv 4 A x i = 0)) /\
  (b_n_link (b6 b6d) = Some n -> forall A, bearing6_K spl b6d w = Ok A \/ bearing6_C spl b6d w = Ok A \/ bearing6_M spl b6d w = Ok A ->
     forall x i, (i < 3)%nat -> mulv 6 A x (3 + i)%nat = - mulv 6 A x i /\
       ((forall j, (j < 3)%nat -> x (3 + j)%nat = x j) -> mulv 6 A x i = 0)).
Proof. exact action_reaction. Qed.
Theorem C14_linked_energy : forall n M x y, bform (2 * n) (linked n M) x y =
  bform n M (fun i => x i - x (n + i)%nat) (fun i => y i - y (n + i)%nat).
Proof. exact linked_bform. Qed.

(** C15: the axial coefficient tables of a 6-dof bearing are not checked. *)
Theorem C15_axial_length_refuted : exists a kzz b, ba_frequency a = Some [0; 1; 2; 3] /\ kzz = CArr [1; 2; 3; 4; 5] /\
  bearing6_init a kzz (CScal 0) (CScal 0) = Ok b /\ forall spl w, exists e, bearing6_K spl b w = Err e.
Proof. exact six_dof_refuted. Qed.
Theorem C15_short_tables_checked : forall a f l czz mzz, ba_frequency a = Some f ->
  length f = 2%nat \/ length f = 3%nat -> (1 < length l)%nat -> length l <> length f ->
  forall b, bearing6_init a (CArr l) czz mzz <> Ok b.
Proof. exact short_tables_checked. Qed.
Theorem C15_no_frequency_checked : forall a l czz mzz, ba_frequency a = None -> (1 < length l)%nat ->
  forall b, bearing6_init a (CArr l) czz mzz <> Ok b.
Proof. exact none_tables_checked. Qed.

(** C16: a plain bearing survives saving and loading; a seal comes back with half the drawing
    scale factor and is otherwise the same. *)
Theorem C16_bearing_round_trip : forall a b, bearing_init a = Ok b -> bearing_reload b = Ok b.
Proof. exact reload_same. Qed.
Theorem C16_seal_round_trip_halves_scale : forall a lk s, seal_init a lk = Ok s ->
  exists s', seal_reload s = Ok s' /\ b_scale_factor (sl_bearing s') = b_scale_factor (sl_bearing s) / 2 /\
    b_coef (sl_bearing s') = b_coef (sl_bearing s) /\ b_frequency (sl_bearing s') = b_frequency (sl_bearing s) /\
    b_n (sl_bearing s') = b_n (sl_bearing s) /\ b_n_link (sl_bearing s') = b_n_link (sl_bearing s) /\
    b_tag (sl_bearing s') = b_tag (sl_bearing s) /\ sl_leakage s' = sl_leakage s.
Proof. exact seal_reload_facts. Qed.
Theorem C16_seal_round_trip_refuted : exists a lk s, seal_init a lk = Ok s /\ seal_reload s <> Ok s.
Proof. exact seal_refuted. Qed.

(** C17: exactly these classes can be saved. *)
Theorem C17_saveable_classes : forall c,
  is_ok (bclass_save c) <-> c = BBearing \/ c = BSeal \/ c = BMagnetic \/ c = BCylindrical \/ c = B6DoF.
Proof. exact save_classes. Qed.
Theorem C17_rolling_save_refuted : bclass_save BBall = Err KeyError /\ bclass_save BRoller = Err KeyError /\ bclass_save BFluid = Err KeyError.
Proof. exact (conj eq_refl (conj eq_refl eq_refl)). Qed.

(** C55: rolling bearings. The constructor always succeeds and gives the stated stiffness; the
    horizontal stiffness is positive only up to 34 balls (33 rollers). *)
Theorem C55_ball_bearing : forall n nb d fs al cx cy tag scale, exists b, ball_init n nb d fs al cx cy tag None scale = Ok b /\
  forall spl w, exists K C, bearing_K spl b w = Ok K /\ bearing_C spl b w = Ok C /\
    K 0%nat 0%nat = ball_kxx nb d fs al /\ K 1%nat 1%nat = ball_kyy nb d fs al /\ K 0%nat 1%nat = 0 /\ K 1%nat 0%nat = 0 /\
    C 0%nat 0%nat = default (125/10000000 * ball_kxx nb d fs al) cx /\
    C 1%nat 1%nat = default (125/10000000 * ball_kyy nb d fs al) cy.
Proof. exact ball_facts. Qed.
Theorem C55_ball_stiffness_positive_iff : forall nb d fs al, 0 < ball_kxx nb d fs al <-> (2 <= nb <= 34)%nat.
Proof. exact (fun nb d fs al => iff_trans (mult_pos_iff _ _ (ball_kyy_pos nb d fs al)) (ball_ratio_pos nb)). Qed.
Theorem C55_roller_stiffness_positive_iff : forall nr l fs al, 0 < roller_kxx nr l fs al <-> (2 <= nr <= 33)%nat.
Proof. exact (fun nb d fs al => iff_trans (mult_pos_iff _ _ (roller_kyy_pos nb d fs al)) (roller_ratio_pos nb)). Qed.
Theorem C55_positive_stiffness_refuted : exists nb, (nb = 40)%nat /\ forall d fs al, ball_kxx nb d fs al <= 0.
Proof. exact ball_refuted. Qed.

(** C56: magnetic bearings: the closed-loop stiffness and damping, when it is positive, and the
    missing validation. *)
Theorem C56_closed_loop_stiffness : forall a i, mag_ki a i * mag_at (k_amp a) i * mag_at (k_sense a) i <> 0 ->
  mag_k a i = mag_ki a i * (mag_at (k_amp a) i * mag_at (kp_pid a) i * mag_at (k_sense a) i) + mag_ks a i /\
  mag_c a i = mag_ki a i * (mag_at (k_amp a) i * mag_at (kd_pid a) i * mag_at (k_sense a) i).
Proof. exact mag_closed_loop. Qed.
Theorem C56_stable_gain : forall a i, 0 < mag_at (g0 a) i -> 0 < mag_at (i0 a) i -> 0 < mag_at (ag a) i ->
  0 < mag_at (nw a) i -> 0 < cos (mag_at (malpha a) i) -> 0 < mag_at (k_amp a) i -> 0 < mag_at (k_sense a) i ->
  (0 < mag_k a i <-> mag_at (i0 a) i / mag_at (g0 a) i < mag_at (k_amp a) i * mag_at (k_sense a) i * mag_at (kp_pid a) i).
Proof. exact mag_k_pos. Qed.
Theorem C56_validation_refuted : exists a, mag_len (g0 a) = Some 3%nat /\ is_ok (mag_coefs a).
Proof. exact mag_validation. Qed.
Example C56_instance : let a := mkMag (MScal (1/1000)) (MScal 1) (MScal (1/10000)) (MScal 200) (MScal (392/1000)) (MScal 1) (MScal 1) (MScal 1) (MScal 1) in
  0 < mag_at (g0 a) 0 /\ 0 < mag_at (i0 a) 0 /\ 0 < mag_at (ag a) 0 /\ 0 < mag_at (nw a) 0 /\ 0 < cos (mag_at (malpha a) 0) /\
  0 < mag_at (k_amp a) 0 /\ 0 < mag_at (k_sense a) 0.
Proof. simpl. repeat split; try lra. apply cos_gt_0; pose proof PI2_RGT_0; pose proof PI2_3_2; lra. Qed.

Print Assumptions C13_scalar_is_constant.
Print Assumptions C13_long_table_refuted.
Print Assumptions C13_lengths_checked.
Print Assumptions C14_linked_action_reaction.
Print Assumptions C15_axial_length_refuted.
Print Assumptions C16_seal_round_trip_refuted.
Print Assumptions C17_saveable_classes.
Print Assumptions C55_ball_stiffness_positive_iff.
Print Assumptions C56_stable_gain.
