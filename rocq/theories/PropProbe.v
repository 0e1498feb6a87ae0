(** C39: probe readings. *)
From Coq Require Import Reals String List Arith ZArith Bool Lia Lra Psatz Permutation.
From Coquelicot Require Import Complex.
From Verif Require Import PyBase MatBase CMat MMaterial MShaft MDisk MBearing MRotor SpecRotor LRotor LRotor2 LRotor3 LRotor4 LRotorInit LRotorInit2 LRotor6 LRotor7 LRotorEx
  MDynamics MFault MResults SpecResults LFault LResults LResults2 LResults3 LResults4 LResults5.
Import ListNotations.
Open Scope list_scope.
Open Scope string_scope.
Open Scope R_scope.

(** ** construction *)
Theorem C39_probe_accepted_iff : forall node angle direction,
  (exists p, probe_init node angle direction = Ok p) <-> (direction = "axial" \/ direction = "radial" /\ angle <> None).
Proof.
  intros node angle d. unfold probe_init. destruct (String.eqb_spec d "radial") as [->|N1]; cbn [orb negb].
  - destruct angle; split.
    + intros _. right. split; auto. discriminate.
    + eauto.
    + intros [p H]. discriminate.
    + intros [H|[_ H]]; [discriminate|congruence].
  - destruct (String.eqb_spec d "axial") as [->|N2]; cbn [negb]; split.
    + auto.
    + eauto.
    + intros [p H]. discriminate.
    + intros [H|[H _]]; congruence.
Qed.
Theorem C39_probe_contents : forall node angle direction p, probe_init node angle direction = Ok p ->
  pr_node p = node /\ (pr_axial p = true <-> direction = "axial") /\ (pr_axial p = false -> pr_angle p = angle).
Proof.
  intros node angle d p. unfold probe_init. destruct (String.eqb_spec d "radial") as [->|N1]; cbn [orb negb].
  - destruct angle; [|discriminate]. intros [= <-]. cbn. repeat split; auto; discriminate.
  - destruct (String.eqb_spec d "axial") as [->|N2]; cbn [negb]; [|discriminate]. intros [= <-]. cbn. repeat split; auto; discriminate.
Qed.

(** ** time response: the reading is the displacement of the node along the axis of the probe *)
Section Time.
Variables (shafts : list rshaft) (disks : list rdisk) (brgs : list rbrg) (pms : list rpmass) (r : rotor).
Hypothesis H : rotor_init shafts disks brgs pms = Ok r.
Hypothesis G : regular r.
Hypothesis HL : layers_match r.
Lemma readable_node n : (n < r_n_last r + 2 + length (r_pm r))%nat ->
  ((n <= r_n_last r + 1)%nat -> forall e, In e (r_brg r) -> el_link e <> Some n) -> readable r n.
Proof.
  intros Hn Hu. destruct (le_lt_dec n (r_n_last r + 1)) as [L|L].
  - left. split; auto. destruct (is_link r n) eqn:E; auto. apply is_link_iff in E. destruct E as (e & He & E). exfalso. exact (Hu L e He E).
  - right. split; [lia|]. apply (support_linked _ _ _ _ _ _ H G). lia.
Qed.
End Time.
Theorem C39_time_probe : forall shafts disks brgs pms r, rotor_init shafts disks brgs pms = Ok r -> regular r -> layers_match r ->
  forall n y, (n < r_n_last r + 2 + length (r_pm r))%nat ->
  ((n <= r_n_last r + 1)%nat -> forall e, In e (r_brg r) -> el_link e <> Some n) ->
  let s := node_start (r_nd r) (r_n_last r) n in
  (forall a, time_reading r y (mkProbe n (Some a) false) = Ok (Some (cos a * y s + sin a * y (s + 1)%nat))) /\
  time_reading r y (mkProbe n None true) = (if Nat.eqb (r_nd r) 6 then Ok (Some (y (s + 2)%nat)) else Ok None).
Proof.
  intros shafts disks brgs pms r H G HL n y Hn Hu s. pose proof (rotor_facts _ _ _ _ _ H) as F. pose proof (readable_node _ _ _ _ _ H G n Hn Hu) as R. split.
  - intros a. exact (time_radial r F G HL y n a R).
  - exact (time_axial r F G HL y n R).
Qed.
(** a shaft node that a bearing is linked to is read at the wrong dofs: here the rotations of node 2 instead of its displacements *)
Theorem C39_linked_shaft_node_refuted : exists shafts disks brgs pms r, rotor_init shafts disks brgs pms = Ok r /\ regular r /\ layers_match r /\ links_ok r /\
  r_nd r = 4%nat /\ r_n_last r = 1%nat /\
  forall a y, time_reading r y (mkProbe 2 (Some a) false) = Ok (Some (cos a * y 10%nat + sin a * y 11%nat)).
Proof.
  destruct (init_ok _ _ _ _ _ (bad_link_wf false 2)) as (r & H & E & Hl & Hc & _).
  exists (exS false), [], [ex_brg false 0 (Some 2%nat) "b0"], [], r. pose proof (rotor_facts _ _ _ _ _ H) as F.
  destruct (rotor_init_lists _ _ _ _ _ H) as (Es & _ & Eb & Ep).
  assert (Es' : r_shaft r = [EShaft false 0 "s0" (ex_shaft 0 "s0"); EShaft false 1 "s1" (ex_shaft 1 "s1")]) by (rewrite Es; reflexivity).
  assert (Eb' : r_brg r = [EBrg "b0" (ex_brg false 0 (Some 2%nat) "b0")]) by (rewrite Eb; reflexivity).
  assert (Hnd : r_nd r = 4%nat) by (apply (el_fam_nd r false 0 "s0" (ex_shaft 0 "s0")); [exact F|rewrite Es'; left; reflexivity]).
  assert (Ep' : r_pm r = []) by (rewrite Ep; reflexivity).
  assert (G : regular r).
  { constructor.
    - rewrite E, Es'. intros [|[|k]] Hk; [eexists; split; [left; reflexivity|reflexivity]|eexists; split; [right; left; reflexivity|reflexivity]|lia].
    - rewrite Ep'. simpl. constructor.
    - unfold pm_matches. rewrite Ep'. intros ? ? ? []. }
  split; [exact H|]. split; [exact G|]. split; [exact Hl|]. split.
  { unfold links_ok. rewrite Eb', E. intros e m [<-|[]] [= <-]. simpl. lia. }
  split; [exact Hnd|]. split; [exact E|]. intros a y. unfold time_reading. cbn [pr_axial pr_node pr_angle andb].
  assert (P : forall c, probe_dof r 2 c = Z.of_nat (10 + c)).
  { intros c. unfold probe_dof. rewrite (pos_len r F G Hl), E, Hnd. replace (is_link r 2) with true by (symmetry; unfold is_link; rewrite Eb'; reflexivity).
    change ((Z.of_nat 2 - (Z.of_nat (1 + 2) - 1) - 1) * Z.of_nat 4 / 2)%Z with (-2)%Z. lia. }
  rewrite !P, (rf_ndof _ F), Hnd, E, Ep'. reflexivity.
Qed.
Example C39_time_instance : exists r, rotor_init (exS false) (exD false) (exB false) (exP false) = Ok r /\ regular r /\ layers_match r /\
  time_reading r (fun i => INR i) (mkProbe 3 (Some 0) false) = Ok (Some 12).
Proof.
  destruct (ex_rotor false) as (r & H & X). exists r. split; [exact H|]. split; [apply X|]. split; [apply X|].
  pose proof (rotor_facts _ _ _ _ _ H) as F. destruct (rotor_init_lists _ _ _ _ _ H) as (_ & _ & _ & Ep).
  destruct (C39_time_probe _ _ _ _ _ H (xf_reg _ _ X) (xf_layers _ _ X) 3%nat (fun i => INR i)) as [R _].
  - rewrite (xf_last _ _ X), Ep. simpl. lia.
  - rewrite (xf_last _ _ X). lia.
  - rewrite R. unfold node_start. rewrite (xf_last _ _ X), (xf_nd _ _ X). simpl. rewrite cos_0, sin_0. do 2 f_equal. ring.
Qed.

(** ** forced response *)
(** what the probe sees has one amplitude, within the axes of the orbit *)
Lemma seen_amplitude eig2 ru rv t A ph : eig2_ok eig2 -> reads t ru rv A ph -> ob_minor (orbit_init eig2 ru rv) <= A <= ob_major (orbit_init eig2 ru rv).
Proof.
  intros He [HA Hr]. assert (E0 := Hr 0). assert (E1 := Hr (PI / 2)). unfold seen, motion in E0, E1.
  rewrite cos_0, sin_0, Rplus_0_l in E0. rewrite cos_PI2, sin_PI2, cos_plus, cos_PI2, sin_PI2 in E1.
  pose proof (axes_order eig2 He ru rv) as O. assert (P := minor_major_area eig2 He ru rv). assert (S := axes_squares eig2 He ru rv).
  set (m := ob_minor _) in *. set (M := ob_major _) in *.
  set (a := fst ru ^ 2 + snd ru ^ 2). set (b := fst ru * fst rv + snd ru * snd rv). set (g := fst rv ^ 2 + snd rv ^ 2).
  assert (T1 : a + g = m ^ 2 + M ^ 2) by (rewrite S; unfold a, g, fa, fg; ring).
  assert (T2 : a * g - b ^ 2 = m ^ 2 * M ^ 2).
  { replace (m ^ 2 * M ^ 2) with ((m * M) ^ 2) by ring. rewrite P, pow2_abs. unfold a, b, g, area. ring. }
  assert (T3 : m ^ 2 <= M ^ 2) by (apply pow_incr; lra).
  assert (L := form2_low a b g _ _ (cos t) (sin t) T1 T2 T3). assert (U := form2_high a b g _ _ (cos t) (sin t) T1 T2 T3). rewrite unit_cs in L, U.
  assert (Q : form2 a b g (cos t) (sin t) = A ^ 2).
  { replace (A ^ 2) with ((A * cos ph) ^ 2 + (A * (0 * cos ph - 1 * sin ph)) ^ 2); [|replace (A ^ 2) with (A ^ 2 * (cos ph ^ 2 + sin ph ^ 2)) by (rewrite unit_cs; ring); ring].
    rewrite <- E0, <- E1. unfold form2, a, b, g. ring. }
  rewrite Q in L, U. split; apply Rsqr_incr_0_var; unfold Rsqr; nra.
Qed.
(** a shaft node: the amplitude lies between the axes of the orbit, so it is off by at most their difference *)
Theorem C39_forced_amplitude_bound : forall eig2 shafts disks brgs pms r, eig2_ok eig2 -> rotor_init shafts disks brgs pms = Ok r -> regular r -> layers_match r ->
  forall n a resp, (n <= r_n_last r + 1)%nat -> let s := node_start (r_nd r) (r_n_last r) n in let o := orbit_init eig2 (resp s) (resp (s + 1)%nat) in
  exists amp ph, forced_reading eig2 r resp (mkProbe n (Some a) false) = Ok (Some (amp, ph)) /\ ob_minor o <= amp <= ob_major o /\
  forall A p, reads a (resp s) (resp (s + 1)%nat) A p -> Rabs (amp - A) <= ob_major o - ob_minor o.
Proof.
  intros eig2 shafts disks brgs pms r He H G HL n a resp Hn s o. pose proof (rotor_facts _ _ _ _ _ H) as F.
  pose proof (forced_shaft r F G HL eig2 resp n a Hn) as E. fold s in E. cbv zeta in E. fold o in E.
  destruct (amplitude_angle eig2 (resp s) (resp (s + 1)%nat) a) as [k Ek]. fold o in Ek.
  exists (fst (calculate_amplitude o (AAngle a))), (snd (calculate_amplitude o (AAngle a))).
  rewrite <- surjective_pairing. split; [exact E|]. assert (B := axes_bound eig2 He (resp s) (resp (s + 1)%nat) (sample k)). fold o in B. rewrite <- Ek in B.
  split; [exact B|]. intros A p HR. assert (B2 := seen_amplitude eig2 _ _ _ _ _ He HR). fold o in B2. apply Rabs_le. lra.
Qed.
(** circular orbits are read with the right amplitude; when they turn forward, amplitude and phase are those of a probe on the
    other side of the x axis *)
Theorem C39_forced_circular : forall eig2 shafts disks brgs pms r, eig2_ok eig2 -> rotor_init shafts disks brgs pms = Ok r -> regular r -> layers_match r ->
  forall n a resp, (n <= r_n_last r + 1)%nat -> let s := node_start (r_nd r) (r_n_last r) n in
  circular (resp s) (resp (s + 1)%nat) -> exists amp ph, forced_reading eig2 r resp (mkProbe n (Some a) false) = Ok (Some (amp, ph)) /\
    (exists p, reads a (resp s) (resp (s + 1)%nat) amp p) /\
    (turns_forward (resp s) (resp (s + 1)%nat) -> reads (- a) (resp s) (resp (s + 1)%nat) amp ph).
Proof.
  intros eig2 shafts disks brgs pms r He H G HL n a resp Hn s (rr & Hr & Hc). pose proof (rotor_facts _ _ _ _ _ H) as F.
  pose proof (forced_shaft r F G HL eig2 resp n a Hn) as E. fold s in E. cbv zeta in E. set (o := orbit_init _ _ _) in E.
  destruct (amplitude_angle eig2 (resp s) (resp (s + 1)%nat) a) as [k Ek]. fold o in Ek. rewrite Hc in Ek.
  pose proof (phase_angle eig2 (resp s) (resp (s + 1)%nat) a) as Ep. cbv zeta in Ep. fold o in Ep.
  exists (fst (calculate_amplitude o (AAngle a))), (snd (calculate_amplitude o (AAngle a))). rewrite <- surjective_pairing. split; [exact E|].
  set (ph := snd _) in *. rewrite Ek. clearbody ph. clear E Ek o. set (ru := resp s) in *. set (rv := resp (s + 1)%nat) in *.
  destruct (circular_form ru rv rr Hr Hc) as [N D]. set (f := atan2 (fst rv) (fst ru)) in *.
  assert (Sq : sqrt (fst ru ^ 2 + fst rv ^ 2) = rr) by (rewrite N; rewrite <- Rsqr_pow2; apply sqrt_Rsqr; lra).
  assert (CS : fst ru = rr * cos f /\ fst rv = rr * sin f).
  { destruct (atan2_spec (fst rv) (fst ru)) as [A B]; [rewrite Sq; lra|]. unfold f. rewrite A, B, Sq. split; field; lra. }
  destruct CS as [C1 C2]. clearbody f. split.
  - destruct D as [[D1 D2]|[D1 D2]].
    + exists (f - a). split; [lra|]. intros c. unfold seen, motion. rewrite D1, D2, C1, C2. replace (c + (f - a)) with ((c + f) - a) by ring.
      rewrite cos_minus, cos_plus, sin_plus. ring.
    + exists (a - f). split; [lra|]. intros c. unfold seen, motion. rewrite D1, D2, C1, C2. replace (c + (a - f)) with ((c - f) + a) by ring.
      rewrite cos_plus, cos_minus, sin_minus. ring.
  - intros T. apply forward_area in T. unfold area in T. destruct D as [[D1 D2]|[D1 D2]]; rewrite D1, D2 in T; [|nra].
    split; [lra|]. intros c. rewrite Ep. unfold seen, motion. rewrite D1, D2, C1, C2. rewrite cos_neg, sin_neg. replace (c + (f + a)) with ((c + f) + a) by ring.
    rewrite (cos_plus (c + f) a), cos_plus, sin_plus. ring.
Qed.
(** the amplitude is wrong when the orbit is flat: a node that moves along x is reported to move along y as well *)
Lemma flat_angle eig2 k : ob_angle (orbit_init eig2 (1, 0) (0, 0)) k = 0 \/ ob_angle (orbit_init eig2 (1, 0) (0, 0)) k = PI.
Proof.
  cbv [orbit_init ob_angle]. rewrite !expi_re. unfold motion. cbn [fst snd]. replace (0 * cos (sample k) - 0 * sin (sample k)) with 0 by ring.
  set (x := 1 * cos (sample k) - 0 * sin (sample k)). clearbody x. pose proof PI_RGT_0.
  assert (D : atan2 0 x = 0 \/ atan2 0 x = PI).
  { unfold atan2. destruct (Rlt_dec 0 x); [left; unfold Rdiv; rewrite Rmult_0_l; apply atan_0|]. destruct (Rlt_dec x 0).
    - destruct (Rle_dec 0 0); [|lra]. right. unfold Rdiv. rewrite Rmult_0_l, atan_0. ring.
    - destruct (Rlt_dec 0 0); [lra|]. left. auto. }
  destruct D as [-> | ->]; destruct (Rlt_dec _ _); auto; lra.
Qed.
Theorem C39_forced_amplitude_refuted : forall eig2, exists shafts disks brgs pms r resp n, rotor_init shafts disks brgs pms = Ok r /\ regular r /\ layers_match r /\
  (n <= r_n_last r + 1)%nat /\ (exists ph, forced_reading eig2 r resp (mkProbe n (Some (PI / 2)) false) = Ok (Some (1, ph))) /\
  let s := node_start (r_nd r) (r_n_last r) n in forall A p, reads (PI / 2) (resp s) (resp (s + 1)%nat) A p -> A = 0.
Proof.
  intros eig2. destruct (ex_rotor false) as (r & H & X). set (resp := fun i => if Nat.even i then (1, 0) : C else (0, 0) : C).
  exists (exS false), (exD false), (exB false), (exP false), r, resp, 1%nat. split; [exact H|]. split; [apply X|]. split; [apply X|].
  pose proof (rotor_facts _ _ _ _ _ H) as F. rewrite (xf_last _ _ X). split; [lia|].
  pose proof (forced_shaft r F (xf_reg _ _ X) (xf_layers _ _ X) eig2 resp 1 (PI / 2)) as E. cbv zeta in E. rewrite (xf_last _ _ X), (xf_nd _ _ X) in *.
  change (node_start _ 1 1) with 4%nat in *. specialize (E ltac:(lia)). change (resp 4%nat) with ((1, 0) : C) in *. change (resp (4 + 1)%nat) with ((0, 0) : C) in *. split.
  - exists (snd (calculate_amplitude (orbit_init eig2 (1, 0) (0, 0)) (AAngle (PI / 2)))). rewrite E. do 2 f_equal. apply injective_projections; [|reflexivity]. cbn [fst].
    unfold calculate_amplitude. cbn [fst]. unfold argmin. pose proof PI_RGT_0. rewrite argmax_const.
    + cbv [orbit_init ob_x ob_y]. rewrite !expi_re. unfold motion, sample. cbn [fst snd]. simpl INR. rewrite Rmult_0_l, cos_0, sin_0.
      replace ((1 * 1 - 0 * 0) ^ 2 + (0 * 1 - 0 * 0) ^ 2) with 1 by ring. apply sqrt_1.
    + assert (Q : forall k, Rabs (ob_angle (orbit_init eig2 (1, 0) (0, 0)) k - PI / 2) = PI / 2).
      { intros k. destruct (flat_angle eig2 k) as [-> | ->]; [rewrite Rabs_left|rewrite Rabs_pos_eq]; lra. }
      intros k _. rewrite !Q. auto.
  - cbv zeta. change (resp 4%nat) with ((1, 0) : C). change (resp (4 + 1)%nat) with ((0, 0) : C). intros A p [HA HR]. specialize (HR (- p)). rewrite Rplus_opp_l, cos_0 in HR. unfold seen, motion in HR. cbn [fst snd] in HR. rewrite cos_PI2 in HR. lra.
Qed.
(** the phase is wrong even for circular orbits *)
Theorem C39_forced_phase_refuted : forall eig2, eig2_ok eig2 -> exists shafts disks brgs pms r resp n, rotor_init shafts disks brgs pms = Ok r /\ regular r /\ layers_match r /\
  (n <= r_n_last r + 1)%nat /\ let s := node_start (r_nd r) (r_n_last r) n in circular (resp s) (resp (s + 1)%nat) /\ turns_forward (resp s) (resp (s + 1)%nat) /\
  exists amp ph, forced_reading eig2 r resp (mkProbe n (Some (PI / 2)) false) = Ok (Some (amp, ph)) /\ ~ reads (PI / 2) (resp s) (resp (s + 1)%nat) amp ph.
Proof.
  intros eig2 He. destruct (ex_rotor false) as (r & H & X). set (resp := fun i => if Nat.even i then (0, 1) : C else (1, 0) : C).
  exists (exS false), (exD false), (exB false), (exP false), r, resp, 1%nat. split; [exact H|]. split; [apply X|]. split; [apply X|].
  pose proof (C39_forced_circular eig2 _ _ _ _ r He H (xf_reg _ _ X) (xf_layers _ _ X) 1%nat (PI / 2) resp) as E. cbv zeta in *. rewrite (xf_last _ _ X), (xf_nd _ _ X) in *.
  change (node_start _ 1 1) with 4%nat in *. split; [lia|]. specialize (E ltac:(lia)). change (resp 4%nat) with ((0, 1) : C) in *. change (resp (4 + 1)%nat) with ((1, 0) : C) in *.
  assert (Hc : circular (0, 1) (1, 0)).
  { exists 1. split; [lra|]. intros c. unfold radius, motion. cbn [fst snd]. replace ((0 * cos c - 1 * sin c) ^ 2 + (1 * cos c - 0 * sin c) ^ 2) with (cos c ^ 2 + sin c ^ 2) by ring. rewrite unit_cs. apply sqrt_1. }
  assert (Hf : turns_forward (0, 1) (1, 0)) by (apply forward_area; unfold area; simpl; lra).
  split; [exact Hc|]. split; [exact Hf|]. destruct (E Hc) as (amp & ph & E1 & (p & [_ E2]) & E3). exists amp, ph. split; [exact E1|].
  intros [_ R]. destruct (E3 Hf) as [_ E4]. specialize (R 0). specialize (E4 0). rewrite <- E4 in R. unfold seen, motion in R. cbn [fst snd] in R.
  rewrite cos_neg, sin_neg, cos_0, sin_0, cos_PI2, sin_PI2 in R. lra.
Qed.
(** support nodes cannot be probed in a forced response *)
Theorem C39_forced_support_refuted : forall eig2 shafts disks brgs pms r, rotor_init shafts disks brgs pms = Ok r -> regular r -> layers_match r ->
  forall n a resp, (r_n_last r + 2 <= n)%nat -> exists e, forced_reading eig2 r resp (mkProbe n (Some a) false) = Err e.
Proof. intros eig2 shafts disks brgs pms r H G HL n a resp Hn. exact (forced_support r (rotor_facts _ _ _ _ _ H) G HL eig2 resp n a Hn). Qed.
(** the amplitude "at an angle" computed from the forward and backward vectors is the distance from the centre when the shaft
    has turned by that angle, not the amplitude along that angle *)
Theorem C39_axis_at_angle : forall shafts disks brgs pms r, rotor_init shafts disks brgs pms = Ok r -> regular r -> layers_match r ->
  forall n t resp, (n < r_n_last r + 2 + length (r_pm r))%nat ->
  ((n <= r_n_last r + 1)%nat -> forall e, In e (r_brg r) -> el_link e <> Some n) ->
  let s := node_start (r_nd r) (r_n_last r) n in
  exists v, axis_per_node r resp n (AAngle t) = Ok v /\ ax_value v = radius (resp s) (resp (s + 1)%nat) t.
Proof.
  intros shafts disks brgs pms r H G HL n t resp Hn Hu s. pose proof (rotor_facts _ _ _ _ _ H) as F.
  eexists. split; [exact (axis_node_eq r F G HL resp n (AAngle t) (readable_node _ _ _ _ _ H G n Hn Hu))|]. apply axis_angle_value.
Qed.
Theorem C39_axis_at_angle_refuted : exists x y t, ax_value (axis_vector x y (AAngle t)) = 0 /\ reads t x y 1 0.
Proof.
  exists (RtoC 0), (RtoC 1), (PI / 2). rewrite axis_angle_value. unfold radius, motion, reads, seen, motion. cbn [fst snd RtoC]. rewrite cos_PI2, sin_PI2. split.
  - replace ((0 * 0 - 0 * 1) ^ 2 + (1 * 0 - 0 * 1) ^ 2) with 0 by ring. apply sqrt_0.
  - split; [lra|]. intros c. rewrite Rplus_0_r. ring.
Qed.

Print Assumptions C39_probe_accepted_iff.
Print Assumptions C39_time_probe.
Print Assumptions C39_linked_shaft_node_refuted.
Print Assumptions C39_forced_amplitude_bound.
Print Assumptions C39_forced_circular.
Print Assumptions C39_forced_amplitude_refuted.
Print Assumptions C39_forced_phase_refuted.
Print Assumptions C39_axis_at_angle.
