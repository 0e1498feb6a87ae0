(** Probe readings: the facts behind C39. *)
From Coq Require Import Reals String List Arith ZArith Bool Lia Lra Psatz Permutation.
From Coquelicot Require Import Complex.
From Verif Require Import PyBase MatBase CMat MMaterial MShaft MDisk MBearing MRotor SpecRotor LRotor LRotor2 LRotor3 LRotor4 LRotor6 LRotor7 LRotorEx
  MDynamics MFault MResults SpecResults LFault LResults LResults2 LResults3.
Import ListNotations.
Open Scope list_scope.
Open Scope R_scope.

(** the node carries a bearing's far end *)
Lemma is_link_iff r n : is_link r n = true <-> exists e, In e (r_brg r) /\ el_link e = Some n.
Proof.
  unfold is_link. rewrite existsb_exists. split; intros (e & He & H); exists e; split; auto.
  - destruct (el_link e); [|discriminate]. apply Nat.eqb_eq in H. congruence.
  - rewrite H. apply Nat.eqb_refl.
Qed.
Lemma support_linked shafts disks brgs pms r n : rotor_init shafts disks brgs pms = Ok r -> regular r ->
  (r_n_last r + 2 <= n < r_n_last r + 2 + length (r_pm r))%nat -> is_link r n = true.
Proof.
  intros H G Hn. pose proof (rotor_facts _ _ _ _ _ H) as F. pose proof (rotor_accepted _ _ _ _ _ H) as A.
  assert (Hp : In n (map el_n (r_pm r))) by (eapply Permutation_in; [apply Permutation_sym, (reg_pm _ G)|apply in_seq; lia]).
  apply in_map_iff in Hp. destruct Hp as (p & Ep & Hp).
  pose proof (rf_pmok _ F) as Hok. unfold pm_ok in Hok. rewrite forallb_forall in Hok. specialize (Hok p Hp). apply existsb_exists in Hok.
  destruct Hok as (b & Hb & E). apply Nat.eqb_eq in E.
  destruct (rotor_init_lists _ _ _ _ _ H) as (_ & _ & Eb & _).
  assert (C : connected r n).
  { rewrite Eb in Hb. rewrite sort_n_in in Hb. destruct (mapi_in _ _ _ _ Hb) as (i & x & Hx & ->).
    rewrite <- Ep, <- E. change (connected r (brg_n x)). apply (acc_brg _ _ _ _ _ A). auto. }
  destruct C as [e He|e He|e He|e m He Hl _].
  - pose proof (covered_elem r e F He). lia.
  - pose proof (covered_elem r e F He). lia.
  - destruct (rf_dpos _ F) as (dpos & Hdp & _). pose proof (disk_pos_bound _ _ _ _ Hdp He) as Hlt.
    rewrite <- (rf_pos _ F) in Hlt. pose proof (pos_length r F). lia.
  - apply is_link_iff. eauto.
Qed.

Section ProbeDof.
Variable r : rotor.
Hypothesis F : rfacts r.
Hypothesis G : regular r.
Hypothesis HL : layers_match r.
Lemma pos_len : length (r_nodes_pos r) = (r_n_last r + 2)%nat.
Proof. destruct (positions r F (reg_shaft _ G) HL) as (A & _). exact A. Qed.
(** the two cases in which a node is read correctly *)
Definition readable (n : nat) : Prop :=
  ((n <= r_n_last r + 1)%nat /\ is_link r n = false) \/
  ((r_n_last r + 2 <= n < r_n_last r + 2 + length (r_pm r))%nat /\ is_link r n = true).
Lemma probe_dof_eq n c : readable n -> probe_dof r n c = Z.of_nat (node_start (r_nd r) (r_n_last r) n + c).
Proof.
  intros H. unfold probe_dof, node_start. rewrite pos_len.
  destruct H as [[H E]|[H E]]; rewrite E.
  - destruct (Nat.leb_spec n (r_n_last r + 1)); [|lia]. nia.
  - destruct (Nat.leb_spec n (r_n_last r + 1)); [lia|].
    destruct (rf_nd _ F) as [-> | ->].
    + change (4 / 2)%nat with 2%nat. change (Z.of_nat 4) with 4%Z.
      replace ((Z.of_nat n - (Z.of_nat (r_n_last r + 2) - 1) - 1) * 4)%Z with ((Z.of_nat n - Z.of_nat (r_n_last r + 2)) * 2 * 2)%Z by ring.
      rewrite Z.div_mul by lia. lia.
    + change (6 / 2)%nat with 3%nat. change (Z.of_nat 6) with 6%Z.
      replace ((Z.of_nat n - (Z.of_nat (r_n_last r + 2) - 1) - 1) * 6)%Z with ((Z.of_nat n - Z.of_nat (r_n_last r + 2)) * 3 * 2)%Z by ring.
      rewrite Z.div_mul by lia. lia.
Qed.
Lemma start_bound n c : (n < r_n_last r + 2 + length (r_pm r))%nat -> (c < r_nd r / 2)%nat -> (node_start (r_nd r) (r_n_last r) n + c < r_ndof r)%nat.
Proof.
  intros Hn Hc. rewrite (rf_ndof _ F). unfold node_start. destruct (rf_nd _ F) as [E | E]; rewrite E in *;
    [change (4 / 2)%nat with 2%nat in *|change (6 / 2)%nat with 3%nat in *]; destruct (Nat.leb_spec n (r_n_last r + 1)); nia.
Qed.
Lemma py_index_nat n i : (i < n)%nat -> py_index n (Z.of_nat i) = Ok i.
Proof.
  intros H. unfold py_index. destruct (Z.leb_spec 0 (Z.of_nat i)); [|lia]. destruct (Z.ltb_spec (Z.of_nat i) (Z.of_nat n)); [|lia].
  rewrite Nat2Z.id. auto.
Qed.
Lemma readable_bound n : readable n -> (n < r_n_last r + 2 + length (r_pm r))%nat.
Proof. intros [[H _]|[H _]]; lia. Qed.
Lemma time_radial y n a : readable n -> let s := node_start (r_nd r) (r_n_last r) n in
  time_reading r y (mkProbe n (Some a) false) = Ok (Some (cos a * y s + sin a * y (s + 1)%nat)).
Proof.
  intros H s. unfold time_reading. cbn [pr_axial pr_node pr_angle andb]. rewrite !probe_dof_eq by auto.
  assert (B := readable_bound n H). assert (N : (1 < r_nd r / 2)%nat) by (destruct (rf_nd _ F) as [-> | ->]; simpl; lia).
  rewrite !py_index_nat by (apply start_bound; lia). cbn [bind]. fold s. rewrite Nat.add_0_r. auto.
Qed.
Lemma time_axial y n : readable n -> let s := node_start (r_nd r) (r_n_last r) n in
  time_reading r y (mkProbe n None true) = if Nat.eqb (r_nd r) 6 then Ok (Some (y (s + 2)%nat)) else Ok None.
Proof.
  intros H s. unfold time_reading. cbn [pr_axial pr_node pr_angle andb]. destruct (Nat.eqb_spec (r_nd r) 6) as [E|E]; cbn [negb]; [|auto].
  rewrite probe_dof_eq by auto. rewrite py_index_nat; [auto|]. apply start_bound; [apply readable_bound; auto|]. rewrite E. simpl. lia.
Qed.
Lemma axis_node_eq resp n o : readable n -> let s := node_start (r_nd r) (r_n_last r) n in
  axis_per_node r resp n o = Ok (axis_vector (resp s) (resp (s + 1)%nat) o).
Proof.
  intros H s. unfold axis_per_node. rewrite !probe_dof_eq by auto.
  assert (B := readable_bound n H). assert (N : (1 < r_nd r / 2)%nat) by (destruct (rf_nd _ F) as [-> | ->]; simpl; lia).
  rewrite !py_index_nat by (apply start_bound; lia). cbn [bind]. fold s. rewrite Nat.add_0_r. auto.
Qed.
Lemma forced_shaft eig2 resp n a : (n <= r_n_last r + 1)%nat -> let s := node_start (r_nd r) (r_n_last r) n in
  forced_reading eig2 r resp (mkProbe n (Some a) false) = Ok (Some (calculate_amplitude (orbit_init eig2 (resp s) (resp (s + 1)%nat)) (AAngle a))).
Proof.
  intros H. unfold forced_reading, node_start. destruct (Nat.leb_spec n (r_n_last r + 1)); [|lia]. cbn [pr_axial pr_node pr_angle].
  rewrite (rf_ndof _ F), pos_len.
  destruct (Nat.leb_spec (r_nd r * n + 2) (r_nd r * (r_n_last r + 2) + r_nd r / 2 * length (r_pm r))) as [L|L]; cbn [negb].
  - destruct (Nat.ltb_spec n (r_n_last r + 2)); [|lia]. cbn [negb]. auto.
  - exfalso. destruct (rf_nd _ F) as [E|E]; rewrite E in L; nia.
Qed.
Lemma forced_support eig2 resp n a : (r_n_last r + 2 <= n)%nat -> exists e, forced_reading eig2 r resp (mkProbe n (Some a) false) = Err e.
Proof.
  intros H. unfold forced_reading. cbn [pr_axial pr_node pr_angle]. rewrite pos_len. destruct (_ <=? r_ndof r)%nat; cbn [negb]; [|eauto].
  destruct (Nat.ltb_spec n (r_n_last r + 2)); [lia|]. cbn [negb]. eauto.
Qed.
End ProbeDof.

(** ** what calculate_amplitude reports for a numeric angle *)
Lemma amplitude_angle eig2 ru rv t : let a := calculate_amplitude (orbit_init eig2 ru rv) (AAngle t) in exists k, fst a = radius ru rv (sample k).
Proof.
  cbv [calculate_amplitude orbit_init ob_x ob_y ob_angle fst]. eexists. rewrite !expi_re. reflexivity.
Qed.
Lemma phase_angle eig2 ru rv t : let p := snd (calculate_amplitude (orbit_init eig2 ru rv) (AAngle t)) in
  let a := atan2 (fst rv) (fst ru) in forall c, cos (c + p) = cos (c + (a + t)).
Proof.
  intros p a c. unfold p. cbv [calculate_amplitude orbit_init ob_x ob_y ob_angle snd]. rewrite !expi_re.
  assert (S : sample 0 = 0) by (unfold sample; simpl; ring). rewrite S. unfold motion. rewrite cos_0, sin_0.
  replace (fst ru * 1 - snd ru * 0) with (fst ru) by ring. replace (fst rv * 1 - snd rv * 0) with (fst rv) by ring. fold a.
  destruct (Rlt_dec a 0); destruct (Rlt_dec _ _).
  - f_equal. ring.
  - replace (c + (a + 2 * PI + t)) with (c + (a + t) + 2 * INR 1 * PI) by (simpl; ring). apply cos_period.
  - rewrite <- (cos_period (c + (a + t - 2 * PI)) 1). f_equal. simpl. ring.
  - auto.
Qed.
Lemma circular_form ru rv rr : 0 < rr -> (forall c, radius ru rv c = rr) ->
  fst ru ^ 2 + fst rv ^ 2 = rr ^ 2 /\ ((snd ru = fst rv /\ snd rv = - fst ru) \/ (snd ru = - fst rv /\ snd rv = fst ru)).
Proof.
  intros Hr H.
  assert (Q : forall c, motion ru c ^ 2 + motion rv c ^ 2 = rr ^ 2).
  { intros c. rewrite <- (H c). unfold radius. rewrite pow2_sqrt; auto. pose proof (pow2_ge_0 (motion ru c)). pose proof (pow2_ge_0 (motion rv c)). lra. }
  assert (Q0 := Q 0). assert (Q1 := Q (PI / 2)). assert (Q2 := Q (PI / 4)). unfold motion in Q0, Q1, Q2.
  rewrite cos_0, sin_0 in Q0. rewrite cos_PI2, sin_PI2 in Q1. rewrite cos_PI4, sin_PI4 in Q2.
  set (a := fst ru) in *. set (b := snd ru) in *. set (c := fst rv) in *. set (d := snd rv) in *. clearbody a b c d.
  assert (S2 : (1 / sqrt 2) ^ 2 = 1 / 2). { assert (sqrt 2 ^ 2 = 2) by (apply pow2_sqrt; lra). assert (sqrt 2 <> 0) by (intros Z; rewrite Z in H0; lra). field_simplify; auto. rewrite H0. lra. }
  set (h := 1 / sqrt 2) in *. clearbody h.
  assert (E1 : a ^ 2 + c ^ 2 = rr ^ 2) by nra. assert (E2 : b ^ 2 + d ^ 2 = rr ^ 2) by nra.
  assert (E3 : a * b + c * d = 0). { assert (h ^ 2 * ((a - b) ^ 2 + (c - d) ^ 2) = rr ^ 2) by nra. rewrite S2 in H0. nra. }
  split; auto. set (D := a * d - b * c).
  assert (HR : 0 < rr ^ 2) by (apply pow_lt; auto). set (R2 := rr ^ 2) in *. clearbody R2.
  assert (B1 : b * R2 = - c * D) by (assert (X : b * (a ^ 2 + c ^ 2) - (- c * D) = a * (a * b + c * d)) by (unfold D; ring); rewrite E1, E3 in X; lra).
  assert (B2 : d * R2 = a * D) by (assert (X : d * (a ^ 2 + c ^ 2) - a * D = c * (a * b + c * d)) by (unfold D; ring); rewrite E1, E3 in X; lra).
  assert (B3 : D ^ 2 = R2 ^ 2) by (assert (X : D ^ 2 = (a ^ 2 + c ^ 2) * (b ^ 2 + d ^ 2) - (a * b + c * d) ^ 2) by (unfold D; ring); rewrite E1, E2, E3 in X; rewrite X; ring).
  assert (B4 : (D - R2) * (D + R2) = 0) by nra. apply Rmult_integral in B4. destruct B4 as [B4|B4].
  - right. split; nra.
  - left. split; nra.
Qed.
