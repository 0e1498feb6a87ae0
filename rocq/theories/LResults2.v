(** Orbits, continued: uniqueness of the axes, scaling, forward and backward vectors, the sampled major axis. *)
From Coq Require Import Reals List Arith ZArith Lia Lra Psatz Bool.
From Coquelicot Require Import Complex.
From Verif Require Import PyBase MatBase SpecMat LMat CMat MDynamics MFault LFault MResults SpecResults LResults.
Import ListNotations.
Open Scope R_scope.

Lemma axes_unique m M m' M' : 0 <= m <= M -> 0 <= m' <= M' -> m * M = m' * M' -> m ^ 2 + M ^ 2 = m' ^ 2 + M' ^ 2 -> m = m' /\ M = M'.
Proof.
  intros A B P S.
  assert (E1 : M + m = M' + m') by (apply Rsqr_inj; [lra|lra|]; unfold Rsqr; nra).
  assert (E2 : M - m = M' - m') by (apply Rsqr_inj; [lra|lra|]; unfold Rsqr; nra).
  lra.
Qed.
Lemma cmod_sq (z : C) : Cmod z ^ 2 = fst z ^ 2 + snd z ^ 2.
Proof. unfold Cmod. rewrite <- Rsqr_pow2. apply Rsqr_sqrt. nra. Qed.

(** ** scaling *)
Lemma area_scale (s ru rv : C) : area (s * ru)%C (s * rv)%C = Cmod s ^ 2 * area ru rv.
Proof. rewrite cmod_sq. destruct s, ru, rv. unfold area, Cmult. simpl. ring. Qed.
Lemma trace_scale (s ru rv : C) : fa (s * ru)%C (s * rv)%C + fg (s * ru)%C (s * rv)%C = Cmod s ^ 2 * (fa ru rv + fg ru rv).
Proof. rewrite cmod_sq. destruct s, ru, rv. unfold fa, fg, Cmult. simpl. ring. Qed.
Lemma axes_scale eig2 (s ru rv : C) : eig2_ok eig2 ->
  ob_minor (orbit_init eig2 (s * ru)%C (s * rv)%C) = Cmod s * ob_minor (orbit_init eig2 ru rv) /\
  ob_major (orbit_init eig2 (s * ru)%C (s * rv)%C) = Cmod s * ob_major (orbit_init eig2 ru rv).
Proof.
  intros He. pose proof (Cmod_ge_0 s). pose proof (axes_order eig2 He ru rv).
  apply axes_unique; try (apply axes_order; auto).
  - split; [|apply Rmult_le_compat_l; lra]. apply Rmult_le_pos; lra.
  - rewrite minor_major_area by auto. rewrite area_scale, Rabs_mult. rewrite (Rabs_pos_eq (Cmod s ^ 2)) by nra.
    rewrite <- (minor_major_area eig2 He). ring.
  - rewrite axes_squares by auto. rewrite trace_scale, <- (axes_squares eig2 He). ring.
Qed.
Lemma kappa_scale eig2 (s ru rv : C) : eig2_ok eig2 -> s <> RtoC 0 ->
  ob_kappa (orbit_init eig2 (s * ru)%C (s * rv)%C) = ob_kappa (orbit_init eig2 ru rv).
Proof.
  intros He Hs. assert (P : 0 < Cmod s) by (apply Cmod_gt_0; auto). assert (P2 : 0 < Cmod s ^ 2) by (apply pow_lt; auto). set (s2 := Cmod s ^ 2) in *.
  destruct (axes_scale eig2 s ru rv He) as [Em EM].
  destruct (Rtotal_order (area ru rv) 0) as [A|[A|A]].
  - rewrite !kappa_backward; auto; [|rewrite area_scale; fold s2; clearbody s2; nra]. rewrite Em, EM. f_equal.
    assert (0 < ob_major (orbit_init eig2 ru rv)).
    { destruct (axes_order eig2 He ru rv) as [Q1 Q2]. destruct (Rle_lt_or_eq_dec 0 _ (Rle_trans _ _ _ Q1 Q2)); auto.
      assert (X := minor_major_area eig2 He ru rv). rewrite <- e, Rmult_0_r in X. rewrite Rabs_left in X by lra. lra. }
    field. lra.
  - destruct (kappa_zero eig2 He ru rv A) as [-> _]. destruct (kappa_zero eig2 He (s * ru)%C (s * rv)%C) as [-> _]; auto. rewrite area_scale, A. ring.
  - rewrite !kappa_forward; auto; [|rewrite area_scale; fold s2; clearbody s2; nra]. rewrite Em, EM.
    assert (0 < ob_major (orbit_init eig2 ru rv)).
    { destruct (axes_order eig2 He ru rv) as [Q1 Q2]. destruct (Rle_lt_or_eq_dec 0 _ (Rle_trans _ _ _ Q1 Q2)); auto.
      assert (X := minor_major_area eig2 He ru rv). rewrite <- e, Rmult_0_r in X. rewrite Rabs_pos_eq in X by lra. lra. }
    field. lra.
Qed.
Lemma whirl_eq eig2 ru rv : ob_whirl (orbit_init eig2 ru rv) = if Rlt_dec 0 (ob_kappa (orbit_init eig2 ru rv)) then Forward else Backward.
Proof. reflexivity. Qed.
Lemma major_pos eig2 ru rv : eig2_ok eig2 -> area ru rv <> 0 ->
  0 < ob_major (orbit_init eig2 ru rv) /\ 0 < ob_minor (orbit_init eig2 ru rv).
Proof.
  intros He Ha. destruct (axes_order eig2 He ru rv) as [Q1 Q2]. assert (X := minor_major_area eig2 He ru rv).
  assert (0 < Rabs (area ru rv)) by (apply Rabs_pos_lt; auto). nra.
Qed.

(** ** forward and backward vectors *)
Lemma expi_PI2 : expi (PI / 2) = Ci.
Proof. unfold expi, Ci. now rewrite cos_PI2, sin_PI2. Qed.
Lemma expi_add a b : (expi a * expi b)%C = expi (a + b).
Proof. unfold expi, Cmult. simpl. rewrite cos_plus, sin_plus. f_equal; ring. Qed.
Lemma cmod_expi a : Cmod (expi a) = 1.
Proof. unfold Cmod, expi. simpl fst. simpl snd. rewrite unit_cs. apply sqrt_1. Qed.
Lemma polar (z : C) : z = (RtoC (Cmod z) * expi (carg z))%C.
Proof.
  pose proof (polar_re z) as A. pose proof (polar_im z) as B. destruct z as [a b]. unfold expi, RtoC, Cmult. cbn [fst snd] in *.
  f_equal; lra.
Qed.
Lemma expi_period a : expi (a + 2 * PI) = expi a.
Proof. unfold expi. rewrite cos_plus, sin_plus, cos_2PI, sin_2PI. f_equal; ring. Qed.
Lemma polar_wrap (z : C) : z = (RtoC (Cmod z) * expi (wrap_angle (carg z)))%C.
Proof. unfold wrap_angle. destruct (Rlt_dec _ _); [rewrite expi_period|]; apply polar. Qed.
Lemma half_im (z : C) : (z / 2)%C = (fst z / 2, snd z / 2).
Proof. destruct z as [a b]. unfold Cdiv, Cinv, Cmult. simpl. f_equal; field. Qed.
Lemma fow_eq (x y : C) : (x / 2 + expi (PI / 2) * y / 2)%C = ((fst x - snd y) / 2, (snd x + fst y) / 2).
Proof. rewrite expi_PI2, !half_im. destruct x, y. unfold Ci, Cmult, Cplus. simpl. f_equal; field. Qed.
Lemma back_eq (x y : C) : (Cconj x / 2 + expi (PI / 2) * Cconj y / 2)%C = ((fst x + snd y) / 2, (fst y - snd x) / 2).
Proof. rewrite expi_PI2, !half_im. destruct x, y. unfold Ci, Cmult, Cplus, Cconj. simpl. f_equal; field. Qed.
Lemma axis_fow x y o : ax_fow (axis_vector x y o) = ((fst x - snd y) / 2, (snd x + fst y) / 2).
Proof. exact (fow_eq x y). Qed.
Lemma axis_back x y o : ax_back (axis_vector x y o) = ((fst x + snd y) / 2, (fst y - snd x) / 2).
Proof. exact (back_eq x y). Qed.
Lemma fow_back_axes eig2 x y o : eig2_ok eig2 -> let a := axis_vector x y o in
  ob_major (orbit_init eig2 x y) = Cmod (ax_fow a) + Cmod (ax_back a) /\
  ob_minor (orbit_init eig2 x y) = Rabs (Cmod (ax_fow a) - Cmod (ax_back a)).
Proof.
  intros He a. set (f := Cmod (ax_fow a)). set (b := Cmod (ax_back a)).
  assert (F : 0 <= f) by apply Cmod_ge_0. assert (B : 0 <= b) by apply Cmod_ge_0.
  assert (F2 : f ^ 2 = ((fst x - snd y) ^ 2 + (snd x + fst y) ^ 2) / 4) by (unfold f, a; rewrite cmod_sq, axis_fow; cbn [fst snd]; field).
  assert (B2 : b ^ 2 = ((fst x + snd y) ^ 2 + (fst y - snd x) ^ 2) / 4) by (unfold b, a; rewrite cmod_sq, axis_back; cbn [fst snd]; field).
  assert (R : Rabs (f - b) ^ 2 = (f - b) ^ 2) by (rewrite <- !Rsqr_pow2; symmetry; apply Rsqr_abs).
  enough (ob_minor (orbit_init eig2 x y) = Rabs (f - b) /\ ob_major (orbit_init eig2 x y) = f + b) by tauto.
  apply axes_unique; [apply axes_order; auto| | |].
  - split; [apply Rabs_pos|]. apply Rabs_le. lra.
  - rewrite minor_major_area by auto. rewrite <- (Rabs_pos_eq (f + b)) by lra. rewrite <- Rabs_mult. f_equal. unfold area. nra.
  - rewrite axes_squares by auto. rewrite R. unfold fa, fg. nra.
Qed.
Lemma cmod_two p q u : Cmod (RtoC p * expi u + RtoC q * expi u)%C = Rabs (p + q).
Proof. replace (RtoC p * expi u + RtoC q * expi u)%C with (RtoC (p + q) * expi u)%C by (rewrite RtoC_plus; ring). rewrite Cmod_mult, cmod_expi, Cmod_R. ring. Qed.
Lemma expi_shift a : expi (a + PI) = (- expi a)%C.
Proof. unfold expi, Copp. simpl. rewrite neg_cos, neg_sin. reflexivity. Qed.
Lemma expi_minus_pi a : expi (a - PI) = (- expi a)%C.
Proof. replace a with (a - PI + PI) at 2 by ring. rewrite expi_shift. ring. Qed.
Lemma expi_opp_fold t : (expi (- (t - PI))) = (- expi (- t))%C.
Proof. replace (- (t - PI)) with (- t + PI) by ring. apply expi_shift. Qed.
Lemma cmod_neg_pair (f b u v : C) : Cmod (f * (- u) + b * (- v))%C = Cmod (f * u + b * v)%C.
Proof. replace (f * - u + b * - v)%C with (- (f * u + b * v))%C by ring. apply Cmod_opp. Qed.
Lemma axis_value x y o : ax_value (axis_vector x y o) =
  let f := ax_fow (axis_vector x y o) in let b := ax_back (axis_vector x y o) in
  let af := wrap_angle (carg f) in let ab := wrap_angle (carg b) in
  let t := match o with AMajor => (ab - af) / 2 | AMinor => (ab - af + PI) / 2 | AAngle a => a end in
  Cmod (f * expi t + b * expi (- t))%C.
Proof.
  cbv zeta. unfold axis_vector. cbn [ax_value ax_fow ax_back]. destruct o; auto; destruct (Rlt_dec PI _); auto; rewrite expi_minus_pi, expi_opp_fold, cmod_neg_pair; reflexivity.
Qed.
Lemma axis_major_value x y : ax_value (axis_vector x y AMajor) = Cmod (ax_fow (axis_vector x y AMajor)) + Cmod (ax_back (axis_vector x y AMajor)).
Proof.
  rewrite axis_value. cbv zeta. set (f := ax_fow _). set (b := ax_back _). set (af := wrap_angle (carg f)). set (ab := wrap_angle (carg b)).
  rewrite (polar_wrap f) at 1. rewrite (polar_wrap b) at 1. fold af ab. rewrite <- !Cmult_assoc, !expi_add.
  replace (af + (ab - af) / 2) with ((af + ab) / 2) by field. replace (ab + - ((ab - af) / 2)) with ((af + ab) / 2) by field.
  rewrite cmod_two. apply Rabs_pos_eq. pose proof (Cmod_ge_0 f). pose proof (Cmod_ge_0 b). lra.
Qed.
Lemma axis_minor_value x y : ax_value (axis_vector x y AMinor) = Rabs (Cmod (ax_fow (axis_vector x y AMinor)) - Cmod (ax_back (axis_vector x y AMinor))).
Proof.
  rewrite axis_value. cbv zeta. set (f := ax_fow _). set (b := ax_back _). set (af := wrap_angle (carg f)). set (ab := wrap_angle (carg b)).
  rewrite (polar_wrap f) at 1. rewrite (polar_wrap b) at 1. fold af ab. rewrite <- !Cmult_assoc, !expi_add.
  replace (af + (ab - af + PI) / 2) with ((af + ab) / 2 - PI / 2 + PI) by field. replace (ab + - ((ab - af + PI) / 2)) with ((af + ab) / 2 - PI / 2) by field.
  rewrite expi_shift. replace (Cmod f * - expi ((af + ab) / 2 - PI / 2))%C with (RtoC (- Cmod f) * expi ((af + ab) / 2 - PI / 2))%C by (rewrite RtoC_opp; ring).
  rewrite cmod_two, <- Rabs_Ropp. f_equal. ring.
Qed.
Lemma axis_angle_value x y t : ax_value (axis_vector x y (AAngle t)) = radius x y t.
Proof.
  rewrite axis_value. cbv zeta. rewrite axis_fow, axis_back. unfold Cmod, radius. f_equal. unfold motion, expi, Cmult, Cplus. cbn [fst snd]. rewrite cos_neg, sin_neg. field.
Qed.

(** ** the sampled major axis *)
Lemma form2_rotated a b g m M c0 d : a + g = m + M -> a * g - b ^ 2 = m * M -> form2 a b g (cos c0) (sin c0) = M ->
  form2 a b g (cos (c0 + d)) (sin (c0 + d)) = M * cos d ^ 2 + m * sin d ^ 2.
Proof.
  intros H1 H2 H3. rewrite cos_plus, sin_plus. pose proof (unit_cs c0) as U. set (u := cos c0) in *. set (v := sin c0) in *. clearbody u v.
  set (X := b * (u ^ 2 - v ^ 2) + (g - a) * (u * v)). set (g' := form2 a b g (- v) u).
  assert (E : form2 a b g (u * cos d - v * sin d) (v * cos d + u * sin d) = form2 a b g u v * cos d ^ 2 + 2 * X * (cos d * sin d) + g' * sin d ^ 2) by (unfold form2, X, g'; unfold form2; ring).
  assert (G : g' = m). { assert (form2 a b g u v + g' = (a + g) * (u ^ 2 + v ^ 2)) by (unfold g', form2; ring). rewrite U, H3 in H. lra. }
  assert (X0 : X = 0).
  { assert (D : form2 a b g u v * g' - X ^ 2 = (a * g - b ^ 2) * (u ^ 2 + v ^ 2) ^ 2) by (unfold g', X, form2; ring). rewrite U, H3, G, H2 in D. assert (X ^ 2 = 0) by lra. nra. }
  rewrite E, X0, G, H3. ring.
Qed.
Lemma motion_pi A c : motion A (c + PI) = - motion A c.
Proof. unfold motion. rewrite neg_cos, neg_sin. ring. Qed.
Lemma radius_pi ru rv c : radius ru rv (c + PI) = radius ru rv c.
Proof. unfold radius. rewrite !motion_pi. f_equal. ring. Qed.
Lemma radius_pi_n ru rv c n : radius ru rv (c + INR n * PI) = radius ru rv c.
Proof.
  induction n as [|n IH]; [simpl; f_equal; ring|]. rewrite S_INR. replace (c + (INR n + 1) * PI) with (c + INR n * PI + PI) by ring. rewrite radius_pi. auto.
Qed.
Lemma radius_pi_z ru rv c z : radius ru rv (c + IZR z * PI) = radius ru rv c.
Proof.
  destruct z as [|p|p].
  - f_equal. ring.
  - rewrite <- (positive_nat_Z p), <- INR_IZR_INZ. apply radius_pi_n.
  - rewrite <- (radius_pi_n ru rv (c + IZR (Z.neg p) * PI) (Pos.to_nat p)). f_equal. rewrite INR_IZR_INZ, positive_nat_Z. replace (Z.neg p) with (- Z.pos p)%Z by reflexivity. rewrite opp_IZR. ring.
Qed.
Lemma floor_spec x : exists z, IZR z <= x < IZR z + 1.
Proof. exists (Int_part x). destruct (base_Int_part x). lra. Qed.
Lemma major_in_half_turn ru rv M : (exists c, radius ru rv c = M) -> exists c, 0 <= c < PI /\ radius ru rv c = M.
Proof.
  intros [c Hc]. pose proof PI_RGT_0. destruct (floor_spec (c / PI)) as [z [A B]]. exists (c + IZR (- z) * PI). split.
  - rewrite opp_IZR. assert (c = c / PI * PI) by (field; lra). split; nra.
  - rewrite radius_pi_z. auto.
Qed.
Lemma near_sample c : 0 <= c < PI -> exists k, (k < 180)%nat /\ Rabs (sample k - c) <= PI / 359.
Proof.
  intros [A B]. pose proof PI_RGT_0. set (t := c * 359 / (2 * PI)). destruct (floor_spec (t + / 2)) as [z [F G]].
  assert (T0 : 0 <= t) by (unfold t; apply Rmult_le_pos; [lra|]; left; apply Rinv_0_lt_compat; lra).
  assert (T1 : t < 359 / 2). { unfold t. apply Rmult_lt_reg_r with (2 * PI); [lra|]. replace (c * 359 / (2 * PI) * (2 * PI)) with (c * 359) by (field; lra). replace (359 / 2 * (2 * PI)) with (359 * PI) by field. nra. }
  assert (Z0 : (0 <= z)%Z) by (assert (-1 < z)%Z by (apply lt_IZR; lra); lia).
  assert (Z1 : (z < 180)%Z) by (apply lt_IZR; lra).
  exists (Z.to_nat z). split; [lia|]. unfold sample. rewrite INR_IZR_INZ, Z2Nat.id by auto.
  replace (IZR z * (2 * PI / 359) - c) with ((IZR z - t) * (2 * PI / 359)) by (unfold t; field; lra).
  rewrite Rabs_mult, (Rabs_pos_eq (2 * PI / 359)) by lra. assert (Rabs (IZR z - t) <= / 2) by (apply Rabs_le; lra). nra.
Qed.
Lemma argmax_ext f g n : (forall k, f k = g k) -> argmax f n = argmax g n.
Proof.
  intros E. induction n as [|n IH]; [auto|]. destruct n as [|n]; [auto|].
  change (argmax f (S (S n))) with (if Rlt_dec (f (argmax f (S n))) (f (S n)) then S n else argmax f (S n)).
  change (argmax g (S (S n))) with (if Rlt_dec (g (argmax g (S n))) (g (S n)) then S n else argmax g (S n)).
  rewrite IH, !E. reflexivity.
Qed.
Opaque argmax.
Lemma cos_abs d : cos (Rabs d) = cos d.
Proof. unfold Rabs. destruct (Rcase_abs d); auto. apply cos_neg. Qed.
Lemma major_sample eig2 ru rv : let o := orbit_init eig2 ru rv in
  ob_major_index o = argmax (fun k => radius ru rv (sample k)) 180 /\
  ob_major_x o = motion ru (sample (ob_major_index o)) /\ ob_major_y o = motion rv (sample (ob_major_index o)).
Proof.
  cbv [orbit_init ob_major_index ob_major_x ob_major_y]. rewrite !expi_re. split; [|split; reflexivity].
  apply argmax_ext. intros k. rewrite !expi_re. reflexivity.
Qed.
Lemma sampled_major eig2 ru rv : eig2_ok eig2 -> let o := orbit_init eig2 ru rv in
  (ob_major_index o < 180)%nat /\ ob_major_x o = motion ru (sample (ob_major_index o)) /\ ob_major_y o = motion rv (sample (ob_major_index o)) /\
  cos (PI / 359) * ob_major o <= sqrt (ob_major_x o ^ 2 + ob_major_y o ^ 2) <= ob_major o.
Proof.
  intros He o. destruct (major_sample eig2 ru rv) as (Ei & Ex & Ey). fold o in Ei, Ex, Ey. cbv zeta in Ei, Ex, Ey. set (mi := ob_major_index o) in *.
  destruct (argmax_spec (fun k => radius ru rv (sample k)) 180 ltac:(lia)) as [I1 I2]. rewrite <- Ei in I1, I2.
  split; [exact I1|]. split; [exact Ex|]. split; [exact Ey|]. rewrite Ex, Ey. change (sqrt (motion ru (sample mi) ^ 2 + motion rv (sample mi) ^ 2)) with (radius ru rv (sample mi)). split; [|apply axes_bound; auto].
  destruct (major_in_half_turn ru rv (ob_major o) (major_attained eig2 He ru rv)) as (c0 & Hc & Hr).
  destruct (near_sample c0 Hc) as (k & Hk & Hd).
  assert (Hm : radius ru rv (sample k) <= radius ru rv (sample mi)) by (exact (I2 k Hk)).
  eapply Rle_trans; [|exact Hm].
  pose proof PI_RGT_0.
  destruct (form_props eig2 He ru rv) as (A & B & D & E). set (m := Rmin _ _) in *. set (M := Rmax _ _) in *.
  assert (EM : ob_major o = sqrt M) by reflexivity.
  assert (F0 : form2 (fa ru rv) (fb ru rv) (fg ru rv) (cos c0) (sin c0) = M).
  { rewrite radius_sq, EM in Hr. apply sqrt_inj in Hr; auto; [|lra]. assert (L := form2_low _ _ _ _ _ (cos c0) (sin c0) A B D). rewrite unit_cs in L. lra. }
  assert (F1 := form2_rotated _ _ _ _ _ c0 (sample k - c0) A B F0). replace (c0 + (sample k - c0)) with (sample k) in F1 by ring.
  rewrite radius_sq, F1, EM.
  assert (Cd : cos (PI / 359) <= cos (sample k - c0)). { rewrite <- (cos_abs (sample k - c0)). apply cos_decr_1; try lra; try apply Rabs_pos. }
  assert (C0 : 0 < cos (PI / 359)) by (apply cos_gt_0; lra).
  replace (cos (PI / 359) * sqrt M) with (sqrt (M * cos (PI / 359) ^ 2)).
  - apply sqrt_le_1_alt. pose proof (pow2_ge_0 (sin (sample k - c0))). assert (cos (PI / 359) ^ 2 <= cos (sample k - c0) ^ 2) by (apply pow_incr; lra). nra.
  - rewrite sqrt_mult by (try lra; apply pow2_ge_0). rewrite <- (Rsqr_pow2 (cos _)), sqrt_Rsqr by lra. ring.
Qed.
