(** C45: geometry of the fluid film and analytical pressures. *)
From Coq Require Import Reals String List Arith Bool Lia Lra.
From Coquelicot Require Import Coquelicot.
From Verif Require Import PyBase MatBase MDynamics LDynEx MFluid SpecFluid LFluid LFluid2 LFluid3 LFluid4 LFluid5 LFluid6 PropFluid.
Import ListNotations.
Open Scope string_scope. Open Scope R_scope.

(** the rotor centre seen from the stator centre is at distance e in the direction 3 pi / 2 + att *)
Lemma centre_dir e att : centre_x e att = e * cos (3 * PI / 2 + att) /\ centre_y e att = e * sin (3 * PI / 2 + att).
Proof.
  unfold centre_x, centre_y. replace (3 * PI / 2 + att) with (att - PI / 2 + 2 * PI) by field.
  split.
  - replace (cos (att - PI / 2 + 2 * PI)) with (cos (att - PI / 2)) by (rewrite <- (cos_period (att - PI / 2) 1); f_equal; simpl; ring). rewrite cos_minus, cos_PI2, sin_PI2. ring.
  - replace (sin (att - PI / 2 + 2 * PI)) with (sin (att - PI / 2)) by (rewrite <- (sin_period (att - PI / 2) 1); f_equal; simpl; ring). rewrite sin_minus, cos_PI2, sin_PI2. ring.
Qed.

(** the angle the code uses: same cosine and same squared sine as the angle from the direction of the rotor centre *)
Definition dlt (gama att : R) : R := gama - (3 * PI / 2 + att).
Lemma internal_val gama att rr e : internal_radius gama att rr e = sqrt (rr ^ 2 - (e * sin (dlt gama att)) ^ 2) + e * cos (dlt gama att).
Proof.
  unfold internal_radius, dlt.
  assert (A : forall al, cos al = cos (gama - (3 * PI / 2 + att)) -> sin al ^ 2 = sin (gama - (3 * PI / 2 + att)) ^ 2 ->
     sqrt (rr ^ 2 - (e * sin al) ^ 2) + e * cos al = sqrt (rr ^ 2 - (e * sin (gama - (3 * PI / 2 + att))) ^ 2) + e * cos (gama - (3 * PI / 2 + att))).
  { intros al C S. rewrite C, !Rpow_mult_distr, S. reflexivity. }
  assert (B : cos (gama + PI / 2 - att) = cos (gama - (3 * PI / 2 + att)) /\ sin (gama + PI / 2 - att) ^ 2 = sin (gama - (3 * PI / 2 + att)) ^ 2).
  { replace (gama + PI / 2 - att) with (gama - (3 * PI / 2 + att) + 2 * INR 1 * PI) by (simpl; field). rewrite cos_period, sin_period. split; reflexivity. }
  destruct (Rlt_dec (PI / 2 + att) gama); [destruct (Rlt_dec gama (3 * PI / 2 + att))|]; apply A; try apply B.
  - rewrite <- (cos_neg (gama - _)). replace (- (gama - (3 * PI / 2 + att))) with (3 * PI / 2 - gama + att) by ring. rewrite Rabs_pos_eq by lra. reflexivity.
  - rewrite Rabs_pos_eq by lra. replace (3 * PI / 2 - gama + att) with (- (gama - (3 * PI / 2 + att))) by ring. rewrite sin_neg. ring.
Qed.
(** The grid points of the rotor lie on the circle of its radius around its centre; seen from the stator centre there is one such point in each direction. *)
Theorem C45_rotor_surface gama att rr e : 0 <= e < rr -> let r := internal_radius gama att rr e in
  0 < r /\ (r * cos gama - centre_x e att) ^ 2 + (r * sin gama - centre_y e att) ^ 2 = rr ^ 2 /\
  forall r', 0 <= r' -> (r' * cos gama - centre_x e att) ^ 2 + (r' * sin gama - centre_y e att) ^ 2 = rr ^ 2 -> r' = r.
Proof.
  intros He. cbv zeta. rewrite internal_val. set (d := dlt gama att). pose proof (SIN_bound d) as Bs. pose proof (COS_bound d) as Bc. pose proof (sin2_cos2 d) as P. unfold Rsqr in P.
  set (q := rr ^ 2 - (e * sin d) ^ 2). assert (Hq : (e * cos d) ^ 2 < q). { unfold q. assert (e ^ 2 < rr ^ 2) by nra. replace ((e * cos d) ^ 2) with (e ^ 2 - (e * sin d) ^ 2); [lra|]. replace (e ^ 2) with (e ^ 2 * (sin d * sin d + cos d * cos d)) by (rewrite P; ring). ring. }
  assert (Hq0 : 0 <= q) by (pose proof (pow2_ge_0 (e * cos d)); lra). pose proof (sqrt_sqrt q Hq0) as Sq. pose proof (sqrt_pos q) as Sp. set (w := sqrt q) in *.
  assert (Hw : Rabs (e * cos d) < w). { apply Rnot_le_lt. intros X. assert (w ^ 2 <= Rabs (e * cos d) ^ 2) by (apply pow_incr; split; assumption). rewrite pow2_abs in H. nra. }
  apply Rabs_def2 in Hw. destruct (centre_dir e att) as [Cx Cy].
  assert (Dist : forall r, (r * cos gama - centre_x e att) ^ 2 + (r * sin gama - centre_y e att) ^ 2 = r ^ 2 - 2 * r * e * cos d + e ^ 2).
  { intros r. rewrite Cx, Cy. unfold d, dlt. rewrite cos_minus. set (b := 3 * PI / 2 + att). pose proof (sin2_cos2 b) as P1. pose proof (sin2_cos2 gama) as P2. unfold Rsqr in P1, P2.
    transitivity (r ^ 2 * (sin gama * sin gama + cos gama * cos gama) - 2 * r * e * (cos gama * cos b + sin gama * sin b) + e ^ 2 * (sin b * sin b + cos b * cos b)); [ring|]. rewrite P1, P2. ring. }
  assert (E2 : e ^ 2 = (e * sin d) ^ 2 + (e * cos d) ^ 2) by (transitivity (e ^ 2 * (sin d * sin d + cos d * cos d)); [rewrite P|]; ring).
  split; [lra|]. split.
  - rewrite Dist. unfold q in Sq. transitivity (w * w - (e * cos d) ^ 2 + e ^ 2); [ring|]. lra.
  - intros r' Hr' E. rewrite Dist in E. assert (F : (r' - e * cos d) ^ 2 = w ^ 2) by (unfold q in Sq; nra).
    assert (0 <= r' - e * cos d \/ r' - e * cos d < 0) as [G|G] by lra; [nra|]. exfalso. assert (- (r' - e * cos d) < w) by lra. nra.
Qed.
(** The gap between the surfaces is the film thickness of Reynolds' equation up to a term of second order in the eccentricity. *)
Theorem C45_film_thickness gama att rr rs e : 0 <= e < rr ->
  0 <= (rs - internal_radius gama att rr e) - film (rs - rr) (centre_x e att) (centre_y e att) gama <= e ^ 2 / rr.
Proof.
  intros He. rewrite internal_val. set (d := dlt gama att). destruct (centre_dir e att) as [Cx Cy].
  assert (F : film (rs - rr) (centre_x e att) (centre_y e att) gama = rs - rr - e * cos d). { unfold film. rewrite Cx, Cy. unfold d, dlt. rewrite cos_minus. ring. }
  rewrite F. pose proof (SIN_bound d) as Bs. set (q := rr ^ 2 - (e * sin d) ^ 2). assert (S1 : 0 <= (e * sin d) ^ 2 <= e ^ 2). { split; [apply pow2_ge_0|]. rewrite Rpow_mult_distr. assert (0 <= sin d ^ 2 <= 1) by nra. pose proof (pow2_ge_0 e). nra. }
  assert (Q : 0 <= q <= rr ^ 2) by (unfold q; split; [nra|lra]).
  assert (U : sqrt q <= rr). { rewrite <- (sqrt_pow2 rr) by lra. apply sqrt_le_1_alt. lra. }
  assert (Lo : rr - e ^ 2 / rr <= sqrt q).
  { destruct (Rle_lt_dec (rr - e ^ 2 / rr) 0) as [N|N]; [pose proof (sqrt_pos q); lra|]. rewrite <- (sqrt_pow2 (rr - e ^ 2 / rr)) by lra. apply sqrt_le_1_alt. unfold q.
    replace ((rr - e ^ 2 / rr) ^ 2) with (rr ^ 2 - 2 * e ^ 2 + e ^ 2 * (e ^ 2 / rr ^ 2)) by (field; lra). assert (e ^ 2 / rr ^ 2 <= 1). { apply Rmult_le_reg_r with (rr ^ 2); [nra|]. unfold Rdiv. rewrite Rmult_assoc, Rinv_l by nra. nra. }
    pose proof (pow2_ge_0 e). nra. }
  lra.
Qed.
(** A cylindrical bearing whose rotor fits is never rejected. With an odd number of angles, a rotor that does not fit always is; with an even number it may pass. *)
Lemma outside_iff f i j : outside f i j = true <-> Rabs (ff_re f i j) < Rabs (ff_ri f i j).
Proof.
  unfold outside, ff_xre, ff_xri, ff_yre, ff_yri. rewrite !Rabs_mult. pose proof (sin2_cos2 (ff_gama f i j)) as P. unfold Rsqr in P. set (C := cos (ff_gama f i j)) in *. set (S := sin (ff_gama f i j)) in *. set (a := Rabs (ff_re f i j)). set (b := Rabs (ff_ri f i j)).
  pose proof (Rabs_pos C). pose proof (Rabs_pos S). split.
  - intros X. apply orb_true_iff in X. destruct X as [X|X]; destruct (Rlt_dec _ _) as [Y|]; try discriminate; apply Rnot_le_lt; intros Z; [apply (Rmult_le_compat_r (Rabs C)) in Z; lra|apply (Rmult_le_compat_r (Rabs S)) in Z; lra].
  - intros X. destruct (Req_dec C 0) as [Z|Z].
    + apply orb_true_iff. right. assert (S <> 0) by (intros ->; rewrite Z in P; lra). pose proof (Rabs_pos_lt S H1). destruct (Rlt_dec _ _) as [|N]; [reflexivity|exfalso; apply N; apply Rmult_lt_compat_r; assumption].
    + apply orb_true_iff. left. pose proof (Rabs_pos_lt C Z). destruct (Rlt_dec _ _) as [|N]; [reflexivity|exfalso; apply N; apply Rmult_lt_compat_r; assumption].
Qed.
Lemma coeff_err f d : (exists i j, (i < ff_nz f)%nat /\ (j < ff_nt f)%nat /\ Rabs (ff_re f i j) < Rabs (ff_ri f i j)) <-> coefficients f d = Err ValueError.
Proof.
  unfold coefficients. destruct (existsb _ _) eqn:E.
  - split; [reflexivity|intros _]. apply existsb_exists in E. destruct E as (i & Hi & E). apply existsb_exists in E. destruct E as (j & Hj & E). apply in_seq in Hi. apply in_seq in Hj. exists i, j. split; [lia|]. split; [lia|]. apply outside_iff. exact E.
  - split; [|discriminate]. intros (i & j & Hi & Hj & X). exfalso. apply not_true_iff_false in E. apply E. apply existsb_exists. exists i. split; [apply in_seq; lia|]. apply existsb_exists. exists j. split; [apply in_seq; lia|]. apply outside_iff. exact X.
Qed.
Lemma cyl_radii f0 f i j : ff_shape f0 = "cylindrical" -> geometry_description f0 = Ok f -> ff_re f i j = ff_rs f /\ ff_ri f i j = internal_radius (INR j * ff_dt f + ff_att f + PI / 2) (ff_att f) (ff_rr f) (ff_ecc f).
Proof.
  intros Hs Hg. pose proof (grid_theta f0 f i j Hs Hg) as G. revert G Hg. unfold geometry_description, external_radius. rewrite Hs. cbn [String.eqb Ascii.eqb Bool.eqb]. intros G E. injection E as <-. cbn [set_grid ff_re ff_ri ff_rs ff_gama ff_att ff_rr ff_ecc] in *. rewrite G. split; reflexivity.
Qed.
Lemma internal_le gama att rr e : 0 <= e < rr -> internal_radius gama att rr e <= rr + e.
Proof.
  intros He. rewrite internal_val. set (d := dlt gama att). pose proof (COS_bound d). assert (sqrt (rr ^ 2 - (e * sin d) ^ 2) <= rr); [|nra]. rewrite <- (sqrt_pow2 rr) at 2 by lra. apply sqrt_le_1_alt. pose proof (pow2_ge_0 (e * sin d)). lra.
Qed.
Theorem C45_rotor_inside f0 f d : ff_shape f0 = "cylindrical" -> geometry_description f0 = Ok f -> 0 < ff_rs f -> 0 <= ff_ecc f < ff_rr f ->
  (ff_ecc f <= ff_rs f - ff_rr f -> exists c, coefficients f d = Ok c) /\
  (ff_rs f - ff_rr f < ff_ecc f -> (1 <= ff_nz f)%nat -> (3 <= ff_nt f)%nat -> Nat.odd (ff_nt f) = true -> coefficients f d = Err ValueError).
Proof.
  intros Hs Hg Hrs He. split.
  - intros H. destruct (coefficients f d) as [c|e] eqn:E; [exists c; reflexivity|]. exfalso. assert (e = ValueError) as -> by (unfold coefficients in E; destruct (existsb _ _); congruence).
    apply coeff_err in E. destruct E as (i & j & _ & _ & X). destruct (cyl_radii f0 f i j Hs Hg) as [R1 R2]. rewrite R1, R2 in X. destruct (C45_rotor_surface (INR j * ff_dt f + ff_att f + PI / 2) (ff_att f) (ff_rr f) (ff_ecc f) He) as (P & _ & _).
    rewrite (Rabs_pos_eq (ff_rs f)), Rabs_pos_eq in X by lra. pose proof (internal_le (INR j * ff_dt f + ff_att f + PI / 2) (ff_att f) (ff_rr f) (ff_ecc f) He). lra.
  - intros H Hz Ht Ho. apply coeff_err. apply Nat.odd_spec in Ho. destruct Ho as [m Hm]. exists 0%nat, m. split; [lia|]. split; [lia|]. destruct (cyl_radii f0 f 0%nat m Hs Hg) as [R1 R2]. rewrite R1, R2, internal_val.
    assert (D : dlt (INR m * ff_dt f + ff_att f + PI / 2) (ff_att f) = 0).
    { unfold dlt, ff_dt. rewrite Hm. replace (2 * m + 1 - 1)%nat with (2 * m)%nat by lia. rewrite mult_INR. simpl (INR 2). assert (INR m <> 0) by (apply not_0_INR; lia). field. assumption. }
    rewrite D, sin_0, cos_0. replace (ff_rr f ^ 2 - (ff_ecc f * 0) ^ 2) with (ff_rr f ^ 2) by ring. rewrite sqrt_pow2 by lra. rewrite !Rabs_pos_eq by lra. lra.
Qed.
Definition bad_f : fluid := ff_base (mkFfArgs 3 4 (1/100) 100 0 0 1 (11/10) (1/10) None None None None false (Some "short_bearing") "cylindrical" (2/5) 0 None) None (12/10) (12/100) 0.
Theorem C45_rotor_outside_refuted : exists f0 f c, ff_shape f0 = "cylindrical" /\ geometry_description f0 = Ok f /\ ff_rs f - ff_rr f < ff_ecc f < ff_rr f /\ coefficients f None = Ok c.
Proof.
  set (g := geometry_description bad_f). assert (Hg : exists f, g = Ok f) by (unfold g, geometry_description, external_radius, bad_f; cbn [ff_base ff_shape fa_shape String.eqb Ascii.eqb Bool.eqb]; eexists; reflexivity).
  destruct Hg as [f Hg]. destruct (geometry_keeps bad_f f Hg) as (G1 & G2 & G3 & G4 & G5 & G6 & G7 & G8 & G9 & _). exists bad_f, f.
  assert (Hs : ff_shape bad_f = "cylindrical") by reflexivity. cbn [bad_f ff_base ff_rr ff_rs ff_ecc ff_nz ff_nt fa_rr fa_rs fa_nz fa_nt ff_att] in *.
  destruct (coefficients f None) as [c|e] eqn:E; [exists c; split; [reflexivity|]; split; [exact Hg|]; split; [rewrite G6, G7, G8; lra|reflexivity]|]. exfalso.
  assert (e = ValueError) as -> by (unfold coefficients in E; destruct (existsb _ _); congruence). apply coeff_err in E. destruct E as (i & j & _ & Hj & X). rewrite G2 in Hj.
  destruct (cyl_radii bad_f f i j Hs Hg) as [R1 R2]. rewrite R1, R2, G6, G7, G8 in X.
  destruct (C45_rotor_surface (INR j * ff_dt f + ff_att f + PI / 2) (ff_att f) 1 (12 / 100)) as (P & _ & _); [lra|]. rewrite (Rabs_pos_eq (11 / 10)), Rabs_pos_eq in X by lra. rewrite internal_val in X.
  set (d := dlt (INR j * ff_dt f + ff_att f + PI / 2) (ff_att f)) in *. assert (S : sqrt (1 ^ 2 - (12 / 100 * sin d) ^ 2) <= 1). { rewrite <- sqrt_1 at 2. apply sqrt_le_1_alt. pose proof (pow2_ge_0 (12 / 100 * sin d)). lra. }
  assert (C : cos d <= / 2); [|lra]. unfold d, dlt, ff_dt. rewrite G2. simpl (INR (4 - 1)).
  replace (INR j * (2 * PI / (1 + 1 + 1)) + ff_att f + PI / 2 - (3 * PI / 2 + ff_att f)) with (INR j * (2 * (PI / 3)) - PI) by field. rewrite cos_minus, cos_PI, sin_PI.
  assert (C3 : cos (2 * (PI / 3)) = - (1 / 2)) by (rewrite cos_2a, cos_PI3, sin_PI3; pose proof (sqrt_sqrt 3); lra).
  destruct j as [|[|[|[|j]]]]; [| | | |lia]; simpl INR.
  - rewrite Rmult_0_l, cos_0, sin_0. lra.
  - rewrite Rmult_1_l, C3. lra.
  - replace ((1 + 1) * (2 * (PI / 3))) with (2 * (2 * (PI / 3))) by ring. rewrite (cos_2a_cos (2 * (PI / 3))), C3. lra.
  - replace ((1 + 1 + 1) * (2 * (PI / 3))) with (2 * PI) by field. rewrite cos_2PI, sin_2PI. lra.
Qed.

(** Elliptical bore: the upper half is an arc of the stator circle centred preload * clearance below, the lower half one centred above. *)
Theorem C45_elliptical gama rs rr preload : 0 <= gama <= 2 * PI -> Rabs (preload * (rs - rr)) < rs ->
  exists r, (forall disp depth, external_radius gama rs rr "eliptical" preload disp depth = Ok r) /\ 0 < r /\
    (gama <= PI -> (r * cos gama) ^ 2 + (r * sin gama + preload * (rs - rr)) ^ 2 = rs ^ 2) /\
    (PI < gama -> (r * cos gama) ^ 2 + (r * sin gama - preload * (rs - rr)) ^ 2 = rs ^ 2).
Proof.
  intros Hg Hp. set (p := preload * (rs - rr)) in *.
  assert (A : cos (elip_alpha gama) = (if Rle_dec gama PI then - sin gama else sin gama) /\ sin (elip_alpha gama) ^ 2 = cos gama ^ 2).
  { unfold elip_alpha. pose proof PI_RGT_0. assert (P1 : forall x, cos (3 * PI / 2 - x) = - sin x /\ sin (3 * PI / 2 - x) = - cos x).
    { intros x. pose proof cos_3PI2 as C3. pose proof sin_3PI2 as S3. replace (3 * (PI / 2)) with (3 * PI / 2) in C3, S3 by field. rewrite cos_minus, sin_minus, C3, S3. split; ring. }
    assert (P2 : forall x, cos (5 * PI / 2 - x) = sin x /\ sin (5 * PI / 2 - x) = cos x).
    { intros x. replace (5 * PI / 2 - x) with (PI / 2 - x + 2 * INR 1 * PI) by (simpl; field). rewrite cos_period, sin_period, Rtrigo1.cos_shift, Rtrigo1.sin_shift. split; reflexivity. }
    destruct (Rle_dec 0 gama); [|lra]. destruct (Rle_dec gama (PI / 2)); [|destruct (Rle_dec gama PI); [|destruct (Rle_dec gama (3 * PI / 2))]].
    - destruct (Rle_dec gama PI); [|lra]. rewrite cos_plus, sin_plus, cos_PI2, sin_PI2. split; ring.
    - destruct (P1 gama) as [-> ->]. split; ring.
    - rewrite cos_minus, sin_minus, cos_PI2, sin_PI2. split; ring.
    - destruct (P2 gama) as [-> ->]. split; ring. }
  destruct A as [Ca Sa]. exists (p * cos (elip_alpha gama) + sqrt (rs ^ 2 - (p * sin (elip_alpha gama)) ^ 2)).
  assert (Sp : 0 <= rs) by (pose proof (Rabs_pos p); lra). pose proof (sin2_cos2 gama) as P. unfold Rsqr in P. pose proof (SIN_bound gama) as Bs. pose proof (COS_bound gama) as Bc.
  assert (p2 : p ^ 2 < rs ^ 2) by (rewrite <- (pow2_abs p); pose proof (Rabs_pos p); nra).
  assert (q0 : (p * sin gama) ^ 2 < rs ^ 2 - (p * cos gama) ^ 2). { assert ((p * sin gama) ^ 2 + (p * cos gama) ^ 2 = p ^ 2); [|lra]. transitivity (p ^ 2 * (sin gama * sin gama + cos gama * cos gama)); [ring|]. rewrite P. ring. }
  replace ((p * sin (elip_alpha gama)) ^ 2) with ((p * cos gama) ^ 2) by (rewrite !Rpow_mult_distr, Sa; reflexivity). assert (qn : 0 <= rs ^ 2 - (p * cos gama) ^ 2) by (pose proof (pow2_ge_0 (p * sin gama)); lra).
  pose proof (sqrt_sqrt _ qn) as W2. pose proof (sqrt_pos (rs ^ 2 - (p * cos gama) ^ 2)) as W0. set (w := sqrt (rs ^ 2 - (p * cos gama) ^ 2)) in *.
  assert (Wa : Rabs (p * sin gama) < w). { apply Rnot_le_lt. intros X. assert (w ^ 2 <= Rabs (p * sin gama) ^ 2) by (apply pow_incr; split; assumption). rewrite pow2_abs in H. nra. } apply Rabs_def2 in Wa.
  split; [intros; unfold external_radius; cbn [String.eqb Ascii.eqb Bool.eqb]; fold p; unfold w; do 2 f_equal; f_equal; rewrite !Rpow_mult_distr, Sa; reflexivity|].
  rewrite Ca. split; [destruct (Rle_dec gama PI); lra|]. split; intros X; (destruct (Rle_dec gama PI); [|]; try lra).
  - transitivity ((p * - sin gama + w) ^ 2 * (sin gama * sin gama + cos gama * cos gama) + 2 * p * (p * - sin gama + w) * sin gama + p ^ 2); [ring|]. rewrite P. transitivity (w * w - (p * sin gama) ^ 2 + p ^ 2); [ring|]. rewrite W2. transitivity (rs ^ 2 + p ^ 2 * (1 - (sin gama * sin gama + cos gama * cos gama))); [ring|]. rewrite P. ring.
  - transitivity ((p * sin gama + w) ^ 2 * (sin gama * sin gama + cos gama * cos gama) - 2 * p * (p * sin gama + w) * sin gama + p ^ 2); [ring|]. rewrite P. transitivity (w * w - (p * sin gama) ^ 2 + p ^ 2); [ring|]. rewrite W2. transitivity (rs ^ 2 + p ^ 2 * (1 - (sin gama * sin gama + cos gama * cos gama))); [ring|]. rewrite P. ring.
Qed.
(** Worn bore: the added depth is max (0, depth - clearance (1 + cos (gama - pi/2 - displacement))) as long as the start of the worn arc falls within one turn. *)
Lemma cos_in a x : 0 <= a <= PI -> - a <= x <= a -> cos a <= cos x.
Proof.
  intros Ha Hx. assert (H : 0 <= x -> cos a <= cos x) by (intros; apply cos_decr_1; lra). destruct (Rle_lt_dec 0 x); [auto|]. rewrite <- (cos_neg x). apply cos_decr_1; lra.
Qed.
Lemma cos_out a x : 0 <= a <= PI -> a <= x <= 2 * PI - a -> cos x <= cos a.
Proof.
  intros Ha Hx. destruct (Rle_lt_dec x PI); [apply cos_decr_1; lra|]. replace (cos x) with (cos (2 * PI - x)); [apply cos_decr_1; lra|]. rewrite cos_minus, cos_2PI, sin_2PI. ring.
Qed.
Lemma cos_2pi x : cos (x + 2 * PI) = cos x.
Proof. rewrite cos_plus, cos_2PI, sin_2PI. ring. Qed.
Theorem C45_wear gama cr depth disp : 0 < cr -> 0 <= depth <= 2 * cr -> 0 <= gama <= 2 * PI -> 0 <= PI / 2 + acos (depth / cr - 1) + disp <= 2 * PI ->
  wear_depth gama cr depth disp = Rmax 0 (depth - cr * (1 + cos (gama - PI / 2 - disp))).
Proof.
  intros Hc Hd Hg Hs. set (k := depth / cr - 1) in *. assert (Hk : -1 <= k <= 1). { unfold k. assert (0 <= depth / cr <= 2); [|lra]. split; [apply Rmult_le_pos; [lra|left; apply Rinv_0_lt_compat; lra]|]. apply Rmult_le_reg_r with cr; [lra|]. unfold Rdiv. rewrite Rmult_assoc, Rinv_l; lra. }
  pose proof (acos_bound k) as Ha. pose proof (cos_acos k Hk) as Ck. unfold wear_depth. fold k. set (a := acos k) in *.
  assert (D : forall x, depth - cr * (1 + cos x) = cr * (cos a - cos x)) by (intros x; rewrite Ck; unfold k; field; lra). rewrite !D. set (x := gama - PI / 2 - disp).
  assert (Pos : cos x <= cos a -> cr * (cos a - cos x) = Rmax 0 (cr * (cos a - cos x))) by (intros; rewrite Rmax_right; [reflexivity|apply Rmult_le_pos; lra]).
  assert (Neg : cos a <= cos x -> 0 = Rmax 0 (cr * (cos a - cos x))) by (intros; rewrite Rmax_left; [reflexivity|nra]).
  destruct (Rle_dec (2 * PI + (PI / 2 - a + disp)) (2 * PI)) as [F|F].
  - destruct (Rle_dec (PI / 2 + a + disp) gama) as [G|G]; [destruct (Rle_dec gama (2 * PI + (PI / 2 - a + disp))) as [K|K]|].
    + apply Pos. apply cos_out; unfold x; lra.
    + apply Neg. rewrite <- (cos_2pi (x - 2 * PI)) || idtac. replace x with (x - 2 * PI + 2 * PI) by ring. rewrite cos_2pi. apply cos_in; unfold x; lra.
    + apply Neg. apply cos_in; unfold x; lra.
  - assert (Wr : gama < PI / 2 + a + disp -> (if Rle_dec 0 gama then if Rle_dec gama (PI / 2 - a + disp) then cr * (cos a - cos (gama + 2 * PI - PI / 2 - disp)) else 0 else 0) = Rmax 0 (cr * (cos a - cos x))).
    { intros G. destruct (Rle_dec 0 gama); [|lra]. destruct (Rle_dec gama (PI / 2 - a + disp)) as [K|K].
      - replace (gama + 2 * PI - PI / 2 - disp) with (x + 2 * PI) by (unfold x; ring). rewrite cos_2pi. apply Pos. rewrite <- cos_2pi. apply cos_out; unfold x; lra.
      - apply Neg. apply cos_in; unfold x; lra. }
    destruct (Rle_dec (PI / 2 + a + disp) gama) as [G|G]; [|apply Wr; lra]. destruct (Rle_dec gama (2 * PI)); [|lra]. apply Pos. apply cos_out; unfold x; lra.
Qed.
Example C45_wear_instance : 0 <= PI / 2 + acos (1 / 2 / 1 - 1) + 0 <= 2 * PI.
Proof. pose proof (acos_bound (1 / 2 / 1 - 1)). lra. Qed.
(** Refuted for a wear displaced by half a turn and shallower than the clearance: the bore is moved inwards (a negative depth) where nothing is worn. *)
Theorem C45_wear_refuted cr depth : 0 < depth < cr -> wear_depth 0 cr depth PI = depth - cr /\ wear_depth 0 cr depth PI < 0 /\ Rmax 0 (depth - cr * (1 + cos (0 - PI / 2 - PI))) = 0.
Proof.
  intros H. set (k := depth / cr - 1). assert (Hk : -1 < k < 0). { unfold k. assert (0 < depth / cr < 1); [|lra]. split; [apply Rdiv_lt_0_compat; lra|]. apply Rmult_lt_reg_r with cr; [lra|]. unfold Rdiv. rewrite Rmult_assoc, Rinv_l; lra. }
  pose proof (acos_bound k) as Ha. assert (Hk' : -1 <= k <= 1) by lra. pose proof (cos_acos k Hk') as Ck. pose proof PI_RGT_0.
  assert (A : PI / 2 < acos k). { apply Rnot_le_lt. intros X. assert (0 <= cos (acos k)) by (apply cos_ge_0; lra). lra. }
  assert (C0 : cos (- (3 * (PI / 2))) = 0) by (rewrite cos_neg; apply cos_3PI2).
  assert (E : wear_depth 0 cr depth PI = depth - cr).
  { unfold wear_depth. fold k. destruct (Rle_dec (2 * PI + (PI / 2 - acos k + PI)) (2 * PI)); [lra|]. destruct (Rle_dec (PI / 2 + acos k + PI) 0); [lra|]. destruct (Rle_dec 0 0); [|lra]. destruct (Rle_dec 0 (PI / 2 - acos k + PI)); [|lra].
    replace (0 + 2 * PI - PI / 2 - PI) with (PI / 2) by field. rewrite cos_PI2. ring. }
  split; [exact E|]. split; [rewrite E; lra|]. replace (0 - PI / 2 - PI) with (- (3 * (PI / 2))) by field. rewrite C0. rewrite Rmax_left; lra.
Qed.

(** Analytical short bearing pressures: both methods agree, are non-negative, vanish at both ends and, for a shaft turning forwards, on the diverging half. *)
Theorem C45_pressure f g0 g1 force : ff_type f = "short_bearing" \/ force = Some "short" -> 0 <= ff_ratio f < 1 -> ff_clear f <> 0 -> (2 <= ff_nz f)%nat ->
  pressure_analytical f 0 force = Ok g0 -> pressure_analytical f 1 force = Ok g1 ->
  (forall i j, ff_pana g0 i j = ff_pana g1 i j /\ 0 <= ff_pana g0 i j) /\
  (forall j, ff_pana g0 0%nat j = 0 /\ ff_pana g0 (ff_nz f - 1)%nat j = 0) /\
  (0 <= ff_mu f * ff_omega f -> forall i j, 0 <= ff_length f -> (i < ff_nz f)%nat -> PI <= INR j * ff_dt f <= 2 * PI -> ff_pana g0 i j = 0).
Proof.
  intros Hty He Hc Hn. unfold pressure_analytical. cbv zeta.
  assert (B : String.eqb (ff_type f) "short_bearing" || match force with Some x => String.eqb x "short" | None => false end = true) by (destruct Hty as [->| ->]; [reflexivity|apply orb_true_r]). rewrite B.
  intros E0 E1. injection E0 as <-. injection E1 as <-. cbn [set_press ff_pana].
  assert (K : forall j, 0 < 1 + ff_ratio f * cos (INR j * ff_dt f)) by (intros j; pose proof (COS_bound (INR j * ff_dt f)); nra).
  assert (Pn : 0 < INR (ff_nz f - 1)) by (apply lt_0_INR; lia).
  assert (Zc : forall x, x = 0 -> clip x = 0) by (intros x ->; rewrite clip_max; apply Rmax_left; lra).
  split; [|split].
  - intros i j. split; [f_equal; unfold p_short0, p_short1; specialize (K j); field; split; [lra|exact Hc]|]. rewrite clip_max. apply Rmax_l.
  - intros j. specialize (K j). split; apply Zc; unfold p_short0.
    + simpl (INR 0). field. repeat split; first [exact Hc|lra].
    + unfold ff_dz. field. repeat split; first [exact Hc|lra].
  - intros Hmo i j HL Hi Hj. rewrite clip_max. apply Rmax_left. specialize (K j). unfold p_short0. set (th := INR j * ff_dt f) in *. set (z := INR i * ff_dz f).
    assert (Z : 0 <= z <= ff_length f). { unfold z, ff_dz. assert (Q : INR i <= INR (ff_nz f - 1)) by (apply le_INR; lia). pose proof (pos_INR i). split.
      - apply Rmult_le_pos; [lra|]. apply Rmult_le_pos; [lra|]. left. apply Rinv_0_lt_compat. exact Pn.
      - apply Rmult_le_reg_r with (INR (ff_nz f - 1)); [lra|]. replace (INR i * (ff_length f / INR (ff_nz f - 1)) * INR (ff_nz f - 1)) with (INR i * ff_length f) by (field; lra). nra. }
    assert (S : sin th <= 0) by (apply sin_le_0; lra).
    assert (C2 : 0 < ff_clear f ^ 2) by (pose proof (pow2_ge_0 (ff_clear f)); assert (ff_clear f ^ 2 <> 0) by (apply pow_nonzero; exact Hc); lra). assert (K3 : 0 < (1 + ff_ratio f * cos th) ^ 3) by (apply pow_lt; exact K).
    replace (-3 * ff_mu f * ff_omega f / ff_clear f ^ 2 * ((z - ff_length f / 2) ^ 2 - ff_length f ^ 2 / 4) * (ff_ratio f * sin th) / (1 + ff_ratio f * cos th) ^ 3)
      with (- (3 * (ff_mu f * ff_omega f) * (z * (ff_length f - z)) * (ff_ratio f * - sin th) * / (ff_clear f ^ 2 * (1 + ff_ratio f * cos th) ^ 3))) by (field; repeat split; first [exact Hc|lra]).
    assert (0 <= 3 * (ff_mu f * ff_omega f) * (z * (ff_length f - z)) * (ff_ratio f * - sin th) * / (ff_clear f ^ 2 * (1 + ff_ratio f * cos th) ^ 3)); [|lra].
    apply Rmult_le_pos; [|left; apply Rinv_0_lt_compat, Rmult_lt_0_compat; assumption]. apply Rmult_le_pos; [|apply Rmult_le_pos; lra]. apply Rmult_le_pos; [lra|]. apply Rmult_le_pos; lra.
Qed.

(** Moving the rotor centre: eccentricity, ratio and attitude describe the new centre when it is on the right and below the stator centre, and a move there and back restores it. *)
Theorem C45_move f x y : 0 <= x -> y <= 0 -> (x <> 0 \/ y <> 0) -> let g := move_abs f x y in
  ff_xi g = x /\ ff_yi g = y /\ 0 < ff_ecc g /\ ff_ecc g ^ 2 = x ^ 2 + y ^ 2 /\ ff_ratio g = ff_ecc g / ff_clear f /\ centre_x (ff_ecc g) (ff_att g) = x /\ centre_y (ff_ecc g) (ff_att g) = y.
Proof.
  intros Hx Hy Hn. unfold move_abs. cbn [set_pos ff_xi ff_yi ff_ecc ff_ratio ff_att ff_clear]. set (e := sqrt (x ^ 2 + y ^ 2)).
  assert (P : 0 < x ^ 2 + y ^ 2). { destruct Hn as [N|N]; [assert (0 < x ^ 2) by nra|assert (0 < y ^ 2) by nra]; pose proof (pow2_ge_0 x); pose proof (pow2_ge_0 y); lra. }
  assert (He : 0 < e) by (apply sqrt_lt_R0; exact P). assert (E2 : e * e = x ^ 2 + y ^ 2) by (apply sqrt_sqrt; lra).
  assert (A : Rabs (y / e) = - y / e). { rewrite Rabs_left1; [field; lra|]. assert (0 <= - y / e) by (apply Rmult_le_pos; [lra|left; apply Rinv_0_lt_compat; lra]). unfold Rdiv in *. lra. }
  assert (B : 0 <= - y / e <= 1). { split; [apply Rmult_le_pos; [lra|left; apply Rinv_0_lt_compat; lra]|]. apply Rmult_le_reg_r with e; [lra|]. unfold Rdiv. rewrite Rmult_assoc, Rinv_l by lra. nra. }
  rewrite A. repeat split; try reflexivity; try exact He; [rewrite <- E2; ring| |].
  - unfold centre_x. rewrite sin_acos by lra. unfold Rsqr. replace (1 - - y / e * (- y / e)) with ((x / e) * (x / e)).
    + rewrite sqrt_square by (apply Rmult_le_pos; [lra|left; apply Rinv_0_lt_compat; lra]). field. lra.
    + apply Rmult_eq_reg_r with (e * e); [|nra]. transitivity (x ^ 2); [field; lra|]. transitivity (e * e - y ^ 2); [lra|field; lra].
  - unfold centre_y. rewrite cos_acos by lra. field. lra.
Qed.
Theorem C45_move_back f dx dy : ff_xi (move_center (move_center f dx dy) (- dx) (- dy)) = ff_xi f /\ ff_yi (move_center (move_center f dx dy) (- dx) (- dy)) = ff_yi f /\
  (0 <= ff_xi f -> ff_yi f <= 0 -> (ff_xi f <> 0 \/ ff_yi f <> 0) -> 0 <= ff_ecc f -> ff_ratio f = ff_ecc f / ff_clear f -> 0 <= ff_att f <= PI / 2 -> ff_xi f = centre_x (ff_ecc f) (ff_att f) -> ff_yi f = centre_y (ff_ecc f) (ff_att f) ->
     move_center (move_center f dx dy) (- dx) (- dy) = f).
Proof.
  unfold move_center, move_abs, set_pos. cbn [ff_xi ff_yi]. replace (ff_xi f + dx + - dx) with (ff_xi f) by ring. replace (ff_yi f + dy + - dy) with (ff_yi f) by ring. split; [reflexivity|]. split; [reflexivity|].
  intros Hx Hy Hn He Hr Ha Ex Ey. unfold ff_clear. cbn [ff_nz ff_nt ff_length ff_omega ff_pin ff_pout ff_rr ff_rs ff_mu ff_type ff_shape ff_preload ff_disp ff_depth ff_omegap ff_load ff_t ff_xp ff_yp ff_gama ff_re ff_ri ff_pana ff_pnum]. fold (ff_clear f).
  assert (E : sqrt (ff_xi f ^ 2 + ff_yi f ^ 2) = ff_ecc f). { rewrite <- (sqrt_pow2 (ff_ecc f) He). f_equal. rewrite Ex, Ey. unfold centre_x, centre_y. pose proof (sin2_cos2 (ff_att f)) as P. unfold Rsqr in P. transitivity (ff_ecc f ^ 2 * (sin (ff_att f) * sin (ff_att f) + cos (ff_att f) * cos (ff_att f))); [ring|]. rewrite P. ring. }
  assert (Hep : 0 < ff_ecc f). { destruct (Rle_lt_or_eq_dec _ _ He) as [|Z]; [assumption|]. exfalso. unfold centre_x in Ex. unfold centre_y in Ey. rewrite <- Z in Ex, Ey. destruct Hn; lra. }
  rewrite E. assert (At : acos (Rabs (ff_yi f / ff_ecc f)) = ff_att f).
  { rewrite Ey. unfold centre_y. replace (- ff_ecc f * cos (ff_att f) / ff_ecc f) with (- cos (ff_att f)) by (field; lra). rewrite Rabs_Ropp, Rabs_pos_eq by (apply cos_ge_0; lra). apply acos_cos. pose proof PI_RGT_0. lra. }
  rewrite At, <- Hr. destruct f; reflexivity.
Qed.
Example C45_move_instance : 0 <= ff_xi ex_f /\ ff_yi ex_f <= 0 /\ (ff_xi ex_f <> 0 \/ ff_yi ex_f <> 0) /\ 0 <= ff_ecc ex_f /\ ff_ratio ex_f = ff_ecc ex_f / ff_clear ex_f /\ 0 <= ff_att ex_f <= PI / 2.
Proof.
  assert (S : 0 < sin (PI / 4)) by (rewrite sin_PI4; apply Rdiv_lt_0_compat; [lra|apply sqrt_lt_R0; lra]). assert (C : 0 < cos (PI / 4)) by (rewrite cos_PI4; apply Rdiv_lt_0_compat; [lra|apply sqrt_lt_R0; lra]).
  destruct (centre_dir (1 / 200) (PI / 4)) as [X Y]. assert (Ex : ff_xi ex_f = 1 / 200 * sin (PI / 4)) by exact (eq_sym X). assert (Ey : ff_yi ex_f = - (1 / 200) * cos (PI / 4)) by exact (eq_sym Y). rewrite Ex, Ey. pose proof PI_RGT_0.
  unfold ff_clear. cbn [ex_f ex_ff ff_base ff_ecc ff_ratio ff_att ff_rs ff_rr fa_rs fa_rr]. repeat split; try lra.
Qed.
(** Refuted on the left half: the attitude angle loses the side, and the film geometry is built for the mirrored position. *)
Theorem C45_move_refuted f x y : x < 0 -> y <= 0 -> centre_x (ff_ecc (move_abs f x y)) (ff_att (move_abs f x y)) = - x.
Proof.
  intros Hx Hy. destruct (C45_move f (- x) y) as (_ & _ & _ & _ & _ & E & _); [lra|exact Hy|left; lra|]. unfold move_abs in *. cbn [set_pos ff_ecc ff_att] in *. replace ((- x) ^ 2) with (x ^ 2) in E by ring. exact E.
Qed.

Print Assumptions C45_rotor_surface. Print Assumptions C45_film_thickness. Print Assumptions C45_rotor_inside. Print Assumptions C45_rotor_outside_refuted. Print Assumptions C45_elliptical.
Print Assumptions C45_wear. Print Assumptions C45_wear_refuted. Print Assumptions C45_pressure. Print Assumptions C45_move. Print Assumptions C45_move_back. Print Assumptions C45_move_refuted.
