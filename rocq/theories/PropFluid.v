(** Properties of the journal bearing code: C44 (load, Sommerfeld number, eccentricity), C67 (analytical pressures and forces), C68 (linearised coefficients), C57 (CylindricalBearing). *)
From Coq Require Import Reals String List Arith Bool Lia Lra.
From Coquelicot Require Import Coquelicot.
From Verif Require Import PyBase MatBase MDynamics LDynEx MFluid MCyl SpecFluid LFluid LFluid2 LFluid3 LFluid4 LFluid5 LFluid6.
Import ListNotations.
Open Scope string_scope. Open Scope R_scope.

(** ** C44 *)
(** What the numeric library must deliver for the quartic of s: all its roots, and that refining an exact root returns it. *)
Definition quartic_ok (fl : fluidlib) (s : R) : Prop := are_roots (ecc_coeffs s) (fl_roots fl (ecc_coeffs s)) /\ refine_ok (fl_refine fl).

(** The eccentricity ratio computed from a load is the only one at which the film (Reynolds' equation, half film, journal of the stator radius) carries this load, vertically;
    the attitude angle is the only direction between -pi and pi. *)
Theorem C44_equilibrium fl rs omega mu L W c : 0 < rs -> 0 < omega -> 0 < mu -> 0 < L -> 0 < W -> 0 < c -> quartic_ok fl (modified_sommerfeld rs omega mu L W c) ->
  exists eps, eccentricity_ratio fl (modified_sommerfeld rs omega mu L W c) = Ok eps /\ 0 < eps < 1 /\ 0 < attitude_angle eps < PI / 2 /\
    short_film_force mu omega c L rs (eps * c) (attitude_angle eps) 0 0 0 W /\
    forall e phi, 0 < e < c -> - PI < phi <= PI -> short_film_force mu omega c L rs e phi 0 0 0 W -> e = eps * c /\ phi = attitude_angle eps.
Proof.
  intros Hr Ho Hm HL HW Hc [Hq Hf]. rewrite sommerfeld_amp in * by lra. pose proof (amp_pos mu omega c L rs Hm Ho Hc HL Hr) as HA.
  assert (Hs : amp mu omega c L rs / (2 * W) <> 0) by (apply Rgt_not_eq, Rdiv_lt_0_compat; lra).
  destruct (ecc_ratio_val fl _ Hs Hq Hf) as (eps & Ee & Hi & Hp). exists eps. split; [exact Ee|]. split; [exact Hi|]. split; [apply attitude_range, Hi|]. split; [apply load_equilibrium; assumption|].
  intros e phi He Hphi F. destruct (load_unique mu omega c L rs W e phi Hm Ho Hc HL Hr HW He F) as (Hp' & Es & Ec). pose proof (eps_in c e Hc He) as Hi'.
  assert (X : (e / c) ^ 2 = eps ^ 2) by (apply (ecc_unique _ _ _ Hs); try assumption; split; nra).
  assert (Y : e / c = eps) by nra. split; [rewrite <- Y; field; lra|]. rewrite Y in Es, Ec. apply angle_eq; try assumption. apply attitude_range, Hi.
Qed.
(** The load computed from an eccentricity is the one the film carries there. *)
Theorem C44_load rs omega mu L c eps : 0 < rs -> 0 < omega -> 0 < mu -> 0 < L -> 0 < c -> 0 < eps < 1 ->
  0 < rotor_load rs omega mu L c eps /\ short_film_force mu omega c L rs (eps * c) (attitude_angle eps) 0 0 0 (rotor_load rs omega mu L c eps).
Proof.
  intros Hr Ho Hm HL Hc Hi. pose proof (amp_pos mu omega c L rs Hm Ho Hc HL Hr) as HA. destruct (s_facts eps Hi) as (Hs & Hq & _). destruct (DD_facts eps Hi) as (_ & HD & _).
  rewrite rotor_load_val by lra. assert (P : 0 < amp mu omega c L rs * eps * DD eps / (2 * (1 - eps ^ 2) ^ 2)).
  { apply Rdiv_lt_0_compat; [apply Rmult_lt_0_compat; [apply Rmult_lt_0_compat|]; lra|apply Rmult_lt_0_compat; [lra|apply pow_lt; lra]]. }
  split; [exact P|]. apply load_equilibrium; try assumption. apply balance_poly; [exact Hi|exact HA|exact P|reflexivity].
Qed.
(** Both conversions are inverse to each other. *)
Theorem C44_round_trips fl rs omega mu L c : 0 < rs -> 0 < omega -> 0 < mu -> 0 < L -> 0 < c ->
  (forall W, 0 < W -> quartic_ok fl (modified_sommerfeld rs omega mu L W c) ->
     exists eps, eccentricity_ratio fl (modified_sommerfeld rs omega mu L W c) = Ok eps /\ rotor_load rs omega mu L c eps = W) /\
  (forall eps, 0 < eps < 1 -> quartic_ok fl (modified_sommerfeld rs omega mu L (rotor_load rs omega mu L c eps) c) ->
     eccentricity_ratio fl (modified_sommerfeld rs omega mu L (rotor_load rs omega mu L c eps) c) = Ok eps).
Proof.
  intros Hr Ho Hm HL Hc. pose proof (amp_pos mu omega c L rs Hm Ho Hc HL Hr) as HA. split.
  - intros W HW Hq. destruct (C44_equilibrium fl rs omega mu L W c Hr Ho Hm HL HW Hc Hq) as (eps & E & Hi & _ & F & _). exists eps. split; [exact E|].
    destruct (load_unique mu omega c L rs W (eps * c) (attitude_angle eps) Hm Ho Hc HL Hr HW) as (P & _ & _); [nra|exact F|]. replace (eps * c / c) with eps in P by (field; lra).
    rewrite rotor_load_val by lra. symmetry. apply (balance_poly _ _ _ Hi HA HW). exact P.
  - intros eps Hi Hq. destruct (C44_load rs omega mu L c eps Hr Ho Hm HL Hc Hi) as [HW F].
    destruct (C44_equilibrium fl rs omega mu L _ c Hr Ho Hm HL HW Hc Hq) as (eps' & E & Hi' & _ & _ & U). rewrite E. f_equal. pose proof (attitude_range eps Hi). pose proof PI_RGT_0.
    destruct (U (eps * c) (attitude_angle eps)) as [X _]; [nra|lra|exact F|]. nra.
Qed.
(** The contract can be met for every Sommerfeld number but zero, and a heavier load means a larger eccentricity. *)
Theorem C44_roots_exist s : s <> 0 -> exists fl, quartic_ok fl s.
Proof. intros Hs. exists (mkFluidLib (fun _ => ecc_roots s Hs) (fun _ x => x) (fun _ => (0, 0)) (fun _ _ => 0) la0). split; [apply ecc_roots_ok|]. intros f x _. reflexivity. Qed.
Theorem C44_load_monotone rs omega mu L c e1 e2 : 0 < rs -> 0 < omega -> 0 < mu -> 0 < L -> 0 < c -> 0 < e1 -> e1 < e2 -> e2 < 1 -> rotor_load rs omega mu L c e1 < rotor_load rs omega mu L c e2.
Proof.
  intros Hr Ho Hm HL Hc H1 H12 H2. pose proof (amp_pos mu omega c L rs Hm Ho Hc HL Hr) as HA. rewrite !rotor_load_val by lra. set (A := amp mu omega c L rs) in *.
  assert (Hi1 : 0 < e1 < 1) by lra. assert (Hi2 : 0 < e2 < 1) by lra. set (q1 := 1 - e1 ^ 2). set (q2 := 1 - e2 ^ 2). assert (Q2 : 0 < q2) by (unfold q2; nra). assert (Q1 : q2 < q1) by (unfold q1, q2; nra).
  assert (D : DD e1 <= DD e2). { apply sqrt_le_1_alt. unfold QQ. pose proof PI2_bounds. assert (e1 ^ 2 <= e2 ^ 2) by nra. assert ((16 - PI ^ 2) * e1 ^ 2 <= (16 - PI ^ 2) * e2 ^ 2) by (apply Rmult_le_compat_l; lra). lra. }
  destruct (DD_facts e1 Hi1) as (_ & HD1 & _). assert (N : A * e1 * DD e1 < A * e2 * DD e2). { apply Rlt_le_trans with (A * e2 * DD e1); [apply Rmult_lt_compat_r; [exact HD1|]; apply Rmult_lt_compat_l; lra|apply Rmult_le_compat_l; [nra|exact D]]. }
  assert (I : / (2 * q1 ^ 2) <= / (2 * q2 ^ 2)) by (apply Rinv_le_contravar; nra). unfold Rdiv.
  apply Rlt_le_trans with (A * e2 * DD e2 * / (2 * q1 ^ 2)); [apply Rmult_lt_compat_r; [apply Rinv_0_lt_compat; nra|exact N]|apply Rmult_le_compat_l; [|exact I]].
  destruct (DD_facts e2 Hi2) as (_ & HD2 & _). left. apply Rmult_lt_0_compat; [apply Rmult_lt_0_compat|]; lra.
Qed.
(** A shaft at rest (or a fluid without viscosity) is reported at full eccentricity. *)
Theorem C44_rest fl : quartic_ok fl 0 -> eccentricity_ratio fl 0 = Ok 1.
Proof. intros [H1 H2]. apply ecc_ratio_zero; assumption. Qed.
Example C44_rest_instance : exists fl, quartic_ok fl 0.
Proof.
  exists (mkFluidLib (fun _ => [RtoC 1; RtoC 1; RtoC 1; RtoC 1]) (fun _ x => x) (fun _ => (0, 0)) (fun _ _ => 0) la0). split; [|intros f x _; reflexivity].
  split; [reflexivity|]. intros [u v]. cbn [fl_roots]. apply injective_projections; unfold cpoly, cprod, ecc_coeffs; cbn [fold_left fold_right Cmult Cminus Cplus Copp RtoC fst snd]; ring.
Qed.
(** Refuted for a shaft that turns backwards: the eccentricity found for a load W gives back the load -W. *)
Theorem C44_backward_refuted fl rs omega mu L W c : 0 < rs -> omega < 0 -> 0 < mu -> 0 < L -> 0 < W -> 0 < c -> quartic_ok fl (modified_sommerfeld rs omega mu L W c) ->
  exists eps, eccentricity_ratio fl (modified_sommerfeld rs omega mu L W c) = Ok eps /\ 0 < eps < 1 /\ rotor_load rs omega mu L c eps = - W.
Proof.
  intros Hr Ho Hm HL HW Hc [Hq Hf]. assert (HA : 0 < amp mu (- omega) c L rs) by (apply amp_pos; lra). assert (Ea : amp mu omega c L rs = - amp mu (- omega) c L rs) by (unfold amp; field; lra).
  rewrite sommerfeld_amp in * by lra. assert (Hs : amp mu omega c L rs / (2 * W) <> 0). { rewrite Ea. assert (0 < amp mu (- omega) c L rs / (2 * W)) by (apply Rdiv_lt_0_compat; lra). unfold Rdiv in *. lra. }
  destruct (ecc_ratio_val fl _ Hs Hq Hf) as (eps & Ee & Hi & Hp). exists eps. split; [exact Ee|]. split; [exact Hi|]. rewrite rotor_load_val by lra.
  assert (X : W = amp mu (- omega) c L rs * eps * DD eps / (2 * (1 - eps ^ 2) ^ 2)).
  { apply (balance_poly _ _ _ Hi HA HW). rewrite ecc_poly_val in *. rewrite Ea in Hp. replace ((- amp mu (- omega) c L rs / (2 * W)) ^ 2) with ((amp mu (- omega) c L rs / (2 * W)) ^ 2) in Hp by (field; lra). exact Hp. }
  rewrite Ea. rewrite X. destruct (s_facts eps Hi) as (_ & Q & _). field. nra.
Qed.

(** FluidFlow built from a load: position, and the force its own force function reports. *)
Theorem C44_object fl a W f : fa_ecc a = None -> fa_load a = Some W -> fa_att a = None -> fa_now a = false -> bearing_type a = "short_bearing" -> fa_shape a = "cylindrical" ->
  0 < fa_rr a < fa_rs a -> 0 < fa_omega a -> 0 < fa_mu a -> 0 < fa_length a -> 0 < W ->
  quartic_ok fl (modified_sommerfeld (fa_rs a) (fa_omega a) (fa_mu a) (fa_length a) W (fa_rs a - fa_rr a)) ->
  ff_init fl a = Ok f ->
  let c := fa_rs a - fa_rr a in
  ff_load f = Some W /\ ff_ecc f = ff_ratio f * c /\ 0 < ff_ecc f < c /\ ff_xi f = centre_x (ff_ecc f) (ff_att f) /\ ff_yi f = centre_y (ff_ecc f) (ff_att f) /\
  short_film_force (fa_mu a) (fa_omega a) c (fa_length a) (fa_rs a) (ff_ecc f) (ff_att f) 0 0 0 W /\
  exists fr ft, oil_film_force fl f None = (fr, ft, 0, fa_rr a / fa_rs a * W).
Proof.
  intros H1 H2 H3 H4 H5 H6 Hr Ho Hm HL HW Hq. unfold ff_init. rewrite H5, H6, H1, H2, H3, H4. cbn [String.eqb Ascii.eqb Bool.eqb andb].
  destruct (C44_equilibrium fl (fa_rs a) (fa_omega a) (fa_mu a) (fa_length a) W (fa_rs a - fa_rr a)) as (eps & E & Hi & _ & F & _); try lra; [exact Hq|].
  rewrite E. cbn [bind default]. unfold geometry_description. cbn [ff_base ff_rs ff_rr ff_shape ff_preload ff_disp ff_depth]. unfold external_radius. rewrite H6. cbn [String.eqb Ascii.eqb Bool.eqb bind].
  intros Hf. injection Hf as <-. cbv zeta. unfold ff_base, set_grid. cbn [ff_load ff_ecc ff_ratio ff_xi ff_yi ff_att].
  assert (T : 3 * PI / 2 = 3 * (PI / 2)) by field. pose proof cos_3PI2 as C3. pose proof sin_3PI2 as S3. replace (3 * (PI / 2)) with (3 * PI / 2) in C3, S3 by field.
  split; [reflexivity|]. split; [reflexivity|]. split; [nra|]. split; [unfold centre_x; rewrite cos_plus, C3, S3; ring|]. split; [unfold centre_y; rewrite sin_plus, C3, S3; ring|]. split; [exact F|].
  unfold oil_film_force. cbn [ff_type]. rewrite H5. cbn [String.eqb Ascii.eqb Bool.eqb negb andb orb].
  rewrite film_short_val; cbn [ff_ratio ff_rr ff_mu ff_omega ff_length ff_att]; try exact Hi; unfold ff_clear; cbn [ff_rs ff_rr]; try lra.
  destruct (attitude_equil eps (amp (fa_mu a) (fa_omega a) (fa_rs a - fa_rr a) (fa_length a) (fa_rr a)) Hi) as [E1 E2]. unfold force_xy. rewrite E1, E2. do 2 eexists. f_equal.
  assert (HA : 0 < amp (fa_mu a) (fa_omega a) (fa_rs a - fa_rr a) (fa_length a) (fa_rs a)) by (apply amp_pos; lra).
  destruct (load_unique (fa_mu a) (fa_omega a) (fa_rs a - fa_rr a) (fa_length a) (fa_rs a) W (eps * (fa_rs a - fa_rr a)) (attitude_angle eps)) as (P & _ & _); try lra; [nra|exact F|].
  replace (eps * (fa_rs a - fa_rr a) / (fa_rs a - fa_rr a)) with eps in P by (field; lra). apply (balance_poly _ _ _ Hi HA HW) in P. rewrite P. unfold amp. destruct (s_facts eps Hi) as (_ & Q & _). field. repeat split; try lra; nra.
Qed.
Definition ex_ff : ffargs := mkFfArgs 8 8 (1/100) 100 0 0 (9/100) (1/10) (1/10) None None (Some 500) None false None "cylindrical" (2/5) 0 None.
Example C44_object_instance : exists fl f, quartic_ok fl (modified_sommerfeld (1/10) 100 (1/10) (1/100) 500 (1/100)) /\ bearing_type ex_ff = "short_bearing" /\ ff_init fl ex_ff = Ok f /\ ff_load f = Some 500.
Proof.
  set (s := modified_sommerfeld (1/10) 100 (1/10) (1/100) 500 (1/100)). assert (Hs : s <> 0) by (unfold s, modified_sommerfeld; lra).
  set (fl := mkFluidLib (fun _ => ecc_roots s Hs) (fun _ x => x) (fun _ => (0, 0)) (fun _ _ => 0) la0). assert (Hq : quartic_ok fl s) by (split; [apply ecc_roots_ok|intros g x _; reflexivity]).
  assert (B : bearing_type ex_ff = "short_bearing") by (unfold bearing_type, ex_ff; cbn [fa_type fa_length fa_rs]; destruct (Rle_dec _ _) as [|N]; [reflexivity|exfalso; apply N; lra]).
  exists fl. unfold ff_init. rewrite B. cbn [ex_ff fa_rs fa_rr fa_shape fa_ecc fa_load fa_att fa_now fa_omega fa_mu fa_length String.eqb Ascii.eqb Bool.eqb andb].
  replace (1 / 10 - 9 / 100) with (1 / 100) by lra. fold s. destruct (ecc_ratio_val fl s Hs (proj1 Hq) (proj2 Hq)) as (eps & E & _). rewrite E. cbn [bind default].
  unfold geometry_description. cbn [ff_base ff_rs ff_rr ff_shape ff_preload ff_disp ff_depth ex_ff fa_rs fa_rr fa_shape fa_preload fa_disp fa_depth]. unfold external_radius. cbn [String.eqb Ascii.eqb Bool.eqb bind].
  eexists. split; [exact Hq|]. split; [reflexivity|]. split; [reflexivity|]. reflexivity.
Qed.
(** Refuted: the force the object reports is not the load it was built from, because the force uses the rotor radius and the load the stator radius. *)
Theorem C44_force_refuted : exists fl a W f, fa_load a = Some W /\ ff_init fl a = Ok f /\ snd (oil_film_force fl f None) <> W.
Proof.
  destruct C44_object_instance as (fl & f & Hq & Hb & Hf & _). exists fl, ex_ff, 500, f. split; [reflexivity|]. split; [exact Hf|].
  destruct (C44_object fl ex_ff 500 f) as (_ & _ & _ & _ & _ & _ & fr & ft & E); try reflexivity; try exact Hb; try exact Hf; cbn [ex_ff fa_rr fa_rs fa_omega fa_mu fa_length]; try lra; [replace (1 / 10 - 9 / 100) with (1 / 100) by lra; exact Hq|].
  rewrite E. cbn [ex_ff fa_rr fa_rs snd]. lra.
Qed.
(** Refuted: when a load and an eccentricity are both given, the object keeps the given eccentricity and the eccentricity ratio of the load. *)
Theorem C44_both_given_refuted fl a W ecc f eps : fa_ecc a = Some ecc -> fa_load a = Some W -> fa_now a = false -> bearing_type a = "short_bearing" -> fa_shape a = "cylindrical" ->
  eccentricity_ratio fl (modified_sommerfeld (fa_rs a) (fa_omega a) (fa_mu a) (fa_length a) W (fa_rs a - fa_rr a)) = Ok eps -> ff_init fl a = Ok f ->
  ff_ecc f = ecc /\ ff_ratio f = eps.
Proof.
  intros H1 H2 H3 H4 H5 E. unfold ff_init. rewrite H4, H5, H1, H2, H3. cbn [String.eqb Ascii.eqb Bool.eqb andb]. rewrite E. cbn [bind].
  unfold geometry_description. cbn [ff_base ff_rs ff_rr ff_shape ff_preload ff_disp ff_depth]. unfold external_radius. rewrite H5. cbn [String.eqb Ascii.eqb Bool.eqb bind]. intros Hf. injection Hf as <-. split; reflexivity.
Qed.

(** ** C67 *)
Definition at_rest_pressure f := short_pressure (ff_mu f) (ff_omega f) (ff_clear f) (ff_length f) (centre_x (ff_ecc f) (ff_att f)) (centre_y (ff_ecc f) (ff_att f)) 0 0.
Lemma grid_theta f0 f i j : ff_shape f0 = "cylindrical" -> geometry_description f0 = Ok f -> ff_gama f i j = INR j * ff_dt f + ff_att f + PI / 2.
Proof.
  intros Hs. unfold geometry_description, external_radius. rewrite Hs. cbn [String.eqb Ascii.eqb Bool.eqb]. intros E. injection E as <-. cbn [set_grid ff_gama ff_att]. unfold ff_start. rewrite Hs. cbn [String.eqb Ascii.eqb Bool.eqb].
  unfold ff_dt. cbn [ff_nt set_grid]. ring.
Qed.
Lemma geometry_keeps f0 f : geometry_description f0 = Ok f -> ff_nz f = ff_nz f0 /\ ff_nt f = ff_nt f0 /\ ff_length f = ff_length f0 /\ ff_omega f = ff_omega f0 /\ ff_mu f = ff_mu f0 /\ ff_rr f = ff_rr f0 /\ ff_rs f = ff_rs f0 /\ ff_ecc f = ff_ecc f0 /\ ff_att f = ff_att f0 /\ ff_ratio f = ff_ratio f0 /\ ff_type f = ff_type f0 /\ ff_pin f = ff_pin f0.
Proof. unfold geometry_description. destruct (external_radius _ _ _ _ _ _ _); [|discriminate]. intros E. injection E as <-. repeat split; reflexivity. Qed.
Lemma clip_max x : clip x = Rmax 0 x.
Proof. unfold clip. destruct (Rlt_dec x 0); [rewrite Rmax_left; lra|rewrite Rmax_right; lra]. Qed.
(** Both methods give, at every grid point, the positive part of the solution of Reynolds' equation, which exists and is unique. *)
Theorem C67_short_pressure f0 f g method force : ff_shape f0 = "cylindrical" -> geometry_description f0 = Ok f -> (2 <= ff_nz f)%nat -> 0 < ff_ecc f < ff_clear f -> ff_ratio f = ff_ecc f / ff_clear f -> 0 < ff_length f ->
  (ff_type f = "short_bearing" \/ force = Some "short") -> (method < 2)%nat -> pressure_analytical f method force = Ok g ->
  (exists p, at_rest_pressure f p) /\
  forall p, at_rest_pressure f p -> forall i j, (i < ff_nz f)%nat -> ff_pana g i j = Rmax 0 (p (ff_gama f i j) (INR i * ff_dz f)).
Proof.
  intros Hs Hg Hn He Hra HL Hty Hme Hp. assert (Hc : 0 < ff_clear f) by lra. split; [eexists; apply short_exists; assumption|].
  intros p Pp i j Hi. assert (Hz : 0 <= INR i * ff_dz f <= ff_length f).
  { unfold ff_dz. assert (P : 0 < INR (ff_nz f - 1)) by (apply lt_0_INR; lia). assert (Q : INR i <= INR (ff_nz f - 1)) by (apply le_INR; lia). pose proof (pos_INR i). split.
    - apply Rmult_le_pos; [lra|]. left. apply Rdiv_lt_0_compat; lra.
    - apply Rmult_le_reg_r with (INR (ff_nz f - 1)); [lra|]. replace (INR i * (ff_length f / INR (ff_nz f - 1)) * INR (ff_nz f - 1)) with (INR i * ff_length f) by (field; lra). nra. }
  rewrite (short_unique _ _ _ _ _ _ 0 0 HL He p _ _ Pp Hz). rewrite (grid_theta f0 f i j Hs Hg).
  pose proof (eps_in _ _ Hc He) as Hi'. set (th := INR j * ff_dt f). pose proof (COS_bound th) as Hcos.
  assert (K : 0 < 1 + ff_ratio f * cos th) by (rewrite Hra; nra).
  assert (V : cap (ff_mu f) (ff_omega f) (ff_clear f) (ff_ecc f) (ff_att f) 0 0 (th + ff_att f + PI / 2) = - 6 * ff_mu f * ff_omega f / ff_clear f ^ 2 * (ff_ratio f * sin th / (1 + ff_ratio f * cos th) ^ 3)).
  { unfold cap. rewrite src_theta, film_theta. unfold src. rewrite Hra in K |- *. assert (ff_ecc f = ff_clear f * (ff_ecc f / ff_clear f)) as E by (field; lra). set (ep := ff_ecc f / ff_clear f) in *. rewrite E.
    replace (ff_clear f + ff_clear f * ep * cos th) with (ff_clear f * (1 + ep * cos th)) by ring. field. split; lra. }
  rewrite V.
  assert (G : ff_pana g i j = clip (p_short0 f i j) \/ ff_pana g i j = clip (p_short1 f i j)).
  { unfold pressure_analytical in Hp. assert (B : String.eqb (ff_type f) "short_bearing" || match force with Some x => String.eqb x "short" | None => false end = true) by (destruct Hty as [->| ->]; [reflexivity|apply orb_true_r]).
    cbv zeta in Hp. rewrite B in Hp. destruct method as [|[|?]]; [| |lia]; injection Hp as <-; [left|right]; reflexivity. }
  destruct G as [-> | ->]; rewrite clip_max; f_equal; unfold p_short0, p_short1; fold th; set (z := INR i * ff_dz f) in *; field; split; lra.
Qed.
(** The reported force is the force of this film, and pressures at the ends vanish. *)
Theorem C67_short_force fl f force : 0 < ff_ecc f < ff_clear f -> ff_ratio f = ff_ecc f / ff_clear f -> 0 < ff_length f -> ff_rr f <> 0 ->
  (force = Some "short" \/ force = None /\ ff_type f = "short_bearing") ->
  let '(fr, ft, fx, fy) := oil_film_force fl f force in
  short_film_force (ff_mu f) (ff_omega f) (ff_clear f) (ff_length f) (ff_rr f) (ff_ecc f) (ff_att f) 0 0 fx fy /\
  fx = - fr * sin (ff_att f) + ft * cos (ff_att f) /\ fy = fr * cos (ff_att f) + ft * sin (ff_att f).
Proof.
  intros He Hra HL Hr Hty. assert (Hc : 0 < ff_clear f) by lra. assert (E : oil_film_force fl f force = film_short f) by (unfold oil_film_force; destruct Hty as [->|[-> ->]]; reflexivity). rewrite E.
  pose proof (eps_in _ _ Hc He) as Hi. rewrite film_short_val; [|rewrite Hra; exact Hi|exact Hr|lra]. cbn [force_xy]. split; [|split; reflexivity].
  rewrite Hra. replace (- (amp (ff_mu f) (ff_omega f) (ff_clear f) (ff_length f) (ff_rr f) * rr (ff_ecc f / ff_clear f)) * sin (ff_att f)) with (- (amp (ff_mu f) (ff_omega f) (ff_clear f) (ff_length f) (ff_rr f) * rr (ff_ecc f / ff_clear f)) * sin (ff_att f)) by reflexivity.
  apply rest_force; assumption.
Qed.
Theorem C67_long_pressure f0 f g force : ff_shape f0 = "cylindrical" -> geometry_description f0 = Ok f -> 0 < ff_ecc f < ff_clear f -> ff_ratio f = ff_ecc f / ff_clear f ->
  ff_type f = "long_bearing" -> force <> Some "short" -> pressure_analytical f 0 force = Ok g ->
  (exists p, long_pressure (ff_mu f) (ff_omega f) (ff_clear f) (ff_rr f) (ff_ecc f) (ff_att f) (ff_pin f) p) /\
  forall p, long_pressure (ff_mu f) (ff_omega f) (ff_clear f) (ff_rr f) (ff_ecc f) (ff_att f) (ff_pin f) p -> forall i j, ff_pana g i j = Rmax 0 (p (ff_gama f i j)).
Proof.
  intros Hs Hg He Hra Hty Hfo Hp. assert (Hc : 0 < ff_clear f) by lra. split; [eexists; apply long_exists; assumption|].
  intros p Pp i j. rewrite (long_unique _ _ _ _ _ _ _ Hc He p _ Pp (long_exists _ _ _ _ _ _ _ Hc He)). rewrite (grid_theta f0 f i j Hs Hg).
  replace (INR j * ff_dt f + ff_att f + PI / 2 - ff_att f - PI / 2) with (INR j * ff_dt f) by ring. unfold pressure_analytical in Hp. cbv zeta in Hp. rewrite Hty in Hp. cbn [String.eqb Ascii.eqb Bool.eqb] in Hp.
  assert (B : match force with Some x => String.eqb x "short" | None => false end = false) by (destruct force as [x|]; [|reflexivity]; apply String.eqb_neq; intros ->; apply Hfo; reflexivity).
  rewrite B in Hp. cbn [orb] in Hp. injection Hp as <-. cbn [set_press ff_pana]. rewrite clip_max. f_equal. unfold p_long, plong. rewrite Hra. rewrite (Rmult_comm (ff_dt f) (INR j)).
  pose proof (eps_in _ _ Hc He) as Hi. pose proof (COS_bound (INR j * ff_dt f)). field. repeat split; try lra; nra.
Qed.
(** The long bearing force is that of the pressure above the supply pressure on the converging half. *)
Theorem C67_long_force fl f force p : 0 < ff_ecc f < ff_clear f -> ff_ratio f = ff_ecc f / ff_clear f ->
  (force = Some "long" /\ ff_type f <> "short_bearing" \/ force = None /\ ff_type f = "long_bearing") ->
  long_pressure (ff_mu f) (ff_omega f) (ff_clear f) (ff_rr f) (ff_ecc f) (ff_att f) (ff_pin f) p ->
  let '(fr, ft, fx, fy) := oil_film_force fl f force in half_film_force (ff_rr f) (ff_length f) (ff_att f) (fun gam _ => p gam - ff_pin f) fx fy.
Proof.
  intros He Hra Hty Hp. assert (Hc : 0 < ff_clear f) by lra.
  assert (E : oil_film_force fl f force = film_long f). { unfold oil_film_force. destruct Hty as [[-> N]|[-> ->]]; [|reflexivity]. apply String.eqb_neq in N. rewrite N. reflexivity. }
  rewrite E. unfold film_long. cbn [force_xy]. rewrite Hra. apply (long_force _ _ _ _ _ _ _ Hc He (ff_length f) p Hp).
Qed.
Definition ex_f : fluid := ff_base ex_ff (Some 500) (1/2) (1/200) (PI/4).
Example C67_instance : exists f, geometry_description ex_f = Ok f /\ 0 < ff_ecc f < ff_clear f /\ ff_ratio f = ff_ecc f / ff_clear f /\ 0 < ff_length f /\ (2 <= ff_nz f)%nat /\ ff_shape ex_f = "cylindrical".
Proof.
  unfold geometry_description, ex_f. cbn [ff_base ff_rs ff_rr ff_shape ff_preload ff_disp ff_depth ex_ff fa_rs fa_rr fa_shape fa_preload fa_disp fa_depth]. unfold external_radius. cbn [String.eqb Ascii.eqb Bool.eqb].
  eexists. split; [reflexivity|]. unfold ff_clear. cbn [set_grid ff_base ff_ecc ff_rs ff_rr ff_ratio ff_length ff_nz ex_ff fa_rs fa_rr fa_length fa_nz ff_shape fa_shape]. repeat split; try lra; try lia.
Qed.

(** ** C68 *)
(** Along every differentiable motion (e, phi) of the rotor centre through an equilibrium, the film force changes by minus the stiffness matrix times the velocity of the centre. *)
Theorem C68_stiffness mu omega c L Rj (e phi Fx Fy : R -> R) t e' phi' x' y' W : 0 < c -> 0 < L -> 0 < mu * Rj * omega ->
  is_derive e t e' -> is_derive phi t phi' -> 0 < e t < c ->
  locally t (fun u => short_film_force mu omega c L Rj (e u) (phi u) 0 0 (Fx u) (Fy u)) ->
  0 < W -> Fx t = 0 -> Fy t = W ->
  is_derive (fun u => centre_x (e u) (phi u)) t x' -> is_derive (fun u => centre_y (e u) (phi u)) t y' ->
  exists kxx kxy kyx kyy, short_stiffness W c (e t / c) = [kxx; kxy; kyx; kyy] /\ is_derive Fx t (- (kxx * x' + kxy * y')) /\ is_derive Fy t (- (kyx * x' + kyy * y')).
Proof. intros Hc HL HA De Dp He HF HW Ex Ey Dx Dy. exact (path_jac mu omega c L Rj Hc HL e phi Fx Fy t e' phi' W HA De Dp He HF HW Ex Ey x' y' Dx Dy). Qed.
(** The film of a journal that moves with velocity (vx, vy) from the equilibrium position: minus the damping matrix times the velocity, exactly. *)
Theorem C68_damping mu omega c L Rj e phi W vx vy Fx Fy : 0 < c -> 0 < L -> 0 < mu * Rj * omega -> 0 < e < c -> omega <> 0 -> 0 < W ->
  short_film_force mu omega c L Rj e phi 0 0 0 W -> short_film_force mu omega c L Rj e phi vx vy Fx Fy ->
  exists cxx cxy cyx cyy, short_damping W c omega (e / c) = [cxx; cxy; cyx; cyy] /\ Fx = - (cxx * vx + cxy * vy) /\ Fy = W - (cyx * vx + cyy * vy).
Proof. intros. apply (vel_response mu omega c L Rj) with (phi := phi); assumption. Qed.
(** The damping matrix is symmetric and dissipates in every direction; direct stiffnesses are positive, and the cross coupling terms have opposite signs' excess: kxy > kyx. *)
Theorem C68_dissipates W c omega eps : 0 < W -> 0 < c -> 0 < omega -> 0 < eps < 1 ->
  exists cxx cxy cyx cyy kxx kxy kyx kyy, short_damping W c omega eps = [cxx; cxy; cyx; cyy] /\ short_stiffness W c eps = [kxx; kxy; kyx; kyy] /\
  cxy = cyx /\ (forall vx vy, (vx <> 0 \/ vy <> 0) -> 0 < vx * (cxx * vx + cxy * vy) + vy * (cyx * vx + cyy * vy)) /\ 0 < kxx /\ 0 < kyy /\ kyx < 0 /\ kyx < kxy.
Proof.
  intros HW Hc Ho Hi. destruct (s_facts eps Hi) as (Hs & Hq & E & _). destruct (DD_facts eps Hi) as (Q & HD & D2). pose proof PI2_bounds as HP. pose proof PI_RGT_0 as HP0. destruct Hi as [Hi0 Hi1].
  unfold short_damping, short_stiffness. rewrite (h0_val eps (conj Hi0 Hi1)). set (s := sqrt (1 - eps ^ 2)) in *. assert (H0 : 0 < / (QQ eps * DD eps)) by (apply Rinv_0_lt_compat, Rmult_lt_0_compat; assumption).
  set (h := / (QQ eps * DD eps)) in *. assert (HA : 0 < W / (c * omega)) by (apply Rdiv_lt_0_compat; [lra|apply Rmult_lt_0_compat; lra]). assert (HB : 0 < W / c) by (apply Rdiv_lt_0_compat; lra).
  do 8 eexists. split; [reflexivity|]. split; [reflexivity|]. split; [reflexivity|].
  set (a := PI ^ 2 * (1 + 2 * eps ^ 2) - 16 * eps ^ 2). set (b := PI ^ 2 * (1 - eps ^ 2) ^ 2 + 48 * eps ^ 2).
  assert (He2 : 0 < eps ^ 2 < 1) by nra. assert (Ha : 0 < a) by (unfold a; nra).
  split; [|].
  - intros vx vy Hv. set (M := W / (c * omega) * h) in *. assert (HM : 0 < M) by (unfold M; apply Rmult_lt_0_compat; assumption).
    match goal with |- 0 < ?X => replace X with (2 * M / (eps * s) * (a * PI * ((s * vx - 4 * eps / PI * vy) ^ 2) + (PI * b - 16 * a * eps ^ 2 / PI) * vy ^ 2)) end.
    + assert (K : 0 < PI * b - 16 * a * eps ^ 2 / PI).
      { replace (PI * b - 16 * a * eps ^ 2 / PI) with (QQ eps ^ 2 / PI) by (unfold a, b, QQ; field; lra). apply Rdiv_lt_0_compat; [apply pow_lt; exact Q|exact HP0]. }
      apply Rmult_lt_0_compat; [apply Rdiv_lt_0_compat; [lra|apply Rmult_lt_0_compat; lra]|].
      assert (G1 : 0 <= a * PI * (s * vx - 4 * eps / PI * vy) ^ 2) by (apply Rmult_le_pos; [left; apply Rmult_lt_0_compat; lra|apply pow2_ge_0]).
      destruct (Req_dec vy 0) as [->|Ny].
      * assert (vx <> 0) by tauto. replace ((s * vx - 4 * eps / PI * 0) ^ 2) with (s ^ 2 * vx ^ 2) by ring. assert (0 < s ^ 2 * vx ^ 2). { apply Rmult_lt_0_compat; [apply pow_lt; lra|]. assert (vx ^ 2 <> 0) by (apply pow_nonzero; assumption). pose proof (pow2_ge_0 vx). lra. }
        assert (0 < a * PI * (s ^ 2 * vx ^ 2)) by (apply Rmult_lt_0_compat; [apply Rmult_lt_0_compat; lra|assumption]). lra.
      * assert (0 < vy ^ 2) by (assert (vy ^ 2 <> 0) by (apply pow_nonzero; assumption); pose proof (pow2_ge_0 vy); lra). assert (0 < (PI * b - 16 * a * eps ^ 2 / PI) * vy ^ 2) by (apply Rmult_lt_0_compat; assumption). lra.
    + match goal with |- ?l = ?r => transitivity (2 * M * a * PI * (s * s) / (eps * s) * vx ^ 2 - 16 * M * a * vx * vy + 2 * M * PI * b / (eps * s) * vy ^ 2) end.
      * field. repeat split; lra.
      * unfold M. fold a b. field. repeat split; lra.
  - assert (T : 0 < W / c * h) by (apply Rmult_lt_0_compat; assumption).
    assert (Ks : 0 < eps * s) by (apply Rmult_lt_0_compat; lra).
    assert (X1 : 0 < PI ^ 2 * (1 - eps ^ 2) * (1 + 2 * eps ^ 2) + 32 * eps ^ 2 * (1 + eps ^ 2)).
    { assert (0 < PI ^ 2 * (1 - eps ^ 2) * (1 + 2 * eps ^ 2)) by (apply Rmult_lt_0_compat; [apply Rmult_lt_0_compat; lra|lra]). nra. }
    assert (X2 : 0 < W / c * h * PI * (PI ^ 2 * (1 - eps ^ 2) * (1 + 2 * eps ^ 2) + 32 * eps ^ 2 * (1 + eps ^ 2)) / (eps * s)) by (apply Rdiv_lt_0_compat; [apply Rmult_lt_0_compat; [apply Rmult_lt_0_compat|]; assumption|assumption]).
    repeat split.
    + apply Rmult_lt_0_compat; [apply Rmult_lt_0_compat; lra|nra].
    + apply Rmult_lt_0_compat; [apply Rmult_lt_0_compat; lra|]. assert (0 < 32 * eps ^ 2 * (1 + eps ^ 2) / (1 - eps ^ 2)) by (apply Rdiv_lt_0_compat; nra). nra.
    + unfold Rdiv in *. lra.
    + assert (Y : 0 < PI ^ 2 * (1 - eps ^ 2) ^ 2 - 16 * eps ^ 4 + (PI ^ 2 * (1 - eps ^ 2) * (1 + 2 * eps ^ 2) + 32 * eps ^ 2 * (1 + eps ^ 2))).
      { replace (eps ^ 4) with (eps ^ 2 * eps ^ 2) by ring. assert (0 < PI ^ 2 * (1 - eps ^ 2) * (1 + 2 * eps ^ 2)) by (apply Rmult_lt_0_compat; [apply Rmult_lt_0_compat; lra|lra]). assert (0 <= PI ^ 2 * (1 - eps ^ 2) ^ 2) by (apply Rmult_le_pos; [lra|apply pow2_ge_0]). nra. }
      assert (Z : 0 < W / c * h * PI * (PI ^ 2 * (1 - eps ^ 2) ^ 2 - 16 * eps ^ 4 + (PI ^ 2 * (1 - eps ^ 2) * (1 + 2 * eps ^ 2) + 32 * eps ^ 2 * (1 + eps ^ 2))) / (eps * s)) by (apply Rdiv_lt_0_compat; [apply Rmult_lt_0_compat; [apply Rmult_lt_0_compat|]; assumption|assumption]).
      unfold Rdiv in *. lra.
Qed.
Example C68_instance : exists W, 0 < W /\ short_film_force (1/10) 100 (1/100) (1/100) (1/10) (1/200) (attitude_angle (1/2)) 0 0 0 W.
Proof. destruct (C44_load (1/10) 100 (1/10) (1/100) (1/100) (1/2)) as [H1 H2]; try lra. exists (rotor_load (1/10) 100 (1/10) (1/100) (1/100) (1/2)). split; [exact H1|]. replace (1/200) with (1/2 * (1/100)) by lra. exact H2. Qed.

(** ** C57 *)
(** At every positive speed CylindricalBearing stores the stiffness and damping of C68 at the equilibrium of its weight: one column per speed, none lost. *)
Theorem C57_coefficients roots d mu L c W speeds : 0 < d -> 0 < mu -> 0 < L -> 0 < c -> 0 < W -> (forall w, In w speeds -> 0 < w) ->
  (forall s, s <> 0 -> are_roots (ecc_coeffs s) (roots (ecc_coeffs s))) ->
  map cyl_speed speeds = speeds /\ length (cyl_rows roots d mu L c W speeds) = length speeds /\
  forall i, (i < length speeds)%nat -> let w := nth i speeds 0 in exists eps, 0 < eps < 1 /\ nth i (cyl_ecc roots d mu L c W speeds) 0 = eps /\
    short_film_force mu w c L (d / 2) (eps * c) (attitude_angle eps) 0 0 0 W /\
    nth i (cyl_rows roots d mu L c W speeds) [] = (short_stiffness W c eps ++ short_damping W c w eps)%list.
Proof.
  intros Hd Hm HL Hc HW Hsp Hr.
  assert (Sp : map cyl_speed speeds = speeds). { clear - Hsp. induction speeds as [|w l IH]; [reflexivity|]. simpl. rewrite IH by (intros; apply Hsp; right; assumption). f_equal. unfold cyl_speed. destruct (Req_EM_T w 0); [|reflexivity]. specialize (Hsp w (or_introl eq_refl)). lra. }
  split; [exact Sp|].
  assert (G : forall w, 0 < w -> exists eps, 0 < eps < 1 /\ cyl_roots roots (cyl_sommerfeld d w mu L c W) = [eps ^ 2] /\ short_film_force mu w c L (d / 2) (eps * c) (attitude_angle eps) 0 0 0 W).
  { intros w Hw. assert (Es : cyl_sommerfeld d w mu L c W = amp mu w c L (d / 2) / (2 * W)) by (unfold cyl_sommerfeld, amp; field; lra). assert (HA : 0 < amp mu w c L (d / 2)) by (apply amp_pos; lra).
    assert (Hs : cyl_sommerfeld d w mu L c W <> 0) by (rewrite Es; apply Rgt_not_eq, Rdiv_lt_0_compat; lra). destruct (ecc_exists _ Hs) as [x [Hx E]]. exists (sqrt x).
    assert (Hi : 0 < sqrt x < 1) by (split; [apply sqrt_lt_R0; lra|rewrite <- sqrt_1; apply sqrt_lt_1; lra]). assert (X2 : sqrt x ^ 2 = x) by (apply pow2_sqrt; lra).
    split; [exact Hi|]. split; [unfold cyl_roots; rewrite (root_once _ _ x Hs (Hr _ Hs) Hx E); simpl; rewrite Rmult_1_r, sqrt_sqrt by lra; reflexivity|].
    apply load_equilibrium; try lra; try assumption. rewrite X2, <- Es. exact E. }
  assert (Row : forall eps w, 0 < eps < 1 -> 0 < w -> cyl_row W c eps w = (short_stiffness W c eps ++ short_damping W c w eps)%list).
  { intros eps w Hi Hw. destruct (s_facts eps Hi) as (Hs & Hq & _). unfold cyl_row, short_stiffness, short_damping. fold (short_h0 eps). set (h := short_h0 eps). set (s := sqrt (1 - eps ^ 2)) in *. cbn [map app]. do 8 (apply f_equal2; [field; repeat split; lra|]). reflexivity. }
  clear Sp. unfold cyl_rows, cyl_ecc. induction speeds as [|w l IH]; [split; [reflexivity|intros i Hi; simpl in Hi; lia]|].
  destruct (G w (Hsp w (or_introl eq_refl))) as (eps & Hi & Er & F). destruct IH as [IL IN]; [intros; apply Hsp; right; assumption|].
  cbn [map concat]. rewrite Er. cbn [app map combine]. assert (Sw : cyl_speed w = w) by (unfold cyl_speed; destruct (Req_EM_T w 0); [specialize (Hsp w (or_introl eq_refl)); lra|reflexivity]).
  assert (Sq : sqrt (eps ^ 2) = eps) by (apply sqrt_pow2; lra). rewrite Sw, Sq. split; [cbn [length]; f_equal; exact IL|]. intros [|i] Hlt; cbn [nth].
  - exists eps. split; [exact Hi|]. split; [reflexivity|]. split; [exact F|]. apply Row; [exact Hi|apply Hsp; left; reflexivity].
  - apply IN. simpl in Hlt. lia.
Qed.
Lemma all_roots_exist : exists roots : list R -> list C, forall s, s <> 0 -> are_roots (ecc_coeffs s) (roots (ecc_coeffs s)).
Proof.
  exists (fun cs => let s := sqrt ((6 - nth 2 cs 0) / (16 - PI ^ 2)) in match Req_EM_T s 0 with left _ => [] | right H => ecc_roots s H end).
  intros s Hs. cbv zeta. assert (E : sqrt ((6 - nth 2 (ecc_coeffs s) 0) / (16 - PI ^ 2)) = Rabs s).
  { cbn [ecc_coeffs nth]. pose proof PI2_bounds. replace ((6 - (6 - s ^ 2 * (16 - PI ^ 2))) / (16 - PI ^ 2)) with (Rsqr s) by (unfold Rsqr; field; lra). apply sqrt_Rsqr_abs. }
  rewrite E. destruct (Req_EM_T (Rabs s) 0) as [Z|Z]; [exfalso; apply Hs; destruct (Req_dec s 0); [assumption|apply Rabs_no_R0 in H; contradiction]|].
  replace (ecc_coeffs s) with (ecc_coeffs (Rabs s)) by (unfold ecc_coeffs; rewrite pow2_abs; reflexivity). apply ecc_roots_ok.
Qed.
Example C57_instance : exists roots, length (cyl_rows roots (1/5) (1/10) (1/100) (1/100) 500 [100; 200; 300]) = 3%nat /\ (forall s, s <> 0 -> are_roots (ecc_coeffs s) (roots (ecc_coeffs s))).
Proof.
  destruct all_roots_exist as [roots Hr]. exists roots. split; [|exact Hr]. destruct (C57_coefficients roots (1/5) (1/10) (1/100) (1/100) 500 [100; 200; 300]) as (_ & -> & _); try lra; [|exact Hr|reflexivity].
  intros w [<-|[<-|[<-|[]]]]; lra.
Qed.
(** Refuted at zero speed: the replacement of the speed by 0.1 is not used for the Sommerfeld number; the column of that speed is lost,
    all later ones move up, and the lists given to BearingElement no longer have the length of the frequency list. *)
Theorem C57_zero_speed_refuted roots d mu L c W w : 0 < d -> 0 < mu -> 0 < L -> 0 < c -> 0 < W -> 0 < w -> (forall s, s <> 0 -> are_roots (ecc_coeffs s) (roots (ecc_coeffs s))) -> are_roots (ecc_coeffs 0) (roots (ecc_coeffs 0)) ->
  exists eps, short_film_force mu w c L (d / 2) (eps * c) (attitude_angle eps) 0 0 0 W /\
    fst (cyl_table roots d mu L c W [0; w]) = [/ 10; w] /\ cyl_rows roots d mu L c W [0; w] = [cyl_row W c eps (/ 10)] /\
    map (@length R) (snd (cyl_table roots d mu L c W [0; w])) = repeat 1%nat 8.
Proof.
  intros Hd Hm HL Hc HW Hw Hr H0. destruct (C57_coefficients roots d mu L c W [w] Hd Hm HL Hc HW) as (_ & _ & N); [intros ? [<-|[]]; exact Hw|exact Hr|].
  specialize (N 0%nat (le_n 1)). cbv zeta in N. cbn [nth] in N. destruct N as (eps & Hi & Ee & F & _). exists eps. split; [exact F|].
  assert (Z : cyl_roots roots (cyl_sommerfeld d 0 mu L c W) = []).
  { unfold cyl_roots. replace (cyl_sommerfeld d 0 mu L c W) with 0 by (unfold cyl_sommerfeld; field; lra).
    assert (X : forall z, In z (roots (ecc_coeffs 0)) -> open_real z = false).
    { intros z Hz. destruct (open_real z) eqn:Eo; [exfalso|reflexivity]. apply open_real_iff in Eo. destruct z as [a b]. cbn [fst snd] in Eo. destruct Eo as [-> Ha]. apply (root_iff 0 _ _ H0) in Hz. change (a, 0) with (RtoC a) in Hz. rewrite cpoly_real, ecc_poly_val in Hz. apply (f_equal fst) in Hz. cbn [fst RtoC] in Hz.
      assert (0 < (1 - a) ^ 4) by (apply pow_lt; lra). lra. }
    revert X. generalize (roots (ecc_coeffs 0)). induction l as [|z l IH]; intros X; [reflexivity|]. cbn [filter]. rewrite (X z (or_introl eq_refl)). apply IH. intros; apply X; right; assumption. }
  assert (R1 : cyl_ecc roots d mu L c W [0; w] = [eps]).
  { destruct (C57_coefficients roots d mu L c W [w] Hd Hm HL Hc HW) as (_ & Len & _); [intros ? [<-|[]]; exact Hw|exact Hr|]. revert Ee Len. unfold cyl_rows, cyl_ecc. cbn [map concat]. rewrite Z. cbn [app].
    rewrite map_length, combine_length. cbn [length]. destruct (map sqrt (cyl_roots roots (cyl_sommerfeld d w mu L c W) ++ [])) as [|a [|b l]] eqn:Em; intros Ee Len; cbn [length Nat.min] in Len; [discriminate| |].
    - cbn [nth] in Ee. subst. reflexivity.
    - exfalso. assert (Es : cyl_sommerfeld d w mu L c W = amp mu w c L (d / 2) / (2 * W)) by (unfold cyl_sommerfeld, amp; field; lra). assert (HA : 0 < amp mu w c L (d / 2)) by (apply amp_pos; lra).
      assert (Hs : cyl_sommerfeld d w mu L c W <> 0) by (rewrite Es; apply Rgt_not_eq, Rdiv_lt_0_compat; lra). destruct (ecc_exists _ Hs) as [x [Hx E]]. unfold cyl_roots in Em. rewrite (root_once _ _ x Hs (Hr _ Hs) Hx E) in Em. discriminate. }
  assert (Rw : cyl_rows roots d mu L c W [0; w] = [cyl_row W c eps (/ 10)]).
  { unfold cyl_rows. rewrite R1. cbn [map combine]. unfold cyl_speed at 1. destruct (Req_EM_T 0 0) as [|n]; [reflexivity|exfalso; apply n; reflexivity]. }
  split; [|split; [exact Rw|]].
  - cbn [cyl_table fst map]. unfold cyl_speed. destruct (Req_EM_T 0 0) as [|n]; [|exfalso; apply n; reflexivity]. destruct (Req_EM_T w 0); [lra|reflexivity].
  - unfold cyl_table. cbn [snd]. rewrite Rw. reflexivity.
Qed.
(** Refuted for a shaft that turns backwards: the stiffness is that of the forward speed and all damping terms change sign, so the bearing feeds energy in. *)
Theorem C57_backward_refuted W c eps w : 0 < W -> 0 < c -> 0 < w -> 0 < eps < 1 ->
  firstn 4 (cyl_row W c eps (- w)) = firstn 4 (cyl_row W c eps w) /\ (forall k, (4 <= k < 8)%nat -> nth k (cyl_row W c eps (- w)) 0 = - nth k (cyl_row W c eps w) 0) /\ nth 4 (cyl_row W c eps (- w)) 0 < 0.
Proof.
  intros HW Hc Hw Hi. destruct (s_facts eps Hi) as (Hs & Hq & _).
  assert (Ng : forall k, (4 <= k < 8)%nat -> nth k (cyl_row W c eps (- w)) 0 = - nth k (cyl_row W c eps w) 0).
  { intros k Hk. assert (I : W / (c * - w) = - (W / (c * w))) by (field; lra). unfold cyl_row. cbn [map app]. rewrite I. destruct k as [|[|[|[|[|[|[|[|k]]]]]]]]; try lia; cbn [nth]; ring. }
  split; [reflexivity|]. split; [exact Ng|]. rewrite Ng by lia.
  destruct (C68_dissipates W c w eps HW Hc Hw Hi) as (cxx & cxy & cyx & cyy & kxx & kxy & kyx & kyy & Ed & _ & _ & Dis & _). specialize (Dis 1 0 (or_introl R1_neq_R0)).
  assert (X : nth 4 (cyl_row W c eps w) 0 = nth 0 (short_damping W c w eps) 0).
  { unfold cyl_row, short_damping. fold (short_h0 eps). set (h := short_h0 eps). set (s := sqrt (1 - eps ^ 2)) in *. cbn [map app nth]. field. repeat split; lra. }
  rewrite Ed in X. cbn [nth] in X.
  rewrite X. lra.
Qed.
(** Refuted: the attitude angle that CylindricalBearing reports is not the equilibrium direction (a missing pair of brackets). *)
Theorem C57_attitude_refuted eps : 0 < eps < 1 -> cyl_attitude eps = atan (PI * sqrt (1 - eps ^ 2) * eps / 4) /\ cyl_attitude eps < attitude_angle eps.
Proof.
  intros Hi. destruct (s_facts eps Hi) as (Hs & _). unfold cyl_attitude, attitude_angle. split; [f_equal; field|]. apply atan_increasing. pose proof PI_RGT_0. set (s := sqrt (1 - eps ^ 2)) in *.
  apply Rmult_lt_reg_r with (4 * eps); [lra|]. replace (PI * s / (4 * eps) * (4 * eps)) with (PI * s) by (field; lra). replace (PI * s / 4 * eps * (4 * eps)) with (PI * s * (eps * eps)) by field.
  assert (0 < PI * s) by (apply Rmult_lt_0_compat; lra). assert (eps * eps < 1) by nra. assert (PI * s * (eps * eps) < PI * s * 1) by (apply Rmult_lt_compat_l; lra). lra.
Qed.

Print Assumptions C44_equilibrium. Print Assumptions C44_load. Print Assumptions C44_round_trips. Print Assumptions C44_roots_exist. Print Assumptions C44_load_monotone.
Print Assumptions C44_rest. Print Assumptions C44_backward_refuted. Print Assumptions C44_object. Print Assumptions C44_force_refuted. Print Assumptions C44_both_given_refuted.
Print Assumptions C67_short_pressure. Print Assumptions C67_short_force. Print Assumptions C67_long_pressure. Print Assumptions C67_long_force.
Print Assumptions C68_stiffness. Print Assumptions C68_damping. Print Assumptions C68_dissipates. Print Assumptions C57_coefficients. Print Assumptions C57_zero_speed_refuted. Print Assumptions C57_backward_refuted. Print Assumptions C57_attitude_refuted.
