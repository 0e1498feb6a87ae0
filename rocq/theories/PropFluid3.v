(** C46: the numerical pressure of the fluid film (finite differences). The specification of the grid is SpecFilm.v. *)
From Coq Require Import Reals String List Arith Bool Lia Lra.
From Coquelicot Require Import Coquelicot.
From Verif Require Import PyBase MatBase LMat CMat MDynamics LDynEx MFluid SpecFluid SpecFilm LFluid LFluid7 LFluid8 PropFluid PropFluid2.
Import ListNotations.
Open Scope string_scope. Open Scope R_scope.

(** mounting_matrix: a vector of pressures solves the system exactly when it takes the boundary values, is periodic, and every cell is in balance. *)
Theorem C46_system nz nt dz dt pin pout c1 c2 c0 M b X : (2 <= nz)%nat -> (4 <= nt)%nat -> dz <> 0 -> dt <> 0 -> mounting_matrix nz nt dz dt pin pout c1 c2 c0 = (M, b) ->
  ((forall a, (a < nz * nt)%nat -> mulv (nz * nt) M X a = b a) <-> film_grid nz nt dz dt pin pout c1 c2 c0 (fun i j => X (j * nz + i)%nat)).
Proof. intros Hz Ht Nz Nt E. apply system_grid; assumption. Qed.

(** The coefficients are the flows of a viscous fluid between the two surfaces: per unit pressure gradient around the bearing, along the bearing, and dragged along by the surface of the rotor (which turns with speed w). *)
Theorem C46_flow_around mu g w (v d : R -> R) ri re : 0 < ri < re -> mu <> 0 ->
  (forall r, ri <= r <= re -> is_derive v r (d r)) -> (forall r, ri <= r <= re -> is_derive (fun r => v r / r + d r) r (g / (mu * r))) -> v ri = w -> v re = 0 ->
  RInt v ri re = fc1 mu re ri * g - fc0 w re ri.
Proof. apply flow_t_integral. Qed.
Theorem C46_flow_along mu g (u d : R -> R) ri re : 0 < ri < re -> mu <> 0 ->
  (forall r, ri <= r <= re -> is_derive u r (d r)) -> (forall r, ri <= r <= re -> is_derive (fun r => r * d r) r (g * r / mu)) -> u ri = 0 -> u re = 0 ->
  RInt (fun r => r * u r) ri re = fc2 mu re ri * g.
Proof. apply flow_z_integral. Qed.
(** the hypotheses are met: such flows exist for all radii, gradients and speeds *)
Example C46_flow_instance mu g w ri re : 0 < ri < re -> mu <> 0 ->
  (exists v d : R -> R, (forall r, ri <= r <= re -> is_derive v r (d r)) /\ (forall r, ri <= r <= re -> is_derive (fun r => v r / r + d r) r (g / (mu * r))) /\ v ri = w /\ v re = 0) /\
  (exists u d : R -> R, (forall r, ri <= r <= re -> is_derive u r (d r)) /\ (forall r, ri <= r <= re -> is_derive (fun r => r * d r) r (g * r / mu)) /\ u ri = 0 /\ u re = 0).
Proof. intros H Hm. split; [apply flow_t_exists; assumption|apply flow_z_exists; assumption]. Qed.
Theorem C46_flow_sign mu re ri : 0 < ri < re -> 0 < mu -> fc1 mu re ri < 0 /\ fc2 mu re ri < 0.
Proof. intros H Hm. split; [apply fc1_neg|apply fc2_neg]; assumption. Qed.

(** Raising the pressures at the ends raises the pressure everywhere; without drag the pressure stays between the two. *)
Theorem C46_monotone nz nt dz dt pin pout pin' pout' c1 c2 c0 p q : (2 <= nz)%nat -> (4 <= nt)%nat -> dz <> 0 -> dt <> 0 ->
  (forall i j, (i < nz)%nat -> (j < nt)%nat -> c1 i j < 0 /\ c2 i j < 0) -> film_grid nz nt dz dt pin pout c1 c2 c0 p -> film_grid nz nt dz dt pin' pout' c1 c2 c0 q -> pin <= pin' -> pout <= pout' ->
  forall i j, (i < nz)%nat -> (j < nt)%nat -> p i j <= q i j.
Proof. intros Hz Ht Nz Nt Hc. apply grid_compare; try assumption; intros i j Hi Hj; destruct (Hc i j Hi Hj); lra. Qed.
Theorem C46_no_drag_bounds nz nt dz dt pin pout c1 c2 c0 p : (2 <= nz)%nat -> (4 <= nt)%nat -> dz <> 0 -> dt <> 0 ->
  (forall i j, (i < nz)%nat -> (j < nt)%nat -> c1 i j < 0 /\ c2 i j < 0) -> (forall i j, c0 i j = 0) -> film_grid nz nt dz dt pin pout c1 c2 c0 p ->
  forall i j, (i < nz)%nat -> (j < nt)%nat -> Rmin pin pout <= p i j <= Rmax pin pout.
Proof.
  intros Hz Ht Nz Nt Hc H0 G i j Hi Hj. apply grid_ext with (c0' := mz) in G; [|exact H0]. assert (H1 : forall i j, (i < nz)%nat -> (j < nt)%nat -> c1 i j <= 0) by (intros i' j' Hi' Hj'; destruct (Hc i' j' Hi' Hj'); lra). assert (H2 : forall i j, (i < nz)%nat -> (j < nt)%nat -> c2 i j < 0) by (intros i' j' Hi' Hj'; destruct (Hc i' j' Hi' Hj'); lra).
  split; [exact (grid_min nz nt dz dt c1 c2 Hz Ht Nz Nt H1 H2 pin pout p G i j Hi Hj)|exact (grid_max nz nt dz dt c1 c2 Hz Ht Nz Nt H1 H2 pin pout p G i j Hi Hj)].
Qed.

(** calculate_pressure_matrix_numerical succeeds whenever the film has a positive thickness at the grid points, and stores the positive part of the only solution. *)
Theorem C46_pressure fl f d : linalg_ok (fl_la fl) -> (2 <= ff_nz f)%nat -> (4 <= ff_nt f)%nat -> 0 < ff_mu f -> ff_length f <> 0 ->
  (forall i j, (i < ff_nz f)%nat -> (j < ff_nt f)%nat -> 0 < ff_ri f i j < ff_re f i j) ->
  exists c1 c2 c0 g p, coefficients f d = Ok (c1, c2, c0) /\ pressure_numerical fl f d = Ok g /\
    film_grid (ff_nz f) (ff_nt f) (ff_dz f) (ff_dt f) (ff_pin f) (ff_pout f) c1 c2 c0 p /\
    (forall q, film_grid (ff_nz f) (ff_nt f) (ff_dz f) (ff_dt f) (ff_pin f) (ff_pout f) c1 c2 c0 q -> forall i j, (i < ff_nz f)%nat -> (j < ff_nt f)%nat -> q i j = p i j) /\
    (forall i j, ff_pnum g i j = Rmax 0 (p i j)).
Proof.
  intros Hla Hz Ht Hmu HL Hf.
  assert (Nz : ff_dz f <> 0). { unfold ff_dz. assert (0 < INR (ff_nz f - 1)) by (apply lt_0_INR; lia). intros X. apply HL. apply Rmult_eq_reg_r with (/ INR (ff_nz f - 1)); [rewrite Rmult_0_l; exact X|apply Rinv_neq_0_compat; lra]. }
  assert (Nt : ff_dt f <> 0). { unfold ff_dt. assert (0 < INR (ff_nt f - 1)) by (apply lt_0_INR; lia). pose proof PI_RGT_0. apply Rgt_not_eq. apply Rdiv_lt_0_compat; lra. }
  unfold pressure_numerical. destruct (coefficients f d) as [[[c1 c2] c0]|e] eqn:Ec.
  2:{ exfalso. assert (e = ValueError) as -> by (unfold coefficients in Ec; destruct (existsb _ _); congruence). apply coeff_err in Ec. destruct Ec as (i & j & Hi & Hj & X). specialize (Hf i j Hi Hj). rewrite !Rabs_pos_eq in X by lra. lra. }
  assert (E1 : forall i j, c1 i j = fc1 (ff_mu f) (ff_re f i j) (ff_ri f i j)) by (unfold coefficients in Ec; destruct (existsb _ _); [discriminate|]; injection Ec as <- <- <-; reflexivity).
  assert (E2 : forall i j, c2 i j = fc2 (ff_mu f) (ff_re f i j) (ff_ri f i j)) by (unfold coefficients in Ec; destruct (existsb _ _); [discriminate|]; injection Ec as <- <- <-; reflexivity).
  assert (H1 : forall i j, (i < ff_nz f)%nat -> (j < ff_nt f)%nat -> c1 i j <= 0) by (intros i j Hi Hj; rewrite E1; left; apply fc1_neg; [apply Hf; assumption|exact Hmu]).
  assert (H2 : forall i j, (i < ff_nz f)%nat -> (j < ff_nt f)%nat -> c2 i j < 0) by (intros i j Hi Hj; rewrite E2; apply fc2_neg; [apply Hf; assumption|exact Hmu]).
  destruct (mounting_matrix (ff_nz f) (ff_nt f) (ff_dz f) (ff_dt f) (ff_pin f) (ff_pout f) c1 c2 c0) as [M b] eqn:Em. unfold bind. rewrite Em. cbv iota beta.
  pose proof (mount_nonsingular _ _ _ _ c1 c2 Hz Ht Nz Nt H1 H2 _ _ _ _ _ Em) as NS.
  destruct (la_solve (fl_la fl) (ff_nz f * ff_nt f) M (fun i _ => b i)) as [X|e] eqn:Es; [|exfalso; apply (solve_err _ Hla) in Es; tauto]. 
  apply (solve_sol _ Hla) in Es. destruct Es as [_ Es]. set (p := fun i j => X (j * ff_nz f + i)%nat 0%nat).
  assert (G : film_grid (ff_nz f) (ff_nt f) (ff_dz f) (ff_dt f) (ff_pin f) (ff_pout f) c1 c2 c0 p).
  { apply (C46_system _ _ _ _ _ _ _ _ _ _ _ (fun a => X a 0%nat) Hz Ht Nz Nt Em). intros a Ha. exact (Es a 0%nat Ha ltac:(nia)). }
  exists c1, c2, c0, (set_press f (ff_pana f) (fun i j => clip (X (j * ff_nz f + i)%nat 0%nat))), p. split; [reflexivity|]. split; [reflexivity|]. split; [exact G|]. split.
  - intros q Q i j Hi Hj. apply Rle_antisym; eapply (grid_compare _ _ _ _ c1 c2 Hz Ht Nz Nt H1 H2); try eassumption; lra.
  - intros i j. cbn [set_press ff_pnum]. apply clip_max.
Qed.
(** the hypotheses hold for every cylindrical bearing whose rotor is inside the clearance *)
Theorem C46_cylindrical f0 f : ff_shape f0 = "cylindrical" -> geometry_description f0 = Ok f -> 0 <= ff_ecc f < ff_rs f - ff_rr f -> ff_ecc f < ff_rr f -> forall i j, 0 < ff_ri f i j < ff_re f i j.
Proof.
  intros Hs Hg He Hr i j. destruct (cyl_radii f0 f i j Hs Hg) as [-> ->]. destruct (C45_rotor_surface (INR j * ff_dt f + ff_att f + PI / 2) (ff_att f) (ff_rr f) (ff_ecc f)) as (P & _ & _); [lra|].
  pose proof (internal_le (INR j * ff_dt f + ff_att f + PI / 2) (ff_att f) (ff_rr f) (ff_ecc f)). lra.
Qed.
(** A concentric rotor gives the straight pressure drop from one end to the other, at every speed; a rotor at rest too, at every position. *)
Theorem C46_linear fl f0 f : linalg_ok (fl_la fl) -> (2 <= ff_nz f)%nat -> (4 <= ff_nt f)%nat -> 0 < ff_mu f -> ff_length f <> 0 ->
  ff_shape f0 = "cylindrical" -> geometry_description f0 = Ok f -> 0 <= ff_ecc f < ff_rs f - ff_rr f -> ff_ecc f < ff_rr f -> ff_ecc f = 0 \/ ff_omega f = 0 ->
  exists g, pressure_numerical fl f None = Ok g /\ forall i j, (i < ff_nz f)%nat -> (j < ff_nt f)%nat -> ff_pnum g i j = Rmax 0 (ff_pin f + (ff_pout f - ff_pin f) * INR i / INR (ff_nz f - 1)).
Proof.
  intros Hla Hz Ht Hmu HL Hs Hg He Hr Hcase. destruct (C46_pressure fl f None Hla Hz Ht Hmu HL) as (c1 & c2 & c0 & g & p & Ec & Ep & G & U & V); [intros i j _ _; apply (C46_cylindrical f0 f Hs Hg He Hr)|].
  exists g. split; [exact Ep|]. intros i j Hi Hj. rewrite V. f_equal. symmetry. apply (U (fun i j => ff_pin f + (ff_pout f - ff_pin f) * INR i / INR (ff_nz f - 1))); try assumption. clear i j Hi Hj V U G p Ep g.
  assert (Pn : 0 < INR (ff_nz f - 1)) by (apply lt_0_INR; lia).
  assert (E2 : forall i i' j, c2 i j = c2 i' j). { intros i i' j. unfold coefficients in Ec; destruct (existsb _ _); [discriminate|]; injection Ec as <- <- <-. cbv beta. destruct (cyl_radii f0 f i j Hs Hg) as [-> ->]. destruct (cyl_radii f0 f i' j Hs Hg) as [-> ->]. reflexivity. }
  assert (E0 : forall i j j', c0 i j = c0 i j'). { intros i j j'. unfold coefficients in Ec; destruct (existsb _ _); [discriminate|]; injection Ec as <- <- <-. unfold coef_c0w. destruct (cyl_radii f0 f i j Hs Hg) as [-> ->]. destruct (cyl_radii f0 f i j' Hs Hg) as [-> ->].
    destruct Hcase as [Z|Z]; rewrite Z; [|unfold fc0; ring]. rewrite !internal_val. replace (ff_rr f ^ 2 - (0 * sin _) ^ 2) with (ff_rr f ^ 2) by ring. replace (ff_rr f ^ 2 - (0 * sin _) ^ 2) with (ff_rr f ^ 2) by ring. rewrite !Rmult_0_l. reflexivity. }
  assert (Z1 : forall i, INR (i + 1) - INR i = 1) by (intros i; rewrite plus_INR; simpl; ring).
  assert (FT : forall i j, flow_t (ff_dt f) c1 c0 (fun i _ => ff_pin f + (ff_pout f - ff_pin f) * INR i / INR (ff_nz f - 1)) i j = - c0 i 0%nat) by (intros i j; unfold flow_t; rewrite (E0 i j 0%nat); unfold Rdiv; ring).
  assert (FZ : forall i j, flow_z (ff_dz f) c2 (fun i _ => ff_pin f + (ff_pout f - ff_pin f) * INR i / INR (ff_nz f - 1)) i j = c2 0%nat j * ((ff_pout f - ff_pin f) / INR (ff_nz f - 1) / ff_dz f)).
  { intros i j. unfold flow_z. rewrite (E2 i 0%nat j). replace (INR (i + 1)) with (INR i + 1) by (rewrite plus_INR; simpl; ring). unfold Rdiv. ring. }
  constructor.
  - intros j _. simpl (INR 0). field. lra.
  - intros j _. field. lra.
  - reflexivity.
  - intros i j _ _. rewrite !FT, !FZ. unfold Rdiv. ring.
  - intros i _. rewrite !FT, !FZ. unfold flow_seam. rewrite (E0 i (ff_nt f - 1)%nat 0%nat). unfold Rdiv. ring.
Qed.

(** What a ring of cells loses along the bearing is what enters across the seam minus what leaves across the last face: the two should be the same flow, but the code takes the coefficients of two different columns. *)
Theorem C46_ring_balance nz nt dz dt pin pout c1 c2 c0 p i : (4 <= nt)%nat -> dz <> 0 -> dt <> 0 -> film_grid nz nt dz dt pin pout c1 c2 c0 p -> (0 < i < nz - 1)%nat ->
  sumn (nt - 1) (fun j => (flow_z dz c2 p i j - flow_z dz c2 p (i - 1) j) / dz) = (flow_seam nt dt c1 c0 p i - flow_t dt c1 c0 p i (nt - 2)) / dt.
Proof.
  intros Ht Nz Nt [_ _ _ G4 G5] Hi.
  assert (T : forall n, (n < nt - 1)%nat -> sumn (S n) (fun j => (flow_z dz c2 p i j - flow_z dz c2 p (i - 1) j) / dz) = (flow_seam nt dt c1 c0 p i - flow_t dt c1 c0 p i n) / dt).
  { induction n as [|n IH]; intros Hn.
    - cbn [sumn]. specialize (G5 i Hi). unfold Rdiv in *. lra.
    - cbn [sumn] in *. rewrite IH by lia. specialize (G4 i (S n) Hi ltac:(lia)). replace (S n - 1)%nat with n in G4 by lia. unfold Rdiv in *. lra. }
  replace (nt - 1)%nat with (S (nt - 2)) by lia. apply T. lia.
Qed.
(** Refuted: fluid is conserved. With an even film the difference is the change of the dragged flow over the last face. *)
Theorem C46_conservation_refuted nz nt dz dt pin pout c1 c2 c0 p i : (4 <= nt)%nat -> dz <> 0 -> dt <> 0 -> film_grid nz nt dz dt pin pout c1 c2 c0 p -> (0 < i < nz - 1)%nat ->
  c1 i (nt - 2)%nat = c1 i (nt - 1)%nat -> c0 i (nt - 2)%nat <> c0 i (nt - 1)%nat -> sumn (nt - 1) (fun j => (flow_z dz c2 p i j - flow_z dz c2 p (i - 1) j) / dz) <> 0.
Proof.
  intros Ht Nz Nt G Hi E1 E0. rewrite (C46_ring_balance nz nt dz dt pin pout c1 c2 c0 p i Ht Nz Nt G Hi). unfold flow_seam, flow_t. replace (nt - 2 + 1)%nat with (nt - 1)%nat by lia. rewrite (grid_period _ _ _ _ _ _ _ _ _ _ G i Hi), E1.
  intros X. apply E0. apply Rmult_eq_reg_r with (/ dt); [|apply Rinv_neq_0_compat; exact Nt]. unfold Rdiv in X. lra.
Qed.
(** a concentric bearing, perturbed in the x direction as calculate_stiffness_and_damping_coefficients does *)
Definition seam_a : ffargs := mkFfArgs 3 5 (1/100) 100 0 0 1 (11/10) (1/10) (Some (PI / 2)) (Some 0) None None false (Some "short_bearing") "cylindrical" (2/5) 0 None.
Definition seam_f : fluid := set_pert (ff_base seam_a None 0 0 (PI / 2)) 0 (1 / 100000) (1 / 100000).
Example C46_conservation_instance : exists f c1 c2 c0 p, geometry_description seam_f = Ok f /\ coefficients f (Some DirX) = Ok (c1, c2, c0) /\ film_grid 3 5 (ff_dz f) (ff_dt f) 0 0 c1 c2 c0 p /\ c1 1%nat 3%nat = c1 1%nat 4%nat /\ c0 1%nat 3%nat <> c0 1%nat 4%nat.
Proof.
  assert (Hs : ff_shape seam_f = "cylindrical") by reflexivity.
  assert (Hg : exists f, geometry_description seam_f = Ok f) by (unfold geometry_description, external_radius; rewrite Hs; cbn [String.eqb Ascii.eqb Bool.eqb]; eexists; reflexivity).
  destruct Hg as [f Hg]. assert (K : ff_nz f = 3%nat /\ ff_nt f = 5%nat /\ ff_mu f = 1/10 /\ ff_length f = 1/100 /\ ff_pin f = 0 /\ ff_pout f = 0 /\ ff_ecc f = 0 /\ ff_rr f = 1 /\ ff_rs f = 11/10 /\ ff_omegap f = 100 /\ ff_xp f = 1/100000 /\ ff_t f = 0 /\ ff_att f = PI / 2).
  { revert Hg. unfold geometry_description, external_radius. rewrite Hs. cbn [String.eqb Ascii.eqb Bool.eqb]. intros E. injection E as <-. cbn. repeat split; reflexivity. }
  destruct K as (K1 & K2 & K3 & K4 & K5 & K6 & K7 & K8 & K9 & K10 & K11 & K12 & K13).
  assert (Gm : forall i j, ff_gama f i j = INR j * ff_dt f + ff_att f + PI / 2) by (intros i j; apply (grid_theta seam_f f i j Hs Hg)).
  assert (Ri : forall i j, ff_re f i j = 11 / 10 /\ ff_ri f i j = 1).
  { intros i j. destruct (cyl_radii seam_f f i j Hs Hg) as [-> ->]. split; [exact K9|]. rewrite internal_val, K7, K8. replace (1 ^ 2 - (0 * sin _) ^ 2) with 1 by ring. rewrite sqrt_1. ring. }
  destruct (C46_pressure (mkFluidLib (fun _ => []) (fun _ x => x) (fun _ => (0, 0)) (fun _ _ => 0) la0) f (Some DirX)) as (c1 & c2 & c0 & g & p & Ec & _ & G & _ & _).
  - exact la0_ok.
  - rewrite K1. lia.
  - rewrite K2. lia.
  - rewrite K3. lra.
  - rewrite K4. lra.
  - intros i j _ _. destruct (Ri i j) as [-> ->]. lra.
  - exists f, c1, c2, c0, p. rewrite K1, K2, K5, K6 in G. split; [exact Hg|]. split; [exact Ec|]. split; [exact G|].
    unfold coefficients in Ec. destruct (existsb _ _); [discriminate|]. injection Ec as <- <- <-. cbv beta. destruct (Ri 1%nat 3%nat) as [A1 A2]. destruct (Ri 1%nat 4%nat) as [B1 B2]. rewrite A1, A2, B1, B2. split; [reflexivity|].
    unfold coef_c0w. rewrite A1, A2, B1, B2, !Gm, K10, K11, K12, K13. unfold ff_dt. rewrite K2.
    replace (INR 3 * (2 * PI / INR (5 - 1)) + PI / 2 + PI / 2) with (PI / 2 + 2 * INR 1 * PI) by (simpl; field). replace (INR 4 * (2 * PI / INR (5 - 1)) + PI / 2 + PI / 2) with (PI + 2 * INR 1 * PI) by (simpl; field).
    rewrite !sin_period, sin_PI2, sin_PI, Rmult_0_r, cos_0. lra.
Qed.

Print Assumptions C46_system. Print Assumptions C46_flow_around. Print Assumptions C46_flow_along. Print Assumptions C46_flow_sign. Print Assumptions C46_monotone. Print Assumptions C46_no_drag_bounds.
Print Assumptions C46_pressure. Print Assumptions C46_cylindrical. Print Assumptions C46_linear. Print Assumptions C46_ring_balance. Print Assumptions C46_conservation_refuted. Print Assumptions C46_conservation_instance.
