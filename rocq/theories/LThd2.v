(** Lemmas for the thermo-hydrodynamic bearing: the flooded film, the perturbation method, the mixing of oil. *)
From Coq Require Import Reals String List Arith Bool Lia Lra Psatz FunctionalExtensionality.
From Verif Require Import PyBase MatBase LMat CMat MDynamics MBearing MThd SpecFluid SpecThd LFluid7 LThd.
Import ListNotations.
Open Scope R_scope.

Section Pad.
Variable t : thd.
Variable s : thd_state.
Variable h : R -> R.
Variable c : nat.
Variable mu : mat.
Hypothesis Hna : (2 <= th_na t)%nat.
Hypothesis Hnc : (2 <= th_nc t)%nat.
Hypothesis Hmu : forall i j, (i < th_na t)%nat -> (j < th_nc t)%nat -> 0 < mu i j.
Lemma mus_eq i j : (i < th_na t)%nat -> (j < th_nc t)%nat ->
  thd_mus (th_na t) (th_nc t) mu i j = (mu_east (th_nc t) mu i j, mu_west mu i j, mu_south mu i j, mu_north (th_na t) mu i j).
Proof.
  intros Hi Hj. unfold thd_mus.
  assert (Ej : Nat.eqb j (th_nc t - 1) = Nat.eqb (j + 1) (th_nc t)) by (destruct (Nat.eqb_spec j (th_nc t - 1)), (Nat.eqb_spec (j + 1) (th_nc t)); lia || reflexivity).
  assert (Ei : Nat.eqb i (th_na t - 1) = Nat.eqb (i + 1) (th_na t)) by (destruct (Nat.eqb_spec i (th_na t - 1)), (Nat.eqb_spec (i + 1) (th_na t)); lia || reflexivity).
  rewrite Ej, Ei. cbv zeta. unfold mu_east, mu_north. clear Ej Ei.
  assert (Ew : mu_west mu i j = if Nat.eqb j 0 then mu i j else / 2 * (mu i j + mu i (j - 1)%nat)). { destruct j; [reflexivity|]. simpl. rewrite Nat.sub_0_r. field. }
  assert (Es : mu_south mu i j = if Nat.eqb i 0 then mu i j else / 2 * (mu i j + mu (i - 1)%nat j)). { destruct i; [reflexivity|]. simpl. rewrite Nat.sub_0_r. field. }
  rewrite Ew, Es. assert (D : forall x, x / 2 = / 2 * x) by (intros; field). rewrite !D.
  destruct (Nat.eqb_spec i 0), (Nat.eqb_spec (i + 1) (th_na t)), (Nat.eqb_spec j 0), (Nat.eqb_spec (j + 1) (th_nc t)); try lia; cbn [andb negb]; reflexivity.
Qed.
Lemma mus_pos i j : (i < th_na t)%nat -> (j < th_nc t)%nat -> 0 < mu_east (th_nc t) mu i j /\ 0 < mu_west mu i j /\ 0 < mu_south mu i j /\ 0 < mu_north (th_na t) mu i j.
Proof.
  intros Hi Hj. pose proof (Hmu i j Hi Hj) as P. unfold mu_east, mu_north. repeat split.
  - destruct (Nat.eqb_spec (j + 1) (th_nc t)); [exact P|]. pose proof (Hmu i (j + 1)%nat Hi ltac:(lia)). lra.
  - destruct j; simpl; [exact P|]. pose proof (Hmu i j Hi ltac:(lia)). lra.
  - destruct i; simpl; [exact P|]. pose proof (Hmu i j ltac:(lia) Hj). lra.
  - destruct (Nat.eqb_spec (i + 1) (th_na t)); [exact P|]. pose proof (Hmu (i + 1)%nat j ltac:(lia) Hj). lra.
Qed.
Hypothesis Hlen : 0 < th_len t.
Hypothesis Hrj : 0 < th_rj t.
Hypothesis Hcr : 0 < th_cr t.
Hypothesis Harc : 0 < th_arc t.
Hypothesis Hvis : 0 < th_mu t.
Lemma beta_pos : 0 < thd_beta t.
Proof. unfold thd_beta. pose proof PI_RGT_0. apply Rmult_lt_0_compat; [|lra]. nra. Qed.
Lemma na_pos : 0 < INR (th_na t). Proof. apply lt_0_INR. lia. Qed.
Lemma nc_pos : 0 < INR (th_nc t). Proof. apply lt_0_INR. lia. Qed.
Lemma dZ_pos : 0 < thd_dZ t. Proof. unfold thd_dZ. apply Rdiv_lt_0_compat; [lra|apply na_pos]. Qed.
Lemma dY_pos : 0 < thd_dY t. Proof. unfold thd_dY. apply Rdiv_lt_0_compat; [lra|apply nc_pos]. Qed.

Definition Ce i j := (thd_dZ t * h (thd_angle t c j + / 2 * thd_dtheta t) ^ 3) / (12 * mu_east (th_nc t) mu i j * thd_dY t * thd_beta t ^ 2).
Definition Cw i j := (thd_dZ t * h (thd_angle t c j - / 2 * thd_dtheta t) ^ 3) / (12 * mu_west mu i j * thd_dY t * thd_beta t ^ 2).
Definition Cn i j := (thd_dY t * th_rj t ^ 2 * h (thd_angle t c j) ^ 3) / (12 * mu_north (th_na t) mu i j * thd_dZ t * th_len t ^ 2).
Definition Cs i j := (thd_dY t * th_rj t ^ 2 * h (thd_angle t c j) ^ 3) / (12 * mu_south mu i j * thd_dZ t * th_len t ^ 2).
Definition Bb j := thd_dZ t / (2 * thd_beta t) * (h (thd_angle t c j + / 2 * thd_dtheta t) - h (thd_angle t c j - / 2 * thd_dtheta t)) -
  (st_xpt s * cos (thd_angle t c j) + st_ypt s * sin (thd_angle t c j)) * thd_dY t * thd_dZ t.
Lemma cell_eq i j : (i < th_na t)%nat -> (j < th_nc t)%nat -> thd_cell t s h (thd_angle t c j) mu i j = (Ce i j, Cw i j, Cn i j, Cs i j, Bb j).
Proof. intros Hi Hj. unfold thd_cell. rewrite mus_eq by assumption. reflexivity. Qed.
Definition net (p : mat) (i j : nat) : R := Ce i j * (p_east (th_nc t) p i j - p i j) + Cw i j * (p_west p i j - p i j) + Cn i j * (p_north (th_na t) p i j - p i j) + Cs i j * (p_south p i j - p i j).

Definition P0 : R := th_mu t * st_w s * th_rj t ^ 2 / th_cr t ^ 2.
(** the balance of oil, in cubic metres per second, is the equation of the code times cr w rj len beta *)
Lemma balance_net (p : mat) i j : (i < th_na t)%nat -> (j < th_nc t)%nat ->
  cell_balance (th_na t) (th_nc t) (th_rj t) (th_len t) (st_w s * th_rj t) (thd_thetaI t c) (thd_dtheta t) (fun g => th_cr t * h g)
    (squeeze (th_cr t * st_w s * st_xpt s) (th_cr t * st_w s * st_ypt s)) (fun i j => th_mu t * mu i j) (fun i j => P0 * p i j) i j <->
  th_cr t * st_w s * th_rj t * th_len t * thd_beta t * (Bb j - net p i j) = 0.
Proof.
  intros Hi Hj. pose proof beta_pos as Hbe. pose proof na_pos as Ha. pose proof nc_pos as Hc. destruct (mus_pos i j Hi Hj) as (Me & Mw & Ms & Mn).
  unfold cell_balance. cbv zeta.
  replace (thd_thetaI t c + (INR j + 1) * thd_dtheta t) with (thd_angle t c j + / 2 * thd_dtheta t) by (unfold thd_angle; field).
  replace (thd_thetaI t c + INR j * thd_dtheta t) with (thd_angle t c j - / 2 * thd_dtheta t) by (unfold thd_angle; field).
  replace (thd_thetaI t c + (INR j + / 2) * thd_dtheta t) with (thd_angle t c j) by (unfold thd_angle; field).
  assert (E1 : p_east (th_nc t) (fun i j => P0 * p i j) i j = P0 * p_east (th_nc t) p i j) by (unfold p_east; destruct (Nat.eqb (j + 1) (th_nc t)); ring).
  assert (E2 : p_west (fun i j => P0 * p i j) i j = P0 * p_west p i j) by (unfold p_west; destruct j; ring).
  assert (E3 : p_north (th_na t) (fun i j => P0 * p i j) i j = P0 * p_north (th_na t) p i j) by (unfold p_north; destruct (Nat.eqb (i + 1) (th_na t)); ring).
  assert (E4 : p_south (fun i j => P0 * p i j) i j = P0 * p_south p i j) by (unfold p_south; destruct i; ring).
  assert (F1 : mu_east (th_nc t) (fun i j => th_mu t * mu i j) i j = th_mu t * mu_east (th_nc t) mu i j) by (unfold mu_east; destruct (Nat.eqb (j + 1) (th_nc t)); field).
  assert (F2 : mu_west (fun i j => th_mu t * mu i j) i j = th_mu t * mu_west mu i j) by (unfold mu_west; destruct j; field).
  assert (F3 : mu_north (th_na t) (fun i j => th_mu t * mu i j) i j = th_mu t * mu_north (th_na t) mu i j) by (unfold mu_north; destruct (Nat.eqb (i + 1) (th_na t)); field).
  assert (F4 : mu_south (fun i j => th_mu t * mu i j) i j = th_mu t * mu_south mu i j) by (unfold mu_south; destruct i; field).
  rewrite E1, E2, E3, E4, F1, F2, F3, F4. unfold net, Bb, Ce, Cw, Cn, Cs, flow_around, flow_axial, squeeze, P0.
  set (he := h (thd_angle t c j + / 2 * thd_dtheta t)). set (hw := h (thd_angle t c j - / 2 * thd_dtheta t)). set (hp := h (thd_angle t c j)).
  set (pe := p_east (th_nc t) p i j). set (pw := p_west p i j). set (pn := p_north (th_na t) p i j). set (ps := p_south p i j).
  revert Me Mw Ms Mn. generalize (mu_east (th_nc t) mu i j) (mu_west mu i j) (mu_south mu i j) (mu_north (th_na t) mu i j). intros me mw ms mn Me Mw Ms Mn.
  unfold thd_dtheta, thd_dY, thd_dZ in *. clearbody he hw hp pe pw pn ps. revert Hbe Ha Hc. generalize (thd_beta t) (INR (th_na t)) (INR (th_nc t)) (p i j) (cos (thd_angle t c j)) (sin (thd_angle t c j)). intros be a n q cg sg Hbe Ha Hc.
  match goal with |- ?x = 0 <-> ?y = 0 => assert (E : x = y); [|rewrite E; tauto] end.
  field. repeat split; lra.
Qed.
Hypothesis Hh : forall g, 0 < h g.
Lemma coef_pos i j : (i < th_na t)%nat -> (j < th_nc t)%nat -> 0 < Ce i j /\ 0 < Cw i j /\ 0 < Cn i j /\ 0 < Cs i j.
Proof.
  intros Hi Hj. pose proof beta_pos. pose proof dY_pos. pose proof dZ_pos. destruct (mus_pos i j Hi Hj) as (Me & Mw & Ms & Mn).
  assert (H3 : forall g, 0 < h g ^ 3) by (intros; apply pow_lt, Hh). assert (0 < thd_beta t ^ 2) by (apply pow_lt; assumption). assert (0 < th_rj t ^ 2) by (apply pow_lt; assumption). assert (0 < th_len t ^ 2) by (apply pow_lt; assumption).
  unfold Ce, Cw, Cn, Cs. repeat split; apply Rdiv_lt_0_compat; repeat first [assumption | apply H3 | lra | apply Rmult_lt_0_compat].
Qed.
Lemma net_zero_below (p : mat) : (forall i j, (i < th_na t)%nat -> (j < th_nc t)%nat -> 0 <= net p i j) -> forall i j, (i < th_na t)%nat -> (j < th_nc t)%nat -> p i j <= 0.
Proof. intros H. apply (pad_max (th_na t) (th_nc t) Hna Hnc Ce Cw Cn Cs p); try (intros i j Hi Hj; apply coef_pos; assumption). exact H. Qed.
Lemma net_minus (p q : mat) i j : net (fun i j => p i j - q i j) i j = net p i j - net q i j.
Proof. unfold net, p_east, p_west, p_north, p_south. destruct (Nat.eqb (j + 1) (th_nc t)), (Nat.eqb (i + 1) (th_na t)), i, j; ring. Qed.
Lemma net_ext (p q : mat) i j : (i < th_na t)%nat -> (j < th_nc t)%nat -> (forall i j, (i < th_na t)%nat -> (j < th_nc t)%nat -> p i j = q i j) -> net p i j = net q i j.
Proof.
  intros Hi Hj E. unfold net, p_east, p_west, p_north, p_south. destruct (Nat.eqb_spec (j + 1) (th_nc t)), (Nat.eqb_spec (i + 1) (th_na t)), i, j; rewrite ?E by lia; reflexivity.
Qed.
Lemma net_unique (p q : mat) : (forall i j, (i < th_na t)%nat -> (j < th_nc t)%nat -> net p i j = net q i j) -> forall i j, (i < th_na t)%nat -> (j < th_nc t)%nat -> p i j = q i j.
Proof.
  intros H i j Hi Hj.
  assert (A : p i j - q i j <= 0). { apply (net_zero_below (fun i j => p i j - q i j)); auto. intros i' j' Hi' Hj'. rewrite net_minus, H by assumption. lra. }
  assert (B : q i j - p i j <= 0). { apply (net_zero_below (fun i j => q i j - p i j)); auto. intros i' j' Hi' Hj'. rewrite net_minus, H by assumption. lra. } lra.
Qed.

(** the matrix of the code *)
Lemma idx_div i j : (j < th_nc t)%nat -> ((i * th_nc t + j) / th_nc t = i)%nat. Proof. intros H. symmetry. apply Nat.div_unique with j; lia. Qed.
Lemma idx_mod i j : (j < th_nc t)%nat -> ((i * th_nc t + j) mod th_nc t = j)%nat. Proof. intros H. symmetry. apply Nat.mod_unique with i; lia. Qed.
Lemma sys_rhs prev i j : (i < th_na t)%nat -> (j < th_nc t)%nat -> snd (thd_system t s h c mu prev) (i * th_nc t + j)%nat = Bb j.
Proof. intros Hi Hj. unfold thd_system. cbn [snd]. rewrite idx_div, idx_mod, cell_eq by assumption. reflexivity. Qed.
(** what an earlier pass left in the matrix makes no difference *)
Definition left_over (M : mat) : Prop := (forall a b, M a b = 0) \/ exists s' h' c' mu', M = fst (thd_system t s' h' c' mu' mzero).
Lemma row_zero na nc ce cw cn cs i j (r : vec) : (forall b, r b = 0) -> forall b, thd_row na nc ce cw cn cs i j r b = thd_row na nc ce cw cn cs i j (fun _ => 0) b.
Proof. intros H b. unfold thd_row. repeat match goal with |- context [if ?x then _ else _] => destruct x end; unfold put; repeat match goal with |- context [Nat.eqb b ?x] => destruct (Nat.eqb b x) end; auto. Qed.
Lemma sys_clean prev : left_over prev -> forall a b, fst (thd_system t s h c mu prev) a b = fst (thd_system t s h c mu mzero) a b.
Proof.
  intros [Z|(s' & h' & c' & mu' & E)] a b.
  - unfold thd_system. cbn [fst]. destruct (thd_cell _ _ _ _ _ _ _) as ((((ce & cw) & cn) & cs) & bb). rewrite (row_zero _ _ _ _ _ _ _ _ (prev a)) by (intros; apply Z). reflexivity.
  - subst prev. unfold thd_system. cbn [fst]. destruct (thd_cell _ _ _ _ _ _ _) as ((((ce & cw) & cn) & cs) & bb). destruct (thd_cell _ _ _ _ _ _ _) as ((((ce' & cw') & cn') & cs') & bb').
    apply (row_again (th_na t) (th_nc t) ce cw cn cs ce' cw' cn' cs').
Qed.
Lemma sys_mul X i j : (i < th_na t)%nat -> (j < th_nc t)%nat ->
  mulv (th_na t * th_nc t) (fst (thd_system t s h c mu mzero)) X (i * th_nc t + j)%nat = net (fun i j => X (i * th_nc t + j)%nat) i j.
Proof.
  intros Hi Hj. unfold mulv, thd_system. cbn [fst]. rewrite idx_div, idx_mod, cell_eq by assumption. apply (row_dot (th_na t) (th_nc t) Hna Hnc); assumption.
Qed.
Lemma idx_split a : (a < th_na t * th_nc t)%nat -> exists i j, (i < th_na t)%nat /\ (j < th_nc t)%nat /\ a = (i * th_nc t + j)%nat.
Proof.
  intros H. exists (a / th_nc t)%nat, (a mod th_nc t)%nat. pose proof (Nat.div_mod a (th_nc t)). split; [apply Nat.div_lt_upper_bound; lia|]. split; [apply Nat.mod_upper_bound; lia|lia].
Qed.
Lemma sys_nonsingular prev : left_over prev -> nonsingular (th_na t * th_nc t) (fst (thd_system t s h c mu prev)).
Proof.
  intros L x H. assert (N : forall i j, (i < th_na t)%nat -> (j < th_nc t)%nat -> net (fun i j => x (i * th_nc t + j)%nat) i j = net (fun _ _ => 0) i j).
  { intros i j Hi Hj. rewrite <- sys_mul by assumption. transitivity 0; [|unfold net, p_east, p_west, p_north, p_south; destruct (Nat.eqb (j + 1) (th_nc t)), (Nat.eqb (i + 1) (th_na t)), i, j; ring].
    rewrite <- (H (i * th_nc t + j)%nat) by nia. unfold mulv. apply sumn_ext. intros k _. rewrite (sys_clean prev L). reflexivity. }
  intros a Ha. destruct (idx_split a Ha) as (i & j & Hi & Hj & ->). exact (net_unique _ _ N i j Hi Hj).
Qed.
Lemma sys_solve la prev : linalg_ok la -> left_over prev -> let '(M, b) := thd_system t s h c mu prev in
  exists X, la_solve la (th_na t * th_nc t) M (fun a _ => b a) = Ok X /\ forall i j, (i < th_na t)%nat -> (j < th_nc t)%nat -> net (fun i j => X (i * th_nc t + j)%nat 0%nat) i j = Bb j.
Proof.
  intros La L. destruct (thd_system t s h c mu prev) as [M b] eqn:E. pose proof (sys_nonsingular prev L) as NS. rewrite E in NS. cbn [fst] in NS.
  destruct (la_solve la (th_na t * th_nc t) M (fun a _ => b a)) as [X|e] eqn:Q; [|destruct (solve_err la La _ _ _ _ Q) as (_ & N); contradiction].
  exists X. split; [reflexivity|]. intros i j Hi Hj. destruct (solve_sol la La _ _ _ _ Q) as (_ & S). specialize (S (i * th_nc t + j)%nat 0%nat ltac:(nia) ltac:(nia)).
  rewrite <- (sys_mul (fun a => X a 0%nat)) by assumption. rewrite <- (sys_rhs prev i j Hi Hj). rewrite E. cbn [snd]. rewrite <- S. unfold mulv, mulm. apply sumn_ext. intros k _.
  rewrite <- (sys_clean prev L), E. reflexivity.
Qed.
End Pad.
