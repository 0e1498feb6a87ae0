(** C84: the oil film of a thermo-hydrodynamic bearing: its thickness, its pressure, its force *)
From Coq Require Import Reals String List Arith Bool Lia Lra Psatz.
From Verif Require Import PyBase MatBase LMat CMat MDynamics MBearing MThd SpecFluid SpecThd LStoch LThd LThd2 LDynEx.
Import ListNotations.
Open Scope R_scope.

(** the film, in metres, at the angle g of the pad n_p (counted from 0), when the journal centre is at (x, y) metres; the pads of a lobed bearing are centred at 90 and 270 degrees *)
Definition bearing_film (t : thd) (n_p : nat) (x y g : R) : R :=
  match th_geom t with
  | Circular => film (th_cr t) x y g
  | Lobe => lobe_film (th_cr t) (th_preload t) x y (match n_p with O => PI / 2 | _ => 3 * PI / 2 end) g
  | Elliptical => ellipse_film (th_cr t) (th_preload t) x y g
  end.
(** the state in which the code holds the position (x, y), in metres, and the velocity (vx, vy), in m/s *)
Definition at_position (t : thd) (w x y vx vy : R) : thd_state := mkSt w (x / th_cr t) (y / th_cr t) (vx / (th_cr t * w)) (vy / (th_cr t * w)).
(** a bearing as it is meant to be *)
Definition sound (t : thd) : Prop :=
  0 < th_len t /\ 0 < th_rj t /\ 0 < th_cr t /\ 0 < th_arc t /\ 0 < th_mu t /\ 0 <= th_preload t < 1 /\ (2 <= th_na t)%nat /\ (2 <= th_nc t)%nat /\ (th_geom t = Lobe -> (th_npad t <= 2)%nat).
(** the journal does not touch the bearing *)
Definition inside (t : thd) (x y : R) : Prop := x ^ 2 + y ^ 2 < th_cr t ^ 2.
(** first angle of the pad that starts at c degrees, and the width of a cell, in radians *)
Definition first_angle (t : thd) (c : nat) : R := (INR c + 180 / INR (th_npad t) - th_arc t / 2) * PI / 180.
Definition cell_angle (t : thd) : R := th_arc t * PI / 180 / INR (th_nc t).

Lemma film_value t w x y vx vy n_p g : 0 < th_cr t -> 0 <= th_preload t < 1 -> (th_geom t = Lobe -> (n_p < 2)%nat) -> th_cr t * thd_h t (at_position t w x y vx vy) n_p g = bearing_film t n_p x y g.
Proof.
  intros Hc Hm Hl. unfold bearing_film, thd_h, thd_film, at_position. cbn [st_x st_y]. destruct (th_geom t) eqn:G.
  - unfold film. field. lra.
  - destruct n_p as [|[|n]]; [| |specialize (Hl eq_refl); lia]; cbn [nth_error]; unfold lobe_film, film; [replace (90 * PI / 180) with (PI / 2) by field|replace (270 * PI / 180) with (3 * PI / 2) by field]; rewrite cos_minus; field; lra.
  - unfold ellipse_film, film. pose proof (sin2_cos2 g) as E. unfold Rsqr in E. replace (sin g ^ 2) with (1 - cos g ^ 2) by nra. field. lra.
Qed.
Lemma inside_unit t x y w vx vy : 0 < th_cr t -> inside t x y -> sqrt (st_x (at_position t w x y vx vy) ^ 2 + st_y (at_position t w x y vx vy) ^ 2) < 1.
Proof.
  intros Hc Hi. unfold inside in Hi. cbn [at_position st_x st_y]. rewrite <- sqrt_1 at 1. apply sqrt_lt_1; [|lra|].
  - pose proof (pow2_ge_0 (x / th_cr t)). pose proof (pow2_ge_0 (y / th_cr t)). lra.
  - replace ((x / th_cr t) ^ 2 + (y / th_cr t) ^ 2) with ((x ^ 2 + y ^ 2) / th_cr t ^ 2) by (field; lra). apply (Rmult_lt_reg_r (th_cr t ^ 2)); [apply pow_lt; exact Hc|]. unfold Rdiv. rewrite Rmult_assoc, Rinv_l, Rmult_1_r, Rmult_1_l by (apply pow_nonzero; lra). exact Hi.
Qed.
(** ** Thickness *)
Theorem C84_film : forall t w x y vx vy n_p g, sound t -> (n_p < th_npad t)%nat ->
  exists v, thd_film t (at_position t w x y vx vy) n_p g = Ok v /\ th_cr t * v = bearing_film t n_p x y g /\ (inside t x y -> 0 < th_cr t - sqrt (x ^ 2 + y ^ 2) <= bearing_film t n_p x y g).
Proof.
  intros t w x y vx vy n_p g (Hl & Hr & Hc & Ha & Hv & Hm & Hna & Hnc & Hlobe) Hn. assert (L : th_geom t = Lobe -> (n_p < 2)%nat) by (intros G; specialize (Hlobe G); lia).
  exists (thd_h t (at_position t w x y vx vy) n_p g). split; [apply film_defined; exact L|]. split; [apply film_value; assumption|]. intros Hi. pose proof (inside_unit t x y w vx vy Hc Hi) as U. pose proof (film_lower t (at_position t w x y vx vy) n_p g L Hm) as F.
  assert (S : th_cr t * sqrt (st_x (at_position t w x y vx vy) ^ 2 + st_y (at_position t w x y vx vy) ^ 2) = sqrt (x ^ 2 + y ^ 2)).
  { cbn [at_position st_x st_y]. rewrite <- (sqrt_pow2 (th_cr t)) at 1 by lra. rewrite <- sqrt_mult by (try apply pow2_ge_0; pose proof (pow2_ge_0 (x / th_cr t)); pose proof (pow2_ge_0 (y / th_cr t)); lra). f_equal. field. lra. }
  rewrite <- (film_value t w x y vx vy n_p g Hc Hm L). set (e := sqrt (st_x _ ^ 2 + st_y _ ^ 2)) in *. rewrite <- S. nra.
Qed.
(** A lobed bearing with three pads or more has no film at its third pad. *)
Theorem C84_three_lobes_refuted : forall la t s n_p c mu prev, th_geom t = Lobe -> (2 <= n_p)%nat -> thd_flooded la t s n_p c mu prev = Err IndexError.
Proof. intros la t s n_p c mu prev G H. unfold thd_flooded, thd_film. rewrite G. destruct n_p as [|[|n]]; [lia|lia|]. cbn [nth_error]. destruct n; reflexivity. Qed.

(** ** Pressure *)
Section Flooded.
Variables (la : linalg) (t : thd) (w x y vx vy : R) (n_p c : nat) (mu prev : mat).
Hypothesis La : linalg_ok la.
Hypothesis St : sound t.
Hypothesis Hw : 0 < w.
Hypothesis Hi : inside t x y.
Hypothesis Hn : (n_p < th_npad t)%nat.
Hypothesis Hmu : forall i j, (i < th_na t)%nat -> (j < th_nc t)%nat -> 0 < mu i j.
Let s := at_position t w x y vx vy.
Lemma lobe_bound : th_geom t = Lobe -> (n_p < 2)%nat.
Proof. destruct St as (_ & _ & _ & _ & _ & _ & _ & _ & H). intros G. specialize (H G). lia. Qed.
Lemma h_pos g : 0 < thd_h t s n_p g.
Proof. destruct St as (Hl & Hr & Hc & Ha & Hv & Hm & Hna & Hnc & Hlobe). pose proof (film_lower t s n_p g lobe_bound Hm). pose proof (inside_unit t x y w vx vy Hc Hi). fold s in H0. lra. Qed.
Definition balance (q : mat) : Prop := oil_balance (th_na t) (th_nc t) (th_rj t) (th_len t) (w * th_rj t) (first_angle t c) (cell_angle t) (bearing_film t n_p x y) (squeeze vx vy) (fun i j => th_mu t * mu i j) q.
Lemma balance_is_net (q : mat) : balance q <-> forall i j, (i < th_na t)%nat -> (j < th_nc t)%nat -> net t (thd_h t s n_p) c mu (fun i j => q i j / P0 t s) i j = Bb t s (thd_h t s n_p) c j.
Proof.
  destruct St as (Hl & Hr & Hc & Ha & Hv & Hm & Hna & Hnc & Hlobe). assert (P : P0 t s <> 0). { unfold P0. cbn [s at_position st_w]. apply Rgt_not_eq, Rdiv_lt_0_compat; [|apply pow_lt; exact Hc]. repeat first [assumption | apply pow_lt; assumption | apply Rmult_lt_0_compat]. }
  assert (B : 0 < thd_beta t) by (unfold thd_beta; pose proof PI_RGT_0; apply Rmult_lt_0_compat; nra).
  assert (G : forall i j, (i < th_na t)%nat -> (j < th_nc t)%nat -> cell_balance (th_na t) (th_nc t) (th_rj t) (th_len t) (w * th_rj t) (first_angle t c) (cell_angle t) (bearing_film t n_p x y) (squeeze vx vy) (fun i j => th_mu t * mu i j) q i j <->
    net t (thd_h t s n_p) c mu (fun i j => q i j / P0 t s) i j = Bb t s (thd_h t s n_p) c j).
  { intros i j Ii Ij. pose proof (balance_net t s (thd_h t s n_p) c mu Hna Hnc Hmu Hl Hr Hc Ha Hv (fun i j => q i j / P0 t s) i j Ii Ij) as E.
    change (thd_thetaI t c) with (first_angle t c) in E. change (thd_dtheta t) with (cell_angle t) in E. change (st_w s) with w in E.
    replace (th_cr t * w * st_xpt s) with vx in E by (cbn [s at_position st_xpt]; field; lra). replace (th_cr t * w * st_ypt s) with vy in E by (cbn [s at_position st_ypt]; field; lra).
    assert (E' : cell_balance (th_na t) (th_nc t) (th_rj t) (th_len t) (w * th_rj t) (first_angle t c) (cell_angle t) (bearing_film t n_p x y) (squeeze vx vy) (fun i j => th_mu t * mu i j) q i j <->
       cell_balance (th_na t) (th_nc t) (th_rj t) (th_len t) (w * th_rj t) (first_angle t c) (cell_angle t) (fun g => th_cr t * thd_h t s n_p g) (squeeze vx vy) (fun i j => th_mu t * mu i j) (fun i j => P0 t s * (q i j / P0 t s)) i j).
    { unfold cell_balance. unfold s. rewrite !(film_value t w x y vx vy n_p) by (first [assumption | exact lobe_bound]). fold s.
      assert (Q : forall i j, P0 t s * (q i j / P0 t s) = q i j) by (intros; field; exact P). unfold p_east, p_west, p_north, p_south. destruct i, j; rewrite !Q; tauto. }
    rewrite E', E. split; intros X.
    - apply Rmult_integral in X. destruct X as [X|X]; [|lra]. exfalso. revert X. apply Rgt_not_eq. repeat first [assumption | apply Rmult_lt_0_compat].
    - rewrite X. ring. }
  unfold balance, oil_balance. split; intros H i j Ii Ij; apply G; auto.
Qed.
(** The pressure of a pad in flooded operation is computed without an error, whatever an earlier pass left in the matrix. There is exactly one field q in which the oil of every cell is balanced,
    with zero pressure at the edges of the pad, and the result is q where q is positive, and zero elsewhere. *)
Theorem C84_flooded : left_over t prev -> exists p q, thd_flooded la t s n_p c mu prev = Ok p /\ balance q /\
  (forall q', balance q' -> forall i j, (i < th_na t)%nat -> (j < th_nc t)%nat -> q' i j = q i j) /\ (forall i j, (i < th_na t)%nat -> (j < th_nc t)%nat -> p i j = Rmax 0 (q i j)).
Proof.
  intros L. destruct St as (Hl & Hr & Hc & Ha & Hv & Hm & Hna & Hnc & Hlobe). assert (P : 0 < P0 t s). { unfold P0. cbn [s at_position st_w]. apply Rdiv_lt_0_compat; [|apply pow_lt; exact Hc]. repeat first [assumption | apply pow_lt; assumption | apply Rmult_lt_0_compat]. }
  pose proof (sys_solve t s (thd_h t s n_p) c mu Hna Hnc Hmu Hl Hr Ha h_pos la prev La L) as Sol.
  unfold thd_flooded. rewrite (film_defined t s n_p 0) by exact lobe_bound. cbn [bind]. fold (thd_h t s n_p). assert (N : (Nat.ltb (th_na t) 2 || Nat.ltb (th_nc t) 2)%bool = false) by (apply orb_false_iff; split; apply Nat.ltb_ge; assumption). rewrite N.
  change (fun g : R => match thd_film t s n_p g with Ok v => v | Err _ => 0 end) with (thd_h t s n_p). destruct (thd_system t s (thd_h t s n_p) c mu prev) as [M b]. destruct Sol as (X & E & S). rewrite E. cbn [bind].
  eexists. exists (fun i j => P0 t s * X (i * th_nc t + j)%nat 0%nat). split; [reflexivity|].
  assert (Q : forall i j, P0 t s * X (i * th_nc t + j)%nat 0%nat / P0 t s = X (i * th_nc t + j)%nat 0%nat) by (intros; field; lra).
  assert (B : balance (fun i j => P0 t s * X (i * th_nc t + j)%nat 0%nat)).
  { apply balance_is_net. intros i j Ii Ij. rewrite <- (S i j Ii Ij). apply net_ext; auto. }
  split; [exact B|]. split.
  - intros q' B' i j Ii Ij. rewrite balance_is_net in B, B'. assert (U : q' i j / P0 t s = P0 t s * X (i * th_nc t + j)%nat 0%nat / P0 t s).
    { apply (net_unique t (thd_h t s n_p) c mu Hna Hnc Hmu Hl Hr Ha h_pos (fun i j => q' i j / P0 t s) (fun i j => P0 t s * X (i * th_nc t + j)%nat 0%nat / P0 t s)); auto. intros. rewrite B, B' by assumption. reflexivity. }
    apply (Rmult_eq_reg_r (/ P0 t s)); [exact U|]. apply Rinv_neq_0_compat. lra.
  - intros i j Ii Ij. cbv zeta. set (v := X (i * th_nc t + j)%nat 0%nat). replace ((if Rlt_dec v 0 then 0 else v) * th_mu t * st_w s * th_rj t ^ 2 / th_cr t ^ 2) with ((if Rlt_dec v 0 then 0 else v) * P0 t s) by (unfold P0; field; lra).
    destruct (Rlt_dec v 0); [rewrite Rmax_left by nra; ring|rewrite Rmax_right by nra; ring].
Qed.
(** the sign of the wedge decides: a film that does not converge anywhere and does not get thinner gives no pressure *)
Theorem C84_no_wedge : left_over t prev -> (forall g, bearing_film t n_p x y (g - cell_angle t / 2) <= bearing_film t n_p x y (g + cell_angle t / 2)) -> (forall g, 0 <= squeeze vx vy g) ->
  exists p, thd_flooded la t s n_p c mu prev = Ok p /\ forall i j, (i < th_na t)%nat -> (j < th_nc t)%nat -> p i j = 0.
Proof.
  intros L Wd Sq. destruct (C84_flooded L) as (p & q & E & B & _ & V). exists p. split; [exact E|]. intros i j Ii Ij. rewrite V by assumption. apply Rmax_left.
  destruct St as (Hl & Hr & Hc & Ha & Hv & Hm & Hna & Hnc & Hlobe). assert (P : 0 < P0 t s). { unfold P0. cbn [s at_position st_w]. apply Rdiv_lt_0_compat; [|apply pow_lt; exact Hc]. repeat first [assumption | apply pow_lt; assumption | apply Rmult_lt_0_compat]. }
  rewrite balance_is_net in B. assert (D : q i j / P0 t s <= 0).
  { apply (net_zero_below t (thd_h t s n_p) c mu Hna Hnc Hmu Hl Hr Ha h_pos (fun i j => q i j / P0 t s)); auto. intros i' j' Ii' Ij'. rewrite B by assumption. unfold Bb.
    pose proof (Wd (thd_angle t c j')) as W1. pose proof (Sq (thd_angle t c j')) as S1. change (cell_angle t) with (thd_dtheta t) in W1.
    rewrite <- !(film_value t w x y vx vy n_p) in W1 by (first [assumption | exact lobe_bound]). fold s in W1. unfold squeeze in S1.
    replace (thd_angle t c j' - thd_dtheta t / 2) with (thd_angle t c j' - / 2 * thd_dtheta t) in W1 by field. replace (thd_angle t c j' + thd_dtheta t / 2) with (thd_angle t c j' + / 2 * thd_dtheta t) in W1 by field.
    assert (dZp : 0 < thd_dZ t) by (apply dZ_pos; assumption). assert (dYp : 0 < thd_dY t) by (apply dY_pos; assumption). assert (bp : 0 < thd_beta t) by (apply beta_pos; assumption).
    set (h1 := thd_h t s n_p (thd_angle t c j' + / 2 * thd_dtheta t)) in *. set (h2 := thd_h t s n_p (thd_angle t c j' - / 2 * thd_dtheta t)) in *.
    assert (A1 : 0 <= h1 - h2) by nra. assert (A2 : 0 <= thd_dZ t / (2 * thd_beta t) * (h1 - h2)) by (apply Rmult_le_pos; [apply Rlt_le, Rdiv_lt_0_compat; lra|exact A1]).
    assert (A3 : 0 <= - (st_xpt s * cos (thd_angle t c j') + st_ypt s * sin (thd_angle t c j'))).
    { cbn [s at_position st_xpt st_ypt]. replace (- (vx / (th_cr t * w) * cos (thd_angle t c j') + vy / (th_cr t * w) * sin (thd_angle t c j'))) with ((- vx * cos (thd_angle t c j') - vy * sin (thd_angle t c j')) * / (th_cr t * w)) by (field; lra).
      apply Rmult_le_pos; [exact S1|]. apply Rlt_le, Rinv_0_lt_compat, Rmult_lt_0_compat; assumption. }
    assert (A4 : 0 <= - (st_xpt s * cos (thd_angle t c j') + st_ypt s * sin (thd_angle t c j')) * thd_dY t * thd_dZ t) by (apply Rmult_le_pos; [apply Rmult_le_pos; [exact A3|lra]|lra]). lra. }
  apply (Rmult_le_reg_r (/ P0 t s)); [apply Rinv_0_lt_compat; exact P|]. unfold Rdiv in D. lra.
Qed.
(** the pressure is symmetric about the middle of the bearing if the viscosity is *)
Theorem C84_symmetric : left_over t prev -> (forall i j, (i < th_na t)%nat -> (j < th_nc t)%nat -> mu (th_na t - 1 - i)%nat j = mu i j) ->
  exists p, thd_flooded la t s n_p c mu prev = Ok p /\ forall i j, (i < th_na t)%nat -> (j < th_nc t)%nat -> p (th_na t - 1 - i)%nat j = p i j.
Proof.
  intros L Sy. destruct (C84_flooded L) as (p & q & E & B & U & V). exists p. split; [exact E|]. intros i j Ii Ij. rewrite !V by lia. f_equal. destruct St as (Hl & Hr & Hc & Ha & Hv & Hm & Hna & Hnc & Hlobe).
  apply (U (fun i j => q (th_na t - 1 - i)%nat j)); try assumption. clear i j Ii Ij. intros i j Ii Ij. assert (Ir : (th_na t - 1 - i < th_na t)%nat) by lia. pose proof (B _ j Ir Ij) as C. revert C. unfold cell_balance. cbv zeta.
  set (ir := (th_na t - 1 - i)%nat) in *.
  assert (N : p_north (th_na t) (fun i j => q (th_na t - 1 - i)%nat j) i j = p_south q ir j). { unfold p_north, p_south. destruct (Nat.eqb_spec (i + 1) (th_na t)) as [X|X]; [replace ir with 0%nat by (unfold ir; lia); replace (th_na t - 1 - i)%nat with 0%nat by lia; reflexivity|]. destruct ir as [|k] eqn:R; [unfold ir in R; lia|]. replace (th_na t - 1 - (i + 1))%nat with k by (unfold ir in R; lia). reflexivity. }
  assert (S : p_south (fun i j => q (th_na t - 1 - i)%nat j) i j = p_north (th_na t) q ir j). { unfold p_north, p_south. destruct i as [|k]; [assert (Nat.eqb (ir + 1) (th_na t) = true) as -> by (apply Nat.eqb_eq; unfold ir; lia); unfold ir; reflexivity|]. assert (Nat.eqb (ir + 1) (th_na t) = false) as -> by (apply Nat.eqb_neq; unfold ir; lia). f_equal. unfold ir. lia. }
  assert (Ee : p_east (th_nc t) (fun i j => q (th_na t - 1 - i)%nat j) i j = p_east (th_nc t) q ir j) by reflexivity.
  assert (Ew : p_west (fun i j => q (th_na t - 1 - i)%nat j) i j = p_west q ir j) by (unfold p_west; destruct j; reflexivity).
  assert (Me : mu_east (th_nc t) (fun i j => th_mu t * mu i j) i j = mu_east (th_nc t) (fun i j => th_mu t * mu i j) ir j). { unfold mu_east, ir. destruct (Nat.eqb_spec (j + 1) (th_nc t)); rewrite !Sy by lia; reflexivity. }
  assert (Mw : mu_west (fun i j => th_mu t * mu i j) i j = mu_west (fun i j => th_mu t * mu i j) ir j). { unfold mu_west, ir. destruct j; rewrite !Sy by lia; reflexivity. }
  assert (Mn : mu_north (th_na t) (fun i j => th_mu t * mu i j) i j = mu_south (fun i j => th_mu t * mu i j) ir j).
  { unfold mu_north, mu_south. destruct (Nat.eqb_spec (i + 1) (th_na t)) as [X|X]. - assert (R : ir = 0%nat) by (unfold ir; lia). rewrite R. rewrite <- (Sy i j Ii Ij). fold ir. rewrite R. reflexivity.
    - destruct ir as [|k] eqn:R; [unfold ir in R; lia|]. rewrite <- (Sy i j Ii Ij), <- (Sy (i + 1)%nat j ltac:(lia) Ij). fold ir. rewrite R. replace (th_na t - 1 - (i + 1))%nat with k by (unfold ir in R; lia). reflexivity. }
  assert (Ms : mu_south (fun i j => th_mu t * mu i j) i j = mu_north (th_na t) (fun i j => th_mu t * mu i j) ir j).
  { unfold mu_north, mu_south. destruct i as [|k]. - assert (Nat.eqb (ir + 1) (th_na t) = true) as -> by (apply Nat.eqb_eq; unfold ir; lia). rewrite <- (Sy 0%nat j Ii Ij). reflexivity.
    - assert (Nat.eqb (ir + 1) (th_na t) = false) as -> by (apply Nat.eqb_neq; unfold ir; lia). rewrite <- (Sy (Datatypes.S k) j Ii Ij), <- (Sy k j ltac:(lia) Ij). fold ir. replace (th_na t - 1 - k)%nat with (ir + 1)%nat by (unfold ir; lia). reflexivity. }
  rewrite N, S, Ee, Ew, Me, Mw, Mn, Ms. change (q (th_na t - 1 - i)%nat j) with (q ir j). unfold flow_around, flow_axial, Rdiv. intros C. rewrite <- C. ring.
Qed.
End Flooded.

(** ** Number of pads, and force *)
(** The number of pads that are laid out is n_pad exactly if n_pad divides 360. *)
Theorem C84_pads : forall n, (1 <= n <= 360)%nat -> exists l, thd_pad_ct n = Ok l /\ (n <= length l)%nat /\ (length l = n <-> Nat.divide n 360) /\ forall k, (k < length l)%nat -> nth k l 0%nat = (k * (360 / n))%nat.
Proof.
  intros n H. destruct (pads_ok n H) as (l & E & L). exists l. split; [exact E|]. rewrite L. split; [apply pads_at_least; exact H|]. split; [apply pads_exact; exact H|]. intros k Hk. apply (pads_nth n l k E). rewrite L. exact Hk.
Qed.
(** Other numbers of pads never give a force. *)
Theorem C84_pads_refuted : forall lib t s f, ~ Nat.divide (th_npad t) 360 -> (1 <= th_nc t)%nat -> thd_forces lib t s <> Ok f.
Proof.
  intros lib t s f D Hnc E. unfold thd_forces in E. apply bind_ok in E; destruct E as (starts & E1 & E2). destruct (Rlt_dec _ _); [discriminate|]. apply bind_ok in E2; destruct E2 as (ps & E3 & E4).
  destruct (Nat.eqb_spec (th_nc t * length starts) (th_nc t * th_npad t)) as [Q|Q]; [|discriminate]. assert (L : length starts = th_npad t) by nia.
  assert (B : (1 <= th_npad t <= 360)%nat). { unfold thd_pad_ct in E1. destruct (th_npad t) as [|k] eqn:N; [discriminate|]. destruct (le_lt_dec (S k) 360) as [?|G]; [lia|]. rewrite (Nat.div_small 360 (S k)) in E1 by lia. discriminate. }
  destruct (pads_ok _ B) as (l & E5 & L5). rewrite E1 in E5. injection E5 as <-. apply D, (pads_exact _ B). congruence.
Qed.
(** Other arguments that never give a force: a reference temperature below 2.5 (degrees Celsius), a groove factor that is one number, as documented. *)
Theorem C84_cold_refuted : forall lib t s f, th_tref t < 5 / 2 -> thd_forces lib t s <> Ok f.
Proof. intros lib t s f H E. unfold thd_forces in E. apply bind_ok in E; destruct E as (starts & E1 & E2). destruct (Rlt_dec _ _) as [?|N]; [discriminate|]. apply N. lra. Qed.
Theorem C84_groove_number_refuted : forall lib t s f g, th_oper t = Flooded -> th_groove t = GNumber g -> thd_forces lib t s <> Ok f.
Proof.
  intros lib t s f g Ho Hg E. unfold thd_forces in E. apply bind_ok in E; destruct E as (starts & E1 & E2). destruct (Rlt_dec _ _); [discriminate|]. apply bind_ok in E2; destruct E2 as (ps & E3 & E4). destruct (th_npad t) as [|k] eqn:N; [discriminate|].
  rewrite <- cons_seq in E3. cbn [mapM] in E3. apply bind_ok in E3; destruct E3 as (p0 & E5 & E6). unfold thd_pad in E5. rewrite Ho, Hg in E5. apply bind_ok in E5; destruct E5 as (pp & E7 & E8). discriminate.
Qed.
Lemma mapM_all {A B} (f : A -> res B) l : (forall x, In x l -> exists y, f x = Ok y) -> exists r, mapM f l = Ok r /\ length r = length l /\ forall k d d', (k < length l)%nat -> f (nth k l d) = Ok (nth k r d').
Proof.
  induction l as [|a l IH]; intros H; [exists []; repeat split; simpl; lia|]. destruct (H a (or_introl eq_refl)) as (b & Eb). destruct IH as (r & Er & Lr & Vr); [intros; apply H; right; assumption|].
  exists (b :: r). cbn [mapM]. rewrite Eb. cbn [bind]. rewrite Er. cbn [bind]. split; [reflexivity|]. split; [simpl; lia|]. intros [|k] d d' Hk; [exact Eb|]. apply Vr. simpl in Hk. lia.
Qed.
(** In flooded operation, with a list of groove factors and a number of pads that divides 360, the force is computed without an error, at every position inside of the bearing;
    the pressure it is summed from is that of C84_flooded, pad by pad. *)
Definition forces_defined (lib : thdlib) (t : thd) : Prop :=
  linalg_ok (tl_la lib) /\ sound t /\ th_oper t = Flooded /\ Nat.divide (th_npad t) 360 /\ (exists l, th_groove t = GList l /\ (th_npad t <= length l)%nat) /\ 5 / 2 <= th_tref t /\
  (forall s n_p i j, (i < th_na t)%nat -> (j < th_nc t)%nat -> 0 < tl_visc lib t s n_p i j).
Theorem C84_forces : forall lib t w x y vx vy, forces_defined lib t -> 0 < w -> inside t x y ->
  exists starts ps, thd_pad_ct (th_npad t) = Ok starts /\ length starts = th_npad t /\ length ps = th_npad t /\
    (forall n_p, (n_p < th_npad t)%nat -> thd_flooded (tl_la lib) t (at_position t w x y vx vy) n_p (nth n_p starts 0%nat) (tl_visc lib t (at_position t w x y vx vy) n_p) mzero = Ok (nth n_p ps mzero)) /\
    thd_forces_xy lib t w x y vx vy = Ok (thd_resultant t starts ps).
Proof.
  intros lib t w x y vx vy (La & St & Ho & Hd & (gl & Hg & Lg) & Ht & Hv) Hw Hi. unfold thd_forces_xy. fold (at_position t w x y vx vy).
  assert (B : (1 <= th_npad t <= 360)%nat). { split; [|apply Nat.divide_pos_le; [lia|exact Hd]]. destruct Hd as (q & Hq). destruct (th_npad t); [rewrite Nat.mul_0_r in Hq; discriminate|lia]. }
  destruct (pads_ok _ B) as (starts & E1 & L1). assert (L2 : length starts = th_npad t) by (rewrite L1; apply pads_exact; assumption).
  set (s := at_position t w x y vx vy).
  assert (FL : forall n_p, (n_p < th_npad t)%nat -> exists p, thd_flooded (tl_la lib) t s n_p (nth n_p starts 0%nat) (tl_visc lib t s n_p) mzero = Ok p).
  { intros n_p Hn. destruct (C84_flooded (tl_la lib) t w x y vx vy n_p (nth n_p starts 0%nat) (tl_visc lib t s n_p) mzero La St Hw Hi Hn (Hv s n_p) (or_introl (fun a b => eq_refl))) as (p & q & E & _). exists p. exact E. }
  assert (PD : forall n_p p, (n_p < th_npad t)%nat -> thd_flooded (tl_la lib) t s n_p (nth n_p starts 0%nat) (tl_visc lib t s n_p) mzero = Ok p -> thd_pad lib t s n_p (nth n_p starts 0%nat) = Ok p).
  { intros n_p p Hn E. unfold thd_pad. rewrite Ho, E. cbn [bind]. rewrite Hg. unfold thd_factor. destruct (nth_error gl n_p) eqn:N; [reflexivity|]. apply nth_error_None in N. lia. }
  destruct (mapM_all (fun n_p => thd_pad lib t s n_p (nth n_p starts 0%nat)) (seq 0 (th_npad t))) as (ps & E2 & L3 & V).
  { intros n_p Hn. apply in_seq in Hn. destruct (FL n_p) as (p & E); [lia|]. exists p. apply PD; [lia|exact E]. }
  rewrite seq_length in L3. exists starts, ps. split; [exact E1|]. split; [exact L2|]. split; [exact L3|]. split.
  - intros n_p Hn. specialize (V n_p 0%nat mzero). rewrite seq_length, seq_nth in V by exact Hn. specialize (V Hn). destruct (FL n_p Hn) as (p & E). pose proof (PD n_p p Hn E) as E'. simpl in V. rewrite E' in V. rewrite E. exact V.
  - unfold thd_forces. rewrite E1. cbn [bind]. destruct (Rlt_dec _ _); [lra|]. rewrite E2. cbn [bind]. rewrite L2, Nat.eqb_refl. reflexivity.
Qed.
Lemma trapz_0 ys xs : (forall y, In y ys -> y = 0) -> trapz ys xs = 0.
Proof.
  revert xs. induction ys as [|y0 ys IH]; intros xs H; [reflexivity|]. destruct ys as [|y1 ys]; [destruct xs as [|x0 [|x1 xs]]; reflexivity|]. destruct xs as [|x0 [|x1 xs]]; [reflexivity|reflexivity|].
  change ((x1 - x0) * (y0 + y1) / 2 + trapz (y1 :: ys) (x1 :: xs) = 0). rewrite IH by (intros; apply H; right; assumption). rewrite (H y0), (H y1) by (simpl; auto). field.
Qed.
(** *** What the force is *)
(** trapezoidal rule at the points x 0 .. x (n - 1): half the distance between the neighbours, at the ends half the distance to the neighbour *)
Definition trap_weight (n : nat) (x : nat -> R) (k : nat) : R := ((if Nat.eqb (k + 1) n then x k else x (k + 1)%nat) - (match k with O => x O | S k' => x k' end)) / 2.
(** angle of the cell k, counted through all pads, and position of the cell i along the axis *)
Definition cell_at (t : thd) (starts : list nat) (k : nat) : R := first_angle t (nth (k / th_nc t) starts 0%nat) + (INR (k mod th_nc t) + / 2) * cell_angle t.
Definition axial_at (t : thd) (i : nat) : R := (INR i + / 2) * (th_len t / INR (th_na t)).
(** the pressure pushes the journal away from the wall, along - (cos, sin) of the angle *)
Definition film_force (t : thd) (starts : list nat) (ps : list mat) (d : R -> R) : R :=
  - sumn (th_na t) (fun i => trap_weight (th_na t) (axial_at t) i * sumn (th_nc t * length starts) (fun k => th_rj t * trap_weight (th_nc t * length starts) (cell_at t starts) k *
      (nth (k / th_nc t) ps mzero i (k mod th_nc t)%nat * d (cell_at t starts k)))).
Lemma seq_shift_by n len : seq n len = map (fun k => (n + k)%nat) (seq 0 len).
Proof. revert n. induction len as [|len IH]; intros n; [reflexivity|]. cbn [seq map]. f_equal; [lia|]. rewrite IH, (IH 1%nat), map_map. apply map_ext. intros; lia. Qed.
Lemma sumn_left n (f : nat -> R) : sumn (S n) f = f 0%nat + sumn n (fun k => f (S k)).
Proof. induction n as [|n IH]; [simpl; ring|]. change (sumn (S n) f + f (S n) = f 0%nat + (sumn n (fun k => f (S k)) + f (S n))). rewrite IH. ring. Qed.
Lemma trapz_steps (f g : nat -> R) n : forall a, trapz (map f (seq a (S n))) (map g (seq a (S n))) = sumn n (fun k => (g (a + k + 1)%nat - g (a + k)%nat) * (f (a + k)%nat + f (a + k + 1)%nat) / 2).
Proof.
  induction n as [|n IH]; intros a; [reflexivity|]. rewrite sumn_left.
  change (seq a (S (S n))) with (a :: S a :: seq (S (S a)) n). cbn [map]. change ((g (S a) - g a) * (f a + f (S a)) / 2 + trapz (map f (seq (S a) (S n))) (map g (seq (S a) (S n))) = (g (a + 0 + 1)%nat - g (a + 0)%nat) * (f (a + 0)%nat + f (a + 0 + 1)%nat) / 2 + sumn n (fun k => (g (a + S k + 1)%nat - g (a + S k)%nat) * (f (a + S k)%nat + f (a + S k + 1)%nat) / 2)).
  rewrite IH. replace (a + 0 + 1)%nat with (S a) by lia. replace (a + 0)%nat with a by lia. f_equal. apply sumn_ext. intros k _. replace (S a + k)%nat with (a + S k)%nat by lia. reflexivity.
Qed.
Lemma trapz_seq (f g : nat -> R) n : trapz (map f (seq 0 n)) (map g (seq 0 n)) = sumn n (fun k => trap_weight n g k * f k).
Proof.
  destruct n as [|n]; [reflexivity|]. rewrite trapz_steps. cbn [Nat.add]. induction n as [|n IH].
  - simpl. unfold trap_weight. simpl. field.
  - change (sumn n (fun k => (g (k + 1)%nat - g k) * (f k + f (k + 1)%nat) / 2) + (g (n + 1)%nat - g n) * (f n + f (n + 1)%nat) / 2 = sumn (S n) (fun k => trap_weight (S (S n)) g k * f k) + trap_weight (S (S n)) g (S n) * f (S n)).
    rewrite IH. change (sumn (S n) (fun k => trap_weight (S n) g k * f k)) with (sumn n (fun k => trap_weight (S n) g k * f k) + trap_weight (S n) g n * f n).
    change (sumn (S n) (fun k => trap_weight (S (S n)) g k * f k)) with (sumn n (fun k => trap_weight (S (S n)) g k * f k) + trap_weight (S (S n)) g n * f n).
    rewrite (sumn_ext n (fun k => trap_weight (S n) g k * f k) (fun k => trap_weight (S (S n)) g k * f k)).
    + unfold trap_weight. rewrite (proj2 (Nat.eqb_eq (n + 1) (S n))) by lia. rewrite (proj2 (Nat.eqb_neq (n + 1) (S (S n)))) by lia. rewrite (proj2 (Nat.eqb_eq (S n + 1) (S (S n)))) by lia. replace (n + 1)%nat with (S n) by lia. field.
    + intros k Hk. unfold trap_weight. rewrite (proj2 (Nat.eqb_neq (k + 1) (S n))) by lia. rewrite (proj2 (Nat.eqb_neq (k + 1) (S (S n)))) by lia. reflexivity.
Qed.
Lemma concat_seq {A B} (F : A -> nat -> B) (d : A) n l : n <> 0%nat -> concat (map (fun a => map (F a) (seq 0 n)) l) = map (fun k => F (nth (k / n) l d) (k mod n)%nat) (seq 0 (n * length l)).
Proof.
  intros Hn. induction l as [|a l IH]; [rewrite Nat.mul_0_r; reflexivity|]. cbn [map concat length]. rewrite IH. replace (n * S (length l))%nat with (n + n * length l)%nat by lia. rewrite seq_app, map_app. f_equal.
  - apply map_ext_in. intros k Hk. apply in_seq in Hk. rewrite Nat.div_small, Nat.mod_small by lia. reflexivity.
  - cbn [Nat.add]. rewrite (seq_shift_by n (n * length l)), !map_map. apply map_ext_in. intros k Hk.
    replace (n + k)%nat with (k + 1 * n)%nat by lia. rewrite Nat.div_add, Nat.mod_add by exact Hn. replace (k / n + 1)%nat with (S (k / n)) by lia. reflexivity.
Qed.
Lemma combine_map {A B C} (f : A -> B) (g : A -> C) l : combine (map f l) (map g l) = map (fun x => (f x, g x)) l.
Proof. induction l; simpl; [reflexivity|f_equal; assumption]. Qed.
Theorem C84_force_value : forall t starts ps, (2 <= th_nc t)%nat -> length ps = length starts -> thd_resultant t starts ps = (film_force t starts ps cos, film_force t starts ps sin).
Proof.
  intros t starts ps Hc L. unfold thd_resultant. cbv zeta.
  assert (N : INR (th_nc t - 1) <> 0) by (apply not_0_INR; lia). assert (N0 : INR (th_nc t) <> 0) by (apply not_0_INR; lia). assert (N1 : INR (th_nc t - 1) = INR (th_nc t) - 1) by (rewrite minus_INR by lia; reflexivity).
  assert (A : concat (map (thd_ytheta t) starts) = map (cell_at t starts) (seq 0 (th_nc t * length starts))).
  { unfold cell_at. rewrite <- (concat_seq (fun c j => first_angle t c + (INR j + / 2) * cell_angle t) 0%nat) by lia. f_equal. apply map_ext. intros c. unfold thd_ytheta. apply map_ext. intros j.
    unfold thd_thetaI, thd_thetaF, thd_dtheta, thd_beta, first_angle, cell_angle. rewrite N1 in *. set (q := 180 / INR (th_npad t)). clearbody q. field. split; assumption. }
  assert (Z : map (fun i => th_len t * ((INR i + / 2) * thd_dZ t)) (seq 0 (th_na t)) = map (axial_at t) (seq 0 (th_na t))) by (apply map_ext; intros i; unfold axial_at, thd_dZ, Rdiv; ring).
  rewrite Z, A. unfold film_force.
  assert (G : forall d, - trapz (map (fun i => trapz (map (fun '(p, a) => p * d a) (combine (concat (map (fun p : mat => map (p i) (seq 0 (th_nc t))) ps)) (map (cell_at t starts) (seq 0 (th_nc t * length starts))))) (map (fun a => th_rj t * a) (map (cell_at t starts) (seq 0 (th_nc t * length starts))))) (seq 0 (th_na t)))
    (map (axial_at t) (seq 0 (th_na t))) = film_force t starts ps d).
  { intros d. unfold film_force. f_equal. rewrite trapz_seq. apply sumn_ext. intros i _. f_equal. rewrite (concat_seq (fun (p : mat) j => p i j) mzero) by lia. rewrite L, combine_map, !map_map, trapz_seq. apply sumn_ext. intros k _. f_equal.
    unfold trap_weight. destruct (Nat.eqb (k + 1) (th_nc t * length starts)), k; field. }
  rewrite !G. reflexivity.
Qed.
(** A circular bearing with the journal in its centre and at rest exerts no force. *)
Theorem C84_centred : forall lib t w, forces_defined lib t -> th_geom t = Circular -> 0 < w -> thd_forces_xy lib t w 0 0 0 0 = Ok (0, 0).
Proof.
  intros lib t w FD G Hw. assert (Hc : 0 < th_cr t) by (destruct FD as (_ & (_ & _ & H & _) & _); exact H). assert (Hi : inside t 0 0) by (unfold inside; assert (0 < th_cr t ^ 2) by (apply pow_lt; exact Hc); lra).
  destruct (C84_forces lib t w 0 0 0 0 FD Hw Hi) as (starts & ps & E1 & L1 & L2 & V & E). rewrite E. f_equal. destruct FD as (La & St & Ho & Hd & Hg & Ht & Hv).
  assert (Z : forall p, In p ps -> forall i j, (i < th_na t)%nat -> (j < th_nc t)%nat -> p i j = 0).
  { intros p Hp i j Ii Ij. destruct (In_nth _ _ mzero Hp) as (n_p & Hn & <-). rewrite L2 in Hn. specialize (V n_p Hn).
    destruct (C84_no_wedge (tl_la lib) t w 0 0 0 0 n_p (nth n_p starts 0%nat) (tl_visc lib t (at_position t w 0 0 0 0) n_p) mzero La St Hw Hi Hn (Hv _ n_p) (or_introl (fun a b => eq_refl))) as (p & E' & Zp).
    - intros g. unfold bearing_film. rewrite G. unfold film. lra.
    - intros g. unfold squeeze. lra.
    - rewrite V in E'. injection E' as <-. apply Zp; assumption. }
  unfold thd_resultant. cbv zeta.
  assert (W : forall d : R -> R, - trapz (map (fun i => trapz (map (fun '(p, a) => p * d a) (combine (concat (map (fun p : mat => map (p i) (seq 0 (th_nc t))) ps)) (concat (map (thd_ytheta t) starts)))) (map (fun a => th_rj t * a) (concat (map (thd_ytheta t) starts)))) (seq 0 (th_na t)))
    (map (fun i => th_len t * ((INR i + / 2) * thd_dZ t)) (seq 0 (th_na t))) = 0).
  { intros d. rewrite trapz_0; [ring|]. intros y Hy. apply in_map_iff in Hy. destruct Hy as (i & <- & Ii). apply in_seq in Ii. apply trapz_0. intros z Hz. apply in_map_iff in Hz. destruct Hz as ((p & a) & <- & Hz). apply in_combine_l in Hz.
    apply in_concat in Hz. destruct Hz as (row & Hr & Hp). apply in_map_iff in Hr. destruct Hr as (pm & <- & Hpm). apply in_map_iff in Hp. destruct Hp as (j & <- & Ij). apply in_seq in Ij. rewrite (Z pm Hpm i j) by lia. ring. }
  rewrite !W. reflexivity.
Qed.
(** the score that the search for the equilibrium makes small is zero exactly if the film carries the load *)
Theorem C84_equilibrium : forall lib t w pos fx fy, thd_forces_at lib t w pos = Ok (fx, fy) -> exists sc, thd_score lib t w pos = Ok sc /\ 0 <= sc /\ (sc = 0 <-> fx = - th_wx t /\ fy = - th_wy t).
Proof.
  intros lib t w pos fx fy E. unfold thd_score. rewrite E. cbn [bind]. eexists. split; [reflexivity|]. split; [apply sqrt_pos|]. pose proof (pow2_ge_0 (th_wx t + fx)) as A. pose proof (pow2_ge_0 (th_wy t + fy)) as B. split.
  - intros H. apply sqrt_eq_0 in H; [|lra]. assert (X : (th_wx t + fx) ^ 2 = 0) by lra. assert (Y : (th_wy t + fy) ^ 2 = 0) by lra. rewrite <- Rsqr_pow2 in X, Y. apply Rsqr_0_uniq in X, Y. lra.
  - intros (-> & ->). replace ((th_wx t + - th_wx t) ^ 2 + (th_wy t + - th_wy t) ^ 2) with 0 by ring. apply sqrt_0.
Qed.

(** ** An instance: the bearing of the example in the documentation of the class, with six pads *)
Definition ex_lib : thdlib := mkThdlib la0 (fun _ x => Ok (x, x)) (fun _ _ _ _ _ => 1) (fun _ _ _ => Err ValueError) (fun _ _ _ => Err ValueError).
Definition ex_t : thd := mkThd (1 / 4) (1 / 5) (2 / 10000) 11 3 6 50 0 Circular 50 0 (-1000) (GList [1; 1; 1; 1; 1; 1]) 3 Sommerfeld2 ByPerturbation Flooded (2 / 100).
Lemma ex_defined : forces_defined ex_lib ex_t.
Proof.
  split; [exact la0_ok|]. split; [unfold sound; cbn; repeat split; try lra; try lia; discriminate|]. split; [reflexivity|]. split; [exists 60%nat; reflexivity|]. split; [exists [1; 1; 1; 1; 1; 1]; split; [reflexivity|simpl; lia]|]. split; [cbn; lra|]. intros; cbn; lra.
Qed.
Example C84_instance : exists fx fy, thd_forces_xy ex_lib ex_t 94 (1 / 10000) (- 1 / 10000) (1 / 1000) 0 = Ok (fx, fy) /\ thd_forces_xy ex_lib ex_t 94 0 0 0 0 = Ok (0, 0).
Proof.
  destruct (C84_forces ex_lib ex_t 94 (1 / 10000) (- 1 / 10000) (1 / 1000) 0 ex_defined) as (starts & ps & _ & _ & _ & _ & E); [lra|unfold inside; cbn [th_cr ex_t]; lra|]. rewrite E. destruct (thd_resultant ex_t starts ps) as (fx & fy). exists fx, fy. split; [reflexivity|]. apply C84_centred; [exact ex_defined|reflexivity|lra].
Qed.

Print Assumptions C84_film.
Print Assumptions C84_three_lobes_refuted.
Print Assumptions C84_flooded.
Print Assumptions C84_no_wedge.
Print Assumptions C84_symmetric.
Print Assumptions C84_pads.
Print Assumptions C84_pads_refuted.
Print Assumptions C84_cold_refuted.
Print Assumptions C84_groove_number_refuted.
Print Assumptions C84_forces.
Print Assumptions C84_centred.
Print Assumptions C84_equilibrium.
Print Assumptions C84_instance.
Print Assumptions C84_force_value.
