(** Pressure and force of a short bearing film. *)
From Coq Require Import Reals String List Arith Bool Lia Lra.
From Coquelicot Require Import Coquelicot.
From Verif Require Import PyBase MatBase SpecFluid LFluid.
Import ListNotations.
Open Scope R_scope.

Lemma zero_der_const (f : R -> R) L : (forall z, 0 <= z <= L -> is_derive f z 0) -> forall z, 0 <= z <= L -> f z = f 0.
Proof.
  intros H z Hz. destruct (Req_EM_T z 0) as [->|N]; [reflexivity|]. symmetry. apply (eq_is_derive (V := R_NormedModule) f 0 z); [|lra].
  intros t Ht. apply H. lra.
Qed.
Lemma poisson_unique (p q q2 : R -> R) K L : 0 < L -> p 0 = 0 -> p L = 0 ->
  (forall z, 0 <= z <= L -> is_derive p z (q z) /\ is_derive q z (q2 z) /\ q2 z = K) ->
  forall z, 0 <= z <= L -> p z = K / 2 * (z * (z - L)).
Proof.
  intros HL H0 H1 H. 
  assert (Q : forall z, 0 <= z <= L -> q z - K * z = q 0 - K * 0).
  { apply (zero_der_const (fun z => q z - K * z)). intros z Hz. destruct (H z Hz) as (_ & Hq & E). rewrite E in Hq.
    evar_last; [apply (is_derive_minus (V := R_NormedModule) q (fun z => K * z)); [exact Hq|]|].
    - evar_last; [apply is_derive_scal; apply is_derive_id|reflexivity].
    - unfold minus, plus, opp, scal, one; simpl. unfold mult; simpl. ring. }
  assert (P : forall z, 0 <= z <= L -> p z - (K / 2 * z ^ 2 + q 0 * z) = p 0 - (K / 2 * 0 ^ 2 + q 0 * 0)).
  { apply (zero_der_const (fun z => p z - (K / 2 * z ^ 2 + q 0 * z))). intros z Hz. destruct (H z Hz) as (Hp & _).
    replace (q z) with (K * z + q 0) in Hp by (specialize (Q z Hz); lra).
    evar_last; [apply (is_derive_minus (V := R_NormedModule) p (fun z => K / 2 * z ^ 2 + q 0 * z)); [exact Hp|]|].
    - evar_last; [auto_derive; [auto|reflexivity]|reflexivity].
    - unfold minus, plus, opp; simpl. field. }
  pose proof (P L ltac:(lra)) as E. assert (E0 : q 0 = - (K / 2) * L) by (rewrite H0, H1 in E; apply Rmult_eq_reg_r with L; [nra|lra]).
  intros z Hz. specialize (P z Hz). rewrite H0, E0 in P. lra.
Qed.
Lemma poisson_int K L : is_RInt (fun z => K / 2 * (z * (z - L))) 0 L (- K * L ^ 3 / 12).
Proof.
  apply (int_der (fun z => K / 2 * (z ^ 3 / 3 - L * z ^ 2 / 2))).
  - intros z. auto_derive; [auto|]. field.
  - intros z. apply ex_cont. auto_derive. auto.
  - field.
Qed.
Lemma cos_shift a : cos (a + PI / 2) = - sin a. Proof. rewrite cos_plus, cos_PI2, sin_PI2. ring. Qed.
Lemma sin_shift a : sin (a + PI / 2) = cos a. Proof. rewrite sin_plus, cos_PI2, sin_PI2. ring. Qed.
Lemma film_theta c e phi th : film c (centre_x e phi) (centre_y e phi) (th + phi + PI / 2) = c + e * cos th.
Proof.
  unfold film, centre_x, centre_y. rewrite cos_shift, sin_shift, sin_plus, cos_plus. pose proof (sin2_cos2 phi) as Q. unfold Rsqr in Q.
  replace (cos th) with (cos th * (sin phi * sin phi + cos phi * cos phi)) at 3 by (rewrite Q; ring). ring.
Qed.
Lemma film_der c x y g : is_derive (film c x y) g (x * sin g - y * cos g).
Proof. unfold film. auto_derive; [auto|]. ring. Qed.
Definition src (mu omega e phi vx vy th : R) : R :=
  6 * mu * (- (omega * e - 2 * (vx * cos phi + vy * sin phi)) * sin th + 2 * (vx * sin phi - vy * cos phi) * cos th).
Lemma src_theta mu omega c e phi vx vy th :
  6 * mu * (omega * Derive (film c (centre_x e phi) (centre_y e phi)) (th + phi + PI / 2) + 2 * squeeze vx vy (th + phi + PI / 2)) = src mu omega e phi vx vy th.
Proof.
  rewrite (is_derive_unique _ _ _ (film_der _ _ _ _)). unfold src, squeeze, centre_x, centre_y. rewrite cos_shift, sin_shift, sin_plus, cos_plus.
  pose proof (sin2_cos2 phi) as Q. unfold Rsqr in Q.
  replace (- (omega * e - 2 * (vx * cos phi + vy * sin phi)) * sin th) with (- (omega * e * (sin phi * sin phi + cos phi * cos phi) - 2 * (vx * cos phi + vy * sin phi)) * sin th) by (rewrite Q; ring). ring.
Qed.
Section Short.
Variables mu omega c L Rj e phi vx vy : R.
Hypothesis Hc : 0 < c. Hypothesis HL : 0 < L. Hypothesis He : 0 < e < c.
Let x := centre_x e phi. Let y := centre_y e phi.
Lemma film_pos g : 0 < film c x y g.
Proof. replace g with ((g - phi - PI / 2) + phi + PI / 2) by ring. unfold x, y. rewrite film_theta. pose proof (COS_bound (g - phi - PI / 2)). nra. Qed.
Definition cap (g : R) : R := 6 * mu * (omega * Derive (film c x y) g + 2 * squeeze vx vy g) / film c x y g ^ 3.
Lemma short_unique p g z : short_pressure mu omega c L x y vx vy p -> 0 <= z <= L -> p g z = cap g / 2 * (z * (z - L)).
Proof.
  intros H Hz. destruct (H g) as (H0 & H1 & q & q2 & Hq). pose proof (film_pos g) as Hf.
  apply (poisson_unique (p g) q q2); auto. intros w Hw. destruct (Hq w Hw) as (A & B & E). split; [exact A|]. split; [exact B|].
  unfold cap. rewrite <- E. field. lra.
Qed.
Lemma short_exists : short_pressure mu omega c L x y vx vy (fun g z => cap g / 2 * (z * (z - L))).
Proof.
  intros g. pose proof (film_pos g) as Hf. split; [ring|]. split; [ring|]. exists (fun z => cap g / 2 * (2 * z - L)), (fun _ => cap g). intros z Hz.
  split; [auto_derive; [auto|ring]|]. split; [auto_derive; [auto|field]|]. unfold cap. field. lra.
Qed.
Lemma short_zint p g : short_pressure mu omega c L x y vx vy p -> RInt (p g) 0 L = - cap g * L ^ 3 / 12.
Proof.
  intros H. rewrite (RInt_ext (p g) (fun z => cap g / 2 * (z * (z - L)))).
  - apply is_RInt_unique, poisson_int.
  - intros z Hz. rewrite Rmin_left, Rmax_right in Hz by lra. apply short_unique; [exact H|lra].
Qed.
Let eps := e / c.
Let s := sqrt (1 - eps ^ 2).
Let B := mu * Rj * L ^ 3 / (2 * c ^ 3).
Let ur := vx * sin phi - vy * cos phi.
Let A1 := omega * e - 2 * (vx * cos phi + vy * sin phi).
Definition fr_val : R := B * (A1 * (2 * eps / s ^ 4) + ur * (PI * (1 + 2 * eps ^ 2) / s ^ 5)).
Definition ft_val : R := B * (A1 * (PI / (2 * s ^ 3)) + 4 * ur * eps / s ^ 4).
Lemma eps_in : 0 < eps < 1.
Proof. unfold eps. split; [apply Rdiv_lt_0_compat; lra|]. apply Rmult_lt_reg_r with c; [lra|]. unfold Rdiv. rewrite Rmult_assoc, Rinv_l by lra. lra. Qed.
(** integral in gam from an integral in theta *)
Lemma shift_int (f g : R -> R) l : (forall th, g (th + phi + PI / 2) = f th) -> is_RInt f 0 PI l -> is_RInt g (PI / 2 + phi) (PI / 2 + phi + PI) l.
Proof.
  intros E H. apply (is_RInt_ext (fun t => scal 1 (f (1 * t + (- (PI / 2 + phi)))))).
  - intros t _. rewrite <- E. unfold scal; simpl. unfold mult; simpl. rewrite Rmult_1_l. f_equal. ring.
  - apply (is_RInt_comp_lin (V := R_NormedModule) f 1 (- (PI / 2 + phi))).
    replace (1 * (PI / 2 + phi) + - (PI / 2 + phi)) with 0 by ring. replace (1 * (PI / 2 + phi + PI) + - (PI / 2 + phi)) with PI by ring. exact H.
Qed.
Lemma lin3_int (f g k : R -> R) a b d l1 l2 l3 l : is_RInt f 0 PI l1 -> is_RInt g 0 PI l2 -> is_RInt k 0 PI l3 -> a * l1 + b * l2 + d * l3 = l ->
  is_RInt (fun t => a * f t + b * g t + d * k t) 0 PI l.
Proof.
  intros H1 H2 H3 <-. apply (is_RInt_plus (V := R_NormedModule) (fun t => a * f t + b * g t) (fun t => d * k t)); [apply (is_RInt_plus (V := R_NormedModule) (fun t => a * f t) (fun t => b * g t))|];
  apply (is_RInt_scal (V := R_NormedModule)); assumption.
Qed.
Lemma cap_theta th : - cap (th + phi + PI / 2) * L ^ 3 / 12 * Rj = B * (A1 * sin th - 2 * ur * cos th) / (1 + eps * cos th) ^ 3.
Proof.
  unfold cap. unfold x, y. rewrite src_theta, film_theta. unfold src. fold A1 ur. pose proof eps_in as He'. pose proof (COS_bound th).
  assert (E : e = c * eps) by (unfold eps; field; lra). unfold B. replace (c + e * cos th) with (c * (1 + eps * cos th)) by (rewrite E; ring). field. split; [lra|nra].
Qed.
Theorem short_force_value : short_film_force mu omega c L Rj e phi vx vy (- fr_val * sin phi + ft_val * cos phi) (fr_val * cos phi + ft_val * sin phi).
Proof.
  pose proof eps_in as Hi. split; [eexists; exact short_exists|]. fold x y. intros p Hp.
  assert (Hs : s <> 0) by (unfold s; pose proof (s_pos eps Hi); lra).
  split.
  - apply (shift_int (fun th => B * A1 * cos phi * (sin th ^ 2 / (1 + eps * cos th) ^ 3) + B * (A1 * sin phi - 2 * ur * cos phi) * (sin th * cos th / (1 + eps * cos th) ^ 3) + B * (- 2 * ur * sin phi) * (cos th ^ 2 / (1 + eps * cos th) ^ 3))).
    + intros th. rewrite (short_zint p _ Hp). rewrite cos_shift, sin_plus. pose proof (cap_theta th) as E.
      transitivity ((sin th * cos phi + cos th * sin phi) * (- cap (th + phi + PI / 2) * L ^ 3 / 12 * Rj)); [ring|]. rewrite E. pose proof (COS_bound th). field. nra.
    + apply (lin3_int _ _ _ _ _ _ _ _ _ _ (int_ss eps Hi) (int_sc eps Hi) (int_cc eps Hi)). fold s. unfold fr_val, ft_val. field. exact Hs.
  - apply (shift_int (fun th => B * A1 * sin phi * (sin th ^ 2 / (1 + eps * cos th) ^ 3) + B * (- A1 * cos phi - 2 * ur * sin phi) * (sin th * cos th / (1 + eps * cos th) ^ 3) + B * (2 * ur * cos phi) * (cos th ^ 2 / (1 + eps * cos th) ^ 3))).
    + intros th. rewrite (short_zint p _ Hp). rewrite sin_shift, cos_plus. pose proof (cap_theta th) as E.
      transitivity (- (cos th * cos phi - sin th * sin phi) * (- cap (th + phi + PI / 2) * L ^ 3 / 12 * Rj)); [ring|]. rewrite E. pose proof (COS_bound th). field. nra.
    + apply (lin3_int _ _ _ _ _ _ _ _ _ _ (int_ss eps Hi) (int_sc eps Hi) (int_cc eps Hi)). fold s. unfold fr_val, ft_val. field. exact Hs.
Qed.
Lemma short_force_unique Fx Fy : short_film_force mu omega c L Rj e phi vx vy Fx Fy -> Fx = - fr_val * sin phi + ft_val * cos phi /\ Fy = fr_val * cos phi + ft_val * sin phi.
Proof.
  intros [_ H]. destruct short_force_value as [_ V]. specialize (H _ short_exists). specialize (V _ short_exists). destruct H as [H1 H2]. destruct V as [V1 V2].
  split; [rewrite <- (is_RInt_unique _ _ _ _ H1); apply is_RInt_unique, V1|rewrite <- (is_RInt_unique _ _ _ _ H2); apply is_RInt_unique, V2].
Qed.
End Short.
