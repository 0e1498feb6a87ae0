(** Sommerfeld integrals. *)
From Coq Require Import Reals String List Arith Bool Lia Lra.
From Coquelicot Require Import Coquelicot.
From Verif Require Import PyBase MatBase SpecFluid.
Import ListNotations.
Open Scope R_scope.

Section Som.
Variable e : R.
Hypothesis He : 0 < e < 1.
Let s := sqrt (1 - e ^ 2).
Let h (t : R) := 1 + e * cos t.
Lemma s_pos : 0 < s. Proof. apply sqrt_lt_R0. nra. Qed.
Lemma s_sq : s ^ 2 = 1 - e ^ 2. Proof. unfold s. rewrite pow2_sqrt; nra. Qed.
Lemma h_pos t : 0 < h t. Proof. pose proof (COS_bound t). unfold h. nra. Qed.
Lemma lin3 (f g k : R -> R) (t f' g' k' a b c d l : R) : is_derive f t f' -> is_derive g t g' -> is_derive k t k' -> (a * f' + b * g' + c * k') / d = l ->
  is_derive (fun t => (a * f t + b * g t + c * k t) / d) t l.
Proof.
  intros H1 H2 H3 <-. apply (is_derive_ext (fun t => / d * (a * f t + b * g t + c * k t))); [intros; apply Rmult_comm|].
  replace ((a * f' + b * g' + c * k') / d) with (/ d * (a * f' + b * g' + c * k')) by (unfold Rdiv; ring).
  apply is_derive_scal. apply (is_derive_plus (V := R_NormedModule) (fun t => a * f t + b * g t) (fun t => c * k t)); [apply (is_derive_plus (V := R_NormedModule) (fun t => a * f t) (fun t => b * g t))|]; apply is_derive_scal; assumption.
Qed.
Lemma der_id0 (t : R) : is_derive (fun _ : R => 0) t 0. Proof. apply (is_derive_const (V := R_NormedModule)). Qed.
Lemma der_sh1 t : is_derive (fun t => sin t / h t) t ((e + cos t) / h t ^ 2).
Proof. pose proof (h_pos t) as Hh. unfold h in *. auto_derive; [lra|]. pose proof (sin2_cos2 t) as Q. unfold Rsqr in Q. apply Rmult_eq_reg_r with ((1 + e * cos t) ^ 2); [|apply pow_nonzero; lra]. field_simplify; try lra. replace (sin t ^ 2) with (1 - cos t ^ 2) by (simpl; lra). ring. Qed.
Lemma der_sh2 t : is_derive (fun t => sin t / h t ^ 2) t ((2 * e + cos t - e * cos t ^ 2) / h t ^ 3).
Proof.
  pose proof (h_pos t) as Hh. unfold h in *. auto_derive; [nra|]. pose proof (sin2_cos2 t) as Q. unfold Rsqr in Q.
  transitivity ((cos t * (1 + e * cos t) + 2 * e * sin t ^ 2) / (1 + e * cos t) ^ 3); [field; lra|]. replace (sin t ^ 2) with (1 - cos t ^ 2) by (simpl; lra). f_equal. ring.
Qed.
Definition G1 (t : R) : R := (t - 2 * atan (e * sin t / (1 + s + e * cos t))) / s.
Lemma G1_der t : is_derive G1 t (/ h t).
Proof.
  pose proof s_pos as Hs. pose proof s_sq as Es. pose proof (h_pos t) as Hh. unfold G1. unfold h in *.
  set (D := 1 + s + e * cos t) in *. assert (HD : 0 < D) by (unfold D; lra).
  unfold D. auto_derive; [fold D; lra|]. fold D. pose proof (sin2_cos2 t) as Q. unfold Rsqr in Q.
  assert (N : 0 < D ^ 2 + (e * sin t) ^ 2) by nra.
  apply Rmult_eq_reg_r with (s * (1 + e * cos t) * (D ^ 2 + (e * sin t) ^ 2)); [|apply Rgt_not_eq; repeat apply Rmult_lt_0_compat; assumption].
  transitivity ((1 + e * cos t) * (D ^ 2 + (e * sin t) ^ 2 - 2 * (e * cos t * D + e ^ 2 * sin t ^ 2))).
  { field. repeat split; try lra; try nra. }
  transitivity (s * (D ^ 2 + (e * sin t) ^ 2)); [|field; lra].
  assert (E1 : (e * sin t) ^ 2 = e ^ 2 - (e * cos t) ^ 2) by nra.
  replace (e ^ 2 * sin t ^ 2) with ((e * sin t) ^ 2) by ring. rewrite !E1. unfold D.
  set (k := e * cos t) in *. replace (e ^ 2) with (1 - s ^ 2) by lra. ring.
Qed.
Lemma G1_pi : G1 PI - G1 0 = PI / s.
Proof. unfold G1. rewrite sin_PI, sin_0, !Rmult_0_r. unfold Rdiv at 2 4. rewrite !Rmult_0_l, atan_0. field. pose proof s_pos; lra. Qed.
Definition G2 (t : R) : R := (1 * G1 t + - e * (sin t / h t) + 0 * 0) / s ^ 2.
Lemma G2_der t : is_derive G2 t (/ h t ^ 2).
Proof.
  pose proof s_pos as Hs. pose proof s_sq as Es. pose proof (h_pos t) as Hh. unfold G2.
  apply (lin3 G1 (fun t => sin t / h t) (fun _ => 0) t _ _ _ 1 (- e) 0 (s ^ 2) _ (G1_der t) (der_sh1 t) (der_id0 t)).
  rewrite Es. unfold h in *. field. split; nra.
Qed.
Lemma G2_pi : G2 PI - G2 0 = PI / s ^ 3.
Proof. unfold G2. rewrite sin_PI, sin_0. pose proof G1_pi as E. pose proof s_pos. pose proof (h_pos PI). pose proof (h_pos 0). transitivity ((G1 PI - G1 0) / s ^ 2); [field; lra|]. rewrite E. field. lra. Qed.
Definition G3 (t : R) : R := (-1 * G1 t + 3 * G2 t + - e * (sin t / h t ^ 2)) / (2 * s ^ 2).
Lemma G3_der t : is_derive G3 t (/ h t ^ 3).
Proof.
  pose proof s_pos as Hs. pose proof s_sq as Es. pose proof (h_pos t) as Hh. unfold G3.
  apply (lin3 G1 G2 (fun t => sin t / h t ^ 2) t _ _ _ (-1) 3 (- e) (2 * s ^ 2) _ (G1_der t) (G2_der t) (der_sh2 t)).
  rewrite Es. unfold h in *. field. split; nra.
Qed.
Lemma G3_pi : G3 PI - G3 0 = (- PI / s + 3 * PI / s ^ 3) / (2 * s ^ 2).
Proof.
  unfold G3. rewrite sin_PI, sin_0. pose proof G1_pi as E. pose proof G2_pi as E2. pose proof s_pos. pose proof (h_pos PI). pose proof (h_pos 0).
  transitivity ((- (G1 PI - G1 0) + 3 * (G2 PI - G2 0)) / (2 * s ^ 2)); [field; lra|]. rewrite E, E2. field. lra.
Qed.

(** integral from an antiderivative that is differentiable everywhere *)
Lemma int_der (F f : R -> R) a b l : (forall t, is_derive F t (f t)) -> (forall t, continuous f t) -> F b - F a = l -> is_RInt f a b l.
Proof.
  intros HF Hf <-. apply (is_RInt_derive (V := R_CompleteNormedModule) F f); intros; auto.
Qed.
Lemma cont_h t : continuous h t.
Proof. unfold h. apply (continuous_plus (V := R_NormedModule)); [apply continuous_const|]. apply (continuous_mult (K := R_AbsRing)); [apply continuous_const|]. apply continuity_pt_filterlim, continuity_cos. Qed.
Lemma ex_cont (f : R -> R) t : ex_derive f t -> continuous f t.
Proof. apply (ex_derive_continuous (V := R_NormedModule)). Qed.
Lemma der_h t : is_derive h t (- (e * sin t)).
Proof. unfold h. auto_derive; [auto|ring]. Qed.
Ltac cont := let t := fresh in intros t; apply ex_cont; pose proof (h_pos t); unfold h in *; auto_derive; repeat split; apply Rgt_not_eq; repeat apply Rmult_lt_0_compat; lra.
Lemma int_cc : is_RInt (fun t => cos t ^ 2 / h t ^ 3) 0 PI (PI * (1 + 2 * e ^ 2) / (2 * s ^ 5)).
Proof.
  pose proof s_pos as Hs. pose proof s_sq as Es.
  apply (int_der (fun t => (1 * G1 t + -2 * G2 t + 1 * G3 t) / e ^ 2)).
  - intros t. pose proof (h_pos t) as Hh. apply (lin3 G1 G2 G3 t _ _ _ 1 (-2) 1 (e ^ 2) _ (G1_der t) (G2_der t) (G3_der t)). unfold h in *. field. split; lra.
  - cont.
  - transitivity (((G1 PI - G1 0) - 2 * (G2 PI - G2 0) + (G3 PI - G3 0)) / e ^ 2); [field; lra|].
    rewrite G1_pi, G2_pi, G3_pi. replace (e ^ 2) with (1 - s ^ 2) by lra. field. rewrite Es. split; nra.
Qed.
Lemma int_ss : is_RInt (fun t => sin t ^ 2 / h t ^ 3) 0 PI (PI / (2 * s ^ 3)).
Proof.
  pose proof s_pos as Hs. pose proof s_sq as Es.
  apply (int_der (fun t => (-1 * G1 t + 2 * G2 t + - s ^ 2 * G3 t) / e ^ 2)).
  - intros t. pose proof (h_pos t) as Hh. apply (lin3 G1 G2 G3 t _ _ _ (-1) 2 (- s ^ 2) (e ^ 2) _ (G1_der t) (G2_der t) (G3_der t)).
    pose proof (sin2_cos2 t) as Q. unfold Rsqr in Q. replace (sin t ^ 2) with (1 - cos t ^ 2) by (simpl; lra). rewrite Es. unfold h in *. field. split; lra.
  - cont.
  - transitivity ((- (G1 PI - G1 0) + 2 * (G2 PI - G2 0) - s ^ 2 * (G3 PI - G3 0)) / e ^ 2); [field; lra|].
    rewrite G1_pi, G2_pi, G3_pi. replace (e ^ 2) with (1 - s ^ 2) by lra. field. rewrite Es. split; nra.
Qed.
Lemma int_sc : is_RInt (fun t => sin t * cos t / h t ^ 3) 0 PI (- 2 * e / s ^ 4).
Proof.
  pose proof s_pos as Hs. pose proof s_sq as Es.
  apply (int_der (fun t => (/ h t - / (2 * h t ^ 2)) / e ^ 2)).
  - intros t. pose proof (h_pos t) as Hh. evar_last; [unfold h; unfold h in Hh; auto_derive; [repeat split; nra|reflexivity]|]. unfold h in *. field. lra.
  - cont.
  - unfold h. rewrite cos_PI, cos_0. replace (s ^ 4) with ((1 - e ^ 2) ^ 2) by (rewrite <- Es; ring). field. split; [nra|split; [|split]; lra].
Qed.
Lemma int_lsc : is_RInt (fun t => sin t * cos t * (2 + e * cos t) / h t ^ 2) 0 PI (- 2 * e / s ^ 2).
Proof.
  pose proof s_pos as Hs. pose proof s_sq as Es.
  apply (int_der (fun t => - (h t + / h t) / e ^ 2)).
  - intros t. pose proof (h_pos t) as Hh. evar_last; [unfold h; unfold h in Hh; auto_derive; [repeat split; nra|reflexivity]|]. unfold h in *. field. lra.
  - cont.
  - unfold h. rewrite cos_PI, cos_0. rewrite Es. field. repeat split; nra.
Qed.
Lemma int_lss : is_RInt (fun t => sin t ^ 2 * (2 + e * cos t) / h t ^ 2) 0 PI (PI / s).
Proof.
  pose proof s_pos as Hs. pose proof s_sq as Es.
  apply (int_der (fun t => (- e * sin t + (2 - s ^ 2) * G1 t + - s ^ 2 * G2 t) / e ^ 2)).
  - intros t. pose proof (h_pos t) as Hh. apply (lin3 sin G1 G2 t _ _ _ (- e) (2 - s ^ 2) (- s ^ 2) (e ^ 2) _ (is_derive_sin t) (G1_der t) (G2_der t)).
    pose proof (sin2_cos2 t) as Q. unfold Rsqr in Q. replace (sin t ^ 2) with (1 - cos t ^ 2) by (simpl; lra). rewrite Es. unfold h in *. field. split; lra.
  - cont.
  - rewrite sin_PI, sin_0. transitivity (((2 - s ^ 2) * (G1 PI - G1 0) - s ^ 2 * (G2 PI - G2 0)) / e ^ 2); [field; lra|].
    rewrite G1_pi, G2_pi. replace (e ^ 2) with (1 - s ^ 2) by lra. field. rewrite Es. split; nra.
Qed.
End Som.
