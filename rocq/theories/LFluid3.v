(** Closed forms of the code for the short bearing: force, stiffness, damping. *)
From Coq Require Import Reals String List Arith Bool Lia Lra.
From Coquelicot Require Import Coquelicot.
From Verif Require Import PyBase MatBase MFluid SpecFluid LFluid LFluid2.
Import ListNotations.
Open Scope R_scope.

Lemma Rpower_32 x : 0 < x -> Rpower x (3 / 2) = x * sqrt x.
Proof. intros H. replace (3 / 2) with (1 + / 2) by field. rewrite Rpower_plus, Rpower_1, Rpower_sqrt by exact H. reflexivity. Qed.

(** amplitudes: radial A * rr eps, tangential A * tt eps *)
Definition rr (eps : R) : R := 2 * eps ^ 2 / (1 - eps ^ 2) ^ 2.
Definition tt (eps : R) : R := PI * eps / (2 * ((1 - eps ^ 2) * sqrt (1 - eps ^ 2))).
Section E.
Variable eps : R. Hypothesis Hi : 0 < eps < 1.
Let s := sqrt (1 - eps ^ 2).
Lemma s_facts : 0 < s /\ 0 < 1 - eps ^ 2 /\ s * s = 1 - eps ^ 2 /\ s ^ 3 = s * (1 - eps ^ 2) /\ s ^ 4 = (1 - eps ^ 2) ^ 2 /\ s ^ 5 = s * (1 - eps ^ 2) ^ 2.
Proof.
  pose proof (s_pos eps Hi) as Hs. pose proof (s_sq eps Hi) as Es. fold s in Hs, Es. split; [exact Hs|]. split; [nra|]. split; [rewrite <- Es; ring|].
  split; [rewrite <- Es; ring|]. split; [rewrite <- Es; ring|rewrite <- Es; ring].
Qed.
Lemma rr_der : is_derive rr eps (4 * eps * (1 + eps ^ 2) / (1 - eps ^ 2) ^ 3).
Proof. destruct s_facts as (_ & H & _). unfold rr. auto_derive; [nra|]. field. lra. Qed.
Lemma tt_der : is_derive tt eps (PI * (1 + 2 * eps ^ 2) / (2 * ((1 - eps ^ 2) ^ 2 * s))).
Proof.
  destruct s_facts as (Hs & H & E & _). unfold tt. auto_derive.
  - replace (1 + - (eps * (eps * 1))) with (1 - eps ^ 2) by ring. repeat split; try lra. fold s. apply Rgt_not_eq. repeat apply Rmult_lt_0_compat; lra.
  - replace (1 + - (eps * (eps * 1))) with (1 - eps ^ 2) by ring. replace (1 - eps * (eps * 1)) with (1 - eps ^ 2) by ring. fold s.
    set (q := 1 - eps ^ 2) in *. apply Rmult_eq_reg_r with (4 * s * (q * s) ^ 2); [|apply Rgt_not_eq; repeat apply Rmult_lt_0_compat; try lra; apply pow_lt; nra].
    transitivity (2 * s * (PI * (q * s)) - PI * eps * (-4 * eps * (s * s) - 2 * eps * q)).
    + field. split; lra.
    + transitivity (2 * s * s * PI * (1 + 2 * eps ^ 2)); [|field; split; lra]. rewrite E. replace (2 * s * (PI * (q * s))) with (2 * PI * q * (s * s)) by ring. rewrite E. replace (2 * s * s) with (2 * (s * s)) by ring. rewrite E. unfold q. ring.
Qed.
(** the direction of equilibrium *)
Definition QQ : R := PI ^ 2 * (1 - eps ^ 2) + 16 * eps ^ 2.
Definition DD : R := sqrt QQ.
Lemma DD_facts : 0 < QQ /\ 0 < DD /\ DD * DD = QQ.
Proof.
  destruct s_facts as (_ & H & _). pose proof PI_RGT_0. assert (Q : 0 < QQ) by (unfold QQ; assert (0 < PI ^ 2) by (apply pow_lt; lra); nra).
  split; [exact Q|]. split; [apply sqrt_lt_R0, Q|]. unfold DD. apply sqrt_sqrt. lra.
Qed.
Lemma h0_val : short_h0 eps = / (QQ * DD).
Proof. destruct DD_facts as (Q & _). unfold short_h0. fold QQ. rewrite (Rpower_32 QQ Q). fold DD. unfold Rdiv. ring. Qed.
Lemma rt_norm : rr eps ^ 2 + tt eps ^ 2 = (eps * DD / (2 * (1 - eps ^ 2) ^ 2)) ^ 2.
Proof.
  destruct s_facts as (Hs & H & E & _). destruct DD_facts as (_ & _ & D2). unfold rr, tt. fold s.
  replace ((PI * eps / (2 * ((1 - eps ^ 2) * s))) ^ 2) with (PI ^ 2 * eps ^ 2 / (4 * (1 - eps ^ 2) ^ 2 * (s * s))) by (field; split; lra).
  replace ((eps * DD / (2 * (1 - eps ^ 2) ^ 2)) ^ 2) with (eps ^ 2 * (DD * DD) / (4 * (1 - eps ^ 2) ^ 4)) by (field; lra).
  rewrite E, D2. unfold QQ. field. lra.
Qed.
Variables A W phi : R. Hypothesis HA : 0 < A. Hypothesis HW : 0 < W.
Hypothesis Ex : - (A * rr eps) * sin phi + A * tt eps * cos phi = 0.
Hypothesis Ey : A * rr eps * cos phi + A * tt eps * sin phi = W.
Lemma equil : W = A * eps * DD / (2 * (1 - eps ^ 2) ^ 2) /\ sin phi = PI * s / DD /\ cos phi = 4 * eps / DD.
Proof.
  destruct s_facts as (Hs & H & E & _). destruct DD_facts as (Q & HD & D2). pose proof (sin2_cos2 phi) as P. unfold Rsqr in P.
  assert (W2 : W ^ 2 = (A * eps * DD / (2 * (1 - eps ^ 2) ^ 2)) ^ 2).
  { transitivity (A ^ 2 * (rr eps ^ 2 + tt eps ^ 2)); [|rewrite rt_norm; field; lra].
    transitivity ((A * rr eps * cos phi + A * tt eps * sin phi) ^ 2 + (- (A * rr eps) * sin phi + A * tt eps * cos phi) ^ 2); [rewrite Ex, Ey; ring|].
    transitivity (A ^ 2 * (rr eps ^ 2 + tt eps ^ 2) * (sin phi * sin phi + cos phi * cos phi)); [ring|]. rewrite P. ring. }
  assert (HV : 0 < A * eps * DD / (2 * (1 - eps ^ 2) ^ 2)) by (apply Rdiv_lt_0_compat; [repeat apply Rmult_lt_0_compat; lra|]; apply Rmult_lt_0_compat; [lra|apply pow_lt; lra]).
  assert (WV : W = A * eps * DD / (2 * (1 - eps ^ 2) ^ 2)) by nra.
  split; [exact WV|].
  assert (S1 : W * sin phi = A * tt eps).
  { rewrite <- Ey. transitivity (A * tt eps * (sin phi * sin phi + cos phi * cos phi) - cos phi * (- (A * rr eps) * sin phi + A * tt eps * cos phi)); [ring|]. rewrite P, Ex. ring. }
  assert (C1 : W * cos phi = A * rr eps).
  { rewrite <- Ey. transitivity (A * rr eps * (sin phi * sin phi + cos phi * cos phi) + sin phi * (- (A * rr eps) * sin phi + A * tt eps * cos phi)); [ring|]. rewrite P, Ex. ring. }
  rewrite WV in S1, C1. unfold rr in C1. unfold tt in S1. fold s in S1. split.
  - apply Rmult_eq_reg_l with (A * eps * DD / (2 * (1 - eps ^ 2) ^ 2)); [|lra]. rewrite S1. rewrite <- E. field. split; [|lra]. lra.
  - apply Rmult_eq_reg_l with (A * eps * DD / (2 * (1 - eps ^ 2) ^ 2)); [|lra]. rewrite C1. field. split; lra.
Qed.
Variable c : R. Hypothesis Hc : 0 < c.
Let k n := nth n (short_stiffness W c eps) 0.
Ltac prep := destruct s_facts as (Hs & H & E & _); destruct DD_facts as (Q & HD & D2); destruct equil as (WV & S1 & C1);
  unfold k, short_stiffness; cbn [nth]; rewrite h0_val; fold s; pose proof Hi as [Hp _].
Lemma k_radial_x : - (A * (4 * eps * (1 + eps ^ 2) / (1 - eps ^ 2) ^ 3)) * sin phi + A * (PI * (1 + 2 * eps ^ 2) / (2 * ((1 - eps ^ 2) ^ 2 * s))) * cos phi = - (k 0 * (c * sin phi) + k 1 * (- c * cos phi)).
Proof. prep. rewrite S1, C1, WV. replace (PI * s / DD) with (PI * (s * s) / (s * DD)) by (field; lra). rewrite E. unfold QQ in *. field. repeat split; lra. Qed.
Lemma k_tang_x : - (A * rr eps) * cos phi + - (A * tt eps * sin phi) = - (k 0 * (c * eps * cos phi) + k 1 * (c * eps * sin phi)).
Proof. prep. rewrite S1, C1, WV. unfold rr, tt. fold s. unfold QQ in *. field. repeat split; lra. Qed.
Lemma k_radial_y : A * (4 * eps * (1 + eps ^ 2) / (1 - eps ^ 2) ^ 3) * cos phi + A * (PI * (1 + 2 * eps ^ 2) / (2 * ((1 - eps ^ 2) ^ 2 * s))) * sin phi = - (k 2 * (c * sin phi) + k 3 * (- c * cos phi)).
Proof. prep. rewrite S1, C1, WV. unfold QQ in *. field. repeat split; lra. Qed.
Lemma k_tang_y : - (A * rr eps * sin phi) + A * tt eps * cos phi = - (k 2 * (c * eps * cos phi) + k 3 * (c * eps * sin phi)).
Proof. replace (- (A * rr eps * sin phi) + A * tt eps * cos phi) with 0 by lra. prep. rewrite S1, C1, WV. replace (PI * s / DD) with (PI * (s * s) / (s * DD)) by (field; lra). rewrite E. unfold QQ in *. field. repeat split; lra. Qed.
(** damping: amplitudes of a unit radial and a unit tangential velocity *)
Variable omega : R. Hypothesis Ho : omega <> 0.
Let d n := nth n (short_damping W c omega eps) 0.
Let B := A / (omega * c).
Lemma d_x vx vy : let ur := vx * sin phi - vy * cos phi in let ut := vx * cos phi + vy * sin phi in
  - (B * (- 2 * ut * (2 * eps / s ^ 4) + ur * (PI * (1 + 2 * eps ^ 2) / s ^ 5))) * sin phi + B * (- 2 * ut * (PI / (2 * s ^ 3)) + 4 * ur * eps / s ^ 4) * cos phi = - (d 0 * vx + d 1 * vy).
Proof.
  cbv zeta. destruct s_facts as (Hs & H & E & E3 & E4 & E5). destruct DD_facts as (Q & HD & D2). destruct equil as (WV & S1 & C1). pose proof Hi as [Hp _].
  unfold d, short_damping; cbn [nth]. rewrite h0_val. fold s. rewrite E3, E4, E5, WV. 
  assert (SS : sin phi * sin phi = PI ^ 2 * (1 - eps ^ 2) / QQ) by (rewrite S1, <- D2, <- E; field; lra).
  assert (SC : sin phi * cos phi = 4 * PI * eps * (1 - eps ^ 2) / (s * QQ)) by (rewrite S1, C1, <- D2, <- E; field; lra).
  assert (CC : cos phi * cos phi = 16 * eps ^ 2 / QQ) by (rewrite C1, <- D2; field; lra).
  transitivity (vx * (B * (4 * eps / (1 - eps ^ 2) ^ 2 * (sin phi * cos phi) - PI * (1 + 2 * eps ^ 2) / (s * (1 - eps ^ 2) ^ 2) * (sin phi * sin phi) - PI / (s * (1 - eps ^ 2)) * (cos phi * cos phi) + 4 * eps / (1 - eps ^ 2) ^ 2 * (sin phi * cos phi)))
    + vy * (B * (4 * eps / (1 - eps ^ 2) ^ 2 * (sin phi * sin phi) + PI * (1 + 2 * eps ^ 2) / (s * (1 - eps ^ 2) ^ 2) * (sin phi * cos phi) - PI / (s * (1 - eps ^ 2)) * (sin phi * cos phi) - 4 * eps / (1 - eps ^ 2) ^ 2 * (cos phi * cos phi)))).
  { unfold B. field. repeat split; lra. }
  rewrite SS, SC, CC. unfold B.
  assert (X1 : forall a b a' b', a = a' -> b = b' -> vx * a + vy * b = - (- a' * vx + - b' * vy)) by (intros; subst; ring).
  match goal with |- _ = - (?p * vx + ?q * vy) => replace p with (- - p) by ring; replace q with (- - q) by ring end. apply X1.
  - replace (A * eps * DD / (2 * (1 - eps ^ 2) ^ 2) / (c * omega) * / (QQ * DD) * 2 * PI * s * (PI ^ 2 * (1 + 2 * eps ^ 2) - 16 * eps ^ 2) / eps)
      with (A * PI * (s * s) / ((1 - eps ^ 2) ^ 2 * c * omega * QQ * s) * (PI ^ 2 * (1 + 2 * eps ^ 2) - 16 * eps ^ 2)) by (field; repeat split; lra).
    rewrite E. unfold QQ in *. field. repeat split; lra.
  - replace (4 * PI * eps * (1 - eps ^ 2) / (s * QQ)) with (4 * PI * eps * s / QQ) by (apply Rmult_eq_reg_r with (s * QQ); [|nra]; rewrite <- E; field; lra).
    unfold QQ in *. field. repeat split; lra.
Qed.
Lemma d_y vx vy : let ur := vx * sin phi - vy * cos phi in let ut := vx * cos phi + vy * sin phi in
  B * (- 2 * ut * (2 * eps / s ^ 4) + ur * (PI * (1 + 2 * eps ^ 2) / s ^ 5)) * cos phi + B * (- 2 * ut * (PI / (2 * s ^ 3)) + 4 * ur * eps / s ^ 4) * sin phi = - (d 2 * vx + d 3 * vy).
Proof.
  cbv zeta. destruct s_facts as (Hs & H & E & E3 & E4 & E5). destruct DD_facts as (Q & HD & D2). destruct equil as (WV & S1 & C1). pose proof Hi as [Hp _].
  unfold d, short_damping; cbn [nth]. rewrite h0_val. fold s. rewrite E3, E4, E5, WV. 
  assert (SS : sin phi * sin phi = PI ^ 2 * (1 - eps ^ 2) / QQ) by (rewrite S1, <- D2, <- E; field; lra).
  assert (SC : sin phi * cos phi = 4 * PI * eps * s / QQ) by (rewrite S1, C1, <- D2; field; lra).
  assert (CC : cos phi * cos phi = 16 * eps ^ 2 / QQ) by (rewrite C1, <- D2; field; lra).
  transitivity (vx * (B * (- 4 * eps / (1 - eps ^ 2) ^ 2 * (cos phi * cos phi) + PI * (1 + 2 * eps ^ 2) / (s * (1 - eps ^ 2) ^ 2) * (sin phi * cos phi) - PI / (s * (1 - eps ^ 2)) * (sin phi * cos phi) + 4 * eps / (1 - eps ^ 2) ^ 2 * (sin phi * sin phi)))
    + vy * (B * (- 4 * eps / (1 - eps ^ 2) ^ 2 * (sin phi * cos phi) - PI * (1 + 2 * eps ^ 2) / (s * (1 - eps ^ 2) ^ 2) * (cos phi * cos phi) - PI / (s * (1 - eps ^ 2)) * (sin phi * sin phi) - 4 * eps / (1 - eps ^ 2) ^ 2 * (sin phi * cos phi)))).
  { unfold B. field. repeat split; lra. }
  rewrite SS, SC, CC. unfold B.
  assert (X1 : forall a b a' b', a = a' -> b = b' -> vx * a + vy * b = - (- a' * vx + - b' * vy)) by (intros; subst; ring).
  match goal with |- _ = - (?p * vx + ?q * vy) => replace p with (- - p) by ring; replace q with (- - q) by ring end. apply X1.
  - unfold QQ in *. field. repeat split; lra.
  - replace (4 * PI * eps * s / QQ) with (4 * PI * eps * (1 - eps ^ 2) / (s * QQ)) by (apply Rmult_eq_reg_r with (s * QQ); [|nra]; rewrite <- E; field; lra).
    unfold QQ in *. field. repeat split; lra.
Qed.
End E.
