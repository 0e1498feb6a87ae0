(** Equilibrium of the short bearing: load, Sommerfeld number, eccentricity and attitude angle. *)
From Coq Require Import Reals String List Arith Bool Lia Lra.
From Coquelicot Require Import Coquelicot.
From Verif Require Import PyBase MatBase MFluid MCyl SpecFluid LFluid LFluid2 LFluid3 LFluid4 LFluid5.
Import ListNotations.
Open Scope R_scope.

Lemma attitude_sc eps : 0 < eps < 1 -> sin (attitude_angle eps) = PI * sqrt (1 - eps ^ 2) / DD eps /\ cos (attitude_angle eps) = 4 * eps / DD eps.
Proof.
  intros Hi. destruct (s_facts eps Hi) as (Hs & Hq & E & _). destruct (DD_facts eps Hi) as (Q & HD & D2). unfold attitude_angle. set (s := sqrt (1 - eps ^ 2)) in *.
  rewrite sin_atan, cos_atan. assert (R1 : sqrt (1 + (PI * s / (4 * eps))²) = DD eps / (4 * eps)).
  { apply sqrt_lem_1; [pose proof (Rle_0_sqr (PI * s / (4 * eps))); lra|left; apply Rdiv_lt_0_compat; lra|].
    replace (DD eps / (4 * eps) * (DD eps / (4 * eps))) with (DD eps * DD eps / (16 * eps ^ 2)) by (field; lra). rewrite D2. unfold QQ, Rsqr. rewrite <- E. field. lra. }
  rewrite R1. split; field; lra.
Qed.
Lemma attitude_equil eps A : 0 < eps < 1 ->
  - (A * rr eps) * sin (attitude_angle eps) + A * tt eps * cos (attitude_angle eps) = 0 /\
  A * rr eps * cos (attitude_angle eps) + A * tt eps * sin (attitude_angle eps) = A * eps * DD eps / (2 * (1 - eps ^ 2) ^ 2).
Proof.
  intros Hi. destruct (s_facts eps Hi) as (Hs & Hq & E & _). destruct (DD_facts eps Hi) as (Q & HD & D2). destruct (attitude_sc eps Hi) as [-> ->].
  unfold rr, tt. set (s := sqrt (1 - eps ^ 2)) in *. split.
  - rewrite <- E. field. lra.
  - replace (A * eps * DD eps / (2 * (1 - eps ^ 2) ^ 2)) with (A * eps * (DD eps * DD eps) / (2 * (1 - eps ^ 2) ^ 2 * DD eps)) by (field; lra).
    rewrite D2. unfold QQ. field. repeat split; lra.
Qed.
Lemma rotor_load_val rs omega mu L c eps : 0 < eps < 1 -> c <> 0 -> rotor_load rs omega mu L c eps = amp mu omega c L rs * eps * DD eps / (2 * (1 - eps ^ 2) ^ 2).
Proof.
  intros Hi Hc. destruct (s_facts eps Hi) as (Hs & Hq & E & _). unfold rotor_load, amp.
  replace (DD eps) with (PI * sqrt ((16 / PI ^ 2 - 1) * eps ^ 2 + 1)).
  - field. split; [exact Hc|lra].
  - unfold DD, QQ. pose proof PI_RGT_0 as HP. replace (PI ^ 2 * (1 - eps ^ 2) + 16 * eps ^ 2) with (PI ^ 2 * ((16 / PI ^ 2 - 1) * eps ^ 2 + 1)) by (field; lra).
    rewrite sqrt_mult_alt by (apply pow2_ge_0). rewrite sqrt_pow2 by lra. reflexivity.
Qed.
(** the quartic is the load balance *)
Lemma balance_poly A W eps : 0 < eps < 1 -> 0 < A -> 0 < W -> (ecc_poly (A / (2 * W)) (eps ^ 2) = 0 <-> W = A * eps * DD eps / (2 * (1 - eps ^ 2) ^ 2)).
Proof.
  intros Hi HA HW. destruct (s_facts eps Hi) as (Hs & Hq & E & _). destruct (DD_facts eps Hi) as (Q & HD & D2). rewrite ecc_poly_val.
  replace (eps ^ 2 * (PI ^ 2 * (1 - eps ^ 2) + 16 * eps ^ 2)) with (eps ^ 2 * (DD eps * DD eps)) by (rewrite D2; unfold QQ; ring).
  set (q := 1 - eps ^ 2) in *. set (D := DD eps) in *.
  assert (X : q ^ 4 - (A / (2 * W)) ^ 2 * (eps ^ 2 * (D * D)) = (q ^ 2 - A * eps * D / (2 * W)) * (q ^ 2 + A * eps * D / (2 * W))) by (field; lra).
  assert (P : 0 < A * eps * D / (2 * W)) by (apply Rdiv_lt_0_compat; [repeat apply Rmult_lt_0_compat; lra|lra]). assert (P2 : 0 < q ^ 2) by (apply pow_lt; lra).
  rewrite X. split.
  - intros H. apply Rmult_integral in H. destruct H as [H|H]; [|lra]. assert (Y : q ^ 2 = A * eps * D / (2 * W)) by lra.
    apply Rmult_eq_reg_r with (2 * q ^ 2); [|lra]. transitivity (W * (2 * q ^ 2)); [ring|]. rewrite Y at 1. field. split; lra.
  - intros ->. replace (q ^ 2 - A * eps * D / (2 * (A * eps * D / (2 * q ^ 2)))) with 0; [ring|]. field. repeat split; try lra; nra.
Qed.
Lemma sommerfeld_amp rs omega mu L W c : c <> 0 -> W <> 0 -> modified_sommerfeld rs omega mu L W c = amp mu omega c L rs / (2 * W).
Proof. intros. unfold modified_sommerfeld, amp. field. split; assumption. Qed.
Lemma amp_pos mu omega c L Rj : 0 < mu -> 0 < omega -> 0 < c -> 0 < L -> 0 < Rj -> 0 < amp mu omega c L Rj.
Proof. intros. unfold amp. apply Rdiv_lt_0_compat; [|apply Rmult_lt_0_compat; [lra|apply pow_lt; lra]]. repeat apply Rmult_lt_0_compat; try lra. Qed.
(** existence and uniqueness of the equilibrium of a load *)
Lemma load_equilibrium mu omega c L Rj W eps : 0 < mu -> 0 < omega -> 0 < c -> 0 < L -> 0 < Rj -> 0 < W -> 0 < eps < 1 -> ecc_poly (amp mu omega c L Rj / (2 * W)) (eps ^ 2) = 0 ->
  short_film_force mu omega c L Rj (eps * c) (attitude_angle eps) 0 0 0 W.
Proof.
  intros Hm Ho Hc HL HR HW Hi Hp. pose proof (amp_pos mu omega c L Rj Hm Ho Hc HL HR) as HA. apply (balance_poly _ _ _ Hi HA HW) in Hp.
  pose proof (rest_force mu omega c L Rj Hc HL (eps * c) (attitude_angle eps)) as F. replace (eps * c / c) with eps in F by (field; lra).
  destruct (attitude_equil eps (amp mu omega c L Rj) Hi) as [E1 E2]. rewrite E1, E2, <- Hp in F. apply F. nra.
Qed.
Lemma load_unique mu omega c L Rj W e phi : 0 < mu -> 0 < omega -> 0 < c -> 0 < L -> 0 < Rj -> 0 < W -> 0 < e < c -> short_film_force mu omega c L Rj e phi 0 0 0 W ->
  ecc_poly (amp mu omega c L Rj / (2 * W)) ((e / c) ^ 2) = 0 /\ sin phi = sin (attitude_angle (e / c)) /\ cos phi = cos (attitude_angle (e / c)).
Proof.
  intros Hm Ho Hc HL HR HW He F. pose proof (amp_pos mu omega c L Rj Hm Ho Hc HL HR) as HA. pose proof (eps_in c e Hc He) as Hi.
  destruct (rest_unique mu omega c L Rj Hc HL e phi _ _ He F) as [F1 F2]. symmetry in F1, F2.
  destruct (equil (e / c) Hi _ W phi HA HW F1 F2) as (WV & S1 & C1). split; [apply (balance_poly _ _ _ Hi HA HW); exact WV|].
  destruct (attitude_sc (e / c) Hi) as [-> ->]. split; assumption.
Qed.
(** attitude angle: between 0 and a right angle, decreasing *)
Lemma attitude_range eps : 0 < eps < 1 -> 0 < attitude_angle eps < PI / 2.
Proof.
  intros Hi. destruct (s_facts eps Hi) as (Hs & _). split; [|unfold attitude_angle; apply atan_bound]. unfold attitude_angle. rewrite <- atan_0. apply atan_increasing.
  apply Rdiv_lt_0_compat; [apply Rmult_lt_0_compat; [apply PI_RGT_0|exact Hs]|lra].
Qed.
Lemma angle_eq a b : 0 < a < PI / 2 -> - PI < b <= PI -> sin b = sin a -> cos b = cos a -> b = a.
Proof.
  intros Ha Hb Es Ec. pose proof PI_RGT_0. assert (P : 0 < cos b) by (rewrite Ec; apply cos_gt_0; lra).
  assert (Rb : - (PI / 2) < b < PI / 2).
  { split; apply Rnot_le_lt; intros X.
    - assert (cos b <= 0); [|lra]. rewrite <- cos_neg. apply cos_le_0; lra.
    - assert (cos b <= 0); [|lra]. apply cos_le_0; lra. }
  apply tan_is_inj; [lra|lra|]. unfold tan. rewrite Es, Ec. reflexivity.
Qed.
