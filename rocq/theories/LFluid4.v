(** From the closed forms to the specification: film forces, their derivative along a motion of the rotor centre, long bearing. *)
From Coq Require Import Reals String List Arith Bool Lia Lra.
From Coquelicot Require Import Coquelicot.
From Verif Require Import PyBase MatBase MFluid SpecFluid LFluid LFluid2 LFluid3.
Import ListNotations.
Open Scope R_scope.

Lemma der_x (A : R) (f g p : R -> R) (t f' g' p' : R) : is_derive f t f' -> is_derive g t g' -> is_derive p t p' ->
  is_derive (fun u => - (A * f u) * sin (p u) + A * g u * cos (p u)) t ((- (A * f')) * sin (p t) + (- (A * f t)) * (p' * cos (p t)) + (A * g' * cos (p t) + A * g t * (p' * - sin (p t)))).
Proof.
  intros F G P. auto_derive; [repeat split; eauto; eexists; eassumption|].
  replace (Derive (fun x : R => f x) t) with f' by (symmetry; apply is_derive_unique; exact F). replace (Derive (fun x : R => g x) t) with g' by (symmetry; apply is_derive_unique; exact G).
  replace (Derive (fun x : R => p x) t) with p' by (symmetry; apply is_derive_unique; exact P). ring.
Qed.
Lemma der_y (A : R) (f g p : R -> R) (t f' g' p' : R) : is_derive f t f' -> is_derive g t g' -> is_derive p t p' ->
  is_derive (fun u => A * f u * cos (p u) + A * g u * sin (p u)) t (A * f' * cos (p t) + A * f t * (p' * - sin (p t)) + (A * g' * sin (p t) + A * g t * (p' * cos (p t)))).
Proof.
  intros F G P. auto_derive; [repeat split; eauto; eexists; eassumption|].
  replace (Derive (fun x : R => f x) t) with f' by (symmetry; apply is_derive_unique; exact F). replace (Derive (fun x : R => g x) t) with g' by (symmetry; apply is_derive_unique; exact G).
  replace (Derive (fun x : R => p x) t) with p' by (symmetry; apply is_derive_unique; exact P). ring.
Qed.
Definition amp (mu omega c L Rj : R) : R := mu * Rj * L ^ 3 * omega / (2 * c ^ 2).
Section S.
Variables mu omega c L Rj : R. Hypothesis Hc : 0 < c. Hypothesis HL : 0 < L.
Let A := amp mu omega c L Rj.
(** value of the force, rotor centre at rest *)
Lemma rest_force e phi : 0 < e < c -> short_film_force mu omega c L Rj e phi 0 0
  (- (A * rr (e / c)) * sin phi + A * tt (e / c) * cos phi) (A * rr (e / c) * cos phi + A * tt (e / c) * sin phi).
Proof.
  intros He. pose proof (short_force_value mu omega c L Rj e phi 0 0 Hc HL He) as V. pose proof (eps_in c e Hc He) as Hi.
  destruct (s_facts (e / c) Hi) as (Hs & H & E & E3 & E4 & E5).
  replace (fr_val mu omega c L Rj e phi 0 0) with (A * rr (e / c)) in V.
  - replace (ft_val mu omega c L Rj e phi 0 0) with (A * tt (e / c)) in V; [exact V|].
    unfold A, amp, tt, ft_val. set (s := sqrt (1 - (e / c) ^ 2)) in *. rewrite E3, E4. set (eps := e / c) in *. replace e with (eps * c) by (unfold eps; field; lra). field. repeat split; lra.
  - unfold A, amp, rr, fr_val. rewrite E4, E5. set (s := sqrt (1 - (e / c) ^ 2)) in *. set (eps := e / c) in *. replace e with (eps * c) by (unfold eps; field; lra). field. repeat split; lra.
Qed.
Lemma rest_unique e phi Fx Fy : 0 < e < c -> short_film_force mu omega c L Rj e phi 0 0 Fx Fy ->
  Fx = - (A * rr (e / c)) * sin phi + A * tt (e / c) * cos phi /\ Fy = A * rr (e / c) * cos phi + A * tt (e / c) * sin phi.
Proof.
  intros He H. destruct (short_force_unique mu omega c L Rj e phi 0 0 Hc HL He Fx Fy H) as [-> ->].
  destruct (short_force_unique mu omega c L Rj e phi 0 0 Hc HL He _ _ (rest_force e phi He)) as [-> ->]. split; reflexivity.
Qed.
(** derivative along a motion *)
Section Path.
Variables (e phi Fx Fy : R -> R) (t e' phi' W : R).
Hypothesis HA : 0 < mu * Rj * omega.
Hypothesis De : is_derive e t e'. Hypothesis Dp : is_derive phi t phi'.
Hypothesis He : 0 < e t < c.
Hypothesis HF : locally t (fun u => short_film_force mu omega c L Rj (e u) (phi u) 0 0 (Fx u) (Fy u)).
Hypothesis HW : 0 < W. Hypothesis Ex : Fx t = 0. Hypothesis Ey : Fy t = W.
Let eps := e t / c.
Lemma HA' : 0 < A.
Proof.
  unfold A, amp. apply Rdiv_lt_0_compat; [|apply Rmult_lt_0_compat; [lra|apply pow_lt; lra]]. replace (mu * Rj * L ^ 3 * omega) with (mu * Rj * omega * L ^ 3) by ring. apply Rmult_lt_0_compat; [lra|apply pow_lt; lra].
Qed.
Lemma loc_in : locally t (fun u => 0 < e u < c).
Proof.
  assert (Ce : continuous e t) by (apply (ex_derive_continuous (K := R_AbsRing) (V := R_NormedModule) e); exists e'; exact De).
  apply filter_and.
  - apply (Ce (fun y => 0 < y)). exists (mkposreal (e t) (proj1 He)). intros y Hy. unfold ball in Hy; simpl in Hy. unfold AbsRing_ball, abs, minus, plus, opp in Hy; simpl in Hy. apply Rabs_def2 in Hy. lra.
  - assert (P : 0 < c - e t) by lra. apply (Ce (fun y => y < c)). exists (mkposreal _ P). intros y Hy. unfold ball in Hy; simpl in Hy. unfold AbsRing_ball, abs, minus, plus, opp in Hy; simpl in Hy. apply Rabs_def2 in Hy. lra.
Qed.
Lemma path_fx : is_derive Fx t ((- (A * (e' / c * (4 * eps * (1 + eps ^ 2) / (1 - eps ^ 2) ^ 3)))) * sin (phi t) + (- (A * rr eps)) * (phi' * cos (phi t))
   + (A * (e' / c * (PI * (1 + 2 * eps ^ 2) / (2 * ((1 - eps ^ 2) ^ 2 * sqrt (1 - eps ^ 2))))) * cos (phi t) + A * tt eps * (phi' * - sin (phi t)))).
Proof.
  apply (is_derive_ext_loc (fun u => - (A * rr (e u / c)) * sin (phi u) + A * tt (e u / c) * cos (phi u))).
  { generalize HF, loc_in. intros H1 H2. generalize (filter_and _ _ H1 H2). apply filter_imp. intros u [Hu Hin]. symmetry. apply (rest_unique _ _ _ _ Hin Hu). }
  assert (Hi : 0 < eps < 1) by apply (eps_in c (e t) Hc He).
  assert (D0 : is_derive (fun u => e u / c) t (e' / c)) by (auto_derive; [exists e'; exact De|]; replace (Derive (fun x : R => e x) t) with e' by (symmetry; apply is_derive_unique; exact De); field; lra).
  assert (D1 : is_derive (fun u => rr (e u / c)) t (e' / c * (4 * eps * (1 + eps ^ 2) / (1 - eps ^ 2) ^ 3))).
  { exact (is_derive_comp rr (fun u => e u / c) t _ _ (rr_der eps Hi) D0). }
  assert (D2 : is_derive (fun u => tt (e u / c)) t (e' / c * (PI * (1 + 2 * eps ^ 2) / (2 * ((1 - eps ^ 2) ^ 2 * sqrt (1 - eps ^ 2)))))).
  { exact (is_derive_comp tt (fun u => e u / c) t _ _ (tt_der eps Hi) D0). }
  set (r' := e' / c * (4 * eps * (1 + eps ^ 2) / (1 - eps ^ 2) ^ 3)) in *. set (q' := e' / c * (PI * (1 + 2 * eps ^ 2) / (2 * ((1 - eps ^ 2) ^ 2 * sqrt (1 - eps ^ 2))))) in *.
  exact (der_x A (fun u => rr (e u / c)) (fun u => tt (e u / c)) phi t r' q' phi' D1 D2 Dp).
Qed.
Lemma path_fy : is_derive Fy t (A * (e' / c * (4 * eps * (1 + eps ^ 2) / (1 - eps ^ 2) ^ 3)) * cos (phi t) + A * rr eps * (phi' * - sin (phi t))
   + (A * (e' / c * (PI * (1 + 2 * eps ^ 2) / (2 * ((1 - eps ^ 2) ^ 2 * sqrt (1 - eps ^ 2))))) * sin (phi t) + A * tt eps * (phi' * cos (phi t)))).
Proof.
  apply (is_derive_ext_loc (fun u => A * rr (e u / c) * cos (phi u) + A * tt (e u / c) * sin (phi u))).
  { generalize HF, loc_in. intros H1 H2. generalize (filter_and _ _ H1 H2). apply filter_imp. intros u [Hu Hin]. symmetry. apply (rest_unique _ _ _ _ Hin Hu). }
  assert (Hi : 0 < eps < 1) by apply (eps_in c (e t) Hc He).
  assert (D0 : is_derive (fun u => e u / c) t (e' / c)) by (auto_derive; [exists e'; exact De|]; replace (Derive (fun x : R => e x) t) with e' by (symmetry; apply is_derive_unique; exact De); field; lra).
  assert (D1 : is_derive (fun u => rr (e u / c)) t (e' / c * (4 * eps * (1 + eps ^ 2) / (1 - eps ^ 2) ^ 3))).
  { exact (is_derive_comp rr (fun u => e u / c) t _ _ (rr_der eps Hi) D0). }
  assert (D2 : is_derive (fun u => tt (e u / c)) t (e' / c * (PI * (1 + 2 * eps ^ 2) / (2 * ((1 - eps ^ 2) ^ 2 * sqrt (1 - eps ^ 2)))))).
  { exact (is_derive_comp tt (fun u => e u / c) t _ _ (tt_der eps Hi) D0). }
  set (r' := e' / c * (4 * eps * (1 + eps ^ 2) / (1 - eps ^ 2) ^ 3)) in *. set (q' := e' / c * (PI * (1 + 2 * eps ^ 2) / (2 * ((1 - eps ^ 2) ^ 2 * sqrt (1 - eps ^ 2))))) in *.
  exact (der_y A (fun u => rr (e u / c)) (fun u => tt (e u / c)) phi t r' q' phi' D1 D2 Dp).
Qed.
Variables x' y' : R.
Hypothesis Dx : is_derive (fun u => centre_x (e u) (phi u)) t x'. Hypothesis Dy : is_derive (fun u => centre_y (e u) (phi u)) t y'.
Lemma xy' : x' = e' * sin (phi t) + e t * (phi' * cos (phi t)) /\ y' = - e' * cos (phi t) + e t * (phi' * sin (phi t)).
Proof.
  split.
  - rewrite <- (is_derive_unique _ _ _ Dx). apply is_derive_unique. unfold centre_x. auto_derive; [repeat split; eauto; eexists; eassumption|].
    replace (Derive (fun x : R => e x) t) with e' by (symmetry; apply is_derive_unique; exact De). replace (Derive (fun x : R => phi x) t) with phi' by (symmetry; apply is_derive_unique; exact Dp). ring.
  - rewrite <- (is_derive_unique _ _ _ Dy). apply is_derive_unique. unfold centre_y. auto_derive; [repeat split; eauto; eexists; eassumption|].
    replace (Derive (fun x : R => e x) t) with e' by (symmetry; apply is_derive_unique; exact De). replace (Derive (fun x : R => phi x) t) with phi' by (symmetry; apply is_derive_unique; exact Dp). ring.
Qed.
Lemma path_jac : exists kxx kxy kyx kyy, short_stiffness W c eps = [kxx; kxy; kyx; kyy] /\
  is_derive Fx t (- (kxx * x' + kxy * y')) /\ is_derive Fy t (- (kyx * x' + kyy * y')).
Proof.
  assert (Hi : 0 < eps < 1) by apply (eps_in c (e t) Hc He).
  pose proof (locally_singleton _ _ HF) as F0. destruct (rest_unique _ _ _ _ He F0) as [F1 F2]. rewrite Ex in F1. rewrite Ey in F2. fold eps in F1, F2. symmetry in F1, F2.
  do 4 eexists. split; [reflexivity|]. destruct xy' as [-> ->]. replace (e t) with (c * eps) by (unfold eps; field; lra).
  pose proof (k_radial_x eps Hi A W (phi t) HA' HW F1 F2 c Hc) as R1. pose proof (k_tang_x eps Hi A W (phi t) HA' HW F1 F2 c Hc) as T1.
  pose proof (k_radial_y eps Hi A W (phi t) HA' HW F1 F2 c Hc) as R2. pose proof (k_tang_y eps Hi A W (phi t) HA' HW F1 F2 c Hc) as T2.
  unfold short_stiffness in R1, T1, R2, T2. cbn [nth] in R1, T1, R2, T2.
  split.
  - eapply eq_rect; [exact path_fx|match goal with |- @eq _ ?a ?b => change (@eq R a b) end].
    match type of R1 with _ = - (?a * _ + ?b * _) => set (k1 := a) in *; set (k2 := b) in * end.
    match type of R1 with ?l = _ => transitivity (e' / c * l + phi' * (- (A * rr eps) * cos (phi t) + - (A * tt eps * sin (phi t)))); [ring|] end. rewrite R1, T1. field. lra.
  - eapply eq_rect; [exact path_fy|match goal with |- @eq _ ?a ?b => change (@eq R a b) end].
    match type of R2 with _ = - (?a * _ + ?b * _) => set (k1 := a) in *; set (k2 := b) in * end.
    match type of R2 with ?l = _ => transitivity (e' / c * l + phi' * (- (A * rr eps * sin (phi t)) + A * tt eps * cos (phi t))); [ring|] end. rewrite R2, T2. field. lra.
Qed.
End Path.
(** damping: response to a velocity, no small displacement needed *)
Lemma vel_response e phi W vx vy Fx Fy : 0 < mu * Rj * omega -> 0 < e < c -> omega <> 0 -> 0 < W ->
  short_film_force mu omega c L Rj e phi 0 0 0 W -> short_film_force mu omega c L Rj e phi vx vy Fx Fy ->
  exists cxx cxy cyx cyy, short_damping W c omega (e / c) = [cxx; cxy; cyx; cyy] /\ Fx = - (cxx * vx + cxy * vy) /\ Fy = W - (cyx * vx + cyy * vy).
Proof.
  intros HA He Ho HW F0 F. pose proof (eps_in c e Hc He) as Hi. assert (HA2 : 0 < A).
  { unfold A, amp. apply Rdiv_lt_0_compat; [|apply Rmult_lt_0_compat; [lra|apply pow_lt; lra]]. replace (mu * Rj * L ^ 3 * omega) with (mu * Rj * omega * L ^ 3) by ring. apply Rmult_lt_0_compat; [lra|apply pow_lt; lra]. }
  destruct (rest_unique _ _ _ _ He F0) as [F1 F2]. symmetry in F1, F2.
  destruct (short_force_unique mu omega c L Rj e phi 0 0 Hc HL He _ _ F0) as [G1 G2].
  destruct (short_force_unique mu omega c L Rj e phi vx vy Hc HL He _ _ F) as [V1 V2].
  do 4 eexists. split; [reflexivity|].
  pose proof (d_x (e / c) Hi A W phi HA2 HW F1 F2 c Hc omega Ho vx vy) as X. pose proof (d_y (e / c) Hi A W phi HA2 HW F1 F2 c Hc omega Ho vx vy) as Y.
  unfold short_damping in X, Y. cbv zeta in X, Y. cbn [nth] in X, Y. unfold fr_val, ft_val in *.
  replace (A / (omega * c)) with (mu * Rj * L ^ 3 / (2 * c ^ 3)) in X, Y by (unfold A, amp; field; split; lra).
  split.
  - rewrite <- X. rewrite V1. transitivity (0 - 0 + (- (mu * Rj * L ^ 3 / (2 * c ^ 3) * ((omega * e - 2 * (vx * cos phi + vy * sin phi)) * (2 * (e / c) / sqrt (1 - (e / c) ^ 2) ^ 4) + (vx * sin phi - vy * cos phi) * (PI * (1 + 2 * (e / c) ^ 2) / sqrt (1 - (e / c) ^ 2) ^ 5))) * sin phi + mu * Rj * L ^ 3 / (2 * c ^ 3) * ((omega * e - 2 * (vx * cos phi + vy * sin phi)) * (PI / (2 * sqrt (1 - (e / c) ^ 2) ^ 3)) + 4 * (vx * sin phi - vy * cos phi) * (e / c) / sqrt (1 - (e / c) ^ 2) ^ 4) * cos phi)); [ring|].
    rewrite G1 at 2. unfold Rdiv. ring.
  - match type of Y with _ = - ?r => replace (W - r) with (W + - r) by ring end. rewrite <- Y. rewrite V2. rewrite G2 at 1. unfold Rdiv. ring.
Qed.
End S.

(** the force of the code *)
Lemma film_short_val f : 0 < ff_ratio f < 1 -> ff_rr f <> 0 -> ff_clear f <> 0 -> let A := amp (ff_mu f) (ff_omega f) (ff_clear f) (ff_length f) (ff_rr f) in
  film_short f = force_xy (ff_att f) (A * rr (ff_ratio f)) (A * tt (ff_ratio f)).
Proof.
  intros H Hr Hc. cbv zeta. unfold film_short. destruct (s_facts _ H) as (Hs & Hq & _).
  rewrite Rpower_32 by exact Hq. f_equal; unfold amp, rr, tt; field; repeat split; try lra; assumption.
Qed.

(** ** long bearing *)
Section Lg.
Variables mu omega c Rj e phi p0 : R. Hypothesis Hc : 0 < c. Hypothesis He : 0 < e < c.
Let eps := e / c.
Let x := centre_x e phi. Let y := centre_y e phi.
Definition plong (th : R) : R := 6 * mu * omega * (Rj / c) ^ 2 * eps * sin th * (2 + eps * cos th) / ((2 + eps ^ 2) * (1 + eps * cos th) ^ 2) + p0.
Lemma th_of g : g = (g - phi - PI / 2) + phi + PI / 2. Proof. ring. Qed.
Lemma lg_in : 0 < eps < 1. Proof. apply eps_in; assumption. Qed.
Lemma lh th : 0 < 1 + eps * cos th. Proof. pose proof lg_in. pose proof (COS_bound th). nra. Qed.
Lemma lfilm g : film c x y g = c * (1 + eps * cos (g - phi - PI / 2)).
Proof. rewrite (th_of g) at 1. unfold x, y. rewrite film_theta. unfold eps. field. lra. Qed.
Definition qlong (g : R) : R := let th := g - phi - PI / 2 in
  6 * mu * omega * (Rj / c) ^ 2 * (/ (1 + eps * cos th) ^ 2 - 2 * (1 - eps ^ 2) / ((2 + eps ^ 2) * (1 + eps * cos th) ^ 3)).
Lemma plong_der g : is_derive (fun g => plong (g - phi - PI / 2)) g (qlong g).
Proof.
  unfold plong, qlong. set (th := g - phi - PI / 2). pose proof (lh th) as H. pose proof lg_in as Hi. cbv zeta.
  auto_derive. { replace (g + - phi + - (PI * / 2)) with th by (unfold th; field). repeat split; try lra. apply Rgt_not_eq. apply Rmult_lt_0_compat; [nra|]. rewrite Rmult_1_r. apply Rmult_lt_0_compat; exact H. }
  replace (g + - phi + - (PI / 2)) with th by (unfold th; field). pose proof (sin2_cos2 th) as P. unfold Rsqr in P.
  set (C := cos th) in *. set (S := sin th) in *.
  match goal with |- ?l = _ => transitivity (6 * mu * omega * (Rj / c) ^ 2 * eps / ((2 + eps ^ 2) * (1 + eps * C) ^ 3) * ((C * (2 + eps * C) - eps * (S * S)) * (1 + eps * C) + 2 * eps * (S * S) * (2 + eps * C))) end.
  - field. repeat split; try lra; nra.
  - replace (S * S) with (1 - C * C) by lra. field. repeat split; try lra; nra.
Qed.
Lemma long_exists : long_pressure mu omega c Rj e phi p0 (fun g => plong (g - phi - PI / 2)).
Proof.
  split; [|split].
  - unfold plong. replace (PI / 2 + phi - phi - PI / 2) with 0 by ring. rewrite sin_0. unfold Rdiv. ring.
  - unfold plong. replace (PI / 2 + phi + PI - phi - PI / 2) with PI by ring. rewrite sin_PI. unfold Rdiv. ring.
  - exists qlong. intros g. split; [apply plong_der|]. fold x y.
    apply (is_derive_ext (fun u => 6 * mu * omega * Rj ^ 2 * film c x y u - 6 * mu * omega * Rj ^ 2 * c * 2 * (1 - eps ^ 2) / (2 + eps ^ 2))).
    + intros t. rewrite lfilm. unfold qlong. pose proof (lh (t - phi - PI / 2)). pose proof lg_in. match goal with |- @eq _ ?a ?b => change (@eq R a b) end. field. repeat split; try lra; nra.
    + auto_derive; [repeat split; eexists; apply film_der|]. rewrite ?(is_derive_unique _ _ _ (film_der c x y g)).
      replace (Derive (fun x0 : R => film c x y x0) g) with (x * sin g - y * cos g) by (symmetry; apply is_derive_unique, film_der). ring.
Qed.
Lemma const_of_der0 (f : R -> R) : (forall t, is_derive f t 0) -> forall a b, f a = f b.
Proof.
  intros H a b. destruct (MVT_gen f a b (fun _ => 0)) as [t [_ E]]; try (intros; apply H).
  - intros t _. apply continuity_pt_filterlim. apply (ex_derive_continuous f). eexists; apply H.
  - lra.
Qed.
Lemma long_unique p p' : long_pressure mu omega c Rj e phi p0 p -> long_pressure mu omega c Rj e phi p0 p' -> forall g, p g = p' g.
Proof.
  intros (A1 & B1 & q1 & Q1) (A2 & B2 & q2 & Q2). fold x y in Q1, Q2.
  set (h := film c x y). assert (Hh : forall g, 0 < h g) by (intros g; unfold h; rewrite lfilm; apply Rmult_lt_0_compat; [lra|apply lh]).
  assert (D : forall g, is_derive (fun g => p g - p' g) g (q1 g - q2 g)) by (intros g; apply (is_derive_minus (V := R_NormedModule) p p'); [apply Q1|apply Q2]).
  assert (K : forall a b, h a ^ 3 * (q1 a - q2 a) = h b ^ 3 * (q1 b - q2 b)).
  { apply (const_of_der0 (fun g => h g ^ 3 * (q1 g - q2 g))). intros t. apply (is_derive_ext (fun g => h g ^ 3 * q1 g - h g ^ 3 * q2 g)); [intros u; change (h u ^ 3 * q1 u - h u ^ 3 * q2 u = h u ^ 3 * (q1 u - q2 u)); ring|].
    eapply eq_rect; [apply (is_derive_minus (V := R_NormedModule) (fun g => h g ^ 3 * q1 g) (fun g => h g ^ 3 * q2 g)); [apply Q1|apply Q2]|]. apply (minus_eq_zero (G := R_AbelianGroup)). }
  destruct (MVT_gen (fun g => p g - p' g) (PI / 2 + phi) (PI / 2 + phi + PI) (fun g => q1 g - q2 g)) as [t [_ E]]; try (intros; apply D).
  { intros t _. apply continuity_pt_filterlim. apply (ex_derive_continuous (fun g => p g - p' g)). eexists; apply D. }
  rewrite A1, A2, B1, B2 in E. pose proof PI_RGT_0 as HP. assert (Z : q1 t - q2 t = 0) by nra.
  assert (Z' : forall g, q1 g - q2 g = 0). { intros g. pose proof (K g t) as Kg. rewrite Z, Rmult_0_r in Kg. pose proof (pow_lt _ 3 (Hh g)). nra. }
  intros g. assert (X : p g - p' g = p (PI / 2 + phi) - p' (PI / 2 + phi)).
  { apply (const_of_der0 (fun g => p g - p' g)). intros u. rewrite <- (Z' u). apply D. }
  rewrite A1, A2 in X. lra.
Qed.
Variable L : R.
Lemma long_force p : long_pressure mu omega c Rj e phi p0 p ->
  let fr := 6 * mu * (Rj / c) ^ 2 * Rj * L * ((2 * eps ^ 2 * omega) / ((2 + eps ^ 2) * (1 - eps ^ 2))) in
  let ft := 6 * mu * (Rj / c) ^ 2 * Rj * L * ((PI * eps * omega) / ((2 + eps ^ 2) * sqrt (1 - eps ^ 2))) in
  half_film_force Rj L phi (fun g _ => p g - p0) (- fr * sin phi + ft * cos phi) (fr * cos phi + ft * sin phi).
Proof.
  intros Hp. cbv zeta. pose proof lg_in as Hi. destruct (s_facts eps Hi) as (Hs & Hq & E & _).
  assert (V : forall th, p (th + phi + PI / 2) - p0 = 6 * mu * omega * (Rj / c) ^ 2 * eps / (2 + eps ^ 2) * (sin th * (2 + eps * cos th) / (1 + eps * cos th) ^ 2)).
  { intros th. rewrite (long_unique p _ Hp long_exists). unfold plong. replace (th + phi + PI / 2 - phi - PI / 2) with th by ring. pose proof (lh th). field. repeat split; try lra; nra. }
  assert (I : forall k : R, RInt (fun _ : R => k) 0 L = L * k) by (intros k; rewrite (RInt_const (V := R_CompleteNormedModule)); unfold scal; simpl; unfold mult; simpl; ring).
  set (K := 6 * mu * omega * (Rj / c) ^ 2 * eps / (2 + eps ^ 2)) in *.
  split.
  - apply (shift_int phi (fun th => Rj * L * K * cos phi * (sin th ^ 2 * (2 + eps * cos th) / (1 + eps * cos th) ^ 2) + Rj * L * K * sin phi * (sin th * cos th * (2 + eps * cos th) / (1 + eps * cos th) ^ 2) + 0 * (sin th * cos th * (2 + eps * cos th) / (1 + eps * cos th) ^ 2))).
    + intros th. rewrite I, V, cos_shift, sin_plus. pose proof (lh th). field. lra.
    + apply (lin3_int _ _ _ _ _ _ _ _ _ _ (int_lss eps Hi) (int_lsc eps Hi) (int_lsc eps Hi)). unfold K. set (s := sqrt (1 - eps ^ 2)) in *. rewrite <- E. field. repeat split; try lra; nra.
  - apply (shift_int phi (fun th => Rj * L * K * sin phi * (sin th ^ 2 * (2 + eps * cos th) / (1 + eps * cos th) ^ 2) + - (Rj * L * K * cos phi) * (sin th * cos th * (2 + eps * cos th) / (1 + eps * cos th) ^ 2) + 0 * (sin th * cos th * (2 + eps * cos th) / (1 + eps * cos th) ^ 2))).
    + intros th. rewrite I, V, sin_shift, cos_plus. pose proof (lh th). field. lra.
    + apply (lin3_int _ _ _ _ _ _ _ _ _ _ (int_lss eps Hi) (int_lsc eps Hi) (int_lsc eps Hi)). unfold K. set (s := sqrt (1 - eps ^ 2)) in *. rewrite <- E. field. repeat split; try lra; nra.
Qed.
End Lg.
