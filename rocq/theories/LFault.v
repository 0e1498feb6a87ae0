(** Lemmas on the unbalance, rubbing and misalignment forces. *)
From Coq Require Import Reals List Arith Lia Lra Bool ZArith.
From Verif Require Import PyBase MatBase LMat MTime MFault SpecFault.
Import ListNotations.
Open Scope R_scope.

(** ** kinematics *)
Lemma lambdat_pos : 0 < lambdat. Proof. unfold lambdat. lra. Qed.
Lemma exp_gap tI tF : tI <> tF -> exp (- lambdat * tF) - exp (- lambdat * tI) <> 0.
Proof.
  intros H E. apply H. assert (X : exp (- lambdat * tF) = exp (- lambdat * tI)) by lra. apply exp_inv in X. pose proof lambdat_pos. nra.
Qed.
Lemma const_speed w tI tF : tI <> tF -> sA w w tI tF = w /\ sB w w tI tF = 0.
Proof.
  intros H. pose proof (exp_gap _ _ H). unfold sA, sB. split; field; auto.
Qed.
Lemma d_exp c u : derivable_pt_lim (fun s => exp (c * s)) u (c * exp (c * u)).
Proof.
  replace (c * exp (c * u)) with (exp (c * u) * (c * 1)) by ring.
  apply (derivable_pt_lim_comp (fun s => c * s) exp); [apply (derivable_pt_lim_scal (fun s => s)), derivable_pt_lim_id|apply derivable_pt_lim_exp].
Qed.
Lemma d_ext f g u l : (forall x, f x = g x) -> derivable_pt_lim f u l -> derivable_pt_lim g u l.
Proof. intros E H e He. destruct (H e He) as [d Hd]. exists d. intros h Hh Hl. rewrite <- !E. auto. Qed.
Lemma d_angle a b u : derivable_pt_lim (angular_position a b) u (Omega a b u).
Proof.
  pose proof lambdat_pos as L.
  apply (d_ext (fun s => a * s + - (b / lambdat) * exp (- lambdat * s) + b / lambdat)); [intros; unfold angular_position; ring|].
  replace (Omega a b u) with (a * 1 + - (b / lambdat) * (- lambdat * exp (- lambdat * u)) + 0) by (unfold Omega; field; lra).
  apply (derivable_pt_lim_plus (fun s => a * s + - (b / lambdat) * exp (- lambdat * s)) (fun _ => b / lambdat)).
  - apply (derivable_pt_lim_plus (fun s => a * s) (fun s => - (b / lambdat) * exp (- lambdat * s))).
    + apply (derivable_pt_lim_scal (fun s => s)), derivable_pt_lim_id.
    + apply (derivable_pt_lim_scal (fun s => exp (- lambdat * s))), d_exp.
  - apply derivable_pt_lim_const.
Qed.
Lemma d_omega a b u : derivable_pt_lim (Omega a b) u (AccelV a b u).
Proof.
  apply (d_ext (fun s => a + b * exp (- lambdat * s))); [intros; unfold Omega; ring|].
  replace (AccelV a b u) with (0 + b * (- lambdat * exp (- lambdat * u))) by (unfold AccelV; ring).
  apply (derivable_pt_lim_plus (fun _ => a) (fun s => b * exp (- lambdat * s))); [apply derivable_pt_lim_const|].
  apply (derivable_pt_lim_scal (fun s => exp (- lambdat * s))), d_exp.
Qed.
Lemma d_cos_comp (g : R -> R) u l : derivable_pt_lim g u l -> derivable_pt_lim (fun s => cos (g s)) u (- sin (g u) * l).
Proof. intros H. apply (derivable_pt_lim_comp g cos); [exact H|apply derivable_pt_lim_cos]. Qed.
Lemma d_sin_comp (g : R -> R) u l : derivable_pt_lim g u l -> derivable_pt_lim (fun s => sin (g s)) u (cos (g u) * l).
Proof. intros H. apply (derivable_pt_lim_comp g sin); [exact H|apply derivable_pt_lim_sin]. Qed.
Lemma unb_inertia m p a b t :
  inertia_force m (fun s => (- cos (angular_position a b s + p), sin (angular_position a b s + p))) t
    (unb_xy m p (angular_position a b t) (Omega a b t) (AccelV a b t)).
Proof.
  set (psi := fun s => angular_position a b s + p).
  assert (Dp : forall u, derivable_pt_lim psi u (Omega a b u)).
  { intros u. replace (Omega a b u) with (Omega a b u + 0) by ring.
    apply (derivable_pt_lim_plus (angular_position a b) (fun _ => p)); [apply d_angle|apply derivable_pt_lim_const]. }
  exists (fun u => sin (psi u) * Omega a b u), (fun u => cos (psi u) * Omega a b u).
  split; [|split; [|split]].
  - intros u. apply (d_ext (fun s => -1 * cos (psi s))); [intros; unfold psi; simpl; ring|].
    replace (sin (psi u) * Omega a b u) with (-1 * (- sin (psi u) * Omega a b u)) by ring.
    apply (derivable_pt_lim_scal (fun s => cos (psi s))). apply d_cos_comp, Dp.
  - intros u. simpl. apply d_sin_comp, Dp.
  - replace (fst _) with (- m * (cos (psi t) * Omega a b t * Omega a b t + sin (psi t) * AccelV a b t)).
    2: { unfold unb_xy. simpl. fold (psi t). rewrite cos_plus, sin_plus, cos_PI2, sin_PI2. ring. }
    apply (derivable_pt_lim_scal (fun s => sin (psi s) * Omega a b s)).
    apply (derivable_pt_lim_mult (fun s => sin (psi s)) (Omega a b)); [apply d_sin_comp, Dp|apply d_omega].
  - replace (snd _) with (- m * (- sin (psi t) * Omega a b t * Omega a b t + cos (psi t) * AccelV a b t)).
    2: { unfold unb_xy. simpl. fold (psi t). rewrite cos_plus, sin_plus, cos_PI2, sin_PI2. ring. }
    apply (derivable_pt_lim_scal (fun s => cos (psi s) * Omega a b s)).
    apply (derivable_pt_lim_mult (fun s => cos (psi s)) (Omega a b)); [apply d_cos_comp, Dp|apply d_omega].
Qed.
Lemma unb_const m p w t : unb_xy m p (angular_position w 0 t) (Omega w 0 t) (AccelV w 0 t) = (- m * w ^ 2 * cos (w * t + p), m * w ^ 2 * sin (w * t + p)).
Proof.
  unfold unb_xy. replace (angular_position w 0 t) with (w * t) by (unfold angular_position, Rdiv; ring). replace (Omega w 0 t) with w by (unfold Omega; ring).
  replace (AccelV w 0 t) with 0 by (unfold AccelV; ring). rewrite (cos_plus (w * t + p)), (sin_plus (w * t + p)), cos_PI2, sin_PI2. f_equal; ring.
Qed.

(** ** polar coordinates *)
Lemma sqrt_mul_sq r : 0 <= r -> sqrt (r ^ 2) = r. Proof. intros. rewrite <- Rsqr_pow2. apply sqrt_Rsqr. auto. Qed.
Lemma sq_sum_pos x y : sqrt (x ^ 2 + y ^ 2) <> 0 -> 0 < sqrt (x ^ 2 + y ^ 2).
Proof. intros H. pose proof (sqrt_pos (x ^ 2 + y ^ 2)). lra. Qed.
Lemma sq_sum_sq x y : sqrt (x ^ 2 + y ^ 2) * sqrt (x ^ 2 + y ^ 2) = x ^ 2 + y ^ 2.
Proof. apply sqrt_sqrt. nra. Qed.
Lemma sqrt_1_div u x : x <> 0 -> sqrt (1 + (u / x) ^ 2) = sqrt (x ^ 2 + u ^ 2) / Rabs x.
Proof.
  intros H. replace (1 + (u / x) ^ 2) with ((x ^ 2 + u ^ 2) / x ^ 2) by (field; auto). rewrite sqrt_div_alt by nra. f_equal.
  rewrite <- Rsqr_pow2. apply sqrt_Rsqr_abs.
Qed.
Lemma atan2_spec y x : sqrt (x ^ 2 + y ^ 2) <> 0 -> cos (atan2 y x) = x / sqrt (x ^ 2 + y ^ 2) /\ sin (atan2 y x) = y / sqrt (x ^ 2 + y ^ 2).
Proof.
  intros H. assert (P := sq_sum_pos _ _ H). unfold atan2.
  destruct (Rlt_dec 0 x) as [A|A]; [|destruct (Rlt_dec x 0) as [B|B]].
  - rewrite cos_atan, sin_atan. unfold Rsqr. replace (1 + y / x * (y / x)) with (1 + (y / x) ^ 2) by ring. rewrite sqrt_1_div, Rabs_pos_eq by lra. split; field; split; auto; lra.
  - assert (E : sqrt (1 + (y / x) ^ 2) = sqrt (x ^ 2 + y ^ 2) / - x) by (rewrite sqrt_1_div by lra; rewrite Rabs_left by lra; auto).
    assert (cos (atan (y / x)) = - x / sqrt (x ^ 2 + y ^ 2) /\ sin (atan (y / x)) = - y / sqrt (x ^ 2 + y ^ 2)) as [C S].
    { rewrite cos_atan, sin_atan. unfold Rsqr. replace (1 + y / x * (y / x)) with (1 + (y / x) ^ 2) by ring. rewrite E. split; field; split; auto; lra. }
    destruct (Rle_dec 0 y).
    + rewrite neg_cos, neg_sin, C, S. split; field; auto.
    + rewrite cos_minus, sin_minus, cos_PI, sin_PI, C, S. split; field; auto.
  - assert (x = 0) by lra. subst x. assert (E : sqrt (0 ^ 2 + y ^ 2) = Rabs y) by (replace (0 ^ 2 + y ^ 2) with (Rsqr y) by (unfold Rsqr; ring); apply sqrt_Rsqr_abs).
    rewrite E in *. destruct (Rlt_dec 0 y) as [C|C]; [|destruct (Rlt_dec y 0) as [D|D]].
    + rewrite cos_PI2, sin_PI2, Rabs_pos_eq by lra. split; field; lra.
    + replace (- PI / 2) with (- (PI / 2)) by field. rewrite cos_neg, sin_neg, cos_PI2, sin_PI2, Rabs_left by lra. split; field; lra.
    + exfalso. apply H. replace y with 0 by lra. apply Rabs_R0.
Qed.

(** ** rubbing *)
Lemma two_0 ii a b : two ii a b ii = a. Proof. unfold two. now rewrite Nat.eqb_refl. Qed.
Lemma two_1 ii a b : two ii a b (ii + 1)%nat = b.
Proof. unfold two. destruct (Nat.eqb_spec (ii + 1) ii); [lia|]. now rewrite Nat.eqb_refl. Qed.
Lemma two_else ii a b k : k <> ii -> k <> (ii + 1)%nat -> two ii a b k = 0.
Proof. intros. unfold two. destruct (Nat.eqb_spec k ii); [lia|]. destruct (Nat.eqb_spec k (ii + 1)); [lia|auto]. Qed.
Lemma rub_contact a radius x v ang (p := lateral (rb_pos a) x) (w := lateral (rb_pos a) v) :
  rb_delta a <= norm2 p -> norm2 p <> 0 -> norm2 w <> 0 ->
  let ii := (6 * rb_pos a)%nat in
  let r := norm2 p in
  let kx := - rb_k a * (r - rb_delta a) * (fst p / r) in let ky := - rb_k a * (r - rb_delta a) * (snd p / r) in
  let cx := - rb_c a * fst w in let cy := - rb_c a * snd w in
  let fx := rb_mu a * Rabs (kx + cx) in let fy := rb_mu a * Rabs (ky + cy) in
  let sl := (fst w * fst p - snd w * snd p) / r + ang * radius in
  let tq f g := if rb_torque a then radius * (sqrt (f ^ 2 + g ^ 2) * fst p / r) else 0 in
  exists Fk Fc Ff, rub a radius x v ang = Some (Fk, Fc, Ff) /\
    (forall k, Fk k = two ii kx ky k) /\ (forall k, Fc k = two ii cx cy k) /\
    (0 < sl -> forall k, Ff k = if Nat.eqb k (ii + 5)%nat then tq (- fx) fy else two ii (- fx) fy k) /\
    (sl < 0 -> forall k, Ff k = if Nat.eqb k (ii + 5)%nat then tq fx (- fy) else two ii fx (- fy) k) /\
    (sl = 0 -> forall k, Ff k = 0).
Proof.
  intros H1 H2 H3 ii r kx ky cx cy fx fy sl tq.
  unfold rub. fold ii.
  change (x ii) with (fst p). change (x (ii + 1)%nat) with (snd p). change (v ii) with (fst w). change (v (ii + 1)%nat) with (snd w).
  change (sqrt (fst p ^ 2 + snd p ^ 2)) with r. change (sqrt (fst w ^ 2 + snd w ^ 2)) with (norm2 w).
  destruct (Rle_dec (rb_delta a) r) as [Q|Q]; [|exfalso; apply Q; exact H1].
  destruct (Req_EM_T r 0) as [Z|Z]; [exfalso; apply H2; exact Z|].
  destruct (Req_EM_T (norm2 w) 0) as [Z'|Z']; [exfalso; apply H3; exact Z'|]. cbv zeta.
  assert (Pr : 0 < r) by (apply sq_sum_pos; exact H2). assert (Pw : 0 < norm2 w) by (apply sq_sum_pos; exact H3).
  rewrite !two_0, !two_1.
  assert (A1 : forall y, - rb_k a * (r - rb_delta a) * y / Rabs r = - rb_k a * (r - rb_delta a) * (y / r)) by (intros; rewrite Rabs_pos_eq by lra; field; auto).
  assert (A2 : forall y, - rb_c a * norm2 w * y / Rabs (norm2 w) = - rb_c a * y) by (intros; rewrite Rabs_pos_eq by lra; field; auto).
  rewrite !A1, !A2. fold kx ky cx cy fx fy.
  destruct (atan2_spec (snd p) (fst p) H2) as [Ec Es]. change (sqrt (fst p ^ 2 + snd p ^ 2)) with r in Ec, Es. rewrite Ec, Es.
  replace (- snd w * (snd p / r) + fst w * (fst p / r) + ang * radius) with sl by (unfold sl; field; auto).
  eexists _, _, _. split; [reflexivity|]. split; [auto|]. split; [auto|].
  rewrite (Rabs_pos_eq r) by lra.
  split; [|split].
  - intros S k. destruct (Rlt_dec 0 sl); [|lra]. reflexivity.
  - intros S k. destruct (Rlt_dec 0 sl); [lra|]. destruct (Rlt_dec sl 0); [|lra]. reflexivity.
  - intros S k. destruct (Rlt_dec 0 sl); [lra|]. destruct (Rlt_dec sl 0); [lra|]. reflexivity.
Qed.
Lemma rub_some a radius x v ang q : rub a radius x v ang = Some q ->
  norm2 (lateral (rb_pos a) x) < rb_delta a \/ (rb_delta a <= norm2 (lateral (rb_pos a) x) /\ norm2 (lateral (rb_pos a) x) <> 0 /\ norm2 (lateral (rb_pos a) v) <> 0).
Proof.
  unfold rub. change (sqrt (x (6 * rb_pos a)%nat ^ 2 + x (6 * rb_pos a + 1)%nat ^ 2)) with (norm2 (lateral (rb_pos a) x)).
  change (sqrt (v (6 * rb_pos a)%nat ^ 2 + v (6 * rb_pos a + 1)%nat ^ 2)) with (norm2 (lateral (rb_pos a) v)).
  destruct (Rle_dec (rb_delta a) (norm2 (lateral (rb_pos a) x))); [|left; lra].
  destruct (Req_EM_T (norm2 (lateral (rb_pos a) x)) 0); [discriminate|]. destruct (Req_EM_T (norm2 (lateral (rb_pos a) v)) 0); [discriminate|]. right. auto.
Qed.
Lemma norm2_scale c p : norm2 (c * fst p, c * snd p) = Rabs c * norm2 p.
Proof.
  unfold norm2. simpl. replace (c * fst p * (c * fst p * 1) + c * snd p * (c * snd p * 1)) with (Rsqr c * (fst p * (fst p * 1) + snd p * (snd p * 1))) by (unfold Rsqr; ring).
  rewrite sqrt_mult_alt by apply Rle_0_sqr. now rewrite sqrt_Rsqr_abs.
Qed.

(** ** misalignment *)
Lemma offset_angle a th : fx_ex a <> 0 ->
  flex_e a * sin (flex_fib a + th) = (if Rlt_dec 0 (fx_ex a) then 1 else -1) * (fx_ex a * sin th + fx_ey a * cos th).
Proof.
  intros H. unfold flex_e, flex_fib. rewrite sin_plus, sin_atan, cos_atan. unfold Rsqr.
  replace (1 + fx_ey a / fx_ex a * (fx_ey a / fx_ex a)) with (1 + (fx_ey a / fx_ex a) ^ 2) by ring.
  rewrite sqrt_1_div by auto. assert (P : 0 < sqrt (fx_ex a ^ 2 + fx_ey a ^ 2)) by (apply sqrt_lt_R0; nra).
  destruct (Rlt_dec 0 (fx_ex a)); [rewrite Rabs_pos_eq by lra|rewrite Rabs_left by lra]; field; split; auto; lra.
Qed.
Lemma sin_2PI3_shift y : cos (PI / 6 + y) = sin (2 * PI / 3 + y).
Proof. replace (PI / 6 + y) with (2 * PI / 3 + y - PI / 2) by field. rewrite cos_minus, cos_PI2, sin_PI2. ring. Qed.
Lemma sin_4PI3_shift y : - sin (PI / 3 + y) = sin (4 * PI / 3 + y).
Proof. replace (4 * PI / 3 + y) with (PI / 3 + y + PI) by field. rewrite neg_sin. ring. Qed.
Definition sgn_off (a : flex_args) : R := if Rlt_dec 0 (fx_ex a) then 1 else -1.
Lemma sgn_off_sq a : sgn_off a * sgn_off a = 1. Proof. unfold sgn_off. destruct (Rlt_dec 0 (fx_ex a)); ring. Qed.
Lemma stretch_eq a rad th q : sgn_off a * (fx_ex a * sin th + fx_ey a * cos th) = q ->
  sqrt (rad ^ 2 + fx_ex a ^ 2 + fx_ey a ^ 2 + 2 * rad * q) - rad = stretch rad th (sgn_off a * fx_ex a, sgn_off a * fx_ey a).
Proof.
  intros <-. unfold stretch, norm2. simpl. f_equal. f_equal.
  assert (E := sin2_cos2 th). unfold Rsqr in E. assert (S := sgn_off_sq a).
  transitivity (rad * rad * (sin th * sin th + cos th * cos th) + sgn_off a * sgn_off a * (fx_ex a * fx_ex a + fx_ey a * fx_ey a)
    + 2 * rad * (sgn_off a * (fx_ex a * sin th + fx_ey a * cos th))); [rewrite E, S|]; ring.
Qed.
Lemma arms_eq a rad th : fx_ex a <> 0 -> let e := (sgn_off a * fx_ex a, sgn_off a * fx_ey a) in
  arm1 a rad th = stretch rad th e /\ arm2 a rad th = stretch rad (2 * PI / 3 + th) e /\ arm3 a rad th = - stretch rad (4 * PI / 3 + th) e.
Proof.
  intros H e. assert (O := fun t => offset_angle a t H). fold (sgn_off a) in O. split; [|split].
  - unfold arm1. rewrite Rmult_assoc, O. now apply stretch_eq.
  - unfold arm2. rewrite (Rplus_assoc (PI / 6)), sin_2PI3_shift. replace (2 * PI / 3 + (flex_fib a + th)) with (flex_fib a + (2 * PI / 3 + th)) by ring.
    rewrite (Rmult_assoc _ (flex_e a)), O. now apply stretch_eq.
  - unfold arm3, e. rewrite <- (stretch_eq a rad (4 * PI / 3 + th) _ eq_refl). rewrite <- O.
    replace (flex_fib a + (4 * PI / 3 + th)) with (4 * PI / 3 + (flex_fib a + th)) by ring. rewrite <- sin_4PI3_shift.
    replace (PI / 3 + flex_fib a + th) with (PI / 3 + (flex_fib a + th)) by ring.
    replace (rad ^ 2 + fx_ex a ^ 2 + fx_ey a ^ 2 - 2 * rad * flex_e a * sin (PI / 3 + (flex_fib a + th)))
      with (rad ^ 2 + fx_ex a ^ 2 + fx_ey a ^ 2 + 2 * rad * (flex_e a * - sin (PI / 3 + (flex_fib a + th)))) by ring. ring.
Qed.
Lemma on_coupling_at n fx fy td tl : let f := on_coupling n fx fy td tl in
  lateral n f = (fx, fy) /\ lateral (n + 1)%nat f = (- fx, - fy) /\ f (6 * n + 5)%nat = td /\ f (6 * (n + 1) + 5)%nat = tl /\
  forall k, k <> (6 * n)%nat -> k <> (6 * n + 1)%nat -> k <> (6 * n + 5)%nat -> k <> (6 * (n + 1))%nat -> k <> (6 * (n + 1) + 1)%nat -> k <> (6 * (n + 1) + 5)%nat -> f k = 0.
Proof.
  assert (E : forall i j, Nat.eqb i j = if Nat.eq_dec i j then true else false) by (intros; destruct (Nat.eq_dec i j); [apply Nat.eqb_eq|apply Nat.eqb_neq]; auto).
  cbv zeta. unfold lateral, on_coupling. rewrite !E.
  repeat match goal with |- _ /\ _ => split end;
  try (f_equal); intros; rewrite ?E; repeat match goal with |- context [Nat.eq_dec ?a ?b] => destruct (Nat.eq_dec a b); try (exfalso; lia); auto end.
Qed.
Lemma trig_2PI x : sin (x + 2 * PI) = sin x /\ cos (x + 2 * PI) = cos x.
Proof. pose proof (sin_period x 1) as A. pose proof (cos_period x 1) as B. simpl in A, B. rewrite Rmult_1_r in A, B. auto. Qed.
Lemma ang_periodic a rad th : Fax a rad (th + 2 * PI / 3) = Fax a rad th /\ Fay a rad (th + 2 * PI / 3) = Fay a rad th.
Proof.
  unfold Fax, Fay.
  replace (th + 2 * PI / 3 + 2 * PI / 3) with (th + 4 * PI / 3) by field.
  replace (th + 2 * PI / 3 + 4 * PI / 3) with (th + 2 * PI) by field.
  replace (th + 2 * PI / 3 + PI + 2 * PI / 3) with (th + PI + 4 * PI / 3) by field.
  replace (th + 2 * PI / 3 + PI + 4 * PI / 3) with (th + PI + 2 * PI) by field.
  replace (th + 2 * PI / 3 + PI) with (th + PI + 2 * PI / 3) by ring.
  destruct (trig_2PI th) as [S1 C1]. destruct (trig_2PI (th + PI)) as [S2 C2]. 
  assert (ang_arm a rad (th + 2 * PI) = ang_arm a rad th) as -> by (unfold ang_arm; now rewrite S1).
  rewrite S2, C2. split; ring.
Qed.
