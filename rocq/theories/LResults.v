(** Lemmas on orbits: axes, sign of kappa, sampled points. *)
From Coq Require Import Reals List Arith ZArith Lia Lra Psatz Bool.
From Coquelicot Require Import Complex.
From Verif Require Import PyBase MatBase SpecMat LMat CMat MDynamics MFault LFault MResults SpecResults.
Import ListNotations.
Open Scope R_scope.

(** ** arguments of complex numbers *)
Lemma atan2_range y x : - PI < atan2 y x <= PI.
Proof.
  pose proof PI_RGT_0. unfold atan2. destruct (Rlt_dec 0 x); [|destruct (Rlt_dec x 0)].
  - pose proof (atan_bound (y / x)). lra.
  - destruct (Rle_dec 0 y).
    + pose proof (atan_bound (y / x)). assert (y / x <= 0). { unfold Rdiv. assert (/ x < 0) by (apply Rinv_lt_0_compat; auto). nra. }
      assert (atan (y / x) <= 0). { destruct (Req_dec (y / x) 0) as [->|]; [rewrite atan_0; lra|]. rewrite <- atan_0. left. apply atan_increasing. lra. }
      lra.
    + pose proof (atan_bound (y / x)). assert (0 < y / x). { unfold Rdiv. assert (/ x < 0) by (apply Rinv_lt_0_compat; auto). nra. }
      assert (0 < atan (y / x)). { rewrite <- atan_0. apply atan_increasing. lra. } lra.
  - destruct (Rlt_dec 0 y); [|destruct (Rlt_dec y 0)]; lra.
Qed.
Lemma polar_re (z : C) : Cmod z * cos (carg z) = fst z.
Proof.
  destruct z as [a b]. unfold carg, Cmod, Re, Im. cbn [fst snd].
  destruct (Req_dec (sqrt (a ^ 2 + b ^ 2)) 0) as [E|E].
  - rewrite E. assert (Q := sqrt_eq_0 (a ^ 2 + b ^ 2) ltac:(nra) E). assert (a = 0) by nra. subst. ring.
  - destruct (atan2_spec b a E) as [-> _]. field. auto.
Qed.
Lemma polar_im (z : C) : Cmod z * sin (carg z) = snd z.
Proof.
  destruct z as [a b]. unfold carg, Cmod, Re, Im. cbn [fst snd].
  destruct (Req_dec (sqrt (a ^ 2 + b ^ 2)) 0) as [E|E].
  - rewrite E. assert (Q := sqrt_eq_0 (a ^ 2 + b ^ 2) ltac:(nra) E). assert (b = 0) by nra. subst. ring.
  - destruct (atan2_spec b a E) as [_ ->]. field. auto.
Qed.
Lemma unit_angle u v : u ^ 2 + v ^ 2 = 1 -> exists c, cos c = u /\ sin c = v.
Proof.
  intros H. exists (atan2 v u). assert (E : sqrt (u ^ 2 + v ^ 2) = 1) by (rewrite H; apply sqrt_1).
  destruct (atan2_spec v u) as [-> ->]; rewrite E; [lra|]. split; field.
Qed.

(** ** symmetric 2 x 2 forms *)
Definition form2 (a b g u v : R) : R := a * u ^ 2 + 2 * b * (u * v) + g * v ^ 2.
Lemma form2_low a b g m M u v : a + g = m + M -> a * g - b ^ 2 = m * M -> m <= M -> m * (u ^ 2 + v ^ 2) <= form2 a b g u v.
Proof.
  intros H1 H2 H3. unfold form2.
  assert (D : (a - m) * (g - m) = b ^ 2) by nra.
  assert (0 <= (a - m) /\ 0 <= (g - m)) as [A G] by nra.
  assert (0 <= (a - m) * u ^ 2 + 2 * b * (u * v) + (g - m) * v ^ 2); [|nra].
  destruct (Req_dec (a - m) 0) as [Z|Z].
  - assert (b = 0) by nra. subst. nra.
  - assert (0 <= (a - m) * ((a - m) * u ^ 2 + 2 * b * (u * v) + (g - m) * v ^ 2)); [|nra].
    replace ((a - m) * ((a - m) * u ^ 2 + 2 * b * (u * v) + (g - m) * v ^ 2))
      with (((a - m) * u + b * v) ^ 2 + ((a - m) * (g - m) - b ^ 2) * v ^ 2) by ring. rewrite D. pose proof (pow2_ge_0 ((a - m) * u + b * v)). lra.
Qed.
Lemma form2_high a b g m M u v : a + g = m + M -> a * g - b ^ 2 = m * M -> m <= M -> form2 a b g u v <= M * (u ^ 2 + v ^ 2).
Proof.
  intros H1 H2 H3. assert (H := form2_low (- a) (- b) (- g) (- M) (- m) u v ltac:(lra) ltac:(nra) ltac:(lra)). unfold form2 in *. nra.
Qed.
Lemma form2_attained a b g m M : a + g = m + M -> a * g - b ^ 2 = m * M -> m <= M -> exists c, form2 a b g (cos c) (sin c) = m.
Proof.
  intros H1 H2 H3. assert (D : (a - m) * (g - m) = b ^ 2) by nra.
  destruct (Req_dec (a - m) 0) as [Z|Z].
  - exists 0. rewrite cos_0, sin_0. unfold form2. replace a with m by lra. ring.
  - set (n := sqrt (b ^ 2 + (a - m) ^ 2)). assert (P : 0 < b ^ 2 + (a - m) ^ 2) by nra.
    assert (N : 0 < n) by (apply sqrt_lt_R0; auto). assert (N2 : n ^ 2 = b ^ 2 + (a - m) ^ 2) by (unfold n; rewrite <- Rsqr_pow2; apply Rsqr_sqrt; lra).
    destruct (unit_angle (- b / n) ((a - m) / n)) as (c & Ec & Es).
    { replace ((- b / n) ^ 2 + ((a - m) / n) ^ 2) with ((b ^ 2 + (a - m) ^ 2) / n ^ 2) by (field; lra). rewrite N2. field. lra. }
    exists c. rewrite Ec, Es. unfold form2.
    replace (a * (- b / n) ^ 2 + 2 * b * (- b / n * ((a - m) / n)) + g * ((a - m) / n) ^ 2)
      with ((a * b ^ 2 - 2 * b ^ 2 * (a - m) + g * (a - m) ^ 2) / n ^ 2) by (field; lra).
    replace (a * b ^ 2 - 2 * b ^ 2 * (a - m) + g * (a - m) ^ 2) with (m * n ^ 2); [field; lra|]. rewrite N2, <- D. ring.
Qed.
Lemma form2_attained_high a b g m M : a + g = m + M -> a * g - b ^ 2 = m * M -> m <= M -> exists c, form2 a b g (cos c) (sin c) = M.
Proof.
  intros H1 H2 H3. destruct (form2_attained (- a) (- b) (- g) (- M) (- m)) as (c & Hc); try nra.
  exists c. unfold form2 in *. nra.
Qed.

(** ** the orbit as a form: x = T u, u = (cos c, sin c) *)
Definition fa (ru rv : C) := fst ru ^ 2 + fst rv ^ 2.
Definition fb (ru rv : C) := - (fst ru * snd ru + fst rv * snd rv).
Definition fg (ru rv : C) := snd ru ^ 2 + snd rv ^ 2.
Definition area (ru rv : C) : R := snd ru * fst rv - fst ru * snd rv.
Lemma motion_form ru rv c : motion ru c ^ 2 + motion rv c ^ 2 = form2 (fa ru rv) (fb ru rv) (fg ru rv) (cos c) (sin c).
Proof. unfold motion, form2, fa, fb, fg. ring. Qed.
Lemma form_det ru rv : fa ru rv * fg ru rv - fb ru rv ^ 2 = area ru rv ^ 2.
Proof. unfold fa, fb, fg, area. ring. Qed.
Lemma unit_cs c : cos c ^ 2 + sin c ^ 2 = 1.
Proof. pose proof (sin2_cos2 c) as H. unfold Rsqr in H. lra. Qed.

Lemma expi_re (z : C) c : Re (z * expi c)%C = motion z c.
Proof. destruct z as [a b]. unfold motion, expi, Re, Cmult. simpl. ring. Qed.

Section OrbitAxes.
Variable eig2 : mat -> R * R.
Hypothesis Heig : eig2_ok eig2.
Variables ru rv : C.
Let T := lmat [[Cmod ru * cos (carg ru); - Cmod ru * sin (carg ru)]; [Cmod rv * cos (carg rv); - Cmod rv * sin (carg rv)]].
Let H := mulm 2 T (mtrans T).
Let m := Rmin (fst (eig2 H)) (snd (eig2 H)).
Let M := Rmax (fst (eig2 H)) (snd (eig2 H)).
Lemma H_entries : H 0%nat 0%nat = fst ru ^ 2 + snd ru ^ 2 /\ H 0%nat 1%nat = fst ru * fst rv + snd ru * snd rv /\
  H 1%nat 0%nat = fst ru * fst rv + snd ru * snd rv /\ H 1%nat 1%nat = fst rv ^ 2 + snd rv ^ 2.
Proof.
  unfold H, T, mulm, mtrans, lmat. cbn [sumn nth]. rewrite !Ropp_mult_distr_l_reverse, !polar_re, !polar_im. repeat split; ring.
Qed.
Lemma mM_facts : m <= M /\ m + M = fa ru rv + fg ru rv /\ m * M = area ru rv ^ 2 /\ 0 <= m.
Proof.
  destruct H_entries as (E1 & E2 & E3 & E4).
  destruct (Heig H) as [S P]; [rewrite E2, E3; auto|]. rewrite E1, E4 in S. rewrite E1, E2, E3, E4 in P.
  assert (Q : m <= M /\ m + M = fst (eig2 H) + snd (eig2 H) /\ m * M = fst (eig2 H) * snd (eig2 H)).
  { unfold m, M, Rmin, Rmax. destruct (Rle_dec (fst (eig2 H)) (snd (eig2 H))); repeat split; lra. }
  destruct Q as (Q1 & Q2 & Q3). rewrite S in Q2. rewrite P in Q3.
  assert (E : m + M = fa ru rv + fg ru rv) by (rewrite Q2; unfold fa, fg; ring).
  assert (F : m * M = area ru rv ^ 2) by (rewrite Q3; unfold area; ring).
  repeat split; auto. assert (0 <= m + M) by (rewrite E; unfold fa, fg; nra). assert (0 <= m * M) by (rewrite F; nra).
  destruct (Rle_dec 0 m); auto. exfalso. assert (0 < M) by lra. nra.
Qed.
Lemma orbit_minor_eq : ob_minor (orbit_init eig2 ru rv) = sqrt m. Proof. reflexivity. Qed.
Lemma orbit_major_eq : ob_major (orbit_init eig2 ru rv) = sqrt M. Proof. reflexivity. Qed.
Lemma radius_sq c : radius ru rv c = sqrt (form2 (fa ru rv) (fb ru rv) (fg ru rv) (cos c) (sin c)).
Proof. unfold radius. now rewrite motion_form. Qed.
Lemma form_props : fa ru rv + fg ru rv = m + M /\ fa ru rv * fg ru rv - fb ru rv ^ 2 = m * M /\ m <= M /\ 0 <= m.
Proof. destruct mM_facts as (A & B & D & E). rewrite form_det. auto. Qed.
Lemma axes_bound c : ob_minor (orbit_init eig2 ru rv) <= radius ru rv c <= ob_major (orbit_init eig2 ru rv).
Proof.
  destruct form_props as (A & B & D & E). rewrite orbit_minor_eq, orbit_major_eq, radius_sq.
  assert (L := form2_low _ _ _ _ _ (cos c) (sin c) A B D). assert (U := form2_high _ _ _ _ _ (cos c) (sin c) A B D). rewrite unit_cs in L, U.
  split; apply sqrt_le_1_alt; lra.
Qed.
Lemma minor_attained : exists c, radius ru rv c = ob_minor (orbit_init eig2 ru rv).
Proof. destruct form_props as (A & B & D & E). destruct (form2_attained _ _ _ _ _ A B D) as (c & Hc). exists c. rewrite radius_sq, Hc. reflexivity. Qed.
Lemma major_attained : exists c, radius ru rv c = ob_major (orbit_init eig2 ru rv).
Proof. destruct form_props as (A & B & D & E). destruct (form2_attained_high _ _ _ _ _ A B D) as (c & Hc). exists c. rewrite radius_sq, Hc. reflexivity. Qed.
Lemma minor_major_area : ob_minor (orbit_init eig2 ru rv) * ob_major (orbit_init eig2 ru rv) = Rabs (area ru rv).
Proof.
  destruct mM_facts as (A & B & D & E). rewrite orbit_minor_eq, orbit_major_eq, <- sqrt_mult by lra. rewrite D, <- Rsqr_pow2. apply sqrt_Rsqr_abs.
Qed.
Lemma axes_order : 0 <= ob_minor (orbit_init eig2 ru rv) <= ob_major (orbit_init eig2 ru rv).
Proof. destruct mM_facts as (A & B & D & E). rewrite orbit_minor_eq, orbit_major_eq. split; [apply sqrt_pos|apply sqrt_le_1_alt; auto]. Qed.
Lemma axes_squares : ob_minor (orbit_init eig2 ru rv) ^ 2 + ob_major (orbit_init eig2 ru rv) ^ 2 = fa ru rv + fg ru rv.
Proof.
  destruct mM_facts as (A & B & D & E). rewrite orbit_minor_eq, orbit_major_eq, <- !Rsqr_pow2, !Rsqr_sqrt by lra. lra.
Qed.

(** ** the sign of kappa *)
Let nu := carg ru.
Let nv := carg rv.
Let diff := if Rlt_dec (nv - nu) (- PI) then nv - nu + 2 * PI else if Rlt_dec PI (nv - nu) then nv - nu - 2 * PI else nv - nu.
Lemma diff_range : - PI <= diff <= PI.
Proof.
  pose proof PI_RGT_0. pose proof (atan2_range (Im ru) (Re ru)). pose proof (atan2_range (Im rv) (Re rv)). unfold diff, nu, nv, carg.
  set (p := atan2 (Im ru) (Re ru)) in *. set (q := atan2 (Im rv) (Re rv)) in *. clearbody p q.
  destruct (Rlt_dec (q - p) (- PI)); [split; lra|]. destruct (Rlt_dec PI (q - p)); split; lra.
Qed.
Lemma diff_sin : sin diff = sin (nv - nu).
Proof.
  unfold diff. destruct (Rlt_dec _ _); [rewrite sin_plus, sin_2PI, cos_2PI; ring|]. destruct (Rlt_dec _ _); auto. rewrite sin_minus, sin_2PI, cos_2PI. ring.
Qed.
Lemma area_sin : area ru rv = - (Cmod ru * Cmod rv * sin diff).
Proof.
  rewrite diff_sin. unfold area. rewrite <- (polar_re ru), <- (polar_im ru), <- (polar_re rv), <- (polar_im rv).
  change (carg ru) with nu. change (carg rv) with nv. rewrite sin_minus. ring.
Qed.
Lemma kappa_eq : ob_kappa (orbit_init eig2 ru rv) =
  (if Req_EM_T diff 0 then 0 else if Req_EM_T diff PI then 0 else
   if Rlt_dec 0 diff then (if Rlt_dec diff PI then - (sqrt m / sqrt M) else sqrt m / sqrt M) else sqrt m / sqrt M).
Proof. reflexivity. Qed.
Lemma kappa_forward : 0 < area ru rv -> ob_kappa (orbit_init eig2 ru rv) = ob_minor (orbit_init eig2 ru rv) / ob_major (orbit_init eig2 ru rv).
Proof.
  intros Ha. rewrite orbit_minor_eq, orbit_major_eq, kappa_eq. rewrite area_sin in Ha. pose proof diff_range. pose proof PI_RGT_0.
  assert (Hp : 0 <= Cmod ru * Cmod rv) by (apply Rmult_le_pos; apply Cmod_ge_0).
  assert (sin diff < 0) by nra.
  destruct (Req_EM_T diff 0) as [E|E]; [rewrite E, sin_0 in *; lra|].
  destruct (Req_EM_T diff PI) as [F|F]; [rewrite F, sin_PI in *; lra|].
  destruct (Rlt_dec 0 diff) as [G|G]; auto. destruct (Rlt_dec diff PI) as [K|K]; auto.
  pose proof (sin_gt_0 diff G K). lra.
Qed.
Lemma kappa_backward : area ru rv < 0 -> ob_kappa (orbit_init eig2 ru rv) = - (ob_minor (orbit_init eig2 ru rv) / ob_major (orbit_init eig2 ru rv)).
Proof.
  intros Ha. rewrite orbit_minor_eq, orbit_major_eq, kappa_eq. rewrite area_sin in Ha. pose proof diff_range. pose proof PI_RGT_0.
  assert (Hp : 0 <= Cmod ru * Cmod rv) by (apply Rmult_le_pos; apply Cmod_ge_0).
  assert (S : 0 < sin diff) by nra.
  destruct (Req_EM_T diff 0) as [E|E]; [rewrite E, sin_0 in S; lra|].
  destruct (Req_EM_T diff PI) as [F|F]; [rewrite F, sin_PI in S; lra|].
  destruct (Rlt_dec 0 diff) as [G|G].
  - destruct (Rlt_dec diff PI) as [K|K]; auto. lra.
  - exfalso. assert (sin diff <= 0); [|lra]. replace diff with (- (- diff)) by ring. rewrite sin_neg. pose proof (sin_ge_0 (- diff) ltac:(lra) ltac:(lra)). lra.
Qed.
Lemma kappa_zero : area ru rv = 0 -> ob_kappa (orbit_init eig2 ru rv) = 0 /\ ob_minor (orbit_init eig2 ru rv) = 0.
Proof.
  intros Ha. destruct mM_facts as (A & B & D & E). rewrite Ha in D.
  assert (Z : m = 0) by (destruct (Rtotal_order m 0) as [?|[?|?]]; auto; [lra|]; assert (0 < M) by lra; nra).
  rewrite orbit_minor_eq, kappa_eq, Z, sqrt_0. split; auto. unfold Rdiv. rewrite Rmult_0_l.
  repeat match goal with |- context [if ?d then _ else _] => destruct d end; lra.
Qed.
End OrbitAxes.

(** ** area and direction of travel *)
Lemma motion_deriv A c : derivable_pt_lim (motion A) c (- fst A * sin c - snd A * cos c).
Proof.
  unfold motion. replace (- fst A * sin c - snd A * cos c) with (fst A * (- sin c) - snd A * cos c) by ring.
  apply derivable_pt_lim_minus; apply derivable_pt_lim_scal; [apply derivable_pt_lim_cos|apply derivable_pt_lim_sin].
Qed.
Lemma swept ru rv c dx dy : derivable_pt_lim (motion ru) c dx -> derivable_pt_lim (motion rv) c dy ->
  motion ru c * dy - motion rv c * dx = area ru rv.
Proof.
  intros Hx Hy. rewrite (uniqueness_limite _ _ _ _ Hx (motion_deriv ru c)), (uniqueness_limite _ _ _ _ Hy (motion_deriv rv c)).
  unfold motion, area. replace (snd ru * fst rv - fst ru * snd rv) with ((snd ru * fst rv - fst ru * snd rv) * (cos c ^ 2 + sin c ^ 2)) by (rewrite unit_cs; ring). ring.
Qed.
Lemma forward_area ru rv : turns_forward ru rv <-> 0 < area ru rv.
Proof.
  split; intros H.
  - specialize (H 0 _ _ (motion_deriv ru 0) (motion_deriv rv 0)). rewrite (swept _ _ _ _ _ (motion_deriv ru 0) (motion_deriv rv 0)) in H. auto.
  - intros c dx dy Hx Hy. rewrite (swept _ _ _ _ _ Hx Hy). auto.
Qed.
Lemma backward_area ru rv : turns_backward ru rv <-> area ru rv < 0.
Proof.
  split; intros H.
  - specialize (H 0 _ _ (motion_deriv ru 0) (motion_deriv rv 0)). rewrite (swept _ _ _ _ _ (motion_deriv ru 0) (motion_deriv rv 0)) in H. auto.
  - intros c dx dy Hx Hy. rewrite (swept _ _ _ _ _ Hx Hy). auto.
Qed.
Lemma line_area ru rv : on_a_line ru rv <-> area ru rv = 0.
Proof.
  split.
  - intros (a & b & Hn & H). assert (E1 := H 0). assert (E2 := H (PI / 2)). unfold motion in E1, E2.
    rewrite cos_0, sin_0 in E1. rewrite cos_PI2, sin_PI2 in E2. unfold area.
    destruct Hn as [Hn|Hn].
    + assert (a * (snd ru * fst rv - fst ru * snd rv) = 0).
      { replace (a * (snd ru * fst rv - fst ru * snd rv)) with (a * snd ru * fst rv - a * fst ru * snd rv) by ring.
        replace (a * snd ru) with (- (b * snd rv)) by lra. replace (a * fst ru) with (- (b * fst rv)) by lra. ring. }
      apply Rmult_integral in H0 as [|]; [contradiction|auto].
    + assert (b * (snd ru * fst rv - fst ru * snd rv) = 0).
      { replace (b * (snd ru * fst rv - fst ru * snd rv)) with (b * fst rv * snd ru - b * snd rv * fst ru) by ring.
        replace (b * snd rv) with (- (a * snd ru)) by lra. replace (b * fst rv) with (- (a * fst ru)) by lra. ring. }
      apply Rmult_integral in H0 as [|]; [contradiction|auto].
  - intros E. unfold area in E.
    destruct (Req_dec (fst ru) 0) as [Z1|Z1]; [destruct (Req_dec (snd ru) 0) as [Z2|Z2]|].
    + exists 1, 0. split; [left; lra|]. intros c. unfold motion. rewrite Z1, Z2. ring.
    + exists (snd rv), (- snd ru). split; [right; lra|]. intros c. unfold motion. rewrite Z1 in *. assert (fst rv = 0) by nra. rewrite H. ring.
    + exists (fst rv), (- fst ru). split; [right; lra|]. intros c. unfold motion. replace (fst rv * (fst ru * cos c - snd ru * sin c) + - fst ru * (fst rv * cos c - snd rv * sin c)) with (- (snd ru * fst rv - fst ru * snd rv) * sin c) by ring. rewrite E. ring.
Qed.

(** ** sampled points *)
Lemma argmax_spec f n : (0 < n)%nat -> (argmax f n < n)%nat /\ forall k, (k < n)%nat -> f k <= f (argmax f n).
Proof.
  induction n as [|n IH]; [lia|]. intros _. destruct n as [|n].
  - simpl. split; [lia|]. intros k Hk. replace k with 0%nat by lia. lra.
  - destruct IH as [I1 I2]; [lia|]. change (argmax f (S (S n))) with (if Rlt_dec (f (argmax f (S n))) (f (S n)) then S n else argmax f (S n)).
    destruct (Rlt_dec _ _) as [L|L]; split; try lia; intros k Hk; destruct (Nat.eq_dec k (S n)) as [->|]; try lra.
    + specialize (I2 k ltac:(lia)). lra.
    + apply I2. lia.
Qed.
Lemma argmax_const f n : (forall k, (k < n)%nat -> f k = f 0%nat) -> argmax f n = 0%nat.
Proof.
  induction n as [|n IH]; [auto|]. intros H. destruct n as [|n]; [auto|].
  change (argmax f (S (S n))) with (if Rlt_dec (f (argmax f (S n))) (f (S n)) then S n else argmax f (S n)).
  rewrite IH by (intros; apply H; lia). rewrite (H (S n)) by lia. destruct (Rlt_dec _ _); [lra|auto].
Qed.
