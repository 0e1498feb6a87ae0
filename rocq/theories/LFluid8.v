(** The discretised film: comparison and uniqueness; sign and meaning of the coefficients. *)
From Coq Require Import Reals List Arith Bool Lia Lra.
From Coquelicot Require Import Coquelicot.
From Verif Require Import PyBase MatBase LMat CMat MDynamics MFluid SpecFilm LFluid7.
Import ListNotations.
Open Scope R_scope.

Definition mz : mat := fun _ _ => 0.
Lemma grid_minus nz nt dz dt pin pout pin' pout' c1 c2 c0 c0' p q : dz <> 0 -> dt <> 0 ->
  film_grid nz nt dz dt pin pout c1 c2 c0 p -> film_grid nz nt dz dt pin' pout' c1 c2 c0' q ->
  film_grid nz nt dz dt (pin - pin') (pout - pout') c1 c2 (fun i j => c0 i j - c0' i j) (fun i j => p i j - q i j).
Proof.
  intros Nz Nt [A1 A2 A3 A4 A5] [B1 B2 B3 B4 B5]. constructor.
  - intros j H. rewrite A1, B1 by exact H. reflexivity.
  - intros j H. rewrite A2, B2 by exact H. reflexivity.
  - intros i H. rewrite A3, B3 by exact H. reflexivity.
  - intros i j H H'. pose proof (A4 i j H H') as X. pose proof (B4 i j H H') as Y. unfold flow_t, flow_z in *. match type of X with ?a = 0 => match type of Y with ?b = 0 => transitivity (a - b); [field; split; assumption|rewrite X, Y; ring] end end.
  - intros i H. pose proof (A5 i H) as X. pose proof (B5 i H) as Y. unfold flow_t, flow_seam, flow_z in *. match type of X with ?a = 0 => match type of Y with ?b = 0 => transitivity (a - b); [field; split; assumption|rewrite X, Y; ring] end end.
Qed.
Lemma grid_ext nz nt dz dt pin pout c1 c2 c0 c0' p : (forall i j, c0 i j = c0' i j) -> film_grid nz nt dz dt pin pout c1 c2 c0 p -> film_grid nz nt dz dt pin pout c1 c2 c0' p.
Proof.
  intros E [A1 A2 A3 A4 A5]. constructor; try assumption.
  - intros i j H H'. rewrite <- (A4 i j H H'). unfold flow_t. rewrite !E. reflexivity.
  - intros i H. rewrite <- (A5 i H). unfold flow_t, flow_seam. rewrite !E. reflexivity.
Qed.
Lemma grid_zero nz nt dz dt c1 c2 : film_grid nz nt dz dt 0 0 c1 c2 mz mz.
Proof. constructor; intros; unfold flow_t, flow_seam, flow_z, mz; try reflexivity; unfold Rdiv; ring. Qed.
Lemma max_index n (f : nat -> R) : (0 < n)%nat -> exists k, (k < n)%nat /\ forall i, (i < n)%nat -> f i <= f k.
Proof.
  induction n as [|[|n] IH]; intros H; [lia| |].
  - exists 0%nat. split; [lia|]. intros i Hi. assert (i = 0)%nat as -> by lia. lra.
  - destruct IH as (k & Hk & Hm); [lia|]. destruct (Rle_lt_dec (f (S n)) (f k)) as [L|L].
    + exists k. split; [lia|]. intros i Hi. destruct (Nat.eq_dec i (S n)) as [->|]; [exact L|apply Hm; lia].
    + exists (S n). split; [lia|]. intros i Hi. destruct (Nat.eq_dec i (S n)) as [->|]; [lra|]. specialize (Hm i). assert (f i <= f k) by (apply Hm; lia). lra.
Qed.
Section MaxP.
Variables nz nt : nat.
Variables dz dt : R.
Variables c1 c2 : mat.
Hypothesis Hz : (2 <= nz)%nat.
Hypothesis Ht : (4 <= nt)%nat.
Hypothesis Ndz : dz <> 0.
Hypothesis Ndt : dt <> 0.
Hypothesis H1 : forall i j, (i < nz)%nat -> (j < nt)%nat -> c1 i j <= 0.
Hypothesis H2 : forall i j, (i < nz)%nat -> (j < nt)%nat -> c2 i j < 0.
Lemma four_terms a b c d x y z w : a <= 0 -> b <= 0 -> c < 0 -> d < 0 -> x <= 0 -> y <= 0 -> z <= 0 -> w <= 0 -> a * x / dt ^ 2 + b * y / dt ^ 2 + c * z / dz ^ 2 + d * w / dz ^ 2 = 0 -> w = 0.
Proof.
  intros. assert (0 < dt ^ 2) by (apply pow2_gt_0; exact Ndt). assert (0 < dz ^ 2) by (apply pow2_gt_0; exact Ndz).
  assert (P : forall u v s, u <= 0 -> v <= 0 -> 0 < s -> 0 <= u * v / s) by (intros; apply Rmult_le_pos; [nra|left; apply Rinv_0_lt_compat; assumption]).
  pose proof (P a x (dt ^ 2)). pose proof (P b y (dt ^ 2)). pose proof (P c z (dz ^ 2)). pose proof (P d w (dz ^ 2)).
  assert (E : d * w / dz ^ 2 = 0) by lra. assert (E' : d * w = 0). { apply Rmult_eq_reg_r with (/ dz ^ 2); [rewrite Rmult_0_l; exact E|]. apply Rinv_neq_0_compat. lra. } nra.
Qed.
Lemma grid_max pin pout p : film_grid nz nt dz dt pin pout c1 c2 mz p -> forall i j, (i < nz)%nat -> (j < nt)%nat -> p i j <= Rmax pin pout.
Proof.
  intros [A1 A2 A3 A4 A5]. destruct (max_index (nz * nt) (fun a => p (a mod nz)%nat (a / nz)%nat)) as (k & Hk & Hm); [nia|].
  set (m := p (k mod nz)%nat (k / nz)%nat) in *.
  assert (Hm' : forall i j, (i < nz)%nat -> (j < nt)%nat -> p i j <= m).
  { intros i j Hi Hj. specialize (Hm (j * nz + i)%nat). rewrite Nat.add_comm in Hm. rewrite Nat.mod_add, Nat.div_add in Hm by lia. rewrite Nat.mod_small, Nat.div_small in Hm by exact Hi. apply Hm. nia. }
  assert (Walk : forall i j, (i < nz - 1)%nat -> (j < nt)%nat -> p i j = m -> m <= Rmax pin pout).
  { induction i as [|i IH]; intros j Hi Hj E; [rewrite <- E, A1 by exact Hj; apply Rmax_l|].
    assert (W : forall j, (j < nt - 1)%nat -> p (S i) j = m -> m <= Rmax pin pout).
    { clear j Hj E. intros j Hj E. apply (IH j); [lia|lia|]. destruct (Nat.eq_dec j 0) as [->|Nj].
      - pose proof (A5 (S i) ltac:(lia)) as X. unfold flow_t, flow_seam, flow_z, mz in X. rewrite E in X. cbn [Nat.add] in X. replace (S i - 1)%nat with i in X by lia. replace (i + 1)%nat with (S i) in X by lia. rewrite E in X.
        enough (p i 0%nat - m = 0) by lra. eapply (four_terms (c1 (S i) 0%nat) (c1 (S i) (nt - 1)%nat) (c2 (S i) 0%nat) (c2 i 0%nat) (p (S i) 1%nat - m) (p (S i) (nt - 2)%nat - m) (p (S (S i)) 0%nat - m));
          try (apply H1; lia); try (apply H2; lia); try (apply Rle_minus; apply Hm'; lia). rewrite <- X. field. split; assumption.
      - pose proof (A4 (S i) j ltac:(lia) ltac:(lia)) as X. unfold flow_t, flow_z, mz in X. replace (S i - 1)%nat with i in X by lia. replace (i + 1)%nat with (S i) in X by lia. replace (j - 1 + 1)%nat with j in X by lia. rewrite E in X.
        enough (p i j - m = 0) by lra. eapply (four_terms (c1 (S i) j) (c1 (S i) (j - 1)%nat) (c2 (S i) j) (c2 i j) (p (S i) (j + 1)%nat - m) (p (S i) (j - 1)%nat - m) (p (S i + 1)%nat j - m));
          try (apply H1; lia); try (apply H2; lia); try (apply Rle_minus; apply Hm'; lia). rewrite <- X. field. split; assumption. }
    destruct (Nat.eq_dec j (nt - 1)) as [->|]; [|apply (W j); [lia|exact E]]. apply (W 0%nat); [lia|]. rewrite <- A3 by lia. exact E. }
  assert (M : m <= Rmax pin pout).
  { assert (Bi : (k mod nz < nz)%nat) by (apply Nat.mod_upper_bound; lia). assert (Bj : (k / nz < nt)%nat) by (apply Nat.div_lt_upper_bound; lia).
    destruct (Nat.eq_dec (k mod nz) (nz - 1)) as [E|E]; [unfold m; rewrite E, A2 by exact Bj; apply Rmax_r|]. apply (Walk (k mod nz)%nat (k / nz)%nat); [lia|exact Bj|reflexivity]. }
  intros i j Hi Hj. pose proof (Hm' i j Hi Hj). lra.
Qed.
Lemma grid_min pin pout p : film_grid nz nt dz dt pin pout c1 c2 mz p -> forall i j, (i < nz)%nat -> (j < nt)%nat -> Rmin pin pout <= p i j.
Proof.
  intros G i j Hi Hj. pose proof (grid_minus _ _ _ _ _ _ _ _ _ _ _ _ _ _ Ndz Ndt (grid_zero nz nt dz dt c1 c2) G) as N.
  assert (N' : film_grid nz nt dz dt (- pin) (- pout) c1 c2 mz (fun i j => mz i j - p i j)) by (replace (- pin) with (0 - pin) by ring; replace (- pout) with (0 - pout) by ring; revert N; apply grid_ext; intros; unfold mz; ring).
  pose proof (grid_max _ _ _ N' i j Hi Hj) as X. unfold mz in X. pose proof (Ropp_Rmin pin pout). lra.
Qed.
Lemma grid_compare pin pout pin' pout' c0 p q : film_grid nz nt dz dt pin pout c1 c2 c0 p -> film_grid nz nt dz dt pin' pout' c1 c2 c0 q -> pin <= pin' -> pout <= pout' ->
  forall i j, (i < nz)%nat -> (j < nt)%nat -> p i j <= q i j.
Proof.
  intros P Q Li Lo i j Hi Hj. pose proof (grid_minus _ _ _ _ _ _ _ _ _ _ _ _ _ _ Ndz Ndt P Q) as N. apply grid_ext with (c0' := mz) in N; [|intros; unfold mz; ring].
  pose proof (grid_max _ _ _ N i j Hi Hj) as X. cbv beta in X. assert (Rmax (pin - pin') (pout - pout') <= 0) by (apply Rmax_lub; lra). lra.
Qed.
Lemma mount_nonsingular pin pout c0 M b : mounting_matrix nz nt dz dt pin pout c1 c2 c0 = (M, b) -> nonsingular (nz * nt) M.
Proof.
  intros E. destruct (mounting_matrix nz nt dz dt 0 0 c1 c2 mz) as [M' b'] eqn:E'.
  assert (EM : M' = M). { revert E E'. unfold mounting_matrix. rewrite !bounds_eq by assumption. intros E E'. injection E as <- _. injection E' as <- _. reflexivity. }
  subst M'. assert (B0 : forall a, (a < nz * nt)%nat -> b' a = 0).
  { intros a Ha. rewrite <- (proj2 (system_grid nz nt dz dt 0 0 c1 c2 mz Hz Ht M b' (fun _ => 0) E' Ndz Ndt)); [|exact (grid_zero nz nt dz dt c1 c2)|exact Ha]. unfold mulv. apply sumn_0. intros. ring. }
  intros X HX. assert (G : film_grid nz nt dz dt 0 0 c1 c2 mz (fun i j => X (j * nz + i)%nat)).
  { apply (system_grid nz nt dz dt 0 0 c1 c2 mz Hz Ht M b' X E' Ndz Ndt). intros a Ha. rewrite B0 by exact Ha. apply HX. exact Ha. }
  intros a Ha. assert (Bi : (a mod nz < nz)%nat) by (apply Nat.mod_upper_bound; lia). assert (Bj : (a / nz < nt)%nat) by (apply Nat.div_lt_upper_bound; lia).
  pose proof (grid_max _ _ _ G _ _ Bi Bj) as U. pose proof (grid_min _ _ _ G _ _ Bi Bj) as L. cbv beta in U, L. replace (a / nz * nz + a mod nz)%nat with a in U, L by (pose proof (Nat.div_mod a nz); lia). rewrite Rmax_left in U by lra. rewrite Rmin_left in L by lra. lra.
Qed.
End MaxP.

(** sign of the coefficients *)
Lemma mono_from_derive (f f' : R -> R) a b : a < b -> (forall x, a <= x <= b -> is_derive f x (f' x)) -> (forall x, a < x < b -> 0 < f' x) -> f a < f b.
Proof.
  intros Hab D P. destruct (MVT_gen f a b f') as (c & Hc & E).
  - intros x Hx. rewrite Rmin_left, Rmax_right in Hx by lra. apply D. lra.
  - intros x Hx. rewrite Rmin_left, Rmax_right in Hx by lra. apply continuity_pt_filterlim. apply (ex_derive_continuous (K := R_AbsRing) (V := R_NormedModule)). exists (f' x). apply D. lra.
  - rewrite Rmin_left, Rmax_right in Hc by lra.
    assert (Q : exists c, a < c < b /\ f b - f a = f' c * (b - a)).
    { destruct (MVT_cor2 f f' a b Hab) as (c' & E' & Hc'); [intros x Hx; apply is_derive_Reals; apply D; exact Hx|]. exists c'. split; [exact Hc'|exact E']. }
    destruct Q as (c' & Hc' & E'). specialize (P c' Hc'). nra.
Qed.
Lemma ln_upper y : 1 < y -> 2 * ln y < y - / y.
Proof.
  intros Hy. enough (1 - / 1 - 2 * ln 1 < y - / y - 2 * ln y) by (rewrite ln_1 in H; lra).
  apply (mono_from_derive (fun x => x - / x - 2 * ln x) (fun x => (1 - / x) ^ 2)); [exact Hy| |].
  - intros x Hx. auto_derive; [split; [lra|split; [lra|exact I]]|]. field. lra.
  - intros x Hx. apply pow2_gt_0. assert (/ x < 1) by (rewrite <- Rinv_1; apply Rinv_lt_contravar; lra). lra.
Qed.
Lemma ln_lower x : 1 < x -> 2 * (x - 1) / (x + 1) < ln x.
Proof.
  intros Hx. enough (ln 1 - 2 * (1 - 1) / (1 + 1) < ln x - 2 * (x - 1) / (x + 1)) by (rewrite ln_1 in H; lra).
  apply (mono_from_derive (fun x => ln x - 2 * (x - 1) / (x + 1)) (fun x => (x - 1) ^ 2 / (x * (x + 1) ^ 2))); [exact Hx| |].
  - intros y Hy. auto_derive; [repeat split; lra|]. field. lra.
  - intros y Hy. apply Rdiv_lt_0_compat; [apply pow2_gt_0; lra|]. apply Rmult_lt_0_compat; [lra|apply pow_lt; lra].
Qed.
Lemma fc1_val mu re ri : 0 < ri < re -> mu <> 0 -> fc1 mu re ri = (- (re ^ 2 - ri ^ 2) / 2 + 2 * re ^ 2 * ri ^ 2 * ln (re / ri) ^ 2 / (re ^ 2 - ri ^ 2)) / (4 * mu).
Proof. intros H Hm. unfold fc1, fk. rewrite ln_div by lra. field. repeat split; try lra; nra. Qed.
Lemma fc2_val mu re ri : 0 < ri < re -> mu <> 0 -> fc2 mu re ri = - (re ^ 4 - ri ^ 4 - (re ^ 2 - ri ^ 2) ^ 2 / ln (re / ri)) / (16 * mu).
Proof.
  intros H Hm. unfold fc2. assert (0 < ln (re / ri)). { rewrite <- ln_1. apply ln_increasing; [lra|]. apply Rmult_lt_reg_r with ri; [lra|]. unfold Rdiv. rewrite Rmult_assoc, Rinv_l; lra. } field. repeat split; lra.
Qed.
Lemma ratio_gt re ri : 0 < ri < re -> 1 < re / ri.
Proof. intros H. apply Rmult_lt_reg_r with ri; [lra|]. unfold Rdiv. rewrite Rmult_assoc, Rinv_l; lra. Qed.
Lemma fc1_neg mu re ri : 0 < ri < re -> 0 < mu -> fc1 mu re ri < 0.
Proof.
  intros H Hm. rewrite fc1_val by lra. set (L := ln (re / ri)). assert (HL : 0 < L) by (rewrite <- ln_1; apply ln_increasing; [lra|apply ratio_gt; exact H]).
  assert (U : 2 * L < re / ri - ri / re). { pose proof (ln_upper (re / ri) (ratio_gt re ri H)) as X. fold L in X. replace (ri / re) with (/ (re / ri)) by (field; lra). exact X. }
  assert (V : 2 * (re * ri) * L < re ^ 2 - ri ^ 2). { replace (re ^ 2 - ri ^ 2) with ((re * ri) * (re / ri - ri / re)) by (field; lra). replace (2 * (re * ri) * L) with (re * ri * (2 * L)) by ring. apply Rmult_lt_compat_l; [apply Rmult_lt_0_compat; lra|exact U]. }
  set (D := re ^ 2 - ri ^ 2) in *. assert (HD : 0 < D) by (unfold D; nra).
  assert (W : (2 * (re * ri) * L) ^ 2 < D ^ 2). { assert (0 < 2 * (re * ri) * L) by (apply Rmult_lt_0_compat; [nra|exact HL]). nra. }
  assert (Z : - D / 2 + 2 * re ^ 2 * ri ^ 2 * L ^ 2 / D < 0). { apply Rmult_lt_reg_r with D; [exact HD|]. rewrite Rmult_0_l. replace ((- D / 2 + 2 * re ^ 2 * ri ^ 2 * L ^ 2 / D) * D) with (((2 * (re * ri) * L) ^ 2 - D ^ 2) / 2) by (field; lra). lra. }
  assert (0 < / (4 * mu)) by (apply Rinv_0_lt_compat; lra). unfold Rdiv at 1. nra.
Qed.
Lemma fc2_neg mu re ri : 0 < ri < re -> 0 < mu -> fc2 mu re ri < 0.
Proof.
  intros H Hm. rewrite fc2_val by lra. set (L := ln (re / ri)). assert (HL : 0 < L) by (rewrite <- ln_1; apply ln_increasing; [lra|apply ratio_gt; exact H]).
  assert (X1 : 1 < re ^ 2 / ri ^ 2) by (replace (re ^ 2 / ri ^ 2) with ((re / ri) * (re / ri)) by (field; lra); pose proof (ratio_gt re ri H); nra).
  pose proof (ln_lower _ X1) as U. replace (ln (re ^ 2 / ri ^ 2)) with (2 * L) in U.
  2:{ unfold L. replace (re ^ 2 / ri ^ 2) with ((re / ri) * (re / ri)) by (field; lra). pose proof (ratio_gt re ri H). rewrite ln_mult by lra. ring. }
  assert (V : re ^ 2 - ri ^ 2 < L * (re ^ 2 + ri ^ 2)).
  { replace (2 * (re ^ 2 / ri ^ 2 - 1) / (re ^ 2 / ri ^ 2 + 1)) with (2 * ((re ^ 2 - ri ^ 2) / (re ^ 2 + ri ^ 2))) in U by (field; split; nra). assert (S : 0 < re ^ 2 + ri ^ 2) by nra.
    assert (U' : (re ^ 2 - ri ^ 2) / (re ^ 2 + ri ^ 2) < L) by lra. apply (Rmult_lt_compat_r _ _ _ S) in U'. unfold Rdiv in U'. rewrite Rmult_assoc, Rinv_l in U' by lra. lra. }
  assert (D : 0 < re ^ 2 - ri ^ 2) by nra.
  assert (Z : 0 < re ^ 4 - ri ^ 4 - (re ^ 2 - ri ^ 2) ^ 2 / L). { apply Rmult_lt_reg_r with L; [exact HL|]. rewrite Rmult_0_l. replace ((re ^ 4 - ri ^ 4 - (re ^ 2 - ri ^ 2) ^ 2 / L) * L) with ((re ^ 2 - ri ^ 2) * (L * (re ^ 2 + ri ^ 2) - (re ^ 2 - ri ^ 2))) by (field; lra). apply Rmult_lt_0_compat; lra. }
  assert (0 < / (16 * mu)) by (apply Rinv_0_lt_compat; lra). unfold Rdiv at 1. nra.
Qed.

(** flow between two cylinders *)
Lemma const_derive f a b : (forall r, a <= r <= b -> is_derive f r 0) -> forall r, a <= r <= b -> f r = f a.
Proof. intros H r Hr. destruct (Rle_lt_or_eq_dec _ _ (proj1 Hr)) as [L|<-]; [|reflexivity]. symmetry. apply (eq_is_derive f a r); [|exact L]. intros t Ht. apply H. lra. Qed.
Lemma profile_t mu g (v d : R -> R) ri re : 0 < ri < re -> mu <> 0 -> (forall r, ri <= r <= re -> is_derive v r (d r)) -> (forall r, ri <= r <= re -> is_derive (fun r => v r / r + d r) r (g / (mu * r))) ->
  exists A B, forall r, ri <= r <= re -> v r = g / mu * (r / 2 * ln r - r / 4) + A * r / 2 + B / r.
Proof.
  intros H Hm Dv Dw. set (A := v ri / ri + d ri - g / mu * ln ri).
  assert (HA : forall r, ri <= r <= re -> v r / r + d r - g / mu * ln r = A).
  { intros r Hr. apply (const_derive (fun r => v r / r + d r - g / mu * ln r) ri re); [|exact Hr]. intros t Ht. replace 0 with (g / (mu * t) - g / mu * / t) by (field; split; lra).
    apply (is_derive_minus (K := R_AbsRing) (V := R_NormedModule) (fun r => v r / r + d r) (fun r => g / mu * ln r)); [apply Dw; exact Ht|]. apply is_derive_scal. apply is_derive_ln. lra. }
  set (B := ri * v ri - g / mu * (ri ^ 2 / 2 * ln ri - ri ^ 2 / 4) - A * ri ^ 2 / 2). exists A, B.
  assert (HB : forall r, ri <= r <= re -> r * v r - g / mu * (r ^ 2 / 2 * ln r - r ^ 2 / 4) - A * r ^ 2 / 2 = B).
  { intros r Hr. apply (const_derive (fun r => r * v r - g / mu * (r ^ 2 / 2 * ln r - r ^ 2 / 4) - A * r ^ 2 / 2) ri re); [|exact Hr]. intros t Ht. pose proof (Dv t Ht) as F. pose proof (HA t Ht) as E.
    auto_derive; [split; [exists (d t); exact F|split; [lra|exact I]]|]. replace (Derive (fun x : R => v x) t) with (d t) by (symmetry; apply is_derive_unique; exact F). rewrite <- E. field. split; lra. }
  intros r Hr. pose proof (HB r Hr) as E. rewrite <- E. field. split; lra.
Qed.
Lemma flow_t_integral mu g w (v d : R -> R) ri re : 0 < ri < re -> mu <> 0 -> (forall r, ri <= r <= re -> is_derive v r (d r)) -> (forall r, ri <= r <= re -> is_derive (fun r => v r / r + d r) r (g / (mu * r))) ->
  v ri = w -> v re = 0 -> RInt v ri re = fc1 mu re ri * g - fc0 w re ri.
Proof.
  intros H Hm Dv Dw Vi Ve. destruct (profile_t mu g v d ri re H Hm Dv Dw) as (A & B & E).
  assert (I : is_RInt v ri re ((g / mu * (re ^ 2 / 4 * ln re - re ^ 2 / 4) + A * re ^ 2 / 4 + B * ln re) - (g / mu * (ri ^ 2 / 4 * ln ri - ri ^ 2 / 4) + A * ri ^ 2 / 4 + B * ln ri))).
  { apply (is_RInt_derive (V := R_CompleteNormedModule) (fun r => g / mu * (r ^ 2 / 4 * ln r - r ^ 2 / 4) + A * r ^ 2 / 4 + B * ln r) v).
    - intros r Hr. rewrite Rmin_left, Rmax_right in Hr by lra. rewrite (E r Hr). auto_derive; [repeat split; lra|]. field. split; lra.
    - intros r Hr. rewrite Rmin_left, Rmax_right in Hr by lra. apply (ex_derive_continuous (K := R_AbsRing) (V := R_NormedModule)). exists (d r). apply Dv. exact Hr. }
  rewrite (is_RInt_unique _ _ _ _ I). match goal with |- @eq _ ?a ?b => change (@eq R a b) end. assert (Ei := E ri ltac:(lra)). assert (Ee := E re ltac:(lra)). rewrite Vi in Ei. rewrite Ve in Ee. clear I E Dv Dw Vi Ve.
  assert (D : 0 < re ^ 2 - ri ^ 2) by nra.
  assert (HA : A = 2 * (- g / mu * ((re ^ 2 / 2 * ln re - re ^ 2 / 4) - (ri ^ 2 / 2 * ln ri - ri ^ 2 / 4)) - w * ri) / (re ^ 2 - ri ^ 2)).
  { apply Rmult_eq_reg_r with ((re ^ 2 - ri ^ 2) / 2); [|lra]. transitivity (- g / mu * ((re ^ 2 / 2 * ln re - re ^ 2 / 4) - (ri ^ 2 / 2 * ln ri - ri ^ 2 / 4)) - w * ri); [|field; split; lra].
    assert (X : 0 * re = g / mu * (re ^ 2 / 2 * ln re - re ^ 2 / 4) + A * re ^ 2 / 2 + B) by (rewrite Ee; field; split; lra). assert (Y : w * ri = g / mu * (ri ^ 2 / 2 * ln ri - ri ^ 2 / 4) + A * ri ^ 2 / 2 + B) by (rewrite Ei; field; split; lra).
    unfold Rdiv in *. lra. }
  assert (HB : B = - (g / mu * (re ^ 2 / 2 * ln re - re ^ 2 / 4)) - A * re ^ 2 / 2).
  { assert (X : 0 * re = g / mu * (re ^ 2 / 2 * ln re - re ^ 2 / 4) + A * re ^ 2 / 2 + B) by (rewrite Ee; field; split; lra). lra. }
  rewrite HB, HA. rewrite fc1_val by assumption. unfold fc0. rewrite ln_div by lra. field. repeat split; try lra; nra.
Qed.
Lemma flow_z_integral mu g (u d : R -> R) ri re : 0 < ri < re -> mu <> 0 -> (forall r, ri <= r <= re -> is_derive u r (d r)) -> (forall r, ri <= r <= re -> is_derive (fun r => r * d r) r (g * r / mu)) ->
  u ri = 0 -> u re = 0 -> RInt (fun r => r * u r) ri re = fc2 mu re ri * g.
Proof.
  intros H Hm Du Dw Ui Ue. set (A := ri * d ri - g * ri ^ 2 / (2 * mu)).
  assert (HA : forall r, ri <= r <= re -> r * d r - g * r ^ 2 / (2 * mu) = A).
  { intros r Hr. apply (const_derive (fun r => r * d r - g * r ^ 2 / (2 * mu)) ri re); [|exact Hr]. intros t Ht. replace 0 with (g * t / mu - g * t / mu) by ring.
    apply (is_derive_minus (K := R_AbsRing) (V := R_NormedModule) (fun r => r * d r) (fun r => g * r ^ 2 / (2 * mu))); [apply Dw; exact Ht|]. auto_derive; [exact I|]. field. lra. }
  set (B := u ri - g * ri ^ 2 / (4 * mu) - A * ln ri).
  assert (HB : forall r, ri <= r <= re -> u r - g * r ^ 2 / (4 * mu) - A * ln r = B).
  { intros r Hr. apply (const_derive (fun r => u r - g * r ^ 2 / (4 * mu) - A * ln r) ri re); [|exact Hr]. intros t Ht. pose proof (Du t Ht) as F. pose proof (HA t Ht) as E.
    auto_derive; [split; [exists (d t); exact F|split; [lra|exact I]]|]. replace (Derive (fun x : R => u x) t) with (d t) by (symmetry; apply is_derive_unique; exact F). rewrite <- E. field. split; lra. }
  assert (E : forall r, ri <= r <= re -> u r = g * r ^ 2 / (4 * mu) + A * ln r + B) by (intros r Hr; rewrite <- (HB r Hr); ring).
  assert (I : is_RInt (fun r => r * u r) ri re ((g * re ^ 4 / (16 * mu) + A * (re ^ 2 / 2 * ln re - re ^ 2 / 4) + B * re ^ 2 / 2) - (g * ri ^ 4 / (16 * mu) + A * (ri ^ 2 / 2 * ln ri - ri ^ 2 / 4) + B * ri ^ 2 / 2))).
  { apply (is_RInt_derive (V := R_CompleteNormedModule) (fun r => g * r ^ 4 / (16 * mu) + A * (r ^ 2 / 2 * ln r - r ^ 2 / 4) + B * r ^ 2 / 2) (fun r => r * u r)).
    - intros r Hr. rewrite Rmin_left, Rmax_right in Hr by lra. rewrite (E r Hr). auto_derive; [repeat split; lra|]. field. split; lra.
    - intros r Hr. rewrite Rmin_left, Rmax_right in Hr by lra. apply (ex_derive_continuous (K := R_AbsRing) (V := R_NormedModule)). exists (1 * u r + r * d r). apply (is_derive_mult (fun r => r) u r 1 (d r)); [apply (is_derive_id (K := R_AbsRing))|apply Du; exact Hr|intros; apply Rmult_comm]. }
  rewrite (is_RInt_unique _ _ _ _ I). match goal with |- @eq _ ?a ?b => change (@eq R a b) end. assert (Ei := E ri ltac:(lra)). assert (Ee := E re ltac:(lra)). rewrite Ui in Ei. rewrite Ue in Ee. clearbody A B. clear I E HA HB Du Dw Ui Ue.
  assert (L : ln ri < ln re) by (apply ln_increasing; lra).
  assert (VA : A = - (g * (re ^ 2 - ri ^ 2)) / (4 * mu * (ln re - ln ri))).
  { apply Rmult_eq_reg_r with (ln re - ln ri); [|lra]. transitivity (- (g * re ^ 2 / (4 * mu) - g * ri ^ 2 / (4 * mu))); [lra|field; split; lra]. }
  assert (VB : B = - (g * re ^ 2 / (4 * mu)) - A * ln re) by lra. rewrite VB, VA, fc2_val by assumption. rewrite ln_div by lra. field. split; lra.
Qed.
(** such flows exist *)
Lemma flow_t_exists mu g w ri re : 0 < ri < re -> mu <> 0 -> exists v d : R -> R, (forall r, ri <= r <= re -> is_derive v r (d r)) /\ (forall r, ri <= r <= re -> is_derive (fun r => v r / r + d r) r (g / (mu * r))) /\ v ri = w /\ v re = 0.
Proof.
  intros H Hm. assert (D : 0 < re ^ 2 - ri ^ 2) by nra. set (A := 2 * (- g / mu * ((re ^ 2 / 2 * ln re - re ^ 2 / 4) - (ri ^ 2 / 2 * ln ri - ri ^ 2 / 4)) - w * ri) / (re ^ 2 - ri ^ 2)). set (B := - (g / mu * (re ^ 2 / 2 * ln re - re ^ 2 / 4)) - A * re ^ 2 / 2).
  exists (fun r => g / mu * (r / 2 * ln r - r / 4) + A * r / 2 + B / r), (fun r => g / mu * (ln r / 2 + 1 / 4) + A / 2 - B / r ^ 2). split; [|split; [|split]].
  - intros r Hr. auto_derive; [repeat split; lra|]. field. repeat split; lra.
  - intros r Hr. auto_derive; [repeat split; try lra; apply Rgt_not_eq; nra|]. field. repeat split; lra.
  - unfold B, A. field. repeat split; lra.
  - unfold B. field. repeat split; lra.
Qed.
Lemma flow_z_exists mu g ri re : 0 < ri < re -> mu <> 0 -> exists u d : R -> R, (forall r, ri <= r <= re -> is_derive u r (d r)) /\ (forall r, ri <= r <= re -> is_derive (fun r => r * d r) r (g * r / mu)) /\ u ri = 0 /\ u re = 0.
Proof.
  intros H Hm. assert (L : ln ri < ln re) by (apply ln_increasing; lra). set (A := - (g * (re ^ 2 - ri ^ 2)) / (4 * mu * (ln re - ln ri))). set (B := - (g * re ^ 2 / (4 * mu)) - A * ln re).
  exists (fun r => g * r ^ 2 / (4 * mu) + A * ln r + B), (fun r => g * r / (2 * mu) + A / r). split; [|split; [|split]].
  - intros r Hr. auto_derive; [repeat split; lra|]. field. repeat split; lra.
  - intros r Hr. auto_derive; [repeat split; lra|]. field. repeat split; lra.
  - unfold B, A. field. repeat split; lra.
  - unfold B. ring.
Qed.
