(** The matrix exponential: s |-> exp(s X) solves x' = X x, and nothing else does. *)
From Coq Require Import Reals List Arith Lia Lra.
From Coquelicot Require Import Coquelicot.
From Verif Require Import PyBase MatBase SpecMat LMat SpecLsim.
Open Scope R_scope.

(** ** products *)
Lemma mulm_ext n A A' B B' i j : (forall k, (k < n)%nat -> A i k = A' i k) -> (forall k, (k < n)%nat -> B k j = B' k j) ->
  mulm n A B i j = mulm n A' B' i j.
Proof. intros H1 H2. unfold mulm. apply sumn_ext. intros k Hk. rewrite H1, H2 by auto. reflexivity. Qed.
Lemma mulm_assoc n A B D i j : mulm n (mulm n A B) D i j = mulm n A (mulm n B D) i j.
Proof.
  unfold mulm. rewrite (sumn_ext n _ (fun k => sumn n (fun l => A i l * B l k * D k j))).
  2: { intros k _. rewrite <- sumn_scal_r. reflexivity. }
  rewrite sumn_swap. apply sumn_ext. intros l _. rewrite <- sumn_scal. apply sumn_ext. intros k _. ring.
Qed.
Lemma mulv_mulm n A B x i : mulv n (mulm n A B) x i = mulv n A (mulv n B x) i.
Proof.
  unfold mulm, mulv. rewrite (sumn_ext n _ (fun k => sumn n (fun l => A i l * B l k * x k))).
  2: { intros k _. rewrite <- sumn_scal_r. reflexivity. }
  rewrite sumn_swap. apply sumn_ext. intros l _. rewrite <- sumn_scal. apply sumn_ext. intros k _. ring.
Qed.
Lemma mulm_mid_l n A i j : (i < n)%nat -> mulm n mid A i j = A i j.
Proof.
  intros Hi. unfold mulm. rewrite (sumn_single n _ i Hi).
  - unfold mid. rewrite Nat.eqb_refl. ring.
  - intros k _ Hk. unfold mid. replace (i =? k)%nat with false by (symmetry; apply Nat.eqb_neq; auto). ring.
Qed.
Lemma mulm_mid_r n A i j : (j < n)%nat -> mulm n A mid i j = A i j.
Proof.
  intros Hj. unfold mulm. rewrite (sumn_single n _ j Hj).
  - unfold mid. rewrite Nat.eqb_refl. ring.
  - intros k _ Hk. unfold mid. replace (k =? j)%nat with false by (symmetry; apply Nat.eqb_neq; auto). ring.
Qed.
Lemma mulv_mid n x i : (i < n)%nat -> mulv n mid x i = x i.
Proof.
  intros Hi. unfold mulv. rewrite (sumn_single n _ i Hi).
  - unfold mid. rewrite Nat.eqb_refl. ring.
  - intros k _ Hk. unfold mid. replace (i =? k)%nat with false by (symmetry; apply Nat.eqb_neq; auto). ring.
Qed.
Lemma mulv_ext n A A' x x' i : (forall k, (k < n)%nat -> A i k = A' i k) -> (forall k, (k < n)%nat -> x k = x' k) -> mulv n A x i = mulv n A' x' i.
Proof. intros H1 H2. unfold mulv. apply sumn_ext. intros k Hk. rewrite H1, H2 by auto. reflexivity. Qed.

(** ** powers *)
Lemma pow_comm n X k : forall i j, (i < n)%nat -> (j < n)%nat -> mulm n X (mat_pow n X k) i j = mulm n (mat_pow n X k) X i j.
Proof.
  induction k as [|k IH]; intros i j Hi Hj; cbn [mat_pow].
  - rewrite mulm_mid_l, mulm_mid_r by auto. reflexivity.
  - rewrite mulm_assoc. apply mulm_ext; [reflexivity|]. intros l Hl. apply IH; auto.
Qed.
Lemma pow_scale n X c k : forall i j, mat_pow n (mscale c X) k i j = c ^ k * mat_pow n X k i j.
Proof.
  induction k as [|k IH]; intros i j; cbn [mat_pow pow]; [ring|]. unfold mulm. rewrite <- sumn_scal. apply sumn_ext. intros l _.
  rewrite IH. unfold mscale. ring.
Qed.
Lemma pow_trans n X k : forall i j, (i < n)%nat -> (j < n)%nat -> mat_pow n (mtrans X) k i j = mat_pow n X k j i.
Proof.
  induction k as [|k IH]; intros i j Hi Hj; cbn [mat_pow]; [unfold mid; rewrite Nat.eqb_sym; reflexivity|].
  rewrite pow_comm by auto. unfold mulm. apply sumn_ext. intros l Hl. rewrite IH by auto. unfold mtrans. ring.
Qed.
Definition mag (n : nat) (X : mat) : R := sumn n (fun i => sumn n (fun j => Rabs (X i j))).
Lemma sumn_ge n f k : (forall i, (i < n)%nat -> 0 <= f i) -> (k < n)%nat -> f k <= sumn n f.
Proof.
  induction n as [|n IH]; intros H Hk; [lia|]. cbn [sumn]. destruct (Nat.eq_dec k n) as [->|N].
  - pose proof (sumn_nonneg n f (fun i Hi => H i (Nat.lt_lt_succ_r _ _ Hi))). lra.
  - pose proof (H n (Nat.lt_succ_diag_r n)). assert (f k <= sumn n f) by (apply IH; [intros; apply H; lia|lia]). lra.
Qed.
Lemma mag_ge n X i j : (i < n)%nat -> (j < n)%nat -> Rabs (X i j) <= mag n X.
Proof.
  intros Hi Hj. apply Rle_trans with (sumn n (fun j => Rabs (X i j))).
  - apply (sumn_ge n (fun j => Rabs (X i j))); auto. intros; apply Rabs_pos.
  - apply (sumn_ge n (fun i => sumn n (fun j => Rabs (X i j)))); auto. intros; apply sumn_nonneg; intros; apply Rabs_pos.
Qed.
Lemma mag_pos n X : 0 <= mag n X.
Proof. apply sumn_nonneg; intros; apply sumn_nonneg; intros; apply Rabs_pos. Qed.
Lemma sumn_abs n f : Rabs (sumn n f) <= sumn n (fun i => Rabs (f i)).
Proof. induction n as [|n IH]; cbn [sumn]; [rewrite Rabs_R0; lra|]. eapply Rle_trans; [apply Rabs_triang|lra]. Qed.
Lemma sumn_le n f g : (forall i, (i < n)%nat -> f i <= g i) -> sumn n f <= sumn n g.
Proof. induction n as [|n IH]; intros H; cbn [sumn]; [lra|]. specialize (H n (Nat.lt_succ_diag_r n)) as H0. assert (sumn n f <= sumn n g) by (apply IH; intros; apply H; lia). lra. Qed.
Lemma pow_bound n X k : forall i j, (i < n)%nat -> (j < n)%nat -> Rabs (mat_pow n X k i j) <= (1 + INR n * mag n X) ^ k.
Proof.
  set (B := 1 + INR n * mag n X). assert (HB : 0 <= INR n * mag n X) by (apply Rmult_le_pos; [apply pos_INR|apply mag_pos]).
  induction k as [|k IH]; intros i j Hi Hj; cbn [mat_pow pow].
  - unfold mid. destruct (Nat.eqb i j); [rewrite Rabs_R1|rewrite Rabs_R0]; lra.
  - unfold mulm. eapply Rle_trans; [apply sumn_abs|]. apply Rle_trans with (sumn n (fun _ => mag n X * B ^ k)).
    + apply sumn_le. intros l Hl. rewrite Rabs_mult. apply Rmult_le_compat; try apply Rabs_pos; [apply mag_ge; auto|apply IH; auto].
    + rewrite sumn_const. assert (0 <= B ^ k) by (apply pow_le; unfold B; lra). unfold B at 2. rewrite Rmult_plus_distr_r. rewrite <- Rmult_assoc. lra.
Qed.

(** ** the series *)
Definition coef (n : nat) (X : mat) (i j k : nat) : R := mat_pow n X k i j / INR (fact k).
Definition phi (n : nat) (X : mat) (s : R) : mat := fun i j => PSeries (coef n X i j) s.
Lemma fact_pos k : 0 < INR (fact k).
Proof. apply lt_0_INR, lt_O_fact. Qed.
Lemma pow_fact_le_exp x k : 0 <= x -> x ^ k / INR (fact k) <= exp x.
Proof.
  intros Hx. eapply Rle_trans; [|apply (exp_ge_taylor x k Hx)]. destruct k; [cbn; lra|]. cbn [sum_f_R0].
  assert (0 <= sum_f_R0 (fun k => x ^ k / INR (fact k)) k) by (apply cond_pos_sum; intros m; apply Rmult_le_pos; [apply pow_le; auto|left; apply Rinv_0_lt_compat, fact_pos]). lra.
Qed.
Lemma coef_radius n X i j : (i < n)%nat -> (j < n)%nat -> CV_radius (coef n X i j) = p_infty.
Proof.
  intros Hi Hj. destruct (CV_radius_bounded (coef n X i j)) as [U _].
  assert (A : forall r, 0 <= r -> Rbar_le r (CV_radius (coef n X i j))).
  { intros r Hr. apply U. set (B := 1 + INR n * mag n X).
    assert (HB : 0 <= B) by (pose proof (Rmult_le_pos _ _ (pos_INR n) (mag_pos n X)); unfold B; lra).
    exists (exp (B * r)). intros k. apply Rle_trans with ((B * r) ^ k / INR (fact k)); [|apply pow_fact_le_exp, Rmult_le_pos; auto].
    unfold coef. unfold Rdiv. rewrite !Rabs_mult, Rpow_mult_distr, (Rabs_pos_eq (/ _)), (Rabs_pos_eq (r ^ k)).
    - pose proof (pow_bound n X k i j Hi Hj) as P. fold B in P. replace (B ^ k * r ^ k * / INR (fact k)) with (B ^ k * (r ^ k * / INR (fact k))) by ring.
      replace (Rabs (mat_pow n X k i j) * / INR (fact k) * r ^ k) with (Rabs (mat_pow n X k i j) * (r ^ k * / INR (fact k))) by ring.
      apply Rmult_le_compat_r; auto. apply Rmult_le_pos; [apply pow_le; auto|left; apply Rinv_0_lt_compat, fact_pos].
    - apply pow_le; auto.
    - left. apply Rinv_0_lt_compat, fact_pos. }
  destruct (CV_radius (coef n X i j)) as [x| |] eqn:E; auto.
  - specialize (A (Rabs x + 1)). cbn in A. pose proof (Rabs_pos x). pose proof (Rle_abs x). specialize (A ltac:(lra)). lra.
  - specialize (A 0 ltac:(lra)). contradiction A.
Qed.
Lemma coef_series n X i j s : (i < n)%nat -> (j < n)%nat -> is_pseries (coef n X i j) s (phi n X s i j).
Proof. intros Hi Hj. apply PSeries_correct, CV_radius_inside. rewrite coef_radius by auto. exact Logic.I. Qed.
Lemma phi_0 n X i j : (i < n)%nat -> (j < n)%nat -> phi n X 0 i j = mid i j.
Proof. intros Hi Hj. unfold phi. rewrite PSeries_0. unfold coef. cbn. field. Qed.
Lemma PS_derive_coef n X i j k : PS_derive (coef n X i j) k = sumn n (fun l => X i l * coef n X l j k).
Proof.
  unfold PS_derive, coef. cbn [mat_pow]. rewrite fact_simpl, mult_INR. unfold mulm.
  transitivity (sumn n (fun l => X i l * mat_pow n X k l j) * / INR (fact k)).
  - field. split; [apply INR_fact_neq_0|apply not_0_INR; lia].
  - rewrite <- sumn_scal_r. apply sumn_ext. intros l _. unfold Rdiv. ring.
Qed.
Lemma is_pseries_sumn m (c : nat -> R) (a : nat -> nat -> R) s (y : nat -> R) : (forall l, (l < m)%nat -> is_pseries (a l) s (y l)) ->
  is_pseries (fun k => sumn m (fun l => c l * a l k)) s (sumn m (fun l => c l * y l)).
Proof.
  induction m as [|m IH]; intros H; cbn [sumn].
  - unfold is_pseries. apply (is_series_ext (fun _ => 0)); [intros k; unfold scal; cbn; unfold mult; cbn; ring|].
    apply is_series_Reals. intros e He. exists 0%nat. intros k _. rewrite sum_eq_R0 by auto. unfold R_dist. rewrite Rminus_0_r, Rabs_R0. exact He.
  - apply (is_pseries_plus (fun k => sumn m (fun l => c l * a l k)) (fun k => c m * a m k)); [apply IH; intros; apply H; lia|].
    apply (is_pseries_scal (c m) (a m)); [apply Rmult_comm|apply H; lia].
Qed.
Lemma phi_derive n X i j s : (i < n)%nat -> (j < n)%nat -> is_derive (fun x => phi n X x i j) s (mulm n X (phi n X s) i j).
Proof.
  intros Hi Hj. unfold phi at 1. replace (mulm n X (phi n X s) i j) with (PSeries (PS_derive (coef n X i j)) s).
  - apply is_derive_PSeries. rewrite coef_radius by auto. exact Logic.I.
  - apply is_pseries_unique. apply (is_pseries_ext (fun k => sumn n (fun l => X i l * coef n X l j k))); [intros; symmetry; apply PS_derive_coef|].
    unfold mulm. apply (is_pseries_sumn n (X i) (fun l => coef n X l j) s (fun l => phi n X s l j)). intros l Hl. apply coef_series; auto.
Qed.
Lemma phi_comm n X s i j : (i < n)%nat -> (j < n)%nat -> mulm n X (phi n X s) i j = mulm n (phi n X s) X i j.
Proof.
  intros Hi Hj. transitivity (PSeries (fun k => sumn n (fun l => X i l * coef n X l j k)) s).
  - symmetry. apply is_pseries_unique. unfold mulm. apply (is_pseries_sumn n (X i) (fun l => coef n X l j) s (fun l => phi n X s l j)). intros; apply coef_series; auto.
  - apply is_pseries_unique. apply (is_pseries_ext (fun k => sumn n (fun l => X l j * coef n X i l k))).
    + intros k. pose proof (pow_comm n X k i j Hi Hj) as E. unfold mulm in E. unfold coef, Rdiv.
      transitivity (sumn n (fun l => mat_pow n X k i l * X l j) * / INR (fact k)).
      * rewrite <- sumn_scal_r. apply sumn_ext; intros; ring.
      * rewrite <- E, <- sumn_scal_r. apply sumn_ext; intros; ring.
    + unfold mulm. rewrite (sumn_ext n (fun k => phi n X s i k * X k j) (fun l => X l j * phi n X s i l)) by (intros; ring).
      apply (is_pseries_sumn n (fun l => X l j) (fun l => coef n X i l) s (fun l => phi n X s i l)). intros; apply coef_series; auto.
Qed.
(** expm of s X is the value of the series at s *)
Lemma expm_phi n X s E : is_expm n (mscale s X) E -> forall i j, (i < n)%nat -> (j < n)%nat -> E i j = phi n X s i j.
Proof.
  intros H i j Hi Hj. specialize (H i j Hi Hj). apply is_series_unique in H. rewrite <- H. symmetry. unfold phi, PSeries. apply Series_ext.
  intros k. rewrite pow_scale. unfold coef. unfold Rdiv. ring.
Qed.
Lemma expm_exists n X : is_expm n X (phi n X 1).
Proof.
  intros i j Hi Hj. pose proof (coef_series n X i j 1 Hi Hj) as H. unfold is_pseries in H.
  eapply is_series_ext; [|exact H]. intros k. cbn. rewrite pow_n_pow, pow1. unfold scal; cbn; unfold mult; cbn. unfold coef. ring.
Qed.
