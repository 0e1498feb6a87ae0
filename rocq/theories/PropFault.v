(** Theorems about the fault analyses (properties C40-C43, C63, C64). *)
From Coq Require Import Reals List Arith Lia Lra Bool ZArith.
From Verif Require Import PyBase MatBase CMat SpecMat LMat LCMat MMaterial MShaft MDisk MBearing MRotor SpecRotor LRotor LRotor2 LRotor3 LRotorEx PropRotor MDynamics SpecDynamics LDynEx2 MTime LTime2 MFault SpecFault LFault LFault2.
Import ListNotations.
Open Scope R_scope.

(** * C63: unbalance forces in the fault analyses *)
(** The speed law: it takes the given values at both ends, Omega is the derivative of the shaft angle and AccelV that of Omega. *)
Theorem C63_kinematics : forall speedI speedF tI tF, tI <> tF ->
  let a := sA speedI speedF tI tF in let b := sB speedI speedF tI tF in
  Omega a b tI = speedI /\ Omega a b tF = speedF /\ angular_position a b 0 = 0 /\
  (forall t, derivable_pt_lim (angular_position a b) t (Omega a b t)) /\ (forall t, derivable_pt_lim (Omega a b) t (AccelV a b t)).
Proof.
  intros u v tI tF H a b. pose proof (exp_gap _ _ H) as G. pose proof lambdat_pos.
  split; [unfold Omega, a, b, sA, sB; field; auto|]. split; [unfold Omega, a, b, sA, sB; field; auto|].
  split; [unfold angular_position; replace (- lambdat * 0) with 0 by ring; rewrite exp_0; field; lra|]. split; intros; [apply d_angle|apply d_omega].
Qed.
(** The force of one disk is the inertia force of a mass turning with the shaft from Y to X, also while the speed changes. *)
Theorem C63_inertia_force : forall m p a b t,
  inertia_force m (fun s => (- cos (angular_position a b s + p), sin (angular_position a b s + p))) t
    (unb_xy m p (angular_position a b t) (Omega a b t) (AccelV a b t)).
Proof. exact unb_inertia. Qed.
(** At the constant speed given to the constructors, the forces of all disks add up on the lateral dofs of their nodes; nothing else is loaded. *)
Theorem C63_constant_speed : forall w tI tF l t, tI <> tF ->
  let f := FFunb l (sA w w tI tF) (sB w w tI tF) t in
  (forall n, lateral n f = (fold_right Rplus 0 (map (fun d => - fst (snd d) * w ^ 2 * cos (w * t + snd (snd d))) (at_node n l)),
                            fold_right Rplus 0 (map (fun d => fst (snd d) * w ^ 2 * sin (w * t + snd (snd d))) (at_node n l)))) /\
  forall n j, (2 <= j < 6)%nat -> f (6 * n + j)%nat = 0.
Proof.
  intros w tI tF l t H f. destruct (const_speed w tI tF H) as [EA EB]. unfold f. rewrite EA, EB. clear f. unfold FFunb, lateral, suml, at_node.
  split.
  - intros n. f_equal; induction l as [|[m [u p]] l IH]; try reflexivity; cbn [map fold_right filter fst snd]; rewrite IH, unb_const; cbn [fst snd].
    + destruct (Nat.eqb_spec m n) as [->|N]; cbn [map fold_right fst snd].
      * rewrite Nat.eqb_refl. destruct (Nat.eqb_spec (6 * n) (6 * n + 1)); [lia|]. ring.
      * destruct (Nat.eqb_spec (6 * n) (6 * m)); [lia|]. destruct (Nat.eqb_spec (6 * n) (6 * m + 1)); [lia|]. ring.
    + destruct (Nat.eqb_spec m n) as [->|N]; cbn [map fold_right fst snd].
      * rewrite Nat.eqb_refl. destruct (Nat.eqb_spec (6 * n + 1) (6 * n)); [lia|]. ring.
      * destruct (Nat.eqb_spec (6 * n + 1) (6 * m)); [lia|]. destruct (Nat.eqb_spec (6 * n + 1) (6 * m + 1)); [lia|]. ring.
  - intros n j Hj. induction l as [|[m [u p]] l IH]; [reflexivity|]. cbn [map fold_right fst snd]. rewrite IH.
    destruct (Nat.eqb_spec (6 * n + j) (6 * m)); [lia|]. destruct (Nat.eqb_spec (6 * n + j) (6 * m + 1)); [lia|]. ring.
Qed.
(** The force rotates against the one used by run_unbalance_response and run_time_response examples ([rotating_force]): no shift of the phase
    makes them agree. *)
Theorem C63_same_sense_refuted : forall m w shift p, m <> 0 -> w <> 0 ->
  ~ (forall t, unb_xy m p (angular_position w 0 t) (Omega w 0 t) (AccelV w 0 t) = rotating_force m (p + shift) w t).
Proof.
  intros m w c p Hm Hw H.
  assert (P : m * w ^ 2 <> 0) by (apply Rmult_integral_contrapositive_currified; [auto|apply pow_nonzero; auto]).
  assert (X : forall t, - cos (w * t + p) = cos (w * t + (p + c)) /\ sin (w * t + p) = sin (w * t + (p + c))).
  { intros t. specialize (H t). rewrite unb_const in H. unfold rotating_force in H. injection H as A B. split; apply (Rmult_eq_reg_l (m * w ^ 2)); auto; lra. }
  destruct (X (- p / w)) as [A1 A2]. replace (w * (- p / w) + p) with 0 in A1, A2 by (field; auto). replace (w * (- p / w) + (p + c)) with c in A1, A2 by (field; auto).
  destruct (X ((PI / 2 - p) / w)) as [B1 B2].
  replace (w * ((PI / 2 - p) / w) + p) with (PI / 2) in B1, B2 by (field; auto). replace (w * ((PI / 2 - p) / w) + (p + c)) with (PI / 2 + c) in B1, B2 by (field; auto).
  rewrite sin_plus, cos_PI2, sin_PI2 in B2. rewrite cos_0 in A1. lra.
Qed.
Example C63_instance : lateral 3 (FFunb [(3%nat, (2, 0)); (5%nat, (1, 0))] (sA 10 10 0 1) (sB 10 10 0 1) 0) = (-200, 0).
Proof.
  destruct (C63_constant_speed 10 0 1 [(3%nat, (2, 0)); (5%nat, (1, 0))] 0 ltac:(lra)) as [H _]. rewrite H. cbn.
  replace (10 * 0 + 0) with 0 by ring. rewrite cos_0, sin_0. f_equal; ring.
Qed.

(** * C40: rubbing contact *)
(** Without contact there is no force at all. *)
Theorem C40_no_contact : forall a radius x v ang, norm2 (lateral (rb_pos a) x) < rb_delta a ->
  exists f, rub_force a radius x v ang = Some f /\ forall k, f k = 0.
Proof.
  intros a radius x v ang H. unfold rub_force, rub. change (sqrt (x (6 * rb_pos a)%nat ^ 2 + x (6 * rb_pos a + 1)%nat ^ 2)) with (norm2 (lateral (rb_pos a) x)).
  destruct (Rle_dec (rb_delta a) (norm2 (lateral (rb_pos a) x))); [lra|]. eexists. split; [reflexivity|]. intros. unfold vzero. ring.
Qed.
(** In contact (positive gap, moving node): the elastic part points to the centre with magnitude k (r - delta), the damping part is - c v,
    both act on the two lateral dofs of the node only; the friction part acts on these and on the rotation about the shaft axis, and vanishes
    with the friction coefficient. *)
Theorem C40_contact : forall a radius x v ang, 0 < rb_delta a -> rb_delta a <= norm2 (lateral (rb_pos a) x) -> norm2 (lateral (rb_pos a) v) <> 0 ->
  exists Fk Fc Ff f, rub a radius x v ang = Some (Fk, Fc, Ff) /\ rub_force a radius x v ang = Some f /\ (forall k, f k = Fk k + Fc k + Ff k) /\
    let p := lateral (rb_pos a) x in let w := lateral (rb_pos a) v in let push := rb_k a * (norm2 p - rb_delta a) in
    lateral (rb_pos a) Fk = (- push * (fst p / norm2 p), - push * (snd p / norm2 p)) /\
    lateral (rb_pos a) Fc = (- rb_c a * fst w, - rb_c a * snd w) /\
    (forall k, k <> (6 * rb_pos a)%nat -> k <> (6 * rb_pos a + 1)%nat -> Fk k = 0 /\ Fc k = 0 /\ (k <> (6 * rb_pos a + 5)%nat \/ rb_torque a = false -> Ff k = 0)) /\
    (rb_mu a = 0 -> forall k, Ff k = 0).
Proof.
  intros a radius x v ang Hd Hc Hv.
  destruct (rub_contact a radius x v ang Hc ltac:(lra) Hv) as (Fk & Fc & Ff & E & Ek & Ec & Ep & En & Ez).
  exists Fk, Fc, Ff, (fun i => Fk i + Fc i + Ff i). split; [exact E|]. split; [unfold rub_force; now rewrite E|]. split; [auto|]. cbv zeta.
  split; [unfold lateral at 1; rewrite !Ek, !two_0, !two_1; f_equal; ring|].
  split; [unfold lateral at 1; rewrite !Ec, !two_0, !two_1; reflexivity|].
  match type of Ep with 0 < ?e -> _ => set (sl := e) in * end.
  split.
  - intros k K1 K2. rewrite Ek, Ec, !two_else by auto. split; [auto|]. split; [auto|]. intros K.
    destruct (Rtotal_order sl 0) as [L|[L|L]]; [rewrite (En L)|rewrite (Ez L); auto|rewrite (Ep L)];
      (destruct (Nat.eqb_spec k (6 * rb_pos a + 5)); [destruct K as [K|K]; [contradiction|now rewrite K]|now apply two_else]).
  - intros M k. 
    assert (Z : forall k, two (6 * rb_pos a) 0 0 k = 0) by (intros; unfold two; destruct (Nat.eqb _ _); auto; destruct (Nat.eqb _ _); auto).
    destruct (Rtotal_order sl 0) as [L|[L|L]]; [rewrite (En L)|rewrite (Ez L); auto|rewrite (Ep L)]; rewrite M, !Rmult_0_l, ?Ropp_0;
    (destruct (Nat.eqb _ _); [destruct (rb_torque a); auto; replace (0 ^ 2 + 0 ^ 2) with 0 by ring; rewrite sqrt_0; unfold Rdiv; ring|apply Z]).
Qed.
(** So the elastic force has magnitude k (r - delta), opposes the displacement, is zero when contact begins; the damping force never feeds energy. *)
Theorem C40_elastic_and_damping : forall a radius x v ang Fk Fc Ff, 0 < rb_delta a -> 0 <= rb_k a -> 0 <= rb_c a ->
  rub a radius x v ang = Some (Fk, Fc, Ff) -> let p := lateral (rb_pos a) x in let w := lateral (rb_pos a) v in
  norm2 (lateral (rb_pos a) Fk) = rb_k a * Rmax 0 (norm2 p - rb_delta a) /\
  dot2 (lateral (rb_pos a) Fk) p = - rb_k a * Rmax 0 (norm2 p - rb_delta a) * norm2 p /\
  dot2 (lateral (rb_pos a) Fc) w <= 0.
Proof.
  intros a radius x v ang Fk Fc Ff Hd Hk Hc E p w.
  destruct (rub_some _ _ _ _ _ _ E) as [H|(H1 & H2 & H3)]; [fold p in H|fold p in H1, H2; fold w in H3].
  - assert (Fk = vzero /\ Fc = vzero) as [-> ->].
    { unfold rub in E. change (sqrt (x (6 * rb_pos a)%nat ^ 2 + x (6 * rb_pos a + 1)%nat ^ 2)) with (norm2 p) in E.
      destruct (Rle_dec (rb_delta a) (norm2 p)); [lra|]. injection E as <- <- <-. auto. }
    rewrite Rmax_left by lra. unfold norm2 at 1, dot2, lateral, vzero. simpl. replace (0 * (0 * 1) + 0 * (0 * 1)) with 0 by ring. rewrite sqrt_0.
    split; [ring|]. split; [ring|lra].
  - destruct (C40_contact a radius x v ang Hd H1 H3) as (Gk & Gc & Gf & f & E' & _ & _ & X). rewrite E in E'. injection E' as <- <- <-.
    cbv zeta in X. fold p w in X. destruct X as (X1 & X2 & _). rewrite X1, X2.
    assert (P : 0 < norm2 p) by lra. rewrite Rmax_right by lra.
    assert (Q : norm2 p * norm2 p = fst p ^ 2 + snd p ^ 2) by apply sq_sum_sq.
    split; [|split].
    + replace (- (rb_k a * (norm2 p - rb_delta a)) * (fst p / norm2 p), - (rb_k a * (norm2 p - rb_delta a)) * (snd p / norm2 p))
        with ((- (rb_k a * (norm2 p - rb_delta a)) / norm2 p) * fst p, (- (rb_k a * (norm2 p - rb_delta a)) / norm2 p) * snd p) by (f_equal; field; lra).
      rewrite norm2_scale. unfold Rdiv. rewrite Rabs_mult, Rabs_Ropp, (Rabs_pos_eq (rb_k a * _)) by (apply Rmult_le_pos; lra).
      rewrite Rabs_pos_eq by (apply Rlt_le, Rinv_0_lt_compat, P). field. lra.
    + clearbody p. unfold dot2. cbn [fst snd]. transitivity (- (rb_k a * (norm2 p - rb_delta a)) * ((fst p ^ 2 + snd p ^ 2) / norm2 p)); [field; lra|]. rewrite <- Q. field. lra.
    + unfold dot2. simpl. nra.
Qed.
(** The force is undefined (nan) exactly when the node touches and does not move, or touches with a non-positive gap at the centre. *)
Theorem C40_defined_iff : forall a radius x v ang,
  rub_force a radius x v ang = None <->
  rb_delta a <= norm2 (lateral (rb_pos a) x) /\ (norm2 (lateral (rb_pos a) x) = 0 \/ norm2 (lateral (rb_pos a) v) = 0).
Proof.
  intros a radius x v ang. unfold rub_force, rub.
  change (sqrt (x (6 * rb_pos a)%nat ^ 2 + x (6 * rb_pos a + 1)%nat ^ 2)) with (norm2 (lateral (rb_pos a) x)).
  change (sqrt (v (6 * rb_pos a)%nat ^ 2 + v (6 * rb_pos a + 1)%nat ^ 2)) with (norm2 (lateral (rb_pos a) v)).
  destruct (Rle_dec (rb_delta a) (norm2 (lateral (rb_pos a) x))) as [L|L]; [|split; [discriminate|intros [A _]; lra]].
  destruct (Req_EM_T (norm2 (lateral (rb_pos a) x)) 0) as [Z|Z]; [split; auto|].
  destruct (Req_EM_T (norm2 (lateral (rb_pos a) v)) 0) as [Z'|Z']; [split; auto|]. split; [discriminate|]. intros [_ [A|A]]; contradiction.
Qed.
Definition at3 (a b : R) : vec := fun k => if Nat.eqb k 18 then a else if Nat.eqb k 19 then b else 0.
Lemma lateral_at3 a b : lateral 3 (at3 a b) = (a, b). Proof. reflexivity. Qed.
Definition rub0 (c mu : R) (tq : bool) : rub_args := mkRub (1 / 2) 4 c mu 3 tq.
Lemma norm_10 : norm2 (1, 0) = 1. Proof. unfold norm2. simpl. replace (1 * (1 * 1) + 0 * (0 * 1)) with 1 by ring. apply sqrt_1. Qed.
(** A contact can only push; here the sum of the elastic and the damping force can pull the shaft outwards, while it moves away. *)
Theorem C40_push_only_refuted : exists a radius x v ang Fk Fc Ff, 0 < rb_delta a /\ 0 < rb_k a /\ 0 < rb_c a /\
  rub a radius x v ang = Some (Fk, Fc, Ff) /\ 0 < dot2 (lateral (rb_pos a) (vadd Fk Fc)) (lateral (rb_pos a) x).
Proof.
  set (a := rub0 3 0 false). 
  destruct (C40_contact a 1 (at3 1 0) (at3 (-1) 0) 0) as (Fk & Fc & Ff & f & E & _ & _ & X).
  - simpl. lra.
  - simpl. rewrite lateral_at3, norm_10. lra.
  - simpl rb_pos. rewrite lateral_at3. replace (-1, 0) with (-1 * fst (1, 0), -1 * snd (1, 0)) by (simpl; f_equal; ring). rewrite norm2_scale, norm_10, Rabs_left; lra.
  - exists a, 1, (at3 1 0), (at3 (-1) 0), 0, Fk, Fc, Ff. split; [simpl; lra|]. split; [simpl; lra|]. split; [simpl; lra|]. split; [exact E|].
    cbv zeta in X. destruct X as (X1 & X2 & _).
    assert (L : lateral (rb_pos a) (vadd Fk Fc) = (fst (lateral (rb_pos a) Fk) + fst (lateral (rb_pos a) Fc), snd (lateral (rb_pos a) Fk) + snd (lateral (rb_pos a) Fc))) by reflexivity.
    rewrite L, X1, X2. simpl rb_pos. rewrite !lateral_at3, norm_10. unfold dot2. simpl. lra.
Qed.

(** * C41: rubbing friction *)
(** Coulomb magnitude: the lateral friction force is mu times the normal (elastic plus damping) force, or zero. *)
Theorem C41_magnitude : forall a radius x v ang Fk Fc Ff, 0 <= rb_mu a -> rub a radius x v ang = Some (Fk, Fc, Ff) ->
  norm2 (lateral (rb_pos a) Ff) = rb_mu a * norm2 (lateral (rb_pos a) (vadd Fk Fc)) \/ lateral (rb_pos a) Ff = (0, 0).
Proof.
  intros a radius x v ang Fk Fc Ff Hm E.
  destruct (rub_some _ _ _ _ _ _ E) as [H|(H1 & H2 & H3)].
  - right. unfold rub in E. change (sqrt (x (6 * rb_pos a)%nat ^ 2 + x (6 * rb_pos a + 1)%nat ^ 2)) with (norm2 (lateral (rb_pos a) x)) in E.
    destruct (Rle_dec (rb_delta a) (norm2 (lateral (rb_pos a) x))); [lra|]. injection E as <- <- <-. reflexivity.
  - destruct (rub_contact a radius x v ang H1 H2 H3) as (Gk & Gc & Gf & E' & Ek & Ec & Ep & En & Ez). rewrite E in E'. injection E' as <- <- <-.
    match type of Ep with 0 < ?e -> _ => set (sl := e) in * end.
    assert (N : forall A B : R, norm2 (- (rb_mu a * Rabs A), rb_mu a * Rabs B) = rb_mu a * norm2 (A, B) /\ norm2 (rb_mu a * Rabs A, - (rb_mu a * Rabs B)) = rb_mu a * norm2 (A, B)).
    { intros A B. rewrite <- (Rabs_pos_eq (rb_mu a) Hm) at 3 6. rewrite <- !norm2_scale. unfold norm2. simpl. assert (Q := fun z => Rsqr_abs z). unfold Rsqr in Q.
      split; f_equal; rewrite !Rmult_1_r.
      - transitivity (rb_mu a * rb_mu a * (Rabs A * Rabs A) + rb_mu a * rb_mu a * (Rabs B * Rabs B)); [ring|]. rewrite <- !Q. ring.
      - transitivity (rb_mu a * rb_mu a * (Rabs A * Rabs A) + rb_mu a * rb_mu a * (Rabs B * Rabs B)); [ring|]. rewrite <- !Q. ring. }
    assert (S : lateral (rb_pos a) (vadd Fk Fc) = (Fk (6 * rb_pos a)%nat + Fc (6 * rb_pos a)%nat, Fk (6 * rb_pos a + 1)%nat + Fc (6 * rb_pos a + 1)%nat)) by reflexivity.
    assert (L0 : lateral (rb_pos a) Ff = (Ff (6 * rb_pos a)%nat, Ff (6 * rb_pos a + 1)%nat)) by reflexivity.
    rewrite S, L0, !Ek, !Ec, !two_0, !two_1.
    destruct (Rtotal_order sl 0) as [L|[L|L]]; [left; rewrite !(En L)|right; rewrite !(Ez L); reflexivity|left; rewrite !(Ep L)];
    (destruct (Nat.eqb_spec (6 * rb_pos a) (6 * rb_pos a + 5)); [lia|]; destruct (Nat.eqb_spec (6 * rb_pos a + 1) (6 * rb_pos a + 5)); [lia|]; rewrite !two_0, !two_1; apply N).
Qed.
(** Without contact damping the friction force is perpendicular to the radius only when the shaft touches on the line x = y. *)
Theorem C41_tangential_iff : forall a radius x v ang Fk Fc Ff, 0 < rb_k a -> rb_c a = 0 -> 0 < rb_mu a -> 0 <= rb_delta a < norm2 (lateral (rb_pos a) x) ->
  rub a radius x v ang = Some (Fk, Fc, Ff) -> lateral (rb_pos a) Ff <> (0, 0) ->
  (dot2 (lateral (rb_pos a) Ff) (lateral (rb_pos a) x) = 0 <-> fst (lateral (rb_pos a) x) = snd (lateral (rb_pos a) x)).
Proof.
  intros a radius x v ang Fk Fc Ff Hk Hc Hm Hd E NZ. set (p := lateral (rb_pos a) x) in *.
  destruct (rub_some _ _ _ _ _ _ E) as [H|(H1 & H2 & H3)]; [fold p in H; lra|]. fold p in H1, H2.
  destruct (rub_contact a radius x v ang H1 H2 H3) as (Gk & Gc & Gf & E' & Ek & Ec & Ep & En & Ez). rewrite E in E'. injection E' as <- <- <-.
  match type of Ep with 0 < ?e -> _ => set (sl := e) in * end. rewrite Hc in *. fold p in Ep, En, Ez.
  set (r := norm2 p) in *. set (q := rb_k a * (r - rb_delta a) / r).
  assert (Q : 0 < q) by (unfold q; apply Rdiv_lt_0_compat; [apply Rmult_lt_0_compat|]; lra).
  assert (A : forall y w, Rabs (- rb_k a * (r - rb_delta a) * (y / r) + - 0 * w) = q * Rabs y).
  { intros y w. replace (- rb_k a * (r - rb_delta a) * (y / r) + - 0 * w) with (- (q * y)) by (unfold q; field; lra). rewrite Rabs_Ropp, Rabs_mult, (Rabs_pos_eq q); lra. }
  assert (D : dot2 (lateral (rb_pos a) Ff) p = 0 <-> rb_mu a * q * (snd p * Rabs (snd p) - fst p * Rabs (fst p)) = 0).
  { unfold lateral at 1. destruct (Rtotal_order sl 0) as [L|[L|L]].
    - rewrite !(En L). destruct (Nat.eqb_spec (6 * rb_pos a) (6 * rb_pos a + 5)); [lia|]. destruct (Nat.eqb_spec (6 * rb_pos a + 1) (6 * rb_pos a + 5)); [lia|].
      rewrite two_0, two_1, !A. unfold dot2. simpl. split; intros; lra.
    - exfalso. apply NZ. unfold lateral. now rewrite !(Ez L).
    - rewrite !(Ep L). destruct (Nat.eqb_spec (6 * rb_pos a) (6 * rb_pos a + 5)); [lia|]. destruct (Nat.eqb_spec (6 * rb_pos a + 1) (6 * rb_pos a + 5)); [lia|].
      rewrite two_0, two_1, !A. unfold dot2. simpl. split; intros; lra. }
  rewrite D. split.
  - intros X. apply Rmult_integral in X as [X|X]; [apply Rmult_integral in X as [X|X]; lra|].
    unfold Rabs in X. destruct (Rcase_abs (fst p)), (Rcase_abs (snd p)); nra.
  - intros ->. ring.
Qed.
Lemma norm_ss s : s = 1 \/ s = -1 -> norm2 (s, s) = sqrt 2.
Proof. intros [-> | ->]; unfold norm2; f_equal; simpl; ring. Qed.
Lemma sqrt2_b : 1 < sqrt 2 < 2.
Proof. split; [rewrite <- sqrt_1 at 1; apply sqrt_lt_1; lra|]. replace 2 with (sqrt 4) at 2 by (replace 4 with (2 * 2) by ring; apply sqrt_square; lra). apply sqrt_lt_1; lra. Qed.
Lemma rub0_state tq s t : s = 1 \/ s = -1 -> t = 1 \/ t = -1 -> exists Fk Fc Ff, rub (rub0 0 1 tq) 1 (at3 s t) (at3 1 0) 10 = Some (Fk, Fc, Ff) /\
  exists q, 0 < q /\ lateral 3 Ff = (- q, q) /\ (tq = true -> Ff 23%nat = 2 * q * (s / 2)).
Proof.
  intros Hs Ht. pose proof sqrt2_b as B.
  assert (N : norm2 (s, t) = sqrt 2) by (unfold norm2; f_equal; destruct Hs as [-> | ->], Ht as [-> | ->]; simpl; ring).
  destruct (rub_contact (rub0 0 1 tq) 1 (at3 s t) (at3 1 0) 10) as (Fk & Fc & Ff & E & _ & _ & Ep & _); simpl rb_pos in *.
  - rewrite lateral_at3, N. simpl. lra.
  - rewrite lateral_at3, N. lra.
  - rewrite lateral_at3, norm_10. lra.
  - exists Fk, Fc, Ff. split; [exact E|]. rewrite !lateral_at3, N in Ep. simpl fst in Ep. simpl snd in Ep. simpl rb_k in Ep. simpl rb_c in Ep. simpl rb_mu in Ep. simpl rb_delta in Ep. simpl rb_torque in Ep.
    assert (S : 0 < (1 * s - 0 * t) / sqrt 2 + 10 * 1).
    { assert (-1 <= (1 * s - 0 * t) / sqrt 2); [|lra]. apply (Rmult_le_reg_r (sqrt 2)); [lra|]. replace ((1 * s - 0 * t) / sqrt 2 * sqrt 2) with s by (field; lra). destruct Hs; subst; lra. }
    specialize (Ep S). set (q := 4 * (sqrt 2 - 1 / 2) / sqrt 2).
    assert (Q : 0 < q) by (unfold q; apply Rdiv_lt_0_compat; lra).
    assert (A : forall z w, z = 1 \/ z = -1 -> 1 * Rabs (- (4) * (sqrt 2 - 1 / 2) * (z / sqrt 2) + - 0 * w) = q).
    { intros z w Hz. replace (- (4) * (sqrt 2 - 1 / 2) * (z / sqrt 2) + - 0 * w) with (- (q * z)) by (unfold q; field; lra).
      rewrite Rabs_Ropp, Rabs_mult, (Rabs_pos_eq q) by lra. destruct Hz as [-> | ->]; [rewrite Rabs_R1|rewrite Rabs_left by lra]; ring. }
    rewrite !A in Ep by auto. exists q. split; [exact Q|]. split.
    + unfold lateral. rewrite !Ep. reflexivity.
    + intros ->. rewrite Ep. simpl. replace (- q * (- q * 1) + q * (q * 1)) with ((q * q) * 2) by ring. rewrite sqrt_mult_alt by nra. rewrite sqrt_square by lra. field. lra.
Qed.
(** Whatever sense of rotation a positive speed stands for, there is a contact in which the surface slides in that sense and the friction
    force drives it instead of braking it. *)
Theorem C41_opposes_sliding_refuted : forall s, s = 1 \/ s = -1 -> exists a radius x v ang Fk Fc Ff,
  0 < rb_delta a /\ 0 < rb_k a /\ rb_c a = 0 /\ 0 < rb_mu a /\ 0 < radius /\ 0 < ang /\ rub a radius x v ang = Some (Fk, Fc, Ff) /\
  let p := lateral (rb_pos a) x in
  0 < sliding s p (lateral (rb_pos a) v) ang radius /\ 0 < dot2 (lateral (rb_pos a) Ff) (tangent s p).
Proof.
  intros s Hs. destruct (rub0_state false s s Hs Hs) as (Fk & Fc & Ff & E & q & Q & L & _). pose proof sqrt2_b as B.
  exists (rub0 0 1 false), 1, (at3 s s), (at3 1 0), 10, Fk, Fc, Ff. repeat (split; [first [exact E|simpl; lra]|]).
  cbv zeta. simpl rb_pos. rewrite !lateral_at3, L. unfold sliding, tangent, dot2. simpl. rewrite norm_ss by auto.
  assert (I : 0 < / sqrt 2) by (apply Rinv_0_lt_compat; lra). assert (I' : / sqrt 2 <= 1) by (rewrite <- Rinv_1; apply Rinv_le_contravar; lra).
  unfold Rdiv. destruct Hs; subst s; split; nra.
Qed.
(** The friction torque has the sign of the X displacement of the node, whatever the sense of the sliding: it cannot oppose the rotation. *)
Theorem C41_torque_refuted : exists a radius ang v x1 x2 f1 f2, rb_torque a = true /\ 0 < radius /\ 0 < ang /\
  rub_force a radius x1 v ang = Some f1 /\ rub_force a radius x2 v ang = Some f2 /\
  0 < f1 (6 * rb_pos a + 5)%nat /\ f2 (6 * rb_pos a + 5)%nat < 0.
Proof.
  destruct (rub0_state true 1 1) as (Fk & Fc & Ff & E & q & Q & _ & T); auto.
  destruct (rub0_state true (-1) 1) as (Gk & Gc & Gf & E' & q' & Q' & _ & T'); auto.
  exists (rub0 0 1 true), 1, 10, (at3 1 0), (at3 1 1), (at3 (-1) 1). eexists _, _. split; [reflexivity|]. split; [lra|]. split; [lra|].
  unfold rub_force. rewrite E, E'. split; [reflexivity|]. split; [reflexivity|]. simpl rb_pos. cbv beta.
  assert (Z : forall s t Hk Hc Hf, s = 1 \/ s = -1 -> t = 1 -> rub (rub0 0 1 true) 1 (at3 s t) (at3 1 0) 10 = Some (Hk, Hc, Hf) -> Hk 23%nat = 0 /\ Hc 23%nat = 0).
  { intros s t Hk Hc Hf Hs Ht X. pose proof sqrt2_b.
    assert (N : norm2 (s, t) = sqrt 2) by (unfold norm2; f_equal; destruct Hs as [-> | ->]; subst t; simpl; ring).
    destruct (C40_contact (rub0 0 1 true) 1 (at3 s t) (at3 1 0) 10) as (Ak & Ac & Af & f & Y & _ & _ & W); simpl rb_pos in *.
    - simpl; lra. - rewrite lateral_at3, N. simpl. lra. - rewrite lateral_at3, norm_10. lra.
    - rewrite X in Y. injection Y as <- <- <-. cbv zeta in W. destruct W as (_ & _ & W & _). destruct (W 23%nat) as (W1 & W2 & _); [lia|lia|auto]. }
  destruct (Z 1 1 Fk Fc Ff (or_introl eq_refl) eq_refl E) as [Z1 Z2]. destruct (Z (-1) 1 Gk Gc Gf (or_intror eq_refl) eq_refl E') as [Z3 Z4].
  change (6 * 3 + 5)%nat with 23%nat. rewrite Z1, Z2, Z3, Z4.
  rewrite T, T' by auto. lra.
Qed.

(** * C42: coupling misalignment *)
(** Flexible coupling, all three types: the lateral forces on the two nodes cancel, and only the lateral and torsional dofs of the two nodes are loaded. *)
Theorem C42_flex_equilibrium : forall ty a rad th f, flex_force ty a rad th = Ok f ->
  lateral (fx_n1 a + 1) f = (- fst (lateral (fx_n1 a) f), - snd (lateral (fx_n1 a) f)) /\
  (forall n j, (j < 6)%nat -> f (6 * n + j)%nat <> 0 -> (n = fx_n1 a \/ n = (fx_n1 a + 1)%nat) /\ (j = 0 \/ j = 1 \/ j = 5)%nat).
Proof.
  assert (Z : forall n1 fx fy td tl n j, (j < 6)%nat -> on_coupling n1 fx fy td tl (6 * n + j)%nat <> 0 -> (n = n1 \/ n = (n1 + 1)%nat) /\ (j = 0 \/ j = 1 \/ j = 5)%nat).
  { intros n1 fx fy td tl n j Hj. destruct (on_coupling_at n1 fx fy td tl) as (_ & _ & _ & _ & O).
    destruct (Nat.eq_dec n n1), (Nat.eq_dec n (n1 + 1)), (Nat.eq_dec j 0), (Nat.eq_dec j 1), (Nat.eq_dec j 5); intros N; try (split; lia); exfalso; apply N, O; lia. }
  intros ty a rad th f H. destruct ty; simpl in H.
  - unfold flex_parallel in H. destruct (Req_EM_T (fx_ex a) 0); [discriminate|]. injection H as <-. split; [|intros; eapply Z; eauto].
    destruct (on_coupling_at (fx_n1 a) (fx_kd a * mi_x a rad th) (fx_kd a * mi_y a rad th) (fx_TD a) (fx_TL a)) as (-> & -> & _). reflexivity.
  - injection H as <-. split; [|intros; eapply Z; eauto].
    destruct (on_coupling_at (fx_n1 a) (Fax a rad th) (Fay a rad th) (fx_TD a) (fx_TL a)) as (-> & -> & _). reflexivity.
  - unfold flex_combined, flex_parallel, flex_angular in H. destruct (Req_EM_T (fx_ex a) 0); [discriminate|]. injection H as <-.
    destruct (on_coupling_at (fx_n1 a) (fx_kd a * mi_x a rad th) (fx_kd a * mi_y a rad th) (fx_TD a) (fx_TL a)) as (A1 & A2 & _).
    destruct (on_coupling_at (fx_n1 a) (Fax a rad th) (Fay a rad th) (fx_TD a) (fx_TL a)) as (B1 & B2 & _).
    assert (VA : forall n u w, lateral n (vadd u w) = (fst (lateral n u) + fst (lateral n w), snd (lateral n u) + snd (lateral n w))) by reflexivity.
    split; [rewrite !VA, A1, A2, B1, B2; cbn [fst snd]; f_equal; ring|].
    intros m j Hj N.
    unfold vadd in N. match type of N with ?u + ?v <> 0 => destruct (Req_EM_T u 0) as [U|U]; [destruct (Req_EM_T v 0) as [V|V]; [exfalso; apply N; rewrite U, V; ring|eapply Z; eauto]|eapply Z; eauto] end.
Qed.
(** The combined force is the sum of the parallel and the angular one, so it applies the driving and the load torque twice. *)
Theorem C42_combined_is_sum : forall a rad th p q, flex_force MisParallel a rad th = Ok p -> flex_force MisAngular a rad th = Ok q ->
  exists f, flex_force MisCombined a rad th = Ok f /\ forall k, f k = p k + q k.
Proof. intros a rad th p q Hp Hq. simpl in *. unfold flex_combined. rewrite Hp, Hq. simpl. eexists. split; [reflexivity|]. reflexivity. Qed.
Theorem C42_torques : forall ty a rad th f, flex_force ty a rad th = Ok f -> let c := match ty with MisCombined => 2 | _ => 1 end in
  f (6 * fx_n1 a + 5)%nat = c * fx_TD a /\ f (6 * (fx_n1 a + 1) + 5)%nat = c * fx_TL a.
Proof.
  intros ty a rad th f H. destruct (on_coupling_at (fx_n1 a) (fx_kd a * mi_x a rad th) (fx_kd a * mi_y a rad th) (fx_TD a) (fx_TL a)) as (_ & _ & A1 & A2 & _).
  destruct (on_coupling_at (fx_n1 a) (Fax a rad th) (Fay a rad th) (fx_TD a) (fx_TL a)) as (_ & _ & B1 & B2 & _).
  destruct ty; simpl in H; unfold flex_combined, flex_parallel, flex_angular in H; [destruct (Req_EM_T (fx_ex a) 0); [discriminate|]| |destruct (Req_EM_T (fx_ex a) 0); [discriminate|]];
  injection H as <-; unfold vadd; rewrite ?A1, ?A2, ?B1, ?B2; split; ring.
Qed.
Theorem C42_combined_torque_refuted : exists a rad th f, flex_force MisCombined a rad th = Ok f /\ f (6 * fx_n1 a + 5)%nat <> fx_TD a.
Proof.
  destruct (flex_force MisCombined (mkFlex 1 1 1 1 1 1 1 2) 1 0) as [f|e] eqn:E.
  - exists (mkFlex 1 1 1 1 1 1 1 2), 1, 0, f. split; [exact E|]. destruct (C42_torques _ _ _ _ _ E) as [-> _]. simpl. lra.
  - exfalso. simpl in E. unfold flex_combined, flex_parallel in E. simpl fx_ex in E. destruct (Req_EM_T 1 0); [lra|]. discriminate.
Qed.
(** Angular misalignment: the three arms are alike, so the force repeats every third of a turn; it vanishes without misalignment. *)
Theorem C42_angular_periodic : forall a rad th p q, flex_force MisAngular a rad th = Ok p -> flex_force MisAngular a rad (th + 2 * PI / 3) = Ok q -> forall k, q k = p k.
Proof. intros a rad th p q Hp Hq k. simpl in *. unfold flex_angular in *. injection Hp as <-. injection Hq as <-. destruct (ang_periodic a rad th) as [-> ->]. reflexivity. Qed.
Theorem C42_aligned_no_force : forall a rad th p, fx_ang a = 0 -> flex_force MisAngular a rad th = Ok p -> lateral (fx_n1 a) p = (0, 0).
Proof.
  intros a rad th p H E. injection E as <-. destruct (on_coupling_at (fx_n1 a) (Fax a rad th) (Fay a rad th) (fx_TD a) (fx_TL a)) as (-> & _).
  unfold Fax, Fay. assert (Z : forall t, ang_arm a rad t = 0) by (intros; unfold ang_arm; rewrite H, sin_0, Rmult_0_r; apply Rabs_R0). rewrite !Z. f_equal; ring.
Qed.
(** Parallel misalignment with a positive X offset e: the force is kd times the stretches of the arms along the arms, but the third arm enters
    with the opposite sign. *)
Theorem C42_parallel_arms : forall a rad th p, 0 < fx_ex a -> flex_force MisParallel a rad th = Ok p ->
  let e := (fx_ex a, fx_ey a) in let t1 := th in let t2 := 2 * PI / 3 + th in let t3 := 4 * PI / 3 + th in
  lateral (fx_n1 a) p =
    (fx_kd a * (stretch rad t1 e * fst (arm_dir t1) + stretch rad t2 e * fst (arm_dir t2) - stretch rad t3 e * fst (arm_dir t3)),
     fx_kd a * (stretch rad t1 e * snd (arm_dir t1) + stretch rad t2 e * snd (arm_dir t2) - stretch rad t3 e * snd (arm_dir t3))).
Proof.
  intros a rad th p H E e t1 t2 t3. simpl in E. unfold flex_parallel in E. destruct (Req_EM_T (fx_ex a) 0); [lra|]. injection E as <-.
  destruct (on_coupling_at (fx_n1 a) (fx_kd a * mi_x a rad th) (fx_kd a * mi_y a rad th) (fx_TD a) (fx_TL a)) as (-> & _).
  destruct (arms_eq a rad th ltac:(lra)) as (A1 & A2 & A3).
  assert (S : sgn_off a = 1) by (unfold sgn_off; destruct (Rlt_dec 0 (fx_ex a)); lra). rewrite S, !Rmult_1_l in A1, A2, A3. fold e t1 t2 t3 in A1, A2, A3.
  unfold t1 in A1, A2, A3 |- *. unfold mi_x, mi_y. rewrite A1, A2, A3. unfold arm_dir, t2, t3. cbn [fst snd]. f_equal; ring.
Qed.
(** The opposite offset gives the same force: the model cannot tell an offset from its opposite. *)
Theorem C42_opposite_offset_same_force : forall a rad th, fx_ex a <> 0 ->
  flex_force MisParallel (mkFlex (fx_kd a) (fx_ks a) (- fx_ex a) (- fx_ey a) (fx_ang a) (fx_TD a) (fx_TL a) (fx_n1 a)) rad th = flex_force MisParallel a rad th.
Proof.
  intros [kd ks ex ey an td tl n1] rad th H. simpl in *. unfold flex_parallel. simpl. destruct (Req_EM_T ex 0), (Req_EM_T (- ex) 0); try (exfalso; lra).
  set (b := mkFlex kd ks (- ex) (- ey) an td tl n1). set (a := mkFlex kd ks ex ey an td tl n1).
  destruct (arms_eq a rad th H) as (A1 & A2 & A3). destruct (arms_eq b rad th) as (B1 & B2 & B3); [simpl; auto|].
  assert (S : (sgn_off b * fx_ex b, sgn_off b * fx_ey b) = (sgn_off a * fx_ex a, sgn_off a * fx_ey a)).
  { unfold sgn_off, a, b. simpl. destruct (Rlt_dec 0 ex), (Rlt_dec 0 (- ex)); try (exfalso; lra); f_equal; ring. }
  rewrite S in *. unfold mi_x, mi_y. rewrite A1, A2, A3, B1, B2, B3. reflexivity.
Qed.
Lemma stretch_pos0 : stretch 1 (4 * PI / 3) (1, 0) <> 0.
Proof.
  unfold stretch, norm2. simpl. replace (4 * PI / 3) with (PI / 3 + PI) by field. rewrite neg_sin, neg_cos, sin_PI3, cos_PI3.
  intros E. assert (S : sqrt 3 * sqrt 3 = 3) by (apply sqrt_sqrt; lra).
  match type of E with sqrt ?u - 1 = 0 => assert (X : sqrt u = 1) by lra; assert (Y : u = 2 - sqrt 3) by (field_simplify; nra); rewrite Y in X end.
  assert (Z : 2 - sqrt 3 = 1). { assert (0 <= 2 - sqrt 3) by nra. rewrite <- (sqrt_sqrt (2 - sqrt 3)) by auto. rewrite X. ring. }
  assert (sqrt 3 = 1) by lra. nra.
Qed.
(** So, unlike a coupling with three equal arms, the force does not repeat every third of a turn. *)
Theorem C42_parallel_periodic_refuted : exists a rad th p q, 0 < fx_ex a /\ 0 < rad /\ 0 < fx_kd a /\
  flex_force MisParallel a rad th = Ok p /\ flex_force MisParallel a rad (th + 2 * PI / 3) = Ok q /\ lateral (fx_n1 a) p <> lateral (fx_n1 a) q.
Proof.
  set (a := mkFlex 1 1 1 0 0 0 0 2).
  assert (X : forall th, exists p, flex_force MisParallel a 1 th = Ok p) by (intros; simpl; unfold flex_parallel; simpl; destruct (Req_EM_T 1 0); [lra|eauto]).
  destruct (X 0) as [p Hp]. destruct (X (0 + 2 * PI / 3)) as [q Hq]. exists a, 1, 0, p, q.
  repeat (split; [first [exact Hp|exact Hq|simpl; lra]|]).
  rewrite (C42_parallel_arms a 1 _ p ltac:(simpl; lra) Hp), (C42_parallel_arms a 1 _ q ltac:(simpl; lra) Hq). simpl fx_kd. simpl fx_ex. simpl fx_ey.
  intros E. injection E as Ex _. unfold arm_dir in Ex. simpl in Ex.
  assert (P : forall t, stretch 1 (2 * PI + t) (1, 0) = stretch 1 t (1, 0)) by (intros; unfold stretch; replace (2 * PI + t) with (t + 2 * PI) by ring; destruct (trig_2PI t) as [-> ->]; auto).
  replace (2 * PI / 3 + (0 + 2 * PI / 3)) with (4 * PI / 3) in Ex by field. replace (4 * PI / 3 + (0 + 2 * PI / 3)) with (2 * PI + 0) in Ex by field.
  rewrite (P 0) in Ex. replace (2 * PI + 0) with (0 + 2 * PI) in Ex by ring. destruct (trig_2PI 0) as [S2 _]. rewrite S2, sin_0, !Rplus_0_r, Rplus_0_l in Ex.
  apply stretch_pos0. assert (Y : stretch 1 (4 * PI / 3) (1, 0) * sin (4 * PI / 3) = 0) by lra.
  apply Rmult_integral in Y as [Y|Y]; [exact Y|]. exfalso. replace (4 * PI / 3) with (PI / 3 + PI) in Y by field. rewrite neg_sin, sin_PI3 in Y.
  assert (0 < sqrt 3) by (apply sqrt_lt_R0; lra). lra.
Qed.
(** Rigid coupling: the twelve forces on the two nodes cancel component by component, nothing else is loaded, and without offset and with equal
    torques there is no force. *)
Theorem C42_rigid_equilibrium : forall a k0 auxI auxF x fir, let f := rigid_parallel a k0 auxI auxF x fir in
  (forall j, (j < 6)%nat -> f (6 * rg_n1 a + j)%nat + f (6 * (rg_n1 a + 1) + j)%nat = 0) /\
  (forall k, (k < 6 * rg_n1 a \/ 6 * (rg_n1 a + 2) <= k)%nat -> f k = 0) /\
  lateral (rg_n1 a) f = (k0 * rg_e a * (1 - cos fir), - k0 * rg_e a * sin fir) /\
  (rg_e a = 0 -> rg_TD a = rg_TL a -> forall k, f k = 0).
Proof.
  intros a k0 aI aF x fir f.
  assert (In : forall d, (d < 12)%nat -> f (6 * rg_n1 a + d)%nat =
    (if Nat.eqb d 5 then dot 12 (rigid_row a k0 aI aF fir) (fun j => x (6 * rg_n1 a + j)%nat)
     else if Nat.eqb d 11 then dot 12 (fun j => - rigid_row a k0 aI aF fir j) (fun j => x (6 * rg_n1 a + j)%nat) else 0) + rigid_const a k0 fir d).
  { intros d Hd. unfold f, rigid_parallel. replace (6 * rg_n1 a + d - 6 * rg_n1 a)%nat with d by lia.
    destruct (Nat.leb_spec (6 * rg_n1 a) (6 * rg_n1 a + d)); [|lia]. destruct (Nat.ltb_spec d 12); [|lia]. reflexivity. }
  assert (Op : dot 12 (fun j => - rigid_row a k0 aI aF fir j) (fun j => x (6 * rg_n1 a + j)%nat) = - dot 12 (rigid_row a k0 aI aF fir) (fun j => x (6 * rg_n1 a + j)%nat)).
  { unfold dot. rewrite <- sumn_opp. apply sumn_ext. intros; ring. }
  split; [|split; [|split]].
  - intros j Hj. replace (6 * (rg_n1 a + 1) + j)%nat with (6 * rg_n1 a + (6 + j))%nat by lia. rewrite !In by lia. rewrite Op.
    do 6 (destruct j as [|j]; [cbn [Nat.eqb Nat.add]; unfold rigid_const, lvec; cbn [nth]; ring|]). lia.
  - intros k Hk. unfold f, rigid_parallel. destruct (Nat.leb_spec (6 * rg_n1 a) k); [|reflexivity]. destruct (Nat.ltb_spec (k - 6 * rg_n1 a) 12); [lia|reflexivity].
  - unfold lateral. rewrite <- (Nat.add_0_r (6 * rg_n1 a)) at 1. rewrite !In by lia. cbn [Nat.eqb]. unfold rigid_const, lvec. cbn [nth]. rewrite !Rplus_0_l. f_equal; ring.
  - intros He Ht k. unfold f, rigid_parallel. destruct (Nat.leb_spec (6 * rg_n1 a) k); [|reflexivity]. destruct (Nat.ltb_spec (k - 6 * rg_n1 a) 12) as [L|L]; [|reflexivity].
    cbn [andb]. set (d := (k - 6 * rg_n1 a)%nat) in *.
    assert (R0 : forall j, rigid_row a k0 aI aF fir j = 0) by (intros j; unfold rigid_row, lvec; rewrite He; do 12 (destruct j as [|j]; [cbn [nth]; ring|]); destruct j; reflexivity).
    assert (C0 : rigid_const a k0 fir d = 0) by (unfold rigid_const, lvec; rewrite He, Ht; clearbody d; do 12 (destruct d as [|d]; [cbn [nth]; ring|]); lia).
    rewrite C0. assert (D0 : dot 12 (rigid_row a k0 aI aF fir) (fun j => x (6 * rg_n1 a + j)%nat) = 0) by (unfold dot; apply sumn_0; intros; rewrite R0; ring).
    rewrite Op, D0. destruct (Nat.eqb d 5), (Nat.eqb d 11); ring.
Qed.
(** The angle used for the force depends on the angle used in the previous evaluation, so the right-hand side given to the integrator is not a
    function of the time and the state. *)
Theorem C42_rigid_history_refuted : exists a k0 auxt auxI auxF pos x old1 old2, auxI + auxF = 1 /\ 0 < k0 /\ 0 < auxt /\
  rigid_angle a k0 auxt auxI auxF pos x old1 <> rigid_angle a k0 auxt auxI auxF pos x old2.
Proof.
  exists (mkRigid 1 0 0 0), 1, 1, (1 / 2), (1 / 2), 0, (fun k => if Nat.eqb k 1 then 1 else 0), 0, (PI / 2). split; [lra|]. split; [lra|]. split; [lra|].
  unfold rigid_angle. simpl. rewrite sin_0, cos_0, sin_PI2, cos_PI2. lra.
Qed.
Example C42_instance : exists p, flex_force MisParallel (mkFlex 1000 1 (1 / 100) (1 / 50) 0 3 (-3) 2) (1 / 10) 1 = Ok p /\ p 17%nat + p 23%nat = 0.
Proof.
  destruct (flex_force MisParallel (mkFlex 1000 1 (1 / 100) (1 / 50) 0 3 (-3) 2) (1 / 10) 1) as [p|e] eqn:E.
  - exists p. split; [reflexivity|]. destruct (C42_torques _ _ _ _ _ E) as [A B]. simpl in A, B. rewrite A, B. ring.
  - exfalso. simpl in E. unfold flex_parallel in E. simpl fx_ex in E. destruct (Req_EM_T (1 / 100) 0); [lra|discriminate].
Qed.

(** * C64: the equations integrated by the fault analyses *)
(** The state is (q, q'); for a passive rotor whose first 12 eigenvectors are independent, the right-hand side returns the velocities and
    accelerations for which the motion x = V q satisfies M x'' + (C + Omega G) x' + (K + Omega' Ksdt) x = f up to a residual orthogonal to the
    12 eigenvectors; M, C, G, K, Ksdt are the matrices of the rotor at the speed of the run, f the fault force plus the unbalance forces. *)
Theorem C64_projected_motion : forall lib spl shafts disks brgs pms r speed S, pinv_ok lib ->
  rotor_init shafts disks brgs pms = Ok r -> regular r -> passive spl speed r -> fault_system lib spl r speed = Ok S -> independent (r_ndof r) 12 (f_V S) ->
  f_n S = r_ndof r /\ rotor_M spl r (Some speed) = Ok (f_M S) /\ rotor_K spl r speed [] = Ok (f_K S) /\ rotor_C spl r speed [] = Ok (f_C S) /\
  rotor_G spl r = Ok (f_G S) /\ rotor_Ksdt r = Ok (f_Ks S) /\
  forall a b ts unb force T Y i, let t := nth i ts 0 in let Y' := eom lib S a b ts unb force T Y i in
    let up z := mulv 12 (f_V S) z in let low z := mulv 12 (f_V S) (fun k => z (k + 12)%nat) in
    (forall k, (k < 12)%nat -> Y' k = Y (k + 12)%nat) /\
    forall j, (j < 12)%nat -> sumn (r_ndof r) (fun k => f_V S k j *
      unbalanced S (Omega a b t) (AccelV a b t) (fun k => force i (up Y) (low Y) k + FFunb unb a b t k) (up Y) (low Y) (low Y') k) = 0.
Proof.
  intros lib spl shafts disks brgs pms r speed S L H G P HS In. pose proof (rotor_facts _ _ _ _ _ H) as F. unfold fault_system in HS.
  destruct (rotor_K spl r speed []) as [K|e] eqn:HK; [|discriminate]. destruct (rotor_C spl r speed []) as [D|e] eqn:HD; [|discriminate].
  destruct (rotor_G spl r) as [Gy|e] eqn:HG; [|discriminate]. destruct (rotor_M spl r (Some speed)) as [M|e] eqn:HM; [|discriminate].
  destruct (rotor_Ksdt r) as [Ks|e] eqn:HKs; [|discriminate]. cbn [bind] in HS. destruct (eig_h lib (r_ndof r) K M) as [[w V]|e]; [|discriminate].
  cbn [bind snd] in HS. injection HS as <-. cbn [f_V] in In. do 6 (split; [reflexivity|]).
  assert (Pd : pos_def (r_ndof r) M) by (apply (rotor_M_pd spl (Some speed) r M F G); [exact (pas_inertia _ _ _ P)|exact HM]).
  assert (Sy : symmetric (r_ndof r) M) by (apply (proj1 (C19_symmetry spl _ _ _ _ r (Some speed) M H) HM); exact (pas_M _ _ _ P)).
  intros a b ts unb force T Y i t Y' up low. split.
  - intros k Hk. unfold Y', eom, lower. destruct (Nat.ltb_spec k 12); [reflexivity|lia].
  - intros j Hj.
    assert (E : forall k, low Y' k = mulv 12 V (modal_accel lib (mkF (r_ndof r) V M D Gy K Ks) (Omega a b t) (AccelV a b t) (force i (up Y) (low Y)) (FFunb unb a b t) Y (lower Y)) k).
    { intros k. apply sumn_ext. intros l Hl. f_equal. unfold Y', eom. destruct (Nat.ltb_spec (l + 12) 12); [lia|]. replace (l + 12 - 12)%nat with l by lia. reflexivity. }
    refine (eq_trans _ (residual_orthogonal lib (mkF (r_ndof r) V M D Gy K Ks) (Omega a b t) (AccelV a b t) (force i (up Y) (low Y)) (FFunb unb a b t) Y (lower Y) L Sy Pd In j Hj)).
    cbn [f_n f_V f_M]. apply sumn_ext. intros k Hk. f_equal.
Qed.
(** A rotor with 12 dofs (one shaft element) is not reduced: the equations hold exactly. *)
Theorem C64_exact_when_12 : forall lib spl shafts disks brgs pms r speed S, pinv_ok lib ->
  rotor_init shafts disks brgs pms = Ok r -> regular r -> passive spl speed r -> fault_system lib spl r speed = Ok S -> independent (r_ndof r) 12 (f_V S) -> r_ndof r = 12%nat ->
  forall a b ts unb force T Y i, let t := nth i ts 0 in let Y' := eom lib S a b ts unb force T Y i in
    let up z := mulv 12 (f_V S) z in let low z := mulv 12 (f_V S) (fun k => z (k + 12)%nat) in
    forall k, (k < 12)%nat -> unbalanced S (Omega a b t) (AccelV a b t) (fun k => force i (up Y) (low Y) k + FFunb unb a b t k) (up Y) (low Y) (low Y') k = 0.
Proof.
  intros lib spl shafts disks brgs pms r speed S L H G P HS In N a b ts unb force T Y i t Y' up low.
  destruct (C64_projected_motion lib spl shafts disks brgs pms r speed S L H G P HS In) as (_ & _ & _ & _ & _ & _ & X). destruct (X a b ts unb force T Y i) as [_ O].
  fold t Y' in O. rewrite N in In, O.
  set (u := unbalanced S (Omega a b t) (AccelV a b t) (fun k => force i (up Y) (low Y) k + FFunb unb a b t k) (up Y) (low Y) (low Y')) in *.
  destruct (nonsingular_solve 12 (f_V S) In (fun i _ => u i)) as [X2 HX].
  (* u = V c, so |u|^2 = c . (V^T u) = 0 *)
  assert (Z : sumn 12 (fun k => u k * u k) = 0).
  { transitivity (sumn 12 (fun k => sumn 12 (fun j => X2 j 0%nat * (f_V S k j * u k)))).
    - apply sumn_ext. intros k Hk. rewrite <- (HX k 0%nat Hk ltac:(lia)) at 1. unfold mulm. rewrite <- sumn_scal_r. apply sumn_ext. intros; ring.
    - rewrite sumn_swap. apply sumn_0. intros j Hj. rewrite sumn_scal. specialize (O j Hj). change (sumn 12 (fun k => f_V S k j * u k) = 0) in O. rewrite O. ring. }
  intros k Hk. destruct (Req_EM_T (u k) 0) as [E|E]; [exact E|]. exfalso.
  assert (Q : forall n, (k < n)%nat -> 0 < sumn n (fun k => u k * u k)).
  { assert (Q0 : forall n, 0 <= sumn n (fun k => u k * u k)) by (intros; apply sumn_nonneg; intros; apply Rle_0_sqr).
    induction n as [|n IH]; intros Hn; [lia|]. cbn [sumn]. destruct (Nat.eq_dec k n) as [<-|].
    - pose proof (Q0 k). assert (0 < u k * u k) by (apply Rsqr_pos_lt; auto). lra.
    - specialize (IH ltac:(lia)). pose proof (Rle_0_sqr (u n)). unfold Rsqr in *. lra. }
  specialize (Q 12%nat Hk). lra.
Qed.
(** M-orthonormal eigenvectors (what scipy.linalg.eigh returns) are independent. *)
Theorem C64_modes_independent : forall n M V, m_orthonormal n M V -> independent n 12 V.
Proof. exact orthonormal_independent. Qed.
(** Motion from rest: a crack alone (all unbalances zero) never starts a vibration; every response starts at zero and is at every time a
    combination of the 12 eigenvectors. *)
Theorem C64_response : forall lib spl r ct dr nc mt fa tI tF dt speed mags phases l,
  crack_run lib spl r ct dr nc tI tF dt speed mags phases = Ok l \/ flex_run lib spl r mt fa tI tF dt speed mags phases = Ok l ->
  exists S, fault_system lib spl r speed = Ok S /\ (forall i, nth 0 l vzero i = 0) /\ forall x, In x l -> exists q, forall i, x i = mulv 12 (f_V S) q i.
Proof.
  assert (X : forall f tI tF dt l x' V, rk45 f tI vzero 24 tF dt = Ok (l, x') ->
    (forall i, nth 0 (map (mulv 12 V) l) vzero i = 0) /\ forall x, In x (map (mulv 12 V) l) -> exists q, forall i, x i = mulv 12 V q i).
  { intros f tI tF dt l x' V E. split.
    - unfold rk45, integrate in E. destruct (Req_EM_T dt 0); [discriminate|]. destruct (_ <? 0)%Z; [discriminate|]. destruct (_ =? 0)%Z; [discriminate|].
      cbn [negb Nat.eqb] in E. destruct (rk_loop _ _ _ _ _ _) as [l0 x0']. injection E as <- <-. intros i. cbn [map nth]. apply mulv_0. reflexivity.
    - intros x Hx. apply in_map_iff in Hx as (q & <- & _). exists q. reflexivity. }
  intros lib spl r ct dr nc mt fa tI tF dt speed mags phases l [H|H].
  - unfold crack_run in H. destruct (unbalances r mags phases) as [unb|e]; [|discriminate]. cbn [bind] in H. destruct (nth_error (r_elements r) nc) as [[six n t s|? ? ?|? ?|? ? ?]|]; try discriminate.
    destruct (crack_setup lib s dr) as [c|e]; [|discriminate]. cbn [bind] in H. destruct (fault_system lib spl r speed) as [S|e]; [|discriminate]. cbn [bind] in H. exists S. split; [reflexivity|].
    destruct (rk45 _ _ _ _ _ _) as [[l0 x']|e] eqn:E; [|discriminate]. cbn [bind fst] in H. injection H as <-. exact (X _ _ _ _ _ _ _ E).
  - unfold flex_run in H. destruct (unbalances r mags phases) as [unb|e]; [|discriminate]. cbn [bind] in H. destruct (nth_error (r_elements r) (fx_n1 fa)) as [[six n t s|? ? ?|? ?|? ? ?]|]; try discriminate.
    destruct (fault_system lib spl r speed) as [S|e]; [|discriminate]. cbn [bind] in H. exists S. split; [reflexivity|].
    destruct (MDynamics.mapM _ _) as [fo|e]; [|discriminate]. cbn [bind] in H.
    destruct (rk45 _ _ _ _ _ _) as [[l0 x']|e] eqn:E; [|discriminate]. cbn [bind fst] in H. injection H as <-. exact (X _ _ _ _ _ _ _ E).
Qed.
Theorem C64_crack_rest : forall lib spl r ct dr nc tI tF dt speed mags phases l, (forall m, In m mags -> m = 0) ->
  crack_run lib spl r ct dr nc tI tF dt speed mags phases = Ok l -> forall x i, In x l -> x i = 0.
Proof.
  intros lib spl r ct dr nc tI tF dt speed mags phases l Hm H x i Hx.
  unfold crack_run in H. destruct (unbalances r mags phases) as [unb|e] eqn:EU; [|discriminate]. cbn [bind] in H. destruct (nth_error (r_elements r) nc) as [[six n t s|? ? ?|? ?|? ? ?]|]; try discriminate.
  destruct (crack_setup lib s dr) as [c|e]; [|discriminate]. cbn [bind] in H. destruct (fault_system lib spl r speed) as [S|e]; [|discriminate]. cbn [bind] in H.
  destruct (rk45 _ _ _ _ _ _) as [[l0 x']|e] eqn:E; [|discriminate]. cbn [bind fst] in H. injection H as <-.
  apply in_map_iff in Hx as (y & <- & Hy).
  assert (Hu : forall u, In u unb -> fst (snd u) = 0).
  { intros [m [u p]] Hu. unfold unbalances in EU. destruct (negb _); [discriminate|]. destruct (negb _); [discriminate|]. injection EU as <-.
    apply in_combine_r in Hu. apply in_combine_l in Hu. cbn. auto. }
  assert (Q : forall k, (k < 24)%nat -> y k = 0).
  { refine (rk45_inv _ _ _ _ _ _ (fun y => forall k, (k < 24)%nat -> y k = 0) _ _ _ _ E y Hy); [|reflexivity].
    intros u z j Hz. apply rk45_rest; [|exact Hz]. intros u' z' Hz'. apply eom_rest; auto. intros xx vv Hxx _ k. unfold crack_force.
    destruct (andb _ _); [|reflexivity]. apply mulv_0. intros; apply Hxx. }
  apply mulv_0. intros k Hk. apply Q. lia.
Qed.
(** All stages of a step from t_k to t_(k+1) use the forces of the end of the step: the right-hand side at the time T is not the one of the
    equations of motion at T. *)
Theorem C64_stage_time_refuted : exists lib S ts unb T Y i k, pinv_ok lib /\ symmetric (f_n S) (f_M S) /\ pos_def (f_n S) (f_M S) /\ independent (f_n S) 12 (f_V S) /\
  nth (i - 1) ts 0 = T /\ (k < 12)%nat /\
  eom lib S PI 0 ts unb (fun _ _ _ => vzero) T Y i (k + 12)%nat <> modal_accel lib S (Omega PI 0 T) (AccelV PI 0 T) vzero (FFunb unb PI 0 T) Y (lower Y) k.
Proof.
  set (S := mkF 12 mid mid mzero mzero mzero mzero). exists lib0, S, [0; 1], [(0%nat, (1, 0))], 0, vzero, 1%nat, 0%nat.
  assert (Sy : symmetric 12 mid) by (intros i j _ _; unfold mid; rewrite Nat.eqb_sym; reflexivity).
  assert (Mv : forall x i, (i < 12)%nat -> mulv 12 mid x i = x i).
  { intros x i Hi. unfold mulv. rewrite (sumn_single 12 _ i Hi); [unfold mid; rewrite Nat.eqb_refl; ring|]. intros j _ N. unfold mid. destruct (Nat.eqb_spec i j); [congruence|ring]. }
  assert (Pd : pos_def 12 mid).
  { intros x (k & Hk & Hx). rewrite bform_mulv. unfold dot. rewrite (sumn_ext 12 _ (fun i => x i * x i)) by (intros; rewrite Mv; auto).
    assert (Q0 : forall n, 0 <= sumn n (fun k => x k * x k)) by (intros; apply sumn_nonneg; intros; apply Rle_0_sqr).
    assert (Q : forall n, (k < n)%nat -> 0 < sumn n (fun k => x k * x k)); [|apply Q, Hk].
    induction n as [|n IH]; intros Hn; [lia|]. cbn [sumn]. destruct (Nat.eq_dec k n) as [<-|].
    - pose proof (Q0 k). assert (0 < x k * x k) by (apply Rsqr_pos_lt; auto). lra.
    - specialize (IH ltac:(lia)). pose proof (Rle_0_sqr (x n)). unfold Rsqr in *. lra. }
  assert (In : independent 12 12 mid) by (apply mid_independent; lia).
  split; [exact lib0_ok|]. split; [exact Sy|]. split; [exact Pd|]. split; [exact In|]. split; [reflexivity|]. split; [lia|].
  assert (A : forall om ac f2, modal_accel lib0 S om ac vzero f2 vzero (lower vzero) 0%nat = f2 0%nat).
  { intros om ac f2. assert (E := accel_solves lib0 S om ac vzero f2 vzero (lower vzero) lib0_ok Sy Pd In 0 ltac:(lia)).
    rewrite proj_mulv in E. cbn [f_n f_V f_M S] in E. rewrite (mulv_0 12 _ vzero) in E by reflexivity.
    rewrite (mulv_0 12 _ (lower vzero)) in E by reflexivity. rewrite (mulv_0 12 _ vzero) in E by reflexivity.
    assert (T : forall z, mulv 12 (mtrans mid) z 0%nat = z 0%nat) by (intros; rewrite <- (Mv z 0%nat ltac:(lia)); apply sumn_ext; intros j Hj; unfold mtrans; rewrite (Sy 0%nat j) by lia; reflexivity).
    rewrite !T, !Mv in E by lia. rewrite E. ring. }
  unfold eom. cbn [Nat.ltb Nat.leb Nat.add Nat.sub nth].
  rewrite !A. unfold FFunb. cbn [map fst snd suml fold_right Nat.eqb Nat.mul Nat.add]. rewrite !unb_const. cbn [fst snd].
  replace (PI * 1 + 0) with PI by ring. replace (PI * 0 + 0) with 0 by ring. rewrite cos_PI, cos_0. pose proof PI_RGT_0. assert (0 < PI ^ 2) by (apply pow_lt; auto). lra.
Qed.
Example C64_instance : forall spl w, exists r S, rotor_init (exS true) (exD true) (exB true) (exP true) = Ok r /\ regular r /\ passive spl w r /\
  fault_system lib0 spl r w = Ok S /\ independent (r_ndof r) 12 (f_V S) /\ (12 <= r_ndof r)%nat.
Proof.
  intros spl w. destruct (ex_rotor true) as (r & H & X). pose proof (rotor_facts _ _ _ _ _ H) as F. exists r.
  destruct (C19_matrices_exist spl _ _ _ _ r (Some w) [] H (xf_reg _ _ X) (xf_links _ _ X)) as (EM & EK & EC & EG).
  assert (HM : is_ok (rotor_M spl r (Some w))) by (apply EM; rewrite (xf_brg _ _ X); intros e He; cases_in; apply ex_coef_psd).
  assert (HK : is_ok (rotor_K spl r w [])) by (apply EK; rewrite (xf_brg _ _ X); intros e He; cases_in; apply ex_coef_psd).
  assert (HC : is_ok (rotor_C spl r w [])) by (apply EC; rewrite (xf_brg _ _ X); intros e He; cases_in; apply ex_coef_psd).
  assert (HG : is_ok (rotor_G spl r)) by (apply EG; rewrite (xf_brg _ _ X); intros e He; cases_in; apply ex_coef_psd).
  destruct HM as [M HM]. destruct HK as [K HK]. destruct HC as [D HC]. destruct HG as [G HG]. destruct (Ksdt_exists spl r w K F HK) as [Ks HKs].
  assert (N : (12 <= r_ndof r)%nat).
  { rewrite (rf_ndof _ F), (xf_nd _ _ X), (xf_last _ _ X). simpl. lia. }
  exists (mkF (r_ndof r) mid M D G K Ks). split; [exact H|]. split; [apply X|]. split; [eapply ex_passive; eauto|].
  split; [unfold fault_system; rewrite HK, HC, HG, HM, HKs; reflexivity|]. split; [|exact N]. apply mid_independent, N.
Qed.

Print Assumptions C63_kinematics.
Print Assumptions C63_inertia_force.
Print Assumptions C63_constant_speed.
Print Assumptions C63_same_sense_refuted.
Print Assumptions C40_no_contact.
Print Assumptions C40_contact.
Print Assumptions C40_elastic_and_damping.
Print Assumptions C40_defined_iff.
Print Assumptions C40_push_only_refuted.
Print Assumptions C41_magnitude.
Print Assumptions C41_tangential_iff.
Print Assumptions C41_opposes_sliding_refuted.
Print Assumptions C41_torque_refuted.
Print Assumptions C42_flex_equilibrium.
Print Assumptions C42_combined_is_sum.
Print Assumptions C42_torques.
Print Assumptions C42_combined_torque_refuted.
Print Assumptions C42_angular_periodic.
Print Assumptions C42_aligned_no_force.
Print Assumptions C42_parallel_arms.
Print Assumptions C42_opposite_offset_same_force.
Print Assumptions C42_parallel_periodic_refuted.
Print Assumptions C42_rigid_equilibrium.
Print Assumptions C42_rigid_history_refuted.
Print Assumptions C64_projected_motion.
Print Assumptions C64_exact_when_12.
Print Assumptions C64_modes_independent.
Print Assumptions C64_response.
Print Assumptions C64_crack_rest.
Print Assumptions C64_stage_time_refuted.
