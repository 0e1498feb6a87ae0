(** Theorems about the synchronous mass matrix (C59). *)
From Coq Require Import Reals String List Arith Bool Lia Lra.
From Coquelicot Require Import Coquelicot.
From Verif Require Import PyBase MatBase SpecMat LMat CMat LCMat MShaft SpecShaft MDisk MBearing MRotor SpecRotor LAssembly LRotor LRotor2 LRotor3 LRotor5 LRotorEx PropRotor
  MDynamics SpecDynamics LDynamics LDynEx LDynEx2 PropDynamics SpecSync LSync LSyncEx.
Import ListNotations.
Open Scope list_scope.
Open Scope R_scope.

(** A 4-dof rotor whose nodes all move on circles about the axis, with the shaft and at its speed w: the synchronous mass
    matrix times the acceleration gives the inertia and the gyroscopic forces, M q'' + w G q'. *)
Theorem C59_forward_whirl : forall spl shafts disks brgs pms r f Ms M G w q v a, rotor_init shafts disks brgs pms = Ok r -> r_nd r = 4%nat ->
  rotor_M_sync spl r f = Ok Ms -> rotor_M spl r f = Ok M -> rotor_G spl r = Ok G -> circular w q -> moves q v a ->
  forall t i, (i < r_ndof r)%nat -> mulv (r_ndof r) Ms (a t) i = mulv (r_ndof r) M (a t) i + w * mulv (r_ndof r) G (v t) i.
Proof.
  intros spl shafts disks brgs pms r f Ms M G w q v a H N4 Hs HM HG Hc Hm t i Hi. pose proof (rotor_facts _ _ _ _ _ H) as F.
  rewrite (sync_acts _ _ _ _ _ _ _ _ F N4 Hs HM HG Hi). unfold Rminus. f_equal.
  rewrite (mulv_vext _ G (turn (a t)) (fun j => - (w * v t j))).
  - unfold mulv. rewrite <- sumn_opp, <- sumn_scal. apply sumn_ext; intros j _. ring.
  - intros j _. rewrite (proj1 (circular_moves _ _ _ _ t j Hc Hm)). unfold turn. destruct (Nat.even j); rewrite (proj2 (circular_moves _ _ _ _ _ _ Hc Hm)); ring.
Qed.
(** On circles against the rotation of the shaft the gyroscopic forces come out with the wrong sign. *)
Theorem C59_backward_whirl : forall spl shafts disks brgs pms r f Ms M G w q v a, rotor_init shafts disks brgs pms = Ok r -> r_nd r = 4%nat ->
  rotor_M_sync spl r f = Ok Ms -> rotor_M spl r f = Ok M -> rotor_G spl r = Ok G -> circular (- w) q -> moves q v a ->
  forall t i, (i < r_ndof r)%nat -> mulv (r_ndof r) Ms (a t) i = mulv (r_ndof r) M (a t) i - w * mulv (r_ndof r) G (v t) i.
Proof.
  intros spl shafts disks brgs pms r f Ms M G w q v a H N4 Hs HM HG Hc Hm t i Hi.
  rewrite (C59_forward_whirl _ _ _ _ _ _ _ _ _ _ _ _ _ _ H N4 Hs HM HG Hc Hm t i Hi). ring.
Qed.
(** It exists whenever the mass matrix exists. *)
Theorem C59_exists : forall spl r f, is_ok (rotor_M spl r f) -> is_ok (rotor_M_sync spl r f).
Proof. exact sync_exists. Qed.

(** Critical speeds: a forward circular mode i w of the synchronous system at speed w0 is the same mode of the rotor turning at
    w0 + w, and conversely; so the synchronous system at speed 0 has the forward mode i w exactly when w is a critical speed
    (the rotor turning at w has that mode at the frequency w). *)
Theorem C59_critical_speed : forall la spl shafts disks brgs pms r w0 w f As A z, linalg_ok la -> rotor_init shafts disks brgs pms = Ok r -> r_nd r = 4%nat ->
  rotor_A la spl r w0 (Some f) true = Ok As -> rotor_A la spl r (w0 + w) (Some f) false = Ok A -> forward_shape (r_ndof r) z ->
  (eigenpair (r_ndof r + r_ndof r) As (Cmult Ci (RtoC w)) z <-> eigenpair (r_ndof r + r_ndof r) A (Cmult Ci (RtoC w)) z).
Proof.
  intros la spl shafts disks brgs pms r w0 w f As A z L H N4 Hs HA Hf. pose proof (rotor_facts _ _ _ _ _ H) as F.
  destruct (C24_state_space _ _ _ _ _ _ _ L Hs) as (Ms & K & D & G & HMs & HK & HD & HG & Es). destruct (C24_state_space _ _ _ _ _ _ _ L HA) as (M & K' & D' & G' & HM & HK' & HD' & HG' & E).
  cbn [default] in *. assert (K' = K) by congruence. assert (D' = D) by congruence. assert (G' = G) by congruence. subst K' D' G'.
  rewrite Es, E. clear Es E. split; intros (Z & V & Q); (split; [exact Z|split; [exact V|]]); intros i Hi; specialize (Q i Hi).
  - rewrite <- (sync_dyn spl r (Some f) Ms M G D K z w0 w i F N4 HMs HM HG Hf Hi). exact Q.
  - rewrite (sync_dyn spl r (Some f) Ms M G D K z w0 w i F N4 HMs HM HG Hf Hi). exact Q.
Qed.

(** A rotor with a disk (Id = 2, Ip = 1), its state matrices and a whirl. *)
Example C59_instance : forall spl w, exists r Ms M G As A q v a z, rotor_init (syS false) (syD false) (syB false) [] = Ok r /\ r_nd r = 4%nat /\
  rotor_M_sync spl r (Some 0) = Ok Ms /\ rotor_M spl r (Some 0) = Ok M /\ rotor_G spl r = Ok G /\ circular w q /\ moves q v a /\ q 0 0%nat = 1 /\
  linalg_ok la0 /\ rotor_A la0 spl r 0 (Some 0) true = Ok As /\ rotor_A la0 spl r (0 + w) (Some 0) false = Ok A /\ forward_shape (r_ndof r) z /\ z 0%nat = RtoC 1.
Proof.
  intros spl w. destruct (sy_rotor false) as (r & H & X). pose proof (rotor_facts _ _ _ _ _ H) as F.
  assert (Br : forall e, In e (r_brg r) -> is_ok (el_M spl 0 e) /\ is_ok (el_K spl 0 e) /\ is_ok (el_C spl 0 e) /\ is_ok (el_K spl 0 e)).
  { rewrite (sy_b _ _ X). intros e He. cases_in; repeat split; apply ex_coef_psd. }
  destruct (C19_matrices_exist spl _ _ _ _ r (Some 0) [] H (sy_reg _ _ X) (sy_links _ _ X)) as (EM & EK & EC & EG).
  destruct EM as [M HM]; [intros e He; apply (Br e He)|]. destruct (EK 0) as [K HK]; [intros e He; apply (Br e He)|].
  destruct (EC 0) as [D HD]; [intros e He; apply (Br e He)|]. destruct EG as [G HG]; [intros e He; apply (Br e He)|].
  destruct (sync_exists spl r (Some 0) (ex_intro _ M HM)) as [Ms Hs].
  assert (NS : nonsingular (r_ndof r) (mscale (-1) Ms)) by (apply nonsingular_opp, pos_def_nonsingular, (sy_sync_pd spl (Some 0) r Ms F X Hs)).
  destruct (solve_exists la0 _ _ K la0_ok NS) as [X1 HX1]. destruct (solve_exists la0 _ _ (madd D (mscale 0 G)) la0_ok NS) as [Y1 HY1].
  assert (HAs : exists As, rotor_A la0 spl r 0 (Some 0) true = Ok As).
  { unfold rotor_A. cbn [default]. rewrite Hs. cbn [bind]. rewrite HK. cbn [bind]. rewrite HX1. cbn [bind]. rewrite HD. cbn [bind]. rewrite HG. cbn [bind]. rewrite HY1. eexists. reflexivity. }
  destruct HAs as [As HAs].
  destruct (C24_state_matrix_exists la0 spl _ _ _ _ r (0 + w) (Some 0) la0_ok H (sy_reg _ _ X) (sy_links _ _ X)) as [A HA].
  - exact Br.
  - intros e He. rewrite (sy_elements _ _ X) in He. cases_in.
    + exists sy_args. split; [exact sy_init|exact sy_good].
    + cbn. lra.
    + intros x. rewrite (ex_brg_M spl _ false 0 None "b0" "b0" x). lra.
    + intros x. rewrite (ex_brg_M spl _ false 1 None "b1" "b1" x). lra.
  - exists r, Ms, M, G, As, A, (whirl w (basis 0)), (fun t i => - w * sin (w * t) * basis 0 i + w * cos (w * t) * turn (basis 0) i), (fun t i => - w ^ 2 * whirl w (basis 0) t i).
    exists (fun i => if Nat.eqb i 0 then RtoC 1 else if Nat.eqb i 1 then Copp Ci else RtoC 0).
    split; [exact H|]. split; [exact (sy_nd _ _ X)|]. split; [exact Hs|]. split; [exact HM|]. split; [exact HG|]. split; [apply whirl_circular|]. split; [apply whirl_moves|].
    split; [unfold whirl, turn, basis; cbn; rewrite Rmult_0_r, cos_0; ring|]. split; [apply la0_ok|]. split; [exact HAs|]. split; [exact HA|]. split; [|reflexivity].
    intros j _. destruct j as [|j]; [cbn; ring|]. replace (2 * S j + 1)%nat with (S (S (S (2 * j)))) by lia. replace (2 * S j)%nat with (S (S (2 * j))) by lia. cbn [Nat.eqb]. ring.
Qed.

(** With 6 dofs per node it is not so: the rows and columns that are changed are those of the 4-dof matrices, and the
    gyroscopic effect of a disk is lost. *)
Theorem C59_six_dof_refuted : exists shafts disks brgs r Ms M G, rotor_init shafts disks brgs [] = Ok r /\ r_nd r = 6%nat /\
  (forall spl, rotor_M_sync spl r None = Ok Ms /\ rotor_M spl r None = Ok M /\ rotor_G spl r = Ok G) /\
  forall w, 0 < w -> exists q v a, circular6 w q /\ moves q v a /\
    exists t i, (i < r_ndof r)%nat /\ mulv (r_ndof r) Ms (a t) i <> mulv (r_ndof r) M (a t) i + w * mulv (r_ndof r) G (v t) i.
Proof.
  destruct (sy_rotor true) as (r & H & X). pose proof (rotor_facts _ _ _ _ _ H) as F. set (spl0 := fun (_ _ : list R) (_ : R) => 0).
  assert (Br : forall e, In e (r_brg r) -> is_ok (el_M spl0 0 e) /\ is_ok (el_K spl0 0 e) /\ is_ok (el_C spl0 0 e) /\ is_ok (el_K spl0 0 e)).
  { rewrite (sy_b _ _ X). intros e He. cases_in; repeat split; apply ex_coef_psd. }
  destruct (C19_matrices_exist spl0 _ _ _ _ r None [] H (sy_reg _ _ X) (sy_links _ _ X)) as (EM & EK & EC & EG).
  destruct EM as [M HM]; [intros e He; apply (Br e He)|]. destruct EG as [G HG]; [intros e He; apply (Br e He)|].
  destruct (sync_exists spl0 r None (ex_intro _ M HM)) as [Ms Hs].
  exists (syS true), (syD true), (syB true), r, Ms, M, G. split; [exact H|]. split; [exact (sy_nd _ _ X)|]. split.
  - intros spl. unfold rotor_M_sync, rotor_M, rotor_G in *. rewrite (sy_elements _ _ X) in *. split; [exact Hs|]. split; [exact HM|exact HG].
  - intros w Hw. exists (whirl6 w), (whirl6_v w), (fun t i => - w ^ 2 * whirl6 w t i). split; [apply whirl6_circular|]. split; [apply whirl6_moves|].
    exists 0, 3%nat. split; [rewrite (sy_ndof _ _ X); lia|]. rewrite (sy_G6 spl0 r G _ F X HG).
    replace (mulv (r_ndof r) Ms (fun i => - w ^ 2 * whirl6 w 0 i) 3%nat) with (mulv (r_ndof r) M (fun i => - w ^ 2 * whirl6 w 0 i) 3%nat)
      by (unfold mulv; apply sumn_ext; intros j _; rewrite (sy_sync6 spl0 None r Ms M F X Hs HM); reflexivity).
    unfold whirl6_v. cbn [Nat.eqb]. rewrite Rmult_0_r, cos_0. assert (0 < w * (w * 1)) by (rewrite Rmult_1_r; apply Rmult_lt_0_compat; exact Hw). lra.
Qed.
(** Backward whirls at the same speed get a wrong inertia. *)
Theorem C59_backward_refuted : exists shafts disks brgs r Ms M G, rotor_init shafts disks brgs [] = Ok r /\ r_nd r = 4%nat /\
  (forall spl, rotor_M_sync spl r None = Ok Ms /\ rotor_M spl r None = Ok M /\ rotor_G spl r = Ok G) /\
  forall w, 0 < w -> exists q v a, circular (- w) q /\ moves q v a /\
    exists t i, (i < r_ndof r)%nat /\ mulv (r_ndof r) Ms (a t) i <> mulv (r_ndof r) M (a t) i + w * mulv (r_ndof r) G (v t) i.
Proof.
  destruct (sy_rotor false) as (r & H & X). pose proof (rotor_facts _ _ _ _ _ H) as F. set (spl0 := fun (_ _ : list R) (_ : R) => 0).
  assert (Br : forall e, In e (r_brg r) -> is_ok (el_M spl0 0 e) /\ is_ok (el_K spl0 0 e) /\ is_ok (el_C spl0 0 e) /\ is_ok (el_K spl0 0 e)).
  { rewrite (sy_b _ _ X). intros e He. cases_in; repeat split; apply ex_coef_psd. }
  destruct (C19_matrices_exist spl0 _ _ _ _ r None [] H (sy_reg _ _ X) (sy_links _ _ X)) as (EM & EK & EC & EG).
  destruct EM as [M HM]; [intros e He; apply (Br e He)|]. destruct EG as [G HG]; [intros e He; apply (Br e He)|].
  destruct (sync_exists spl0 r None (ex_intro _ M HM)) as [Ms Hs].
  exists (syS false), (syD false), (syB false), r, Ms, M, G. split; [exact H|]. split; [exact (sy_nd _ _ X)|]. split.
  - intros spl. unfold rotor_M_sync, rotor_M, rotor_G in *. rewrite (sy_elements _ _ X) in *. split; [exact Hs|]. split; [exact HM|exact HG].
  - intros w Hw. eexists _, _, _. split; [apply (whirl_circular (- w) (basis 2))|]. split; [apply whirl_moves|].
    exists 0, 2%nat. split; [rewrite (sy_ndof _ _ X); lia|].
    rewrite (C59_backward_whirl _ _ _ _ _ _ _ _ _ _ w _ _ _ H (sy_nd _ _ X) Hs HM HG (whirl_circular (- w) (basis 2)) (whirl_moves (- w) (basis 2)) 0 2%nat) by (rewrite (sy_ndof _ _ X); lia).
    rewrite (sy_G4 spl0 r G _ F X HG). unfold turn, basis. cbn. replace (- w * 0) with 0 by ring. rewrite cos_0.
    assert (0 < w * w) by (apply Rmult_lt_0_compat; exact Hw). lra.
Qed.

Print Assumptions C59_forward_whirl.
Print Assumptions C59_backward_whirl.
Print Assumptions C59_critical_speed.
Print Assumptions C59_six_dof_refuted.
Print Assumptions C59_backward_refuted.
