(** Concrete elements used as examples and counterexamples. *)
From Coq Require Import Reals List Arith Lra Lia Psatz Bool String.
From Verif Require Import PyBase MatBase SpecMat MMaterial MShaft SpecBeam SpecShaft LMat LQuad LShaft LShaftEnergy LShaftProps LShaft6.
Import ListNotations.
Open Scope R_scope.

Definition ex_material : material := mkMaterial "m" 3 2 1 0 "c".

(** a hollow conical element with shear, rotary inertia and gyroscopic effect *)
Definition ex_cone : shaft_args :=
  mkShaftArgs 1 0 2 None (Some 4) (Some ex_material) (Some 0%nat) 0 0 true true true Cowper None 0 0.
(** a hollow cylinder *)
Definition ex_cyl : shaft_args :=
  mkShaftArgs 2 1 3 None None (Some ex_material) (Some 0%nat) 5 0 true true true Hutchinson None 0 0.
(** an Euler-Bernoulli cylinder *)
Definition ex_eb : shaft_args :=
  mkShaftArgs 1 0 1 None None (Some ex_material) (Some 0%nat) 0 0 false true true Cowper None 0 0.

Lemma ex_cone_good : good_args ex_cone.
Proof.
  split; [unfold good_geometry, right_id, right_od; simpl; lra|].
  exists ex_material; split; [reflexivity|]. unfold good_material; simpl; lra.
Qed.
Lemma ex_cyl_good : good_args ex_cyl.
Proof.
  split; [unfold good_geometry, right_id, right_od; simpl; lra|].
  exists ex_material; split; [reflexivity|]. unfold good_material; simpl; lra.
Qed.
Lemma ex_eb_good : good_args ex_eb.
Proof.
  split; [unfold good_geometry, right_id, right_od; simpl; lra|].
  exists ex_material; split; [reflexivity|]. unfold good_material; simpl; lra.
Qed.
Lemma ex_cone_init : exists s, shaft_init ex_cone = Ok s.
Proof. eexists. reflexivity. Qed.
Lemma ex_cyl_init : exists s, shaft_init ex_cyl = Ok s.
Proof. eexists. reflexivity. Qed.
Lemma ex_eb_init : exists s, shaft_init ex_eb = Ok s.
Proof. eexists. reflexivity. Qed.

Lemma ex_cone_vals s : shaft_init ex_cone = Ok s ->
  s_phi s = 63 / 4 /\ s_gama s = 4 /\ s_m s = 7 * PI /\ s_A_l s = PI /\ s_A_r s = 4 * PI.
Proof.
  intros H. pose proof (shaft_init_facts _ _ H) as F. pose proof PI_RGT_0 as Pp.
  injection H; intros <-. cbn [s_phi s_gama s_m s_A_l s_A_r].
  repeat split; try (cbn; field; try lra).
Qed.

Lemma gyro6_refuted_ex : exists a s, shaft_init a = Ok s /\ good_args a /\
  ~ meq 8 (fun i j => shaft6_G s (lat6 i) (lat6 j)) (shaft_G s).
Proof.
  destruct ex_cone_init as [s Hs]. exists ex_cone, s. split; [exact Hs|split; [apply ex_cone_good|]].
  intros H. apply (shaft6_G_lat_conv _ _ Hs ex_cone_good eq_refl) in H.
  destruct (ex_cone_vals s Hs) as (E1 & E2 & _). rewrite E1, E2 in H. lra.
Qed.


Lemma axial_mass_val s : bform 12 (shaft6_M s) axial6 axial6 = mrho (s_material s) * ((s_A_l s + s_A_r s) / 2) * s_L s.
Proof.
  rewrite shaft6_M_bform. cbn [axial6 orb Nat.eqb].
  replace (bform 8 (shaft_M s) (latv axial6) (latv axial6)) with 0.
  - field.
  - symmetry. unfold bform. apply sumn_0. intros i Hi. replace (latv axial6 i) with 0; [ring|].
    do 8 (destruct i as [|i]; [reflexivity|]). lia.
Qed.

Lemma axial_mass_cyl a s : shaft_init a = Ok s -> cylindrical a -> bform 12 (shaft6_M s) axial6 axial6 = s_m s.
Proof.
  intros Hi [C1 C2]. pose proof (shaft_init_facts _ _ Hi) as F.
  assert (E1 : s_idr s = s_idl s) by (rewrite (f_idr _ _ F), (f_idl _ _ F); auto).
  assert (E2 : s_odr s = s_odl s) by (rewrite (f_odr _ _ F), (f_odl _ _ F); auto).
  rewrite axial_mass_val, (f_m _ _ F), (f_vol _ _ F), (f_Al _ _ F), (f_Ar _ _ F), E1, E2. field.
Qed.

Lemma axial_mass_refuted_ex : exists a s, shaft_init a = Ok s /\ good_args a /\
  bform 12 (shaft6_M s) axial6 axial6 <> s_m s.
Proof.
  destruct ex_cone_init as [s Hs]. exists ex_cone, s. split; [exact Hs|split; [apply ex_cone_good|]].
  rewrite axial_mass_val. pose proof PI_RGT_0.
  destruct (ex_cone_vals s Hs) as (_ & _ & E3 & E4 & E5). rewrite E3, E4, E5.
  injection Hs; intros <-. cbn [s_material s_L a_L ex_cone]. simpl. lra.
Qed.

Lemma accel_refuted_ex : exists a s, shaft_init a = Ok s /\ good_args a /\
  ~ (forall i j, (i < 12)%nat -> (j < 12)%nat -> shaft6_Kst s i j - shaft6_Kst s j i = shaft6_G s i j).
Proof.
  destruct ex_eb_init as [s Hs]. exists ex_eb, s. split; [exact Hs|split; [apply ex_eb_good|]].
  intros H. specialize (H 4%nat 3%nat ltac:(lia) ltac:(lia)).
  pose proof (Kst6_G6 _ _ Hs ex_eb_good (conj eq_refl eq_refl) eq_refl eq_refl 4%nat 3%nat ltac:(lia) ltac:(lia)) as K.
  assert (E : shaft6_Kst s 4%nat 3%nat - shaft6_Kst s 3%nat 4%nat = 0) by lra.
  pose proof (shaft_positive _ _ Hs ex_eb_good) as Ps. destruct Ps.
  unfold shaft6_Kst in E. change (Kst6_tab s 4%nat 3%nat) with (4 * s_L s ^ 2) in E.
  change (Kst6_tab s 3%nat 4%nat) with 0 in E.
  assert (0 < 4 * s_L s ^ 2 * mrho (s_material s) * ((s_Ie_l s + s_Ie_r s) / 2) / (15 * s_L s)).
  { apply Rdiv_lt_0_compat; [|lra]. repeat apply Rmult_lt_0_compat; try apply pow_lt; lra. }
  unfold Rdiv in *. lra.
Qed.

(** *** assembled statements *)
From Coquelicot Require Import Coquelicot.

Lemma geometry_all : forall a s, shaft_init a = Ok s -> good_args a ->
  s_volume s = RInt (arg_area a) 0 (a_L a) /\
  s_m s = RInt (fun z => mrho (s_material s) * arg_area a z) 0 (a_L a) /\
  s_m s * s_beam_cg s = RInt (fun z => mrho (s_material s) * arg_area a z * z) 0 (a_L a) /\
  s_Im s = RInt (fun z => mrho (s_material s) * (2 * arg_inertia a z)) 0 (a_L a) /\
  s_A s = arg_area a (a_L a / 2) /\ s_Ie s = arg_inertia a (a_L a / 2) /\
  s_A_l s = arg_area a 0 /\ s_A_r s = arg_area a (a_L a) /\
  s_Ie_l s = arg_inertia a 0 /\ s_Ie_r s = arg_inertia a (a_L a).
Proof.
  intros a s Hi Hg. pose proof (shaft_init_facts _ _ Hi) as F. pose proof (shaft_positive _ _ Hi Hg) as Ps.
  destruct (geometry_mid _ _ Hi Hg).
  assert (HL : a_L a <> 0) by (rewrite <- (f_L _ _ F); destruct Ps; lra).
  repeat split; auto using geometry_volume, geometry_mass, geometry_cg, geometry_Im.
  - rewrite (f_Al _ _ F), (f_idl _ _ F), (f_odl _ _ F). unfold arg_area, sec_area, taper. field. exact HL.
  - rewrite (f_Ar _ _ F), (f_idr _ _ F), (f_odr _ _ F). unfold arg_area, sec_area, taper. field. exact HL.
  - rewrite (f_Iel _ _ F), (f_idl _ _ F), (f_odl _ _ F). unfold arg_inertia, sec_inertia, taper. field. exact HL.
  - rewrite (f_Ier _ _ F), (f_idr _ _ F), (f_odr _ _ F). unfold arg_inertia, sec_inertia, taper. field. exact HL.
Qed.

Lemma interp_ends : forall L phi w0 t0 w1 t1, 0 < L -> 0 <= phi ->
  tw L phi w0 t0 w1 t1 0 = w0 /\ tw L phi w0 t0 w1 t1 L = w1 /\
  tt L phi w0 t0 w1 t1 0 = t0 /\ tt L phi w0 t0 w1 t1 L = t1 /\
  (forall z, is_derive (tw L phi w0 t0 w1 t1) z (tw' L phi w0 t0 w1 t1 z)) /\
  (forall z, is_derive (tt L phi w0 t0 w1 t1) z (tt' L phi w0 t0 w1 t1 z)).
Proof.
  intros L phi w0 t0 w1 t1 HL Hp.
  destruct (tw_ends L phi w0 t0 w1 t1) as (E1 & E3 & E2 & E4); [lra|lra|].
  refine (conj E1 (conj E2 (conj E3 (conj E4 (conj _ _))))); intros z; [apply tw_derive|apply tt_derive]; lra.
Qed.

Lemma K_sym_iff : forall a s, shaft_init a = Ok s -> good_args a ->
  (symmetric 8 (shaft_K s) <-> a_torque a = 0).
Proof.
  intros a s Hi Hg. pose proof (shaft_init_facts _ _ Hi) as F. rewrite <- (f_tq _ _ F).
  split; [apply shaft_K_sym_torque; destruct (shaft_positive _ _ Hi Hg); lra|apply shaft_K_sym].
Qed.

Lemma K_psd_all : forall a s, shaft_init a = Ok s -> good_args a -> a_torque a = 0 -> 0 <= a_axial_force a ->
  symmetric 8 (shaft_K s) /\ pos_semidef 8 (shaft_K s) /\ symmetric 12 (shaft6_K s) /\ pos_semidef 12 (shaft6_K s).
Proof.
  intros a s Hi Hg HT HA. pose proof (shaft_init_facts _ _ Hi) as F. rewrite <- (f_tq _ _ F) in HT.
  repeat split.
  - apply shaft_K_sym; auto.
  - apply (shaft_K_psd a s); auto. rewrite <- (f_tq _ _ F); auto.
  - apply shaft6_K_sym; auto.
  - apply (shaft6_K_psd a s); auto. rewrite <- (f_tq _ _ F); auto.
Qed.

Lemma K_kernel_all : forall a s x, shaft_init a = Ok s -> good_args a -> a_torque a = 0 -> a_axial_force a = 0 ->
  (bform 8 (shaft_K s) x x = 0 <-> rigid4 (a_L a) x) /\
  ((forall i, (i < 8)%nat -> mulv 8 (shaft_K s) x i = 0) <-> rigid4 (a_L a) x) /\
  (bform 12 (shaft6_K s) x x = 0 <-> rigid6 (a_L a) x).
Proof.
  intros a s x Hi Hg HT HA. pose proof (shaft_init_facts _ _ Hi) as F. pose proof (shaft_positive _ _ Hi Hg) as Ps.
  split; [|split].
  - apply shaft_K_kernel; auto.
  - split.
    + intros H. apply (shaft_K_kernel a s x Hi Hg HT HA). unfold bform. apply sumn_0. intros i Hi8.
      specialize (H i Hi8). unfold mulv in H. rewrite H. ring.
    + intros H i Hi8. apply shaft_K_rigid_0; auto.
      * apply pos_nz, Ps.
      * destruct Ps; lra.
      * rewrite (f_tq _ _ F); auto.
      * rewrite (f_af _ _ F); auto.
      * rewrite (f_L _ _ F); auto.
  - apply shaft6_K_kernel; auto.
Qed.

Lemma G_skew_all : forall s,
  skew 8 (shaft_G s) /\ skew 12 (shaft6_G s) /\
  (forall v, bform 8 (shaft_G s) v v = 0) /\ (forall v, bform 12 (shaft6_G s) v v = 0).
Proof.
  intros s. pose proof (shaft_G_skew s). pose proof (shaft6_G_skew s).
  repeat split; auto; intros v; apply bform_skew_0; auto.
Qed.

Lemma G_off : forall a s i j, shaft_init a = Ok s -> a_gyroscopic a = false ->
  shaft_G s i j = 0 /\ shaft6_G s i j = 0.
Proof.
  intros a s i j Hi Hy. pose proof (shaft_init_facts _ _ Hi) as F. rewrite <- (f_gy _ _ F) in Hy.
  unfold shaft_G, shaft6_G. rewrite Hy. auto.
Qed.

Lemma G6_cyl : forall a s, shaft_init a = Ok s -> good_args a -> cylindrical a ->
  meq 8 (fun i j => shaft6_G s (lat6 i) (lat6 j)) (shaft_G s).
Proof.
  intros a s Hi Hg [C1 C2]. pose proof (shaft_init_facts _ _ Hi) as F. pose proof (shaft_positive _ _ Hi Hg) as Ps.
  assert (E1 : s_idr s = s_idl s) by (rewrite (f_idr _ _ F), (f_idl _ _ F); auto).
  assert (E2 : s_odr s = s_odl s) by (rewrite (f_odr _ _ F), (f_odl _ _ F); auto).
  apply shaft6_G_lat. rewrite (f_ga _ _ F), E1, E2. field. destruct Ps; lra.
Qed.
