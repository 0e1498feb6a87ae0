(** Theorems about shaft elements (properties C03-C10, C49, C50). *)
From Coq Require Import Reals List Arith Lra Bool String.
From Coquelicot Require Import Coquelicot.
From Verif Require Import PyBase MatBase SpecMat MMaterial MShaft SpecBeam SpecShaft
  LShaftEnergy LShaftProps LShaft6 LShaftEx.
Open Scope R_scope.

(** Every theorem below starts from an element built by the constructor ([shaft_init a = Ok s])
    with physically meaningful arguments ([good_args a]). Such elements exist: *)
Example good_elements_exist :
  (exists s, shaft_init ex_cone = Ok s) /\ good_args ex_cone /\ a_axial_force ex_cone = 0 /\ a_torque ex_cone = 0 /\
  (exists s, shaft_init ex_cyl = Ok s) /\ good_args ex_cyl /\ cylindrical ex_cyl /\
  (exists s, shaft_init ex_eb = Ok s) /\ good_args ex_eb /\ cylindrical ex_eb.
Proof.
  exact (conj ex_cone_init (conj ex_cone_good (conj eq_refl (conj eq_refl (conj ex_cyl_init (conj ex_cyl_good
   (conj (conj eq_refl eq_refl) (conj ex_eb_init (conj ex_eb_good (conj eq_refl eq_refl)))))))))).
Qed.

(** The constructor succeeds for every meaningful geometry unless the shear method is unknown. *)
Theorem C03_constructor_succeeds : forall a, a_material a <> None ->
  (a_shear_effects a = true -> a_method a <> OtherMethod) -> exists s, shaft_init a = Ok s.
Proof.
  intros a Hm Hs. unfold shaft_init. destruct (a_material a); [|congruence]. cbv zeta.
  destruct (a_shear_effects a); [|eexists; reflexivity].
  unfold shear_kappa. destruct (a_method a); [eexists; reflexivity|eexists; reflexivity|]. exfalso; now apply Hs.
Qed.

(** C03: geometry attributes are the integrals over the tapered hollow cylinder. *)
Theorem C03_shaft_geometry : forall a s, shaft_init a = Ok s -> good_args a ->
  s_volume s = RInt (arg_area a) 0 (a_L a) /\
  s_m s = RInt (fun z => mrho (s_material s) * arg_area a z) 0 (a_L a) /\
  s_m s * s_beam_cg s = RInt (fun z => mrho (s_material s) * arg_area a z * z) 0 (a_L a) /\
  s_Im s = RInt (fun z => mrho (s_material s) * (2 * arg_inertia a z)) 0 (a_L a) /\
  s_A s = arg_area a (a_L a / 2) /\ s_Ie s = arg_inertia a (a_L a / 2) /\
  s_A_l s = arg_area a 0 /\ s_A_r s = arg_area a (a_L a) /\
  s_Ie_l s = arg_inertia a 0 /\ s_Ie_r s = arg_inertia a (a_L a).
Proof. exact geometry_all. Qed.

(** C04: the mass matrix is the kinetic energy of the Timoshenko interpolation. *)
Theorem C04_mass_is_kinetic_energy : forall a s v, shaft_init a = Ok s -> good_args a ->
  bform 8 (shaft_M s) v v =
  RInt (fun z => mrho (s_material s) * arg_area a z *
          (ux (a_L a) (s_phi s) v z ^ 2 + uy (a_L a) (s_phi s) v z ^ 2)) 0 (a_L a)
  + (if a_rotary_inertia a
     then RInt (fun z => mrho (s_material s) * arg_inertia a z *
          (rx (a_L a) (s_phi s) v z ^ 2 + ry (a_L a) (s_phi s) v z ^ 2)) 0 (a_L a)
     else 0).
Proof. exact shaft_kinetic. Qed.

(** The interpolation takes the nodal values at the ends, and primed fields are derivatives. *)
Theorem C04_interpolation_ends : forall L phi w0 t0 w1 t1, 0 < L -> 0 <= phi ->
  tw L phi w0 t0 w1 t1 0 = w0 /\ tw L phi w0 t0 w1 t1 L = w1 /\
  tt L phi w0 t0 w1 t1 0 = t0 /\ tt L phi w0 t0 w1 t1 L = t1 /\
  (forall z, is_derive (tw L phi w0 t0 w1 t1) z (tw' L phi w0 t0 w1 t1 z)) /\
  (forall z, is_derive (tt L phi w0 t0 w1 t1) z (tt' L phi w0 t0 w1 t1 z)).
Proof. exact interp_ends. Qed.

(** C05: without torque the stiffness matrix is the strain energy. *)
Theorem C05_stiffness_is_strain_energy : forall a s v, shaft_init a = Ok s -> good_args a -> a_torque a = 0 ->
  bform 8 (shaft_K s) v v =
  RInt (fun z => mE (s_material s) * arg_inertia a z *
          (rx' (a_L a) (s_phi s) v z ^ 2 + ry' (a_L a) (s_phi s) v z ^ 2)) 0 (a_L a)
  + (if a_shear_effects a
     then RInt (fun z => s_kappa s * mG_s (s_material s) * arg_area a z *
          ((ux' (a_L a) (s_phi s) v z - rx (a_L a) (s_phi s) v z) ^ 2
           + (uy' (a_L a) (s_phi s) v z - ry (a_L a) (s_phi s) v z) ^ 2)) 0 (a_L a)
     else 0)
  + a_axial_force a *
    RInt (fun z => ux' (a_L a) (s_phi s) v z ^ 2 + uy' (a_L a) (s_phi s) v z ^ 2) 0 (a_L a).
Proof. exact shaft_strain. Qed.

(** C06: symmetric positive definite mass matrices, 4 and 6 dof. *)
Theorem C06_mass_spd : forall a s, shaft_init a = Ok s -> good_args a ->
  symmetric 8 (shaft_M s) /\ pos_def 8 (shaft_M s) /\ symmetric 12 (shaft6_M s) /\ pos_def 12 (shaft6_M s).
Proof.
  exact (fun a s Hi Hg => conj (shaft_M_sym s) (conj (shaft_M_pd a s Hi Hg) (conj (shaft6_M_sym s) (shaft6_M_pd a s Hi Hg)))).
Qed.

(** C07: stiffness. *)
Theorem C07_stiffness_symmetric_iff_no_torque : forall a s, shaft_init a = Ok s -> good_args a ->
  (symmetric 8 (shaft_K s) <-> a_torque a = 0).
Proof. exact K_sym_iff. Qed.
Theorem C07_stiffness_psd : forall a s, shaft_init a = Ok s -> good_args a -> a_torque a = 0 -> 0 <= a_axial_force a ->
  symmetric 8 (shaft_K s) /\ pos_semidef 8 (shaft_K s) /\ symmetric 12 (shaft6_K s) /\ pos_semidef 12 (shaft6_K s).
Proof. exact K_psd_all. Qed.
Theorem C07_stiffness_kernel : forall a s x, shaft_init a = Ok s -> good_args a -> a_torque a = 0 -> a_axial_force a = 0 ->
  (bform 8 (shaft_K s) x x = 0 <-> rigid4 (a_L a) x) /\
  ((forall i, (i < 8)%nat -> mulv 8 (shaft_K s) x i = 0) <-> rigid4 (a_L a) x) /\
  (bform 12 (shaft6_K s) x x = 0 <-> rigid6 (a_L a) x).
Proof. exact K_kernel_all. Qed.

(** C08: gyroscopic matrices of shaft elements. *)
Theorem C08_shaft_gyro_skew : forall s,
  skew 8 (shaft_G s) /\ skew 12 (shaft6_G s) /\
  (forall v, bform 8 (shaft_G s) v v = 0) /\ (forall v, bform 12 (shaft6_G s) v v = 0).
Proof. exact G_skew_all. Qed.
Theorem C08_shaft_gyro_is_polar_inertia : forall a s v w, shaft_init a = Ok s -> good_args a -> a_gyroscopic a = true ->
  bform 8 (shaft_G s) v w =
  RInt (fun z => mrho (s_material s) * (2 * arg_inertia a z) *
          (rx (a_L a) (s_phi s) v z * ry (a_L a) (s_phi s) w z
           - ry (a_L a) (s_phi s) v z * rx (a_L a) (s_phi s) w z)) 0 (a_L a).
Proof. exact shaft_gyro. Qed.
Theorem C08_shaft_gyro_off : forall a s i j, shaft_init a = Ok s -> a_gyroscopic a = false ->
  shaft_G s i j = 0 /\ shaft6_G s i j = 0.
Proof. exact G_off. Qed.

(** C09: the lateral part of the 6-dof matrices is the 4-dof matrix. *)
Theorem C09_six_dof_lateral : forall s,
  meq 8 (fun i j => shaft6_M s (lat6 i) (lat6 j)) (shaft_M s) /\
  meq 8 (fun i j => shaft6_K s (lat6 i) (lat6 j)) (shaft_K s) /\
  meq 8 (fun i j => shaft6_C s (lat6 i) (lat6 j)) (shaft_C s).
Proof. exact (fun s => conj (shaft6_M_lat s) (conj (shaft6_K_lat s) (shaft6_C_lat s))). Qed.

(** C10: the same for the gyroscopic matrix holds for cylinders, is false in general, and is
    characterised exactly. *)
Theorem C10_six_dof_gyro_cylinder : forall a s, shaft_init a = Ok s -> good_args a -> cylindrical a ->
  meq 8 (fun i j => shaft6_G s (lat6 i) (lat6 j)) (shaft_G s).
Proof. exact G6_cyl. Qed.
Theorem C10_six_dof_gyro_iff : forall a s, shaft_init a = Ok s -> good_args a -> a_gyroscopic a = true ->
  (meq 8 (fun i j => shaft6_G s (lat6 i) (lat6 j)) (shaft_G s)
   <-> s_gama s * (7 * s_phi s ^ 2 - 14 * s_phi s) = 0).
Proof. exact (fun a s Hi Hg Hy => conj (shaft6_G_lat_conv a s Hi Hg Hy) (shaft6_G_lat s)). Qed.
Theorem C10_six_dof_gyro_refuted : exists a s, shaft_init a = Ok s /\ good_args a /\
  ~ meq 8 (fun i j => shaft6_G s (lat6 i) (lat6 j)) (shaft_G s).
Proof. exact gyro6_refuted_ex. Qed.

(** C49: the acceleration stiffness Kst must be the companion of the gyroscopic matrix. If the
    spin terms come from a kinetic energy  Omega(t) * q'^T B q  then the equations of motion
    contain  Omega (B - B^T) q' + Omega' B q,  so  Kst - Kst^T = G.  The code has the opposite sign. *)
Theorem C49_accel_stiffness_opposite_sign : forall a s, shaft_init a = Ok s -> good_args a -> cylindrical a ->
  a_shear_effects a = false -> a_gyroscopic a = true ->
  forall i j, (i < 12)%nat -> (j < 12)%nat -> shaft6_Kst s j i - shaft6_Kst s i j = shaft6_G s i j.
Proof. exact Kst6_G6. Qed.
Theorem C49_accel_stiffness_refuted : exists a s, shaft_init a = Ok s /\ good_args a /\
  ~ (forall i j, (i < 12)%nat -> (j < 12)%nat -> shaft6_Kst s i j - shaft6_Kst s j i = shaft6_G s i j).
Proof. exact accel_refuted_ex. Qed.

(** C50: axial inertia of the 6-dof element: right for cylinders, wrong for cones. *)
Theorem C50_axial_mass_cylinder : forall a s, shaft_init a = Ok s -> cylindrical a ->
  bform 12 (shaft6_M s) axial6 axial6 = s_m s.
Proof. exact axial_mass_cyl. Qed.
Theorem C50_axial_mass_refuted : exists a s, shaft_init a = Ok s /\ good_args a /\
  bform 12 (shaft6_M s) axial6 axial6 <> s_m s.
Proof. exact axial_mass_refuted_ex. Qed.

Print Assumptions C03_shaft_geometry.
Print Assumptions C04_mass_is_kinetic_energy.
Print Assumptions C05_stiffness_is_strain_energy.
Print Assumptions C06_mass_spd.
Print Assumptions C07_stiffness_kernel.
Print Assumptions C08_shaft_gyro_is_polar_inertia.
Print Assumptions C09_six_dof_lateral.
Print Assumptions C10_six_dof_gyro_iff.
Print Assumptions C10_six_dof_gyro_refuted.
Print Assumptions C49_accel_stiffness_refuted.
Print Assumptions C50_axial_mass_refuted.
