(** Theorems about disks and point masses (properties C08, C11, C49, C54). *)
From Coq Require Import Reals List Arith Lra Lia Bool String.
From Coquelicot Require Import Coquelicot.
From Verif Require Import PyBase MatBase SpecMat MMaterial MDisk SpecDisk LMat LDisk LShaftEx.
Open Scope R_scope.

(** C11: a disk built from its geometry has the mass and the two moments of inertia of the hollow
    cylinder, as volume integrals. *)
Theorem C11_disk_from_geometry : forall n mt width i_d o_d tag,
  let d := disk_from_geometry n mt width i_d o_d tag in
  d_n d = n /\ d_tag d = tag /\
  d_m d = cyl_integral (i_d / 2) (o_d / 2) width (f_mass (mrho mt)) /\
  d_Ip d = cyl_integral (i_d / 2) (o_d / 2) width (f_polar (mrho mt)) /\
  d_Id d = cyl_integral (i_d / 2) (o_d / 2) width (f_diam (mrho mt)).
Proof. exact disk_geometry. Qed.

(** ... and its matrices hold these: twice the kinetic energy of the disk moving with velocity v
    (x, y, alpha, beta for 4 dof; x, y, z, alpha, beta, theta for 6 dof). *)
Theorem C11_disk_kinetic_energy : forall d v,
  bform 4 (disk_M d) v v =
    d_m d * (v 0%nat ^ 2 + v 1%nat ^ 2) + d_Id d * (v 2%nat ^ 2 + v 3%nat ^ 2) /\
  bform 6 (disk6_M d) v v =
    d_m d * (v 0%nat ^ 2 + v 1%nat ^ 2 + v 2%nat ^ 2) + d_Id d * (v 3%nat ^ 2 + v 4%nat ^ 2) + d_Ip d * v 5%nat ^ 2 /\
  symmetric 4 (disk_M d) /\ symmetric 6 (disk6_M d).
Proof.
  intros d v. rewrite disk_M_form, disk6_M_form.
  split; [ring|split; [ring|exact (conj (disk_M_sym d) (disk6_M_sym d))]].
Qed.
Theorem C11_disk_mass_pd : forall n mt width i_d o_d tag,
  0 < mrho mt -> 0 < width -> 0 <= i_d -> i_d < o_d ->
  pos_def 4 (disk_M (disk_from_geometry n mt width i_d o_d tag)) /\
  pos_def 6 (disk6_M (disk_from_geometry n mt width i_d o_d tag)).
Proof. exact disk_geom_pd. Qed.
Example C11_instance : 0 < mrho ex_material /\ 0 < 7/100 /\ 0 <= 5/100 /\ 5/100 < 28/100.
Proof. unfold ex_material; simpl. repeat split; lra. Qed.

(** C08: the gyroscopic matrix of a disk couples the two rotations through the polar inertia and
    does no work. *)
Theorem C08_disk_gyro : forall d v w,
  bform 4 (disk_G d) v w = d_Ip d * (v 2%nat * w 3%nat - v 3%nat * w 2%nat) /\
  bform 6 (disk6_G d) v w = d_Ip d * (v 3%nat * w 4%nat - v 4%nat * w 3%nat) /\
  skew 4 (disk_G d) /\ skew 6 (disk6_G d) /\
  bform 4 (disk_G d) v v = 0 /\ bform 6 (disk6_G d) v v = 0.
Proof.
  intros d v w.
  rewrite !disk_G_form, !disk6_G_form.
  refine (conj eq_refl (conj eq_refl (conj (disk_G_skew d) (conj (disk6_G_skew d) (conj _ _))))); ring.
Qed.

(** C09: lateral part of the 6-dof disk. *)
Theorem C09_disk_six_dof_lateral : forall d,
  meq 4 (fun i j => disk6_M d (lat3 i) (lat3 j)) (disk_M d) /\
  meq 4 (fun i j => disk6_G d (lat3 i) (lat3 j)) (disk_G d).
Proof. exact disk6_lat. Qed.

(** C49: for the disk too, the acceleration stiffness has the opposite sign. *)
Theorem C49_disk_accel_opposite_sign : forall d i j, (i < 6)%nat -> (j < 6)%nat ->
  disk6_Kdt d j i - disk6_Kdt d i j = disk6_G d i j.
Proof. exact disk6_Kdt_G. Qed.
Theorem C49_disk_accel_refuted : forall d, d_Ip d <> 0 ->
  ~ (forall i j, (i < 6)%nat -> (j < 6)%nat -> disk6_Kdt d i j - disk6_Kdt d j i = disk6_G d i j).
Proof.
  intros d H E. specialize (E 3%nat 4%nat ltac:(lia) ltac:(lia)).
  pose proof (disk6_Kdt_G d 3 4 ltac:(lia) ltac:(lia)) as E2.
  unfold disk6_Kdt, disk6_G, lmat in E, E2. cbn in E, E2. lra.
Qed.
Example C49_disk_instance : d_Ip (mkDisk 0 1 1 2 None) <> 0. Proof. simpl; lra. Qed.

(** C54: point masses: a single mass is used in every direction, directional masses are kept, and
    an incomplete set is rejected. *)
Theorem C54_point_mass_init : forall n m mx my tag p,
  (pmass_init n m mx my tag = Ok p <->
     (exists v, m = Some v /\ mx = None /\ my = None /\ p = mkPMass n v v 0 tag) \/
     (exists x y, mx = Some x /\ my = Some y /\ p = mkPMass n x y 0 tag)).
Proof. exact pmass_init_iff. Qed.
Theorem C54_point_mass6_init : forall n m mx my mz tag p,
  (pmass6_init n m mx my mz tag = Ok p <->
     (exists v, m = Some v /\ mx = None /\ my = None /\ p = mkPMass n v v v tag) \/
     (exists x y z, mx = Some x /\ my = Some y /\ mz = Some z /\ p = mkPMass n x y z tag)).
Proof. exact pmass6_init_iff. Qed.
Theorem C54_point_mass_energy : forall p v,
  bform 2 (pmass_M p) v v = p_mx p * v 0%nat ^ 2 + p_my p * v 1%nat ^ 2 /\
  bform 3 (pmass6_M p) v v = p_mx p * v 0%nat ^ 2 + p_my p * v 1%nat ^ 2 + p_mz p * v 2%nat ^ 2 /\
  symmetric 2 (pmass_M p) /\ symmetric 3 (pmass6_M p).
Proof.
  intros p v. rewrite pmass_M_form, pmass6_M_form.
  split; [ring|split; [ring|exact (conj (pmass_M_sym p) (pmass6_M_sym p))]].
Qed.

Print Assumptions C11_disk_from_geometry.
Print Assumptions C11_disk_mass_pd.
Print Assumptions C08_disk_gyro.
Print Assumptions C49_disk_accel_refuted.
Print Assumptions C54_point_mass_init.
