(** What == means for elements and rotors, and which rotors have a stiffness matrix: properties C78 and C79. *)
From Coq Require Import Reals String List Bool Arith.
From Verif Require Import PyBase PyDict MatBase MMaterial MShaft MDisk MBearing MRotor MSave.
Import ListNotations.
Open Scope list_scope.
Open Scope R_scope.

(** ** Bearings *)

(** Bearings that keep their constructor arguments. Ball, roller and fluid flow bearings do not. *)
Definition keeps_arguments (o : obrg) : Prop := match o with OPlain _ _ => False | _ => True end.
(** The number of entries of the coefficient tables; two tables can be compared when one of them has one entry or both are as long. *)
Definition entries (o : obrg) : nat := length (fst (b_coef (brg_of o) kxx)).
Definition fit (n m : nat) : Prop := n = m \/ n = 1%nat \/ m = 1%nat.
Definition tables_fit (o o' : obrg) : Prop :=
  fit (entries o) (entries o') /\
  match o, o' with
  | OBearing6 b, OBearing6 b' => fit (length (fst (b6_kzz b))) (length (fst (b6_kzz b'))) /\ fit (length (fst (b6_czz b))) (length (fst (b6_czz b'))) /\
                                 fit (length (fst (b6_mzz b))) (length (fst (b6_mzz b')))
  | OCyl speed _ _ _ _ _ _, OCyl speed' _ _ _ _ _ _ => fit (length speed) (length speed')
  | _, _ => True
  end.
(** No exception when the two bearings are compared. *)
Definition comparable (o o' : obrg) : Prop := brg_class o = brg_class o' -> keeps_arguments o /\ tables_fit o o'.

(** ** Shaft elements and disks *)

(** numpy.isclose with the default tolerances *)
Definition close (a b : R) : Prop := Rabs (a - b) <= / 100000000 + / 100000 * Rabs b.
Definition close_material (m m' : material) : Prop :=
  close (mrho m) (mrho m') /\ close (mE m) (mE m') /\ close (mG_s m) (mG_s m') /\ close (mPoisson m) (mPoisson m') /\ mcolor m = mcolor m'.
(** the same dimensions, options, loads, place and tag *)
Definition same_arguments (a b : oshaft) : Prop :=
  let s := os_s a in let t := os_s b in
  (s_L s, s_idl s, s_odl s, s_idr s, s_odr s) = (s_L t, s_idl t, s_odl t, s_idr t, s_odr t) /\
  (s_axial_force s, s_torque s, s_alpha s, s_beta s) = (s_axial_force t, s_torque t, s_alpha t, s_beta t) /\
  (s_shear_effects s, s_rotary_inertia s, s_gyroscopic s, os_meth a) = (s_shear_effects t, s_rotary_inertia t, s_gyroscopic t, os_meth b) /\
  (s_n s, s_tag s) = (s_n t, s_tag t).
Definition close_disk (a b : odisk) : Prop :=
  let d := od_d a in let e := od_d b in
  close (INR (d_n d)) (INR (d_n e)) /\ close (d_m d) (d_m e) /\ close (d_Id d) (d_Id e) /\ close (d_Ip d) (d_Ip e) /\ close (od_scale a) (od_scale b) /\
  d_tag d = d_tag e /\ od_color a = od_color b.

(** ** Rotors *)

(** No two bearings of the rotor raise an exception when compared, and CylindricalBearings stand at different nodes. *)
Definition comparable_bearings (r : robj) : Prop := forall i j o o', (i < j)%nat ->
  nth_error (ro_br r) i = Some o -> nth_error (ro_br r) j = Some o' ->
  comparable o o' /\ (brg_class o = BCylindrical -> brg_class o' = BCylindrical -> b_n (brg_of o) <> b_n (brg_of o')).

(** ** Two shaft elements that are equal: the same arguments, density and ratio of the elastic moduli; the moduli themselves are only close *)
Definition alike (a b : oshaft) : Prop :=
  let m := s_material (os_s a) in let m' := s_material (os_s b) in
  same_arguments a b /\ mcolor m = mcolor m' /\ mrho m = mrho m' /\ mE m * mG_s m' = mE m' * mG_s m /\ close (mE m) (mE m') /\ close (mG_s m) (mG_s m').
(** an element with a body: length, volume, section and moduli are positive *)
Definition has_body (o : oshaft) : Prop :=
  let s := os_s o in 0 < s_L s /\ 0 < s_volume s /\ 0 < s_A s /\ 0 < s_Ie s /\ 0 < mE (s_material s) /\ 0 < mG_s (s_material s).
