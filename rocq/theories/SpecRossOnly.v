(** What the rotor made by Rotor.to_ross_only should share with the rotor it is made from. *)
From Coq Require Import Reals String List.
From Verif Require Import PyBase MatBase MMaterial MShaft MDisk MBearing MRotor MSave SpecBearing.
Import ListNotations.
Open Scope R_scope.

Definition stiffness_and_damping : list cname := [kxx; kxy; kyx; kyy; cxx; cxy; cyx; cyy].
Definition masses : list cname := [mxx; mxy; myx; myy].
Definition is_seal (o : obrg) : Prop := exists s, o = OSeal s.

(** [o'] stands for [o]: same place, same stiffness and damping tables and interpolations, no mass, default size on drawings. *)
Record stands_for (o o' : obrg) : Prop := {
  sf_class : (is_seal o -> brg_class o' = BSeal) /\ (~ is_seal o -> brg_class o' = BBearing);
  sf_leakage : forall s, o = OSeal s -> exists s', o' = OSeal s' /\ sl_leakage s' = sl_leakage s;
  sf_place : b_n (brg_of o') = b_n (brg_of o) /\ b_n_link (brg_of o') = b_n_link (brg_of o) /\ b_tag (brg_of o') = b_tag (brg_of o) /\
             b_color (brg_of o') = b_color (brg_of o) /\ b_frequency (brg_of o') = b_frequency (brg_of o);
  sf_table : forall c, In c stiffness_and_damping -> b_coef (brg_of o') c = b_coef (brg_of o) c;
  sf_mass : forall c, In c masses -> length (fst (b_coef (brg_of o') c)) = length (fst (b_coef (brg_of o) c)) /\ forall x, In x (fst (b_coef (brg_of o') c)) -> x = 0;
  sf_scale : (is_seal o -> b_scale_factor (brg_of o') = 1 / 2) /\ (~ is_seal o -> b_scale_factor (brg_of o') = 1) }.

(** the bearing has no mass coefficients *)
Definition massless (o : obrg) : Prop := forall c x, In c masses -> In x (fst (b_coef (brg_of o) c)) -> x = 0.
(** its table of frequencies, if any, is increasing *)
Definition increasing_table (o : obrg) : Prop := match b_frequency (brg_of o) with Some f => increasing f /\ f <> [] | None => True end.
(** the same rotor with its bearings and seals taken away *)
Definition without_bearings (r : rotor) : rotor :=
  mkRotor (r_shaft r) (r_disk r) [] (r_pm r) (r_nd r) (r_n_last r) (r_ndof r) (r_nodes_pos r) (r_shaft_pos r) (r_m_disks r) (r_m_shaft r) (r_m r) (r_CG r) (r_Ip r).
