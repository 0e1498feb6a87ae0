(** The same elements with lateral dofs only (specification vocabulary for the 6-to-4 dof conversion). *)
From Coq Require Import Reals List.
From Verif Require Import PyBase MShaft MBearing MRotor SpecShaft.
Import ListNotations.

Definition lat_shaft (s : rshaft) : rshaft := mkRShaft false (rs_s s).
Definition lat_disk (d : rdisk) : rdisk := mkRDisk false (rd_d d).
(** the bearing without its axial coefficients *)
Definition lat_brg (b : rbrg) : rbrg := match b with RB6 b => RB4 false (b6 b) | RB4 s b => RB4 s b end.
Definition lat_pm (p : rpmass) : rpmass := mkRPmass false (rp_p p).
(** a shaft element made from meaningful arguments, with the same section at both ends *)
Definition good_cylinder (e : elem) : Prop :=
  match e with EShaft _ _ _ s => exists a, shaft_init a = Ok s /\ good_args a /\ cylindrical a | _ => True end.
