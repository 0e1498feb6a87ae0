(** Which shaft elements are physically meaningful (hypotheses of the shaft theorems). *)
From Coq Require Import Reals List Arith Bool.
From Verif Require Import PyBase MatBase MMaterial MShaft SpecBeam.
Import ListNotations.
Open Scope R_scope.

(** positive density and moduli, Poisson ratio not below -1/2 *)
Definition good_material (m : material) : Prop :=
  0 < mrho m /\ 0 < mE m /\ 0 < mG_s m /\ -1/2 <= mPoisson m.

(** positive length, non-empty hollow section at both ends *)
Definition good_geometry (L idl odl idr odr : R) : Prop :=
  0 < L /\ 0 <= idl < odl /\ 0 <= idr < odr.

(** The diameters the user means: a missing right diameter equals the left one. *)
Definition right_id (a : shaft_args) : R := match a_idr a with Some d => d | None => a_idl a end.
Definition right_od (a : shaft_args) : R := match a_odr a with Some d => d | None => a_odl a end.

Definition good_args (a : shaft_args) : Prop :=
  good_geometry (a_L a) (a_idl a) (a_odl a) (right_id a) (right_od a) /\
  exists m, a_material a = Some m /\ good_material m.

(** section area and second moment of area along the element described by [a] *)
Definition arg_area (a : shaft_args) : R -> R :=
  sec_area (a_idl a) (a_odl a) (right_id a) (right_od a) (a_L a).
Definition arg_inertia (a : shaft_args) : R -> R :=
  sec_inertia (a_idl a) (a_odl a) (right_id a) (right_od a) (a_L a).

(** A rigid motion of a 4-dof element of length L: equal section rotations at both ends and a
    deflection that grows with the rotation. Nodal vector (x, y, alpha, beta) at both ends. *)
Definition rigid4 (L : R) (x : vec) : Prop :=
  x 7%nat = x 3%nat /\ x 4%nat = x 0%nat + L * x 3%nat /\
  x 6%nat = x 2%nat /\ x 5%nat = x 1%nat - L * x 2%nat.

(** A rigid motion of a 6-dof element: lateral rigid motion, axial translation, rotation about
    the axis. Nodal vector (x, y, z, alpha, beta, theta) at both ends. *)
Definition rigid6 (L : R) (x : vec) : Prop :=
  x 10%nat = x 4%nat /\ x 6%nat = x 0%nat + L * x 4%nat /\
  x 9%nat = x 3%nat /\ x 7%nat = x 1%nat - L * x 3%nat /\
  x 8%nat = x 2%nat /\ x 11%nat = x 5%nat.

(** positions of x, y, alpha, beta of both nodes among the 12 dofs of a 6-dof element *)
Definition lat6 (i : nat) : nat := nth i [0; 1; 3; 4; 6; 7; 9; 10]%nat 0%nat.

(** the element is a cylinder: equal diameters at both ends *)
Definition cylindrical (a : shaft_args) : Prop :=
  right_id a = a_idl a /\ right_od a = a_odl a.

(** the unit axial translation of both nodes of a 6-dof element *)
Definition axial6 : vec := fun i => if orb (Nat.eqb i 2) (Nat.eqb i 8) then 1 else 0.
