(** The physical meaning of the argument names, and of the unit strings, as SI dimensions (kilogram, metre, second, kelvin). *)
From Coq Require Import Reals List String ZArith.
From Verif Require Import PyBase MUnits SpecUnits.
Import ListNotations.
Open Scope string_scope.

Definition dim := (Z * Z * Z * Z)%type.
Definition one : dim := (0, 0, 0, 0)%Z.
Definition mass : dim := (1, 0, 0, 0)%Z.
Definition length : dim := (0, 1, 0, 0)%Z.
Definition time : dim := (0, 0, 1, 0)%Z.
Definition temperature : dim := (0, 0, 0, 1)%Z.
Definition times (a b : dim) : dim := let '(a1, a2, a3, a4) := a in let '(b1, b2, b3, b4) := b in (a1 + b1, a2 + b2, a3 + b3, a4 + b4)%Z.
Definition inverse (a : dim) : dim := let '(a1, a2, a3, a4) := a in (- a1, - a2, - a3, - a4)%Z.
Definition over (a b : dim) : dim := times a (inverse b).
Fixpoint power (a : dim) (n : nat) : dim := match n with O => one | S n => times a (power a n) end.
(** as a pint dimension; a pure number has none *)
Definition pint_dim (a : dim) : list Z := let '(a1, a2, a3, a4) := a in if (Z.eqb a1 0 && Z.eqb a2 0 && Z.eqb a3 0 && Z.eqb a4 0)%bool then [] else [a1; a2; a3; a4].

(** physical quantities *)
Definition velocity := over length time.
Definition force := over (times mass length) (power time 2).
Definition stress := over force (power length 2).
Definition energy := times force length.
Definition power_ := over energy time.

(** what the arguments of the library are *)
Definition meanings : list (dim * list string) := [
  (stress, ["E"; "G_s"; "pressure"; "p"]);
  (over mass (power length 3), ["rho"; "density"]);
  (length, ["L"; "idl"; "idr"; "odl"; "odr"; "id"; "od"; "i_d"; "o_d"; "width"; "depth"; "thickness"; "pitch"; "height"; "radius"; "diameter"; "clearance"; "length"; "fit"; "b"; "D"; "d"; "roughness"]);
  (over one time, ["speed"; "frequency"]);
  (mass, ["m"; "mx"; "my"; "mxx"; "mxy"; "mxz"; "myx"; "myy"; "myz"; "mzx"; "mzy"; "mzz"]);
  (times mass (power length 2), ["Ip"; "Id"]);
  (power length 2, ["area"]);
  (times mass length, ["unbalance_magnitude"]);
  (one, ["unbalance_phase"; "pressure_ratio"; "angle"; "arc"; "eff"]);
  (temperature, ["temperature"; "T"]);
  (velocity, ["velocity"]);
  (over power_ (times (power length 2) temperature), ["convection"]);
  (over power_ (times length temperature), ["conductivity"]);
  (over one temperature, ["expansion"]);
  (over force length, ["stiffness"; "kxx"; "kxy"; "kxz"; "kyx"; "kyy"; "kyz"; "kzx"; "kzy"; "kzz"]);
  (over force velocity, ["cxx"; "cxy"; "cxz"; "cyx"; "cyy"; "cyz"; "czx"; "czy"; "czz"]);
  (force, ["weight"; "load"; "force"]);
  (times force length, ["torque"]);
  (over (power length 3) time, ["flow_v"]);
  (over mass time, ["flow_m"]);
  (times stress time, ["viscosity"]);
  (over energy mass, ["h"; "head"]);
  (over energy (times mass temperature), ["s"]);
  (power_, ["power"])].
Definition means (name : string) (d : dim) : Prop := exists names, In (d, names) meanings /\ In name names.

(** the unit strings, read as products of coherent SI units *)
Definition newton := over (times mass length) (power time 2).
Definition pascal := over newton (power length 2).
Definition joule := times newton length.
Definition watt := over joule time.
Definition si_units : list (string * dim) := [
  ("N/m**2", over newton (power length 2)); ("kg/m**3", over mass (power length 3)); ("meter", length); ("radian/second", over one time); ("kg", mass);
  ("kg*m**2", times mass (power length 2)); ("meter**2", power length 2); ("kg*m", times mass length); ("rad", one); ("pascal", pascal); ("dimensionless", one);
  ("degK", temperature); ("m/s", over length time); ("W/(m²*degK)", over watt (times (power length 2) temperature)); ("W/(m*degK)", over watt (times length temperature));
  ("1/degK", over one temperature); ("N/m", over newton length); ("N", newton); ("N*m", times newton length); ("meter**3/second", over (power length 3) time);
  ("kilogram/second", over mass time); ("m", length); ("pascal*s", times pascal time); ("joule/kilogram", over joule mass);
  ("joule/(kelvin kilogram)", over joule (times temperature mass)); ("watt", watt); ("N*s/m", over (times newton time) length)].
(** a registry that reads them so: no prefix, no offset *)
Definition si_registry (reg : string -> punit) : Prop := forall us d, In (us, d) si_units -> reg us = mkUnit (pint_dim d) 1 0.
