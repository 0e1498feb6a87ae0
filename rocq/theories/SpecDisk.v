(** Volume integrals over a hollow cylinder, independently of the code. *)
From Coq Require Import Reals.
From Coquelicot Require Import Coquelicot.
Open Scope R_scope.

(** Integral of f(r, theta, z) over the hollow cylinder of inner radius ri, outer radius ro and
    width w centred at z = 0, in cylindrical coordinates. *)
Definition cyl_integral (ri ro w : R) (f : R -> R -> R -> R) : R :=
  RInt (fun z => RInt (fun r => RInt (fun th => f r th z * r) 0 (2 * PI)) ri ro) (- w / 2) (w / 2).

(** the three inertia integrands for a body of density rho: mass, polar, diametral (about x) *)
Definition f_mass (rho : R) (r th z : R) : R := rho.
Definition f_polar (rho : R) (r th z : R) : R := rho * ((r * cos th) ^ 2 + (r * sin th) ^ 2).
Definition f_diam (rho : R) (r th z : R) : R := rho * ((r * sin th) ^ 2 + z ^ 2).
