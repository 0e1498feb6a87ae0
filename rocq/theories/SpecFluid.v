(** Specification of the fluid film: Reynolds' equation and the forces of the film, independent of the code.
    Frame: the stator is centred at the origin, the rotor centre is at (e sin phi, - e cos phi); angles gam are counted from the x axis. *)
From Coq Require Import Reals String List Arith Bool.
From Coquelicot Require Import Coquelicot.
From Verif Require Import PyBase MatBase.
Import ListNotations.
Open Scope R_scope.

(** position of the rotor centre *)
Definition centre_x (e phi : R) : R := e * sin phi.
Definition centre_y (e phi : R) : R := - e * cos phi.
(** first order film thickness at angle gam, clearance c, rotor centre (x, y) *)
Definition film (c x y gam : R) : R := c - x * cos gam - y * sin gam.
(** its rate when the centre moves with velocity (vx, vy) *)
Definition squeeze (vx vy gam : R) : R := - vx * cos gam - vy * sin gam.

(** Reynolds' equation of a short bearing of length L, viscosity mu, speed omega: at every angle,
    h^3 p_zz = 6 mu (omega h_gam + 2 h_t), and the pressure is zero at both ends. *)
Definition short_pressure (mu omega c L x y vx vy : R) (p : R -> R -> R) : Prop :=
  forall gam, p gam 0 = 0 /\ p gam L = 0 /\
    exists q q2 : R -> R, forall z, 0 <= z <= L -> is_derive (p gam) z (q z) /\ is_derive q z (q2 z) /\
      film c x y gam ^ 3 * q2 z = 6 * mu * (omega * Derive (film c x y) gam + 2 * squeeze vx vy gam).
(** force of the film on the rotor (radius Rj), pressure acting on the half of the film that converges *)
Definition half_film_force (Rj L phi : R) (p : R -> R -> R) (Fx Fy : R) : Prop :=
  is_RInt (fun gam => - (Rj * cos gam * RInt (p gam) 0 L)) (PI / 2 + phi) (PI / 2 + phi + PI) Fx /\
  is_RInt (fun gam => - (Rj * sin gam * RInt (p gam) 0 L)) (PI / 2 + phi) (PI / 2 + phi + PI) Fy.
(** (Fx, Fy) is the force of a short bearing film, rotor centre at (e, phi), velocity (vx, vy) *)
Definition short_film_force (mu omega c L Rj e phi vx vy Fx Fy : R) : Prop :=
  (exists p, short_pressure mu omega c L (centre_x e phi) (centre_y e phi) vx vy p) /\
  forall p, short_pressure mu omega c L (centre_x e phi) (centre_y e phi) vx vy p -> half_film_force Rj L phi p Fx Fy.

(** Reynolds' equation of a long bearing: the pressure does not depend on z, (h^3 p')' = 6 mu omega Rj^2 h' around the whole film,
    and p = p0 where the film is thickest and thinnest. *)
Definition long_pressure (mu omega c Rj e phi p0 : R) (p : R -> R) : Prop :=
  p (PI / 2 + phi) = p0 /\ p (PI / 2 + phi + PI) = p0 /\
  exists q : R -> R, forall gam, is_derive p gam (q gam) /\
    is_derive (fun g => film c (centre_x e phi) (centre_y e phi) g ^ 3 * q g) gam
      (6 * mu * omega * Rj ^ 2 * Derive (film c (centre_x e phi) (centre_y e phi)) gam).

(** ** Contracts of the numeric library *)
(** value of a real polynomial, highest degree first, at a complex point; product of (z - root) *)
Definition cpoly (cs : list R) (z : C) : C := fold_left (fun acc c => (acc * z + RtoC c)%C) cs (RtoC 0).
Definition cprod (zs : list C) (z : C) : C := fold_right (fun w acc => ((z - w) * acc)%C) (RtoC 1) zs.
(** zs are the roots, with multiplicity, of the monic polynomial *)
Definition are_roots (cs : list R) (zs : list C) : Prop := length zs = (length cs - 1)%nat /\ forall z, cpoly cs z = cprod zs z.
