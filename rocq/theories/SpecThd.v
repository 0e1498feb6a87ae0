(** Specification of the thermo-hydrodynamic bearing (C83 - C86), independent of the code: the oil film in metres, the balance of oil in the cells of a pad,
    the finite differences of a force, the mixing of oil. *)
From Coq Require Import Reals List Arith.
From Verif Require Import MatBase SpecFluid.
Open Scope R_scope.

(** ** The film *)
(** A lobed bearing: every pad is an arc with the larger clearance cp = c / (1 - m) whose centre is moved towards the journal by cp - c in the direction of the middle [piv] of the pad. *)
Definition lobe_film (c m x y piv g : R) : R := film (c / (1 - m)) (x + (c / (1 - m) - c) * cos piv) (y + (c / (1 - m) - c) * sin piv) g.
(** An elliptical bearing: the clearance is c along y and c / (1 - m) along x. *)
Definition ellipse_film (c m x y g : R) : R := film (c * (sin g) ^ 2 + c / (1 - m) * (cos g) ^ 2) x y g.

(** ** The oil in a pad
    A pad is cut in na x nc cells: i counts along the axis, j in the direction of rotation; the cell (i, j) spans the angles g0 + j dg .. g0 + (j + 1) dg.
    p i j is the pressure in the middle of the cell. Outside of the pad the pressure is mirrored with the opposite sign, so that it is zero at the edge. *)
Definition p_east (nc : nat) (p : mat) (i j : nat) : R := if Nat.eqb (j + 1) nc then - p i j else p i (j + 1)%nat.
Definition p_west (p : mat) (i j : nat) : R := match j with O => - p i j | S k => p i k end.
Definition p_north (na : nat) (p : mat) (i j : nat) : R := if Nat.eqb (i + 1) na then - p i j else p (i + 1)%nat j.
Definition p_south (p : mat) (i j : nat) : R := match i with O => - p i j | S k => p k j end.
(** viscosity at a face: the mean of the two cells, at the edge that of the cell *)
Definition mu_east (nc : nat) (mu : mat) (i j : nat) : R := if Nat.eqb (j + 1) nc then mu i j else (mu i j + mu i (j + 1)%nat) / 2.
Definition mu_west (mu : mat) (i j : nat) : R := match j with O => mu i j | S k => (mu i j + mu i k) / 2 end.
Definition mu_north (na : nat) (mu : mat) (i j : nat) : R := if Nat.eqb (i + 1) na then mu i j else (mu i j + mu (i + 1)%nat j) / 2.
Definition mu_south (mu : mat) (i j : nat) : R := match i with O => mu i j | S k => (mu i j + mu k j) / 2 end.
(** flow of oil through a face, per unit of its length, from the side with pressure p1 to the side with p2 at distance d:
    along the axis, and in the direction of rotation, where the journal surface moves with speed v *)
Definition flow_axial (h mu p1 p2 d : R) : R := - (h ^ 3 / (12 * mu)) * ((p2 - p1) / d).
Definition flow_around (v h mu p1 p2 d : R) : R := flow_axial h mu p1 p2 d + v * h / 2.
(** what flows out of the cell less what flows in, plus the growth of the gap in the cell, is zero.
    h: film at an angle; ht: its rate; rj: journal radius; v: surface speed; len: length of the bearing. *)
Definition cell_balance (na nc : nat) (rj len v g0 dg : R) (h ht : R -> R) (mu p : mat) (i j : nat) : Prop :=
  let dy := rj * dg in let dz := len / INR na in
  let gw := g0 + INR j * dg in let ge := g0 + (INR j + 1) * dg in let g := g0 + (INR j + / 2) * dg in
  (flow_around v (h ge) (mu_east nc mu i j) (p i j) (p_east nc p i j) dy - flow_around v (h gw) (mu_west mu i j) (p_west p i j) (p i j) dy) * dz +
  (flow_axial (h g) (mu_north na mu i j) (p i j) (p_north na p i j) dz - flow_axial (h g) (mu_south mu i j) (p_south p i j) (p i j) dz) * dy +
  ht g * dy * dz = 0.
Definition oil_balance (na nc : nat) (rj len v g0 dg : R) (h ht : R -> R) (mu p : mat) : Prop :=
  forall i j, (i < na)%nat -> (j < nc)%nat -> cell_balance na nc rj len v g0 dg h ht mu p i j.

(** ** Stiffness by differences *)
(** slope of a function of one variable between x - d and x + d *)
Definition slope (f : R -> R) (x d : R) : R := (f (x + d) - f (x - d)) / (2 * d).
(** the force is affine in displacement from (x0, y0) and in velocity, with stiffness k and damping c (rows: force, columns: direction) *)
Definition affine_force (force : R -> R -> R -> R -> R * R) (x0 y0 fx fy kxx kxy kyx kyy cxx cxy cyx cyy : R) : Prop :=
  forall x y vx vy, force x y vx vy = (fx - kxx * (x - x0) - kxy * (y - y0) - cxx * vx - cxy * vy, fy - kyx * (x - x0) - kyy * (y - y0) - cyx * vx - cyy * vy).

(** ** Mixing *)
(** the pad from which oil flows to pad n when the shaft turns in the direction in which the pads are numbered, 0 .. len - 1 *)
Definition upstream (len n : nat) : nat := match n with O => (len - 1)%nat | S k => k end.
Definition between (x a b : R) : Prop := Rmin a b <= x <= Rmax a b.
