(** What a tapered Timoshenko beam element is, independently of the code.
    z runs along the element from 0 (left node) to L (right node). *)
From Coq Require Import Reals.
From Coquelicot Require Import Coquelicot.
From Verif Require Import MatBase.
Open Scope R_scope.

(** linear variation of a diameter between the two ends *)
Definition taper (dl dr L z : R) : R := dl + (dr - dl) * (z / L).

(** area, second moment of area of the hollow circular section at z *)
Definition sec_area (idl odl idr odr L z : R) : R :=
  PI * ((taper odl odr L z) ^ 2 - (taper idl idr L z) ^ 2) / 4.
Definition sec_inertia (idl odl idr odr L z : R) : R :=
  PI * ((taper odl odr L z) ^ 4 - (taper idl idr L z) ^ 4) / 64.

(** Timoshenko interpolation in one plane: deflection w and section rotation t at z,
    from the end deflections w0, w1 and the end rotations t0, t1; phi is the shear parameter. *)
Definition tw (L phi w0 t0 w1 t1 z : R) : R :=
  let s := z / L in
  ((1 + phi - phi * s - 3 * s ^ 2 + 2 * s ^ 3) * w0
   + L * ((1 + phi / 2) * s - (2 + phi / 2) * s ^ 2 + s ^ 3) * t0
   + (phi * s + 3 * s ^ 2 - 2 * s ^ 3) * w1
   + L * (- (phi / 2) * s + (phi / 2 - 1) * s ^ 2 + s ^ 3) * t1) / (1 + phi).
Definition tt (L phi w0 t0 w1 t1 z : R) : R :=
  let s := z / L in
  (6 * (s ^ 2 - s) / L * w0
   + (1 + phi - (4 + phi) * s + 3 * s ^ 2) * t0
   + 6 * (s - s ^ 2) / L * w1
   + ((phi - 2) * s + 3 * s ^ 2) * t1) / (1 + phi).

(** derivatives with respect to z (these are proved to be the derivatives in LShaft) *)
Definition tw' (L phi w0 t0 w1 t1 z : R) : R :=
  let s := z / L in
  ((- phi - 6 * s + 6 * s ^ 2) * w0
   + L * ((1 + phi / 2) - 2 * (2 + phi / 2) * s + 3 * s ^ 2) * t0
   + (phi + 6 * s - 6 * s ^ 2) * w1
   + L * (- (phi / 2) + 2 * (phi / 2 - 1) * s + 3 * s ^ 2) * t1) / (L * (1 + phi)).
Definition tt' (L phi w0 t0 w1 t1 z : R) : R :=
  let s := z / L in
  (6 * (2 * s - 1) / L * w0
   + (- (4 + phi) + 6 * s) * t0
   + 6 * (1 - 2 * s) / L * w1
   + ((phi - 2) + 6 * s) * t1) / (L * (1 + phi)).

(** Lateral displacement field of a 4-dof element. The nodal vector is
    (x0, y0, alpha0, beta0, x1, y1, alpha1, beta1). A positive rotation beta tilts the
    x-deflection upwards, a positive alpha tilts the y-deflection downwards. *)
Definition ux (L phi : R) (v : vec) := tw L phi (v 0%nat) (v 3%nat) (v 4%nat) (v 7%nat).
Definition uy (L phi : R) (v : vec) := tw L phi (v 1%nat) (- v 2%nat) (v 5%nat) (- v 6%nat).
Definition rx (L phi : R) (v : vec) := tt L phi (v 0%nat) (v 3%nat) (v 4%nat) (v 7%nat).
Definition ry (L phi : R) (v : vec) := tt L phi (v 1%nat) (- v 2%nat) (v 5%nat) (- v 6%nat).
Definition ux' (L phi : R) (v : vec) := tw' L phi (v 0%nat) (v 3%nat) (v 4%nat) (v 7%nat).
Definition uy' (L phi : R) (v : vec) := tw' L phi (v 1%nat) (- v 2%nat) (v 5%nat) (- v 6%nat).
Definition rx' (L phi : R) (v : vec) := tt' L phi (v 0%nat) (v 3%nat) (v 4%nat) (v 7%nat).
Definition ry' (L phi : R) (v : vec) := tt' L phi (v 1%nat) (- v 2%nat) (v 5%nat) (- v 6%nat).
