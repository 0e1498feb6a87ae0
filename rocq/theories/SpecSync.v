(** Forward circular whirl at the speed of the shaft (specification vocabulary for C59). *)
From Coq Require Import Reals List Arith Bool.
From Coquelicot Require Import Coquelicot.
From Verif Require Import PyBase MatBase SpecMat CMat.
Open Scope R_scope.

(** A motion gives the coordinates at every time. In a 4-dof rotor the coordinates come in pairs (2j, 2j+1): the
    displacements of a node along X and Y, and its rotations about X and Y. In a circular whirl every pair turns
    about the axis with the angle w t: forward for w > 0, backward for w < 0. *)
Definition circular (w : R) (q : R -> vec) : Prop := forall t j,
  q t (2 * j)%nat = cos (w * t) * q 0 (2 * j)%nat - sin (w * t) * q 0 (2 * j + 1)%nat /\
  q t (2 * j + 1)%nat = sin (w * t) * q 0 (2 * j)%nat + cos (w * t) * q 0 (2 * j + 1)%nat.
(** The same in a 6-dof rotor, whose shaft nodes have the coordinates x, y, z, alpha, beta, theta: the pairs (x, y) and
    (alpha, beta) turn, the axial displacement and the twist rest. (Rotors without support nodes.) *)
Definition circular6 (w : R) (q : R -> vec) : Prop := forall t n,
  let pair i := q t (6 * n + i)%nat = cos (w * t) * q 0 (6 * n + i)%nat - sin (w * t) * q 0 (6 * n + i + 1)%nat /\
                q t (6 * n + i + 1)%nat = sin (w * t) * q 0 (6 * n + i)%nat + cos (w * t) * q 0 (6 * n + i + 1)%nat in
  pair 0%nat /\ q t (6 * n + 2)%nat = 0 /\ pair 3%nat /\ q t (6 * n + 5)%nat = 0.
(** v and a are the velocity and the acceleration of q *)
Definition moves (q v a : R -> vec) : Prop := forall t i, is_derive (fun u => q u i) t (v t i) /\ is_derive (fun u => v u i) t (a t i).
(** The shape of a forward circular mode with time factor exp(i w t), w > 0: the second coordinate of a pair is -i times the first. *)
Definition forward_shape (N : nat) (z : cvec) : Prop := forall j, (2 * j + 1 < N)%nat -> z (2 * j + 1)%nat = Cmult (Copp Ci) (z (2 * j)%nat).
