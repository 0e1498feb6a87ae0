(** What the dynamic analyses mean (specification vocabulary). *)
From Coq Require Import Reals List Arith.
From Coquelicot Require Import Complex.
From Verif Require Import PyBase MatBase SpecMat CMat MShaft MRotor SpecRotor.
Open Scope C_scope.

(** the dynamic stiffness s^2 M + s D + K of the equation of motion M q'' + D q' + K q = f at q = Q e^(s t) *)
Definition dyn (M D K : mat) (s : C) : cmat := fun i j => s * s * RtoC (M i j) + s * RtoC (D i j) + RtoC (K i j).
(** damping plus gyroscopic matrix at a rotation speed *)
Definition damp_gyro (D G : mat) (w : R) : mat := fun i j => (D i j + w * G i j)%R.
(** (s, z) is an eigenpair of the N x N real matrix A *)
Definition eigenpair (N : nat) (A : mat) (s : C) (z : cvec) : Prop :=
  cnonzero N z /\ forall i, (i < N)%nat -> cmulv N (of_mat A) z i = s * z i.
(** [B] is the inverse of the n x n matrix [A] *)
Definition inverse (n : nat) (A B : cmat) : Prop := ceq n n (cmulm n A B) cid /\ ceq n n (cmulm n B A) cid.
(** the two-dimensional force of a mass eccentricity m at angle p that rotates with the shaft at speed w, at time t *)
Definition rotating_force (m p w t : R) : R * R := (m * w ^ 2 * cos (w * t + p), m * w ^ 2 * sin (w * t + p))%R.
(** the real signal Re(a e^(i w t)) of the complex amplitude a *)
Definition signal (a : C) (w t : R) : R := (Re a * cos (w * t) - Im a * sin (w * t))%R.

(** A passive rotor at a frequency: positive masses, shafts without compression and with non-negative damping factors,
    bearings whose mass, stiffness and damping matrices are symmetric and positive semidefinite. *)
Record passive spl (w : R) (r : rotor) : Prop := {
  pas_inertia : forall e, In e (r_elements r) -> good_inertia (el_M spl w) e;
  pas_load : forall e, In e (r_shaft r) -> no_compression e;
  pas_damping : forall six n t s, In (EShaft six n t s) (r_shaft r) -> (0 <= s_alpha s /\ 0 <= s_beta s)%R;
  pas_M : forall e, In e (r_brg r) -> symmetric (el_size (el_M spl w) e) (el_mat (el_M spl w) e);
  pas_K : forall e, In e (r_brg r) -> symmetric (el_size (el_K spl w) e) (el_mat (el_K spl w) e) /\ pos_semidef (el_size (el_K spl w) e) (el_mat (el_K spl w) e);
  pas_C : forall e, In e (r_brg r) -> symmetric (el_size (el_C spl w) e) (el_mat (el_C spl w) e) /\ pos_semidef (el_size (el_C spl w) e) (el_mat (el_C spl w) e) }.

(** ** Responses. For every requested speed: displacement, velocity and acceleration of every dof. *)
Definition cres0 : cvec * cvec * cvec := (fun _ => RtoC 0, fun _ => RtoC 0, fun _ => RtoC 0).
Definition disp (t : cvec * cvec * cvec) : cvec := fst (fst t).
Definition velo (t : cvec * cvec * cvec) : cvec := snd (fst t).
Definition acce (t : cvec * cvec * cvec) : cvec := snd t.
(** the unbalances (node, (magnitude, phase)) placed at a node *)
Definition at_node (n : nat) (l : list (nat * (R * R))) : list (nat * (R * R)) := filter (fun u => Nat.eqb (fst u) n) l.
(** sums of the components of their rotating forces *)
Definition total_x (l : list (nat * (R * R))) (w t : R) : R := fold_right Rplus 0%R (map (fun u => fst (rotating_force (fst (snd u)) (snd (snd u)) w t)) l).
Definition total_y (l : list (nat * (R * R))) (w t : R) : R := fold_right Rplus 0%R (map (fun u => snd (rotating_force (fst (snd u)) (snd (snd u)) w t)) l).
