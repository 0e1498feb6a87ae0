(** What the motion of a rotor between sampled forces means (specification vocabulary). *)
From Coq Require Import Reals List Arith.
From Coquelicot Require Import Coquelicot.
From Verif Require Import PyBase MatBase SpecMat.
Import ListNotations.
Open Scope R_scope.

(** powers of a matrix of size n *)
Fixpoint mat_pow (n : nat) (X : mat) (k : nat) : mat := match k with O => mid | S k => mulm n X (mat_pow n X k) end.
(** E is the exponential of X: the sum of the X^k / k! *)
Definition is_expm (n : nat) (X E : mat) : Prop :=
  forall i j, (i < n)%nat -> (j < n)%nat -> is_series (fun k => mat_pow n X k i j / INR (fact k)) (E i j).
(** the contract of scipy.linalg.expm *)
Definition expm_ok (expm : nat -> mat -> mat) : Prop := forall n X, is_expm n X (expm n X).

(** displacements q and velocities v satisfy M q'' + D q' + K q = f from time a to time b *)
Record motion (n : nat) (M D K : mat) (f : R -> vec) (a b : R) (q v : R -> vec) : Prop := {
  mo_velocity : forall s i, a <= s <= b -> (i < n)%nat -> is_derive (fun x => q x i) s (v s i);
  mo_force : forall s, a <= s <= b -> exists acc : vec, (forall i, (i < n)%nat -> is_derive (fun x => v x i) s (acc i)) /\
    forall i, (i < n)%nat -> mulv n M acc i + mulv n D (v s) i + mulv n K (q s) i = f s i }.
(** between two consecutive sampling times the force varies linearly between the sampled forces *)
Definition linear_between (t : list R) (F : nat -> vec) (f : R -> vec) : Prop :=
  forall k s i, (S k < length t)%nat -> nth k t 0 <= s <= nth (S k) t 0 ->
    f s i = F k i + (s - nth k t 0) / (nth (S k) t 0 - nth k t 0) * (F (S k) i - F k i).
(** equally spaced sampling times, with step h *)
Definition equally_spaced (h : R) (t : list R) : Prop := forall k, (S k < length t)%nat -> nth (S k) t 0 = nth k t 0 + h.
