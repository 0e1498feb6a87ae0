(** Specification vocabulary for matrices of size n. *)
From Coq Require Import Reals Arith.
From Verif Require Import MatBase.
Open Scope R_scope.

Definition symmetric (n : nat) (A : mat) : Prop :=
  forall i j, (i < n)%nat -> (j < n)%nat -> A i j = A j i.

Definition skew (n : nat) (A : mat) : Prop :=
  forall i j, (i < n)%nat -> (j < n)%nat -> A i j = - A j i.

(** a vector with some nonzero entry below n *)
Definition nonzero (n : nat) (x : vec) : Prop :=
  exists i, (i < n)%nat /\ x i <> 0.

Definition pos_semidef (n : nat) (A : mat) : Prop :=
  forall x, 0 <= bform n A x x.

Definition pos_def (n : nat) (A : mat) : Prop :=
  forall x, nonzero n x -> 0 < bform n A x x.

(** two matrices of size n are equal *)
Definition meq (n : nat) (A B : mat) : Prop :=
  forall i j, (i < n)%nat -> (j < n)%nat -> A i j = B i j.
