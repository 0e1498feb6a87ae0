(** Complex vectors and matrices; the shape is passed separately. *)
From Coq Require Import Reals List Arith.
From Coquelicot Require Import Complex.
From Verif Require Import MatBase.
Open Scope C_scope.

Definition cvec := nat -> C.
Definition cmat := nat -> nat -> C.
Fixpoint csumn (n : nat) (f : nat -> C) : C := match n with O => 0 | S k => csumn k f + f k end.
Definition cmulv (n : nat) (A : cmat) (x : cvec) : cvec := fun i => csumn n (fun j => A i j * x j).
Definition cmulm (n : nat) (A B : cmat) : cmat := fun i j => csumn n (fun k => A i k * B k j).
Definition cadd (A B : cmat) : cmat := fun i j => A i j + B i j.
Definition cscale (c : C) (A : cmat) : cmat := fun i j => c * A i j.
Definition cid : cmat := fun i j => if Nat.eqb i j then 1 else 0.
Definition czero : cmat := fun _ _ => 0.
(** a real matrix seen as a complex one *)
Definition of_mat (A : mat) : cmat := fun i j => RtoC (A i j).
Definition cnonzero (n : nat) (x : cvec) : Prop := exists i, (i < n)%nat /\ x i <> 0.
Definition ceq (n m : nat) (A B : cmat) : Prop := forall i j, (i < n)%nat -> (j < m)%nat -> A i j = B i j.
(** a matrix that sends no nonzero vector to zero *)
Definition nonsingular (n : nat) (A : mat) : Prop :=
  forall x, (forall i, (i < n)%nat -> mulv n A x i = 0%R) -> forall i, (i < n)%nat -> x i = 0%R.
Definition cnonsingular (n : nat) (A : cmat) : Prop :=
  forall x, (forall i, (i < n)%nat -> cmulv n A x i = 0) -> forall i, (i < n)%nat -> x i = 0.
