(** Finite sums, vectors and matrices over the reals.
    A numpy array of shape (n, m) is modelled by a function [nat -> nat -> R];
    the shape is passed separately. *)
From Coq Require Import Reals List Arith Lia Lra.
Import ListNotations.
Open Scope R_scope.

Definition vec := nat -> R.
Definition mat := nat -> nat -> R.

(** sum of f 0 .. f (n-1) *)
Fixpoint sumn (n : nat) (f : nat -> R) : R :=
  match n with
  | O => 0
  | S k => sumn k f + f k
  end.

(** sum of a list *)
Definition suml (l : list R) : R := fold_right Rplus 0 l.

(** literal tables *)
Definition lvec (l : list R) : vec := fun i => nth i l 0.
Definition lmat (l : list (list R)) : mat := fun i j => nth j (nth i l []) 0.

Definition mzero : mat := fun _ _ => 0.
Definition madd (A B : mat) : mat := fun i j => A i j + B i j.
Definition msub (A B : mat) : mat := fun i j => A i j - B i j.
Definition mscale (c : R) (A : mat) : mat := fun i j => c * A i j.
Definition mtrans (A : mat) : mat := fun i j => A j i.
Definition mid : mat := fun i j => if Nat.eqb i j then 1 else 0.

(** matrix-vector and matrix-matrix products, inner dimension [n] *)
Definition mulv (n : nat) (A : mat) (x : vec) : vec :=
  fun i => sumn n (fun j => A i j * x j).
Definition mulm (n : nat) (A B : mat) : mat :=
  fun i j => sumn n (fun k => A i k * B k j).
Definition dot (n : nat) (x y : vec) : R := sumn n (fun i => x i * y i).

(** the bilinear form x^T A y of a square matrix of size n *)
Definition bform (n : nat) (A : mat) (x y : vec) : R :=
  sumn n (fun i => x i * sumn n (fun j => A i j * y j)).
