(** What saved matrices say about the motion. *)
From Coq Require Import Reals List.
From Verif Require Import PyBase MatBase SpecMat MSaveMat.
Open Scope R_scope.

(** displacements q, velocities v and accelerations a at the spin speed w solve M a + (C + w G) v + K q = 0 with the n x n matrices of the file *)
Definition moves (n : nat) (d : matfile) (w : R) (q v a : vec) : Prop := forall i, (i < n)%nat ->
  sumn n (fun j => mf_M d i j * a j) + sumn n (fun j => (mf_C d i j + w * mf_G d i j) * v j) + sumn n (fun j => mf_K d i j * q j) = 0.
(** A is the state matrix: it takes (q, v) to (v, a) where q, v, a move so *)
Definition state_matrix (n : nat) (d : matfile) (w : R) (A : mat) : Prop := forall x : vec,
  (forall i, (i < n)%nat -> sumn (n + n) (fun j => A i j * x j) = x (n + i)%nat) /\
  moves n d w x (fun j => x (n + j)%nat) (fun i => sumn (n + n) (fun j => A (n + i)%nat j * x j)).
(** the same numbers in two files *)
Definition same_file (n : nat) (d d' : matfile) : Prop := mf_nodes d = mf_nodes d' /\ forall i j, (i < n)%nat -> (j < n)%nat ->
  mf_M d i j = mf_M d' i j /\ mf_K d i j = mf_K d' i j /\ mf_C d i j = mf_C d' i j /\ mf_G d i j = mf_G d' i j.
