(** What the pseudo-modal method means (specification vocabulary). *)
From Coq Require Import Reals List Arith.
From Verif Require Import PyBase MatBase SpecMat MShaft MBearing MRotor MTime SpecTime MPseudo.
Import ListNotations.
Open Scope R_scope.

(** eigh reads the lower triangles only *)
Definition lower (A : mat) : mat := fun i j => A (Nat.max i j) (Nat.min i j).
(** eigenvalues in increasing order, with eigenvectors that are orthonormal for B *)
Record eigenpairs (n : nat) (A B : mat) (w : vec) (V : mat) : Prop := {
  ep_order : forall i j, (i <= j < n)%nat -> w i <= w j;
  ep_normal : forall i j, (i < n)%nat -> (j < n)%nat -> bform n B (fun k => V k i) (fun k => V k j) = if Nat.eqb i j then 1 else 0;
  ep_eigen : forall i j, (i < n)%nat -> (j < n)%nat -> mulv n A (fun k => V k j) i = w j * mulv n B (fun k => V k j) i }.
(** the contract of scipy.linalg.eigh *)
Definition eigh_ok (eigh : eigh_t) : Prop := forall n A B w V, symmetric n B -> pos_def n B -> eigh n A B = Ok (w, V) -> eigenpairs n (lower A) B w V.

(** x is a combination of the first m columns of V *)
Definition spanned (n m : nat) (V : mat) (x : vec) : Prop := exists q, forall i, (i < n)%nat -> x i = sumn m (fun j => V i j * q j).
(** what is left of the equation of motion: F - (M a + C v + K y) *)
Definition unbalanced (n : nat) (S : sysm) (s : nstate) : vec := let '(M, C, K, F) := S in
  fun i => F i - (mulv n M (n_a s) i + mulv n C (n_v s) i + mulv n K (n_y s) i).
(** a bearing without support: the node n_link is not given *)
Definition grounded (e : elem) : Prop := el_link e = None.
(** the stiffness matrix of an element, for bearings without the terms between x and y *)
Definition uncrossed (M : mat) : mat := fun i j => if (Nat.eqb i 0 && Nat.eqb j 1 || Nat.eqb i 1 && Nat.eqb j 0)%bool then 0 else M i j.
Definition direct_K (spl : list R -> list R -> R -> R) (w : R) (e : elem) : res (nat * mat) :=
  match e with EBrg _ _ => bind (el_K spl w e) (fun km => Ok (fst km, uncrossed (snd km))) | _ => el_K spl w e end.
Definition no_torque (e : elem) : Prop := match e with EShaft _ _ _ s => s_torque s = 0 | _ => True end.
(** the speed at which the modes are computed: the speed, or the mean of the speeds *)
Definition mean_speed (sp : speed_arg) : R := match sp with SNum s => s | SArr l => suml l / INR (length l) end.
