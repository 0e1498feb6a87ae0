(** Vocabulary for C74 and C75: what shaft and disks contribute to a matrix, springs to ground, and the first mode that is not backward. *)
From Coq Require Import Reals String List Arith Bool.
From Verif Require Import PyBase MatBase MBearing MRotor SpecRotor MResults MModal MSave MUcs.
Import ListNotations.
Open Scope list_scope.
Open Scope R_scope.

(** entry (i, j) of the sum of the element matrices [f] of the shaft elements and disks *)
Definition frame (f : elem -> res (nat * mat)) (r : rotor) : mat := fun i j =>
  suml (map (fun e => contribution (acts_on (r_nd r) (r_n_last r) e) (el_size f e) (el_mat f e) i j) (r_shaft r ++ r_disk r)).
(** the stiffness matrix of springs k to ground in x and y at the nodes of a list (four dofs per node) *)
Definition ground_springs (k : R) (nodes : list nat) : mat := fun i j =>
  suml (map (fun n => if (Nat.eqb i j && (Nat.eqb i (4 * n) || Nat.eqb i (4 * n + 1)))%bool then k else 0) nodes).
(** the stiffness matrix of a cross coupling q at node n: q between x and y, -q between y and x *)
Definition cross_at (q : R) (n : nat) : mat := fun i j =>
  if (Nat.eqb i (4 * n) && Nat.eqb j (4 * n + 1))%bool then q
  else if (Nat.eqb i (4 * n + 1) && Nat.eqb j (4 * n))%bool then - q else 0.
(** the nodes of the bearings that are not seals *)
Definition bearing_nodes (ro : robj) : list nat := map ob_n (filter (fun o => negb (is_seal o)) (ro_br ro)).
(** [x] is the entry of the first mode whose whirl is not backward *)
Definition first_not_backward (m : modal) (x : R) : Prop := exists k w, nth_error (whirl_direction m) k = Some w /\ w <> Backward /\
  (forall j w', (j < k)%nat -> nth_error (whirl_direction m) j = Some w' -> w' = Backward) /\ nth_error (mo_log_dec m) k = Some x.
(** the i-th of num evenly spaced values from a to b *)
Definition evenly (a b : R) (num i : nat) : R := if (num <=? 1)%nat then a else a + INR i / INR (num - 1) * (b - a).
