(** Specification of the discretised film (C46): a grid of pressures [p i j] (axial index i < nz, circumferential index j < nt, the last column is the first one again) and the flow through the faces of the cells. *)
From Coq Require Import Reals List Arith.
From Verif Require Import MatBase.
Open Scope R_scope.

(** flow from the point (i, j) to (i, j + 1), and from (i, j) to (i + 1, j); c1, c2: flow per unit pressure gradient, c0: flow dragged along by the rotor, negative *)
Definition flow_t (dt : R) (c1 c0 p : mat) (i j : nat) : R := c1 i j * ((p i (j + 1)%nat - p i j) / dt) - c0 i j.
Definition flow_z (dz : R) (c2 p : mat) (i j : nat) : R := c2 i j * ((p (i + 1)%nat j - p i j) / dz).
(** flow into the first column across the seam, as the code has it: the pressures are those of the last face, but the coefficients are those of the last column *)
Definition flow_seam (nt : nat) (dt : R) (c1 c0 p : mat) (i : nat) : R := c1 i (nt - 1)%nat * ((p i 0%nat - p i (nt - 2)%nat) / dt) - c0 i (nt - 1)%nat.

Record film_grid (nz nt : nat) (dz dt pin pout : R) (c1 c2 c0 p : mat) : Prop := {
  grid_in : forall j, (j < nt)%nat -> p 0%nat j = pin;
  grid_out : forall j, (j < nt)%nat -> p (nz - 1)%nat j = pout;
  grid_period : forall i, (0 < i < nz - 1)%nat -> p i (nt - 1)%nat = p i 0%nat;
  grid_balance : forall i j, (0 < i < nz - 1)%nat -> (0 < j < nt - 1)%nat ->
    (flow_t dt c1 c0 p i j - flow_t dt c1 c0 p i (j - 1)) / dt + (flow_z dz c2 p i j - flow_z dz c2 p (i - 1) j) / dz = 0;
  grid_seam : forall i, (0 < i < nz - 1)%nat ->
    (flow_t dt c1 c0 p i 0 - flow_seam nt dt c1 c0 p i) / dt + (flow_z dz c2 p i 0 - flow_z dz c2 p (i - 1) 0) / dz = 0 }.

(** a quadrature rule for tabulated values is linear in the values *)
Definition linear_rule (S : list R -> list R -> R) : Prop := forall (l : list nat) (f g : nat -> R) a b xs, S (map (fun i => a * f i + b * g i) l) xs = a * S (map f l) xs + b * S (map g l) xs.
(** the rule applied along both directions of the grid *)
Definition grid_integral (S : list R -> list R -> R) (nz nt : nat) (zs ts : list R) (g : mat) : R := S (map (fun i => S (map (fun j => g i j) (seq 0 nt)) ts) (seq 0 nz)) zs.
(** k and c are the coefficients of the only best affine fit a + k d + c v to the values F i, i < n, in the sense of least squares *)
Definition fit_error (n : nat) (d v F : vec) (a k c : R) : R := sumn n (fun i => (F i - (a + k * d i + c * v i)) ^ 2).
Definition best_fit (n : nat) (d v F : vec) (k c : R) : Prop := exists a, forall a' k' c', fit_error n d v F a k c <= fit_error n d v F a' k' c' /\ (fit_error n d v F a' k' c' = fit_error n d v F a k c -> a' = a /\ k' = k /\ c' = c).
