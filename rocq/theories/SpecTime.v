(** What time integration means (specification vocabulary). *)
From Coq Require Import Reals List Arith.
From Verif Require Import PyBase MatBase SpecMat MBearing MRotor MTime.
Import ListNotations.
Open Scope R_scope.

(** Newmark's formulas for velocity and displacement after a step of length dt *)
Definition newmark_formulas (gamma beta dt : R) (s0 s1 : nstate) : Prop := forall i,
  n_v s1 i = n_v s0 i + dt * ((1 - gamma) * n_a s0 i + gamma * n_a s1 i) /\
  n_y s1 i = n_y s0 i + dt * n_v s0 i + dt ^ 2 * ((1 / 2 - beta) * n_a s0 i + beta * n_a s1 i).
(** M a + C v + K y = F up to [eps] (Euclidean norm) *)
Definition motion_within (n : nat) (eps : R) (S : sysm) (s : nstate) : Prop := let '(M, C, K, F) := S in
  sumn n (fun i => (F i - (mulv n M (n_a s) i + mulv n C (n_v s) i + mulv n K (n_y s) i)) ^ 2) < eps ^ 2.
(** M a + C v + K y = F *)
Definition motion_exact (n : nat) (S : sysm) (s : nstate) : Prop := let '(M, C, K, F) := S in
  forall i, (i < n)%nat -> mulv n M (n_a s) i + mulv n C (n_v s) i + mulv n K (n_y s) i = F i.
(** kinetic plus elastic energy *)
Definition energy (n : nat) (M K : mat) (s : nstate) : R := (bform n M (n_v s) (n_v s) + bform n K (n_y s) (n_y s)) / 2.
(** a default element for [nth] *)
Definition s_nil : nstate := mkN (fun _ => 0) (fun _ => 0) (fun _ => 0).
(** A (A ... y), j times *)
Fixpoint mpow (n : nat) (A : mat) (j : nat) (y : vec) : vec := match j with O => y | S k => mulv n A (mpow n A k y) end.

(** ** Rotors in time *)
(** the bearing object was made by one of the constructors *)
Definition built (e : elem) : Prop := match e with
  | EBrg _ (RB4 _ b) => exists a, bearing_init a = Ok b
  | EBrg _ (RB6 b) => exists a k c m, bearing6_init a k c m = Ok b
  | _ => True
  end.
(** the prescribed rotation speed at a step, and its values are available there *)
Definition speed_at (sp : speed_arg) (step : nat) : R := match sp with SNum s => s | SArr l => nth step l 0 end.
Definition speed_given (sp : speed_arg) (step : nat) : Prop := match sp with SNum _ => True | SArr l => (step < length l)%nat end.
(** the angular acceleration used at a step: the numerical derivative of the speed, 0 for a constant speed *)
Definition accel_at (sp : speed_arg) (t : list R) (step : nat) : R :=
  match sp with SNum _ => 0 | SArr l => if varies l then gradient l t step else 0 end.
