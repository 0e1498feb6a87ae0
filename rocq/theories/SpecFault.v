(** Notions used to state the properties of the fault analyses. *)
From Coq Require Import Reals List Arith.
From Verif Require Import MatBase CMat MMaterial MShaft MFault.
Open Scope R_scope.

(** The unit vector at the angle th, turning from X to Y. *)
Definition unit_at (th : R) : R * R := (cos th, sin th).
Definition dot2 (a b : R * R) : R := fst a * fst b + snd a * snd b.
Definition norm2 (a : R * R) : R := sqrt (fst a ^ 2 + snd a ^ 2).
(** What an unbalance of magnitude m (kg m) at the angle psi(t) does: the inertia force of the eccentric mass, minus its second derivative. *)
Definition inertia_force (m : R) (pos : R -> R * R) (t : R) (F : R * R) : Prop :=
  exists vx vy : R -> R,
    (forall u, derivable_pt_lim (fun s => fst (pos s)) u (vx u)) /\ (forall u, derivable_pt_lim (fun s => snd (pos s)) u (vy u)) /\
    derivable_pt_lim (fun s => - m * vx s) t (fst F) /\ derivable_pt_lim (fun s => - m * vy s) t (snd F).
(** The two lateral entries of a force or motion vector at a node of a 6-dof rotor, and the six entries. *)
Definition lateral (n : nat) (f : vec) : R * R := (f (6 * n)%nat, f (6 * n + 1)%nat).
(** Sliding velocity of the shaft surface at the contact point against the housing: the velocity of the centre along the tangent plus the
    surface speed of the rotation. The tangent is taken in the sense of the rotation: [s] = 1 when the shaft turns from X to Y, -1 when
    it turns from Y to X. *)
Definition tangent (s : R) (p : R * R) : R * R := (- s * snd p / norm2 p, s * fst p / norm2 p).
Definition sliding (s : R) (p v : R * R) (ang radius : R) : R := dot2 v (tangent s p) + ang * radius.
(** The stretch of a coupling arm of length rad at the angle th (measured from Y to X, as the forces are), when the far end is displaced by e. *)
Definition arm_dir (th : R) : R * R := (sin th, cos th).
Definition stretch (rad th : R) (e : R * R) : R := norm2 (rad * sin th + fst e, rad * cos th + snd e) - rad.
(** numpy.linalg.pinv returns the inverse of a nonsingular matrix. *)
Definition pinv_ok (lib : eiglib) : Prop := forall n A, nonsingular n A ->
  (forall i j, (i < n)%nat -> (j < n)%nat -> mulm n A (eig_pinv lib n A) i j = mid i j) /\
  (forall i j, (i < n)%nat -> (j < n)%nat -> mulm n (eig_pinv lib n A) A i j = mid i j).
(** The first m columns of V (n rows) are linearly independent. *)
Definition independent (n m : nat) (V : mat) : Prop := forall q, (forall i, (i < n)%nat -> mulv m V q i = 0) -> forall j, (j < m)%nat -> q j = 0.
(** scipy.linalg.eigh(K, M) returns M-orthonormal vectors. *)
Definition m_orthonormal (n : nat) (M V : mat) : Prop := forall i j, (i < 12)%nat -> (j < 12)%nat -> mulm n (mulm n (mtrans V) M) V i j = mid i j.
(** Forces of the equation of motion that are not balanced: M x'' + (C + om G) x' + (K + ac Ks) x - f. *)
Definition unbalanced (s : fsys) (om ac : R) (f x v a : vec) : vec := fun i =>
  mulv (f_n s) (f_M s) a i + mulv (f_n s) (fun i j => f_C s i j + om * f_G s i j) v i
  + mulv (f_n s) (fun i j => f_K s i j + ac * f_Ks s i j) x i - f i.
(** Elements a crack can be put in: positive length and moduli, a physical Poisson ratio, a non-empty section at both ends. *)
Record crackable (s : shaft) : Prop := {
  ca_L : 0 < s_L s; ca_E : 0 < mE (s_material s); ca_G : 0 < mG_s (s_material s); ca_nu : -1 / 2 <= mPoisson (s_material s) < 1;
  ca_l : 0 <= s_idl s < s_odl s; ca_r : 0 <= s_idr s < s_odr s }.
