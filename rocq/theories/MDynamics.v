(** State matrix, transfer matrix, frequency, forced and unbalance response of a rotor. *)
From Coq Require Import Reals List Arith Bool ZArith.
From Coquelicot Require Import Complex.
From Verif Require Import PyBase MatBase CMat MRotor.
Import ListNotations.
Open Scope list_scope.
Open Scope R_scope.

(** ** scipy.linalg: [la.solve(A, B)] (n x n), [la.inv(A)] and [la.eig(A)], which is a list of eigenvalues and a
    matrix whose columns are the eigenvectors. The code is not modelled; its contract is [linalg_ok]. *)
Record linalg := mkLinalg {
  la_solve : nat -> mat -> mat -> res mat;
  la_inv : nat -> cmat -> res cmat;
  la_eig : nat -> mat -> (nat -> C) * cmat }.
Record linalg_ok (la : linalg) : Prop := {
  solve_sol : forall n A B X, la_solve la n A B = Ok X -> nonsingular n A /\ forall i j, (i < n)%nat -> (j < n)%nat -> mulm n A X i j = B i j;
  solve_err : forall n A B e, la_solve la n A B = Err e -> e = LinAlgError /\ ~ nonsingular n A;
  inv_sol : forall n A X, la_inv la n A = Ok X -> ceq n n (cmulm n A X) cid /\ ceq n n (cmulm n X A) cid;
  inv_err : forall n A e, la_inv la n A = Err e -> e = LinAlgError /\ ~ cnonsingular n A;
  eig_sol : forall n A i j, (i < n)%nat -> (j < n)%nat ->
    cmulv n (of_mat A) (fun k => snd (la_eig la n A) k j) i = Cmult (fst (la_eig la n A) j) (snd (la_eig la n A) i j) }.

(** [np.vstack([np.hstack([P, Q]), np.hstack([R, S])])] of n x n blocks *)
Definition block (n : nat) (P Q R S : mat) : mat := fun i j =>
  match (i <? n)%nat, (j <? n)%nat with
  | true, true => P i j
  | true, false => Q i (j - n)%nat
  | false, true => R (i - n)%nat j
  | false, false => S (i - n)%nat (j - n)%nat
  end.

(** Rotor.A, ross/rotor_assembly.py:1120-1162 *)
Definition rotor_A (la : linalg) spl (r : rotor) (speed : R) (frequency : option R) (synchronous : bool) : res mat :=
  let f := default speed frequency in
  let n := r_ndof r in
  bind (if synchronous then rotor_M_sync spl r (Some f) else rotor_M spl r (Some f)) (fun M =>
  bind (rotor_K spl r f []) (fun K =>
  bind (la_solve la n (mscale (-1) M) K) (fun X =>
  bind (rotor_C spl r f []) (fun D =>
  bind (rotor_G spl r) (fun G =>
  bind (la_solve la n (mscale (-1) M) (madd D (mscale speed G))) (fun Y =>
  Ok (block n mzero mid X Y))))))).

(** Rotor._lti, ross/rotor_assembly.py:1408-1463: B (2n x n), C (n x 2n) and D (n x n). *)
Record lti := mkLti { lti_A : mat; lti_B : mat; lti_C : mat; lti_D : mat }.
Definition rotor_lti (la : linalg) spl (r : rotor) (speed : R) (frequency : option R) : res lti :=
  let f := default speed frequency in
  let n := r_ndof r in
  bind (rotor_A la spl r speed (Some f) false) (fun A =>
  bind (rotor_M spl r (Some f)) (fun M =>
  bind (la_solve la n M mid) (fun MI =>
  bind (rotor_K spl r f []) (fun K =>
  bind (la_solve la n M K) (fun MK =>
  bind (rotor_C spl r f []) (fun D =>
  bind (la_solve la n M D) (fun MD =>
  let Ca := mzero in
  Ok (mkLti A
        (fun i j => if (i <? n)%nat then 0 else MI (i - n)%nat j)
        (fun i j => if (j <? n)%nat then msub mid (mulm n Ca MK) i j else msub mzero (mulm n Ca MD) i (j - n)%nat)
        (mulm n Ca MI)))))))))  .

(** np.around(x, decimals=10): round half to even *)
Definition round_half_even (x : R) : Z :=
  let f := Int_part x in
  let d := x - IZR f in
  if Rlt_dec d (1 / 2) then f else if Rlt_dec (1 / 2) d then (f + 1)%Z else if Z.even f then f else (f + 1)%Z.
Definition around10 (x : R) : R := IZR (round_half_even (x * 10 ^ 10)) / 10 ^ 10.
(** the two sort keys of an eigenvalue, ross/rotor_assembly.py:1294-1296 *)
Definition key_wd (z : C) : R := around10 (Im z).
Definition key_wn (z : C) : R := Cmod (around10 (Re z), around10 (Im z)).
(** x comes before or together with y in np.lexsort((b, a)) *)
Definition lex_le (x y : C) : bool :=
  if Rlt_dec (key_wd x) (key_wd y) then true
  else if Req_EM_T (key_wd x) (key_wd y) then (if Rle_dec (key_wn x) (key_wn y) then true else false) else false.
Fixpoint insert_idx (ev : nat -> C) (i : nat) (l : list nat) : list nat :=
  match l with [] => [i] | j :: l' => if lex_le (ev i) (ev j) then i :: l else j :: insert_idx ev i l' end.
Definition lexsort (ev : nat -> C) (n : nat) : list nat := fold_right (insert_idx ev) [] (seq 0 n).
(** Rotor._index, ross/rotor_assembly.py:1267-1306. For an odd number of eigenvalues
    np.array([positive, negative]) has rows of different length and raises ValueError. *)
Definition index (ev : nat -> C) (n : nat) : res (list nat) :=
  let ind := lexsort ev n in
  let positive := skipn (n / 2) ind in
  let negative := firstn (n / 2) ind in
  if Nat.eqb (length positive) (length negative) then Ok (positive ++ negative) else Err ValueError.

(** Rotor._eigen with sparse=False and synchronous=False, ross/rotor_assembly.py:1366-1406 (the dense branch). *)
Definition eigen (la : linalg) spl (r : rotor) (speed : R) (frequency : option R) : res ((nat -> C) * cmat) :=
  bind (rotor_A la spl r speed frequency false) (fun A =>
  let '(lam, V) := la_eig la (2 * r_ndof r) A in
  bind (index lam (2 * r_ndof r)) (fun idx =>
  Ok (fun k => lam (nth k idx 0%nat), fun i k => V i (nth k idx 0%nat)))).

(** The positions used when [modes] is given, ross/rotor_assembly.py:1558-1567.
    [idx[m:] = range(2n)[-m:]]: an empty list selects the whole range, which does not fit. *)
Definition mode_index (n : nat) (modes : list nat) : res (list nat) :=
  let m := length modes in
  let tail := match m with O => seq 0 (2 * n) | _ => skipn (2 * n - m) (seq 0 (2 * n)) end in
  if negb (Nat.eqb (length tail) m) then Err ValueError
  else if existsb (fun k => (2 * n <=? k)%nat) modes then Err IndexError
  else Ok (modes ++ tail).

(** Rotor.transfer_matrix, ross/rotor_assembly.py:1526-1577. If an eigenvalue equals i*speed numpy divides by zero
    (inf/nan with a warning); Coq's division gives 0 there and the theorems exclude that case. *)
Definition transfer_matrix (la : linalg) spl (r : rotor) (speed : R) (frequency : option R) (modes : option (list nat)) : res cmat :=
  let n := r_ndof r in
  bind (rotor_lti la spl r speed None) (fun sys =>
  bind (eigen la spl r speed frequency) (fun ep =>
  let '(evals, psi) := ep in
  bind (la_inv la (2 * n) psi) (fun psi_inv =>
  bind (match modes with None => Ok (seq 0 (2 * n)) | Some l => mode_index n l end) (fun idx =>
  let k := length idx in
  let lam := fun a => evals (nth a idx 0%nat) in
  let psi1 := fun i a => psi i (nth a idx 0%nat) in
  let psi2 := fun a j => psi_inv (nth a idx 0%nat) j in
  let diag : cmat := fun a b => if Nat.eqb a b then Cdiv 1 (Cminus (0, speed) (lam a)) else RtoC 0 in
  Ok (cadd (cmulm (2 * n) (cmulm k (cmulm k (cmulm (2 * n) (of_mat (lti_C sys)) psi1) diag) psi2) (of_mat (lti_B sys)))
           (of_mat (lti_D sys))))))).

Fixpoint mapM {A B} (f : A -> res B) (l : list A) : res (list B) :=
  match l with [] => Ok [] | x :: l => bind (f x) (fun y => bind (mapM f l) (fun ys => Ok (y :: ys))) end.

(** Rotor.run_freq_response, ross/rotor_assembly.py:1579-1705, for a given speed_range: displacement, velocity and
    acceleration response at every speed. The warning of _check_frequency_array has no effect on the result. *)
Definition run_freq_response (la : linalg) spl (r : rotor) (speeds : list R) (modes : option (list nat)) : res (list (cmat * cmat * cmat)) :=
  mapM (fun w => bind (transfer_matrix la spl r w None modes) (fun H =>
    Ok (H, cscale (0, w) H, cscale (RtoC (- w ^ 2)) H))) speeds.

(** Rotor.run_forced_response, ross/rotor_assembly.py:1707-1823, for a given speed_range; column i of [force] is
    [fun k => force k i], [ncol] the number of columns. *)
Definition run_forced_response (la : linalg) spl (r : rotor) (force : cmat) (ncol : nat) (speeds : list R) (modes : option (list nat))
  : res (list (cvec * cvec * cvec)) :=
  let n := r_ndof r in
  bind (run_freq_response la spl r speeds modes) (fun fr =>
  if (ncol <? length fr)%nat then Err IndexError else
  Ok (map (fun p => let '(i, (H, Hv, Ha)) := p in
      let f := fun k => force k i in (cmulv n H f, cmulv n Hv f, cmulv n Ha f)) (combine (seq 0 (length fr)) fr))).

(** np.exp(1j * phase) *)
Definition expi (p : R) : C := (cos p, sin p).
(** Rotor._unbalance_force, ross/rotor_assembly.py:1825-1867 (node >= 0). A slice that reaches beyond the last dof
    is shorter than b0, which raises ValueError as soon as there is one frequency. *)
Definition unbalance_force (r : rotor) (node : nat) (magnitude phase : R) (omega : list R) : res cmat :=
  let n0 := (r_nd r * node)%nat in
  let b0 : cvec := fun k => match k with
    | 0 => Cmult (RtoC magnitude) (expi phase)
    | 1 => Cmult (Cmult (Copp Ci) (RtoC magnitude)) (expi phase)
    | _ => RtoC 0 end%nat in
  if ((0 <? length omega) && (r_ndof r <? n0 + r_nd r))%nat then Err ValueError else
  Ok (fun k i => if ((n0 <=? k) && (k <? n0 + r_nd r))%nat then Cmult (RtoC (nth i omega 0 ^ 2)) (b0 (k - n0)%nat) else RtoC 0).
(** the accumulation loop, ross/rotor_assembly.py:2000-2003; (node, (magnitude, phase)) *)
Fixpoint unbalance_sum (r : rotor) (l : list (nat * (R * R))) (omega : list R) (acc : cmat) : res cmat :=
  match l with
  | [] => Ok acc
  | (n, (m, p)) :: l => bind (unbalance_force r n m p omega) (fun F => unbalance_sum r l omega (cadd acc F))
  end.
(** Rotor.run_unbalance_response, ross/rotor_assembly.py:1869-2020, with lists (a single number for node, magnitude and
    phase behaves like lists of one entry) and a given frequency. [zip] stops at the shortest list, then
    np.vstack raises ValueError for lists of different length. *)
Definition run_unbalance_response (la : linalg) spl (r : rotor) (nodes : list nat) (mags phases : list R) (frequency : list R) (modes : option (list nat))
  : res (list (cvec * cvec * cvec)) :=
  bind (unbalance_sum r (combine nodes (combine mags phases)) frequency czero) (fun force =>
  if negb (Nat.eqb (length nodes) (length mags) && Nat.eqb (length nodes) (length phases)) then Err ValueError else
  run_forced_response la spl r force (length frequency) frequency modes).
