(** Rotor.time_response and run_time_response, ross/rotor_assembly.py:2182-2232 and :2722-2786. *)
From Coq Require Import Reals String List Arith Bool ZArith.
From Verif Require Import PyBase MatBase MBearing MRotor MDynamics MTime MPseudo MTable.
Import ListNotations.
Open Scope list_scope.
Open Scope R_scope.

(** ** scipy.signal.lsim(system, U, T, X0), the call in ross/rotor_assembly.py:2232
    scipy is not part of /repo; this is the algorithm of scipy.signal.lsim (1.10 and later) with its default interp=True, on top of
    scipy.linalg.expm, whose contract is [expm_ok] in SpecLsim.v. The arrays are those of the caller: a system with [ns] states and [ni]
    inputs, U with [nrow] rows and [ni] columns, X0 with [ns] entries, and T of one dimension. np.squeeze, which only drops dimensions of
    length one, is left out. *)
(** x @ A for a row vector *)
Definition rowmul (n : nat) (x : vec) (A : mat) : vec := fun j => sumn n (fun i => x i * A i j).
(** np.allclose(np.diff(T), dt): rtol = 1e-5 and atol = 1e-8 *)
Definition close (x dt : R) : bool := if Rle_dec (Rabs (x - dt)) (1 / 10 ^ 8 + 1 / 10 ^ 5 * Rabs dt) then true else false.
Definition steps_close (T : list R) (dt : R) : bool := forallb (fun k => close (nth (S k) T 0 - nth k T 0) dt) (seq 0 (length T - 1)).
(** not np.any(U) *)
Definition no_input (U : nat -> vec) (nrow ni : nat) : bool :=
  forallb (fun k => forallb (fun i => if Req_EM_T (U k i) 0 then true else false) (seq 0 ni)) (seq 0 nrow).
(** M = [[A dt, B dt, 0], [0, 0, I], [0, 0, 0]] *)
Definition hold_matrix (ns ni : nat) (A B : mat) (dt : R) : mat := fun i j =>
  if (i <? ns)%nat then
    if (j <? ns)%nat then A i j * dt else if (j <? ns + ni)%nat then B i (j - ns)%nat * dt else 0
  else if (i <? ns + ni)%nat then
    if (j <? ns + ni)%nat then 0 else mid (i - ns)%nat (j - (ns + ni))%nat
  else 0.
(** xout[i] = xout[i-1] @ Ad + U[i-1] @ Bd0 + U[i] @ Bd1; [k] more steps, the next one has number i *)
Fixpoint lsim_loop (step : nat -> vec -> vec) (k i : nat) (x : vec) : list vec :=
  match k with O => [] | S k => let y := step i x in y :: lsim_loop step k (S i) y end.
Definition free_step (expm : nat -> mat -> mat) (ns : nat) (A : mat) (dt : R) (_ : nat) (x : vec) : vec := rowmul ns x (expm ns (mscale dt (mtrans A))).
Definition hold_step (expm : nat -> mat -> mat) (ns ni : nat) (A B : mat) (dt : R) (U : nat -> vec) (i : nat) (x : vec) : vec :=
  let E := expm (ns + ni + ni)%nat (mtrans (hold_matrix ns ni A B dt)) in
  let Bd1 : mat := fun a b => E (ns + ni + a)%nat b in
  let Bd0 : mat := fun a b => E (ns + a)%nat b - Bd1 a b in
  fun j => rowmul ns x E j + rowmul ni (U (i - 1)%nat) Bd0 j + rowmul ni (U i) Bd1 j.
(** yout and xout *)
Definition lsim (expm : nat -> mat -> mat) (sys : lti) (ns ni : nat) (U : nat -> vec) (nrow : nat) (T : list R) (X0 : option vec) : res (list vec * list vec) :=
  let A := lti_A sys in
  let x0 := match X0 with Some x => x | None => vzero end in
  let observe := fun k (x : vec) => vadd (mulv ns (lti_C sys) x) (mulv ni (lti_D sys) (U k)) in
  let observe0 := fun (x : vec) => mulv ns (lti_C sys) x in
  match T with
  | [] => Err IndexError
  | t0 :: ts =>
      bind (if Req_EM_T t0 0 then Ok x0 else if Rlt_dec 0 t0 then Ok (rowmul ns x0 (expm ns (mscale t0 (mtrans A)))) else Err ValueError) (fun first =>
      match ts with
      | [] => if no_input U nrow ni then Ok ([observe0 first], [first]) else
              if Nat.eqb nrow 1 then Ok ([observe 0%nat first], [first]) else Err ValueError
      | t1 :: _ =>
          let dt := t1 - t0 in
          if negb (steps_close T dt) then Err ValueError else
          if no_input U nrow ni then let xs := first :: lsim_loop (free_step expm ns A dt) (length ts) 1 first in Ok (map observe0 xs, xs) else
          if negb (Nat.eqb nrow (length T)) then Err ValueError else
          let xs := first :: lsim_loop (hold_step expm ns ni A (lti_B sys) dt U) (length ts) 1 first in
          Ok (map (fun kx => observe (fst kx) (snd kx)) (combine (seq 0 (length T)) xs), xs)
      end)
  end.

(** ** Rotor.time_response, ross/rotor_assembly.py:2222-2232: t, yout, xout
    [o], [nm], [gv] and [extra] are the keyword arguments of integrate_system; F has one column for every degree of freedom. *)
Definition time_response (expm : nat -> mat -> mat) (eigh : eigh_t) (la : linalg) spl (r : rotor) (speed : speed_arg) (F : nat -> vec) (nrow : nat) (t : list R)
    (ic : option vec) (method : string) (o : nopts) (nm : option Z) (gv : given) (extra : option (nat -> R -> nstate -> vec)) : res (list R * list vec * list vec) :=
  let by_newmark := bind (integrate_with eigh la spl r o nm gv speed F nrow t extra) (fun yout => Ok (t, yout, [])) in
  match speed with
  | SArr _ => by_newmark
  | SNum w => if String.eqb (lower method) "newmark" then by_newmark else
      bind (rotor_lti la spl r w None) (fun sys =>
      bind (lsim expm sys (2 * r_ndof r) (r_ndof r) F nrow t ic) (fun yx => Ok (t, fst yx, snd yx)))
  end.
(** Rotor.run_time_response, lines 2782-2786: t, yout and xout of the TimeResponseResults; its ic is a keyword argument *)
Definition run_time_response := time_response.
