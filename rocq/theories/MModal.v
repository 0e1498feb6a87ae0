(** Modal analysis with the iterative eigen-solver, critical speeds, clustering of frequencies and Campbell diagram:
    ross/rotor_assembly.py:Rotor._eigen, run_modal, run_critical_speed, _clustering_points, run_campbell. Floats are exact
    reals. Warnings (_check_frequency_array) and unit conversion are not modelled here. *)
From Coq Require Import Reals List Arith Bool ZArith.
From Coquelicot Require Import Complex.
From Verif Require Import PyBase MatBase CMat MRotor MDynamics MResults.
Import ListNotations.
Open Scope list_scope.
Open Scope R_scope.

(** scipy.sparse.linalg.eigs(A, k, sigma=1, which="LM", v0=v0) of a matrix of size N: eigenvalues with their vectors,
    ArpackError, or another exception. *)
Inductive eigs_out := Converged (l : list (C * cvec)) | ArpackError | Raised (e : exn).
Definition eigs_t := nat -> mat -> nat -> option vec -> eigs_out.
(** scipy.optimize.newton asks for values of a function and in the end returns a number or raises. *)
Inductive search := Found (x : R) | Fails (e : exn) | Ask (s : R) (next : R -> search).

(** The attribute _v0 of the rotor: the start vector of the next call of eigs (None after __init__). Calls read and write it,
    also when they raise. *)
Definition St (A : Type) := option vec -> res A * option vec.
Definition sret {A} (a : A) : St A := fun st => (Ok a, st).
Definition serr {A} (e : exn) : St A := fun st => (Err e, st).
Definition sres {A} (r : res A) : St A := fun st => (r, st).
Definition sbind {A B} (m : St A) (f : A -> St B) : St B := fun st =>
  match m st with (Ok a, st') => f a st' | (Err e, st') => (Err e, st') end.
Fixpoint smap {A B} (f : A -> St B) (l : list A) : St (list B) :=
  match l with [] => sret [] | x :: l => sbind (f x) (fun y => sbind (smap f l) (fun ys => sret (y :: ys))) end.

(** the columns of the result of la.eig *)
Definition eig_pairs (N : nat) (e : (nat -> C) * cmat) : list (C * cvec) := map (fun j => (fst e j, fun i => snd e i j)) (seq 0 N).
Definition pair0 : C * cvec := (RtoC 0, fun _ => RtoC 0).
(** evalues[idx], evectors[:, idx] with idx = self._index(evalues) *)
Definition sort_pairs (l : list (C * cvec)) : res (list (C * cvec)) :=
  bind (index (fun k => fst (nth k l pair0)) (length l)) (fun idx => Ok (map (fun k => nth k l pair0) idx)).
(** np.real(sum(evectors.T)) *)
Definition next_v0 (l : list (C * cvec)) : vec := fun i => fold_right (fun p s => Re (snd p i) + s) 0 l.

(** Rotor._eigen, ross/rotor_assembly.py:1309-1406, with A=None and sorted_=True. The quotient of line 1373 has a nonzero denominator. *)
Definition sync_keeps (z : C) : bool :=
  (negb (if Req_EM_T (Im z) 0 then true else false) && if Rlt_dec (Rabs (Re z / Im z)) 1000 then true else false)%bool.
Definition not_rigid (z : C) : bool := if Rlt_dec (1 / 10) (Cmod z) then true else false.
Definition eigen_full (la : linalg) (eigs : eigs_t) spl (r : rotor) (speed : R) (num_modes : nat) (frequency : option R) (sparse sync : bool)
  : St (list (C * cvec)) := fun st =>
  let N := (2 * r_ndof r)%nat in
  match rotor_A la spl r speed frequency sync with
  | Err e => (Err e, st)
  | Ok A =>
    if sync then (sort_pairs (filter (fun p => sync_keeps (fst p)) (eig_pairs N (la_eig la N A))), st)
    else if sparse then
      match eigs N A (2 * num_modes)%nat st with
      | Converged l => (sort_pairs (filter (fun p => not_rigid (fst p)) l), Some (next_v0 l))
      | ArpackError => (sort_pairs (eig_pairs N (la_eig la N A)), st)
      | Raised e => (Err e, st)
      end
    else (sort_pairs (eig_pairs N (la_eig la N A)), st)
  end.

(** Rotor.run_modal, ross/rotor_assembly.py:672-700, with ModalResults.__init__ (ross/results.py:864-912: one normalized shape per
    reported mode). A zero eigenvalue makes numpy divide by zero (nan); Coq's division gives 0 there. *)
Record modal := mkModal { mo_speed : R; mo_pairs : list (C * cvec); mo_wn : list R; mo_wd : list R; mo_damping : list R; mo_log_dec : list R; mo_shapes : list shape }.
Definition run_modal (la : linalg) (eigs : eigs_t) (eig2 : mat -> R * R) spl (r : rotor) (speed : R) (num_modes : nat) (sparse sync : bool) : St modal :=
  sbind (eigen_full la eigs spl r speed num_modes None sparse sync) (fun l =>
  let ev k := fst (nth k l pair0) in
  let q f := modal_list f ev (length l) num_modes in
  sbind (sres (mapM (fun p => rotor_shape eig2 r (snd p) true) (firstn (num_modes / 2) l))) (fun shapes =>
  sret (mkModal speed l (q modal_wn) (q modal_wd) (q modal_damping_ratio) (q modal_log_dec) shapes))).
(** ModalResults.whirl_direction, whirl_values, ross/results.py:1044-1069 *)
Definition mode_whirl (s : shape) : whirl := modal_whirl (map ob_kappa (sp_orbits s)).
Definition whirl_direction (m : modal) : list whirl := map mode_whirl (mo_shapes m).
Definition whirl_values (m : modal) : list R := map whirl_to_cmap (whirl_direction m).

(** newton asks, the function (which runs a modal analysis) answers *)
Fixpoint run_search (f : R -> St R) (p : search) : St R :=
  match p with
  | Found x => sret x
  | Fails e => serr e
  | Ask s next => sbind (f s) (fun y => run_search f (next y))
  end.
Definition item {A} (l : list A) (i : nat) : res A := match nth_error l i with Some x => Ok x | None => Err IndexError end.

(** Rotor.run_critical_speed, ross/rotor_assembly.py:702-801. [newton x0] is scipy's newton with the tolerance of the call. *)
Record critical := mkCritical { cs_wn : list R; cs_wd : list R; cs_log_dec : list R; cs_damping : list R; cs_whirl : list whirl }.
Definition in_range (lo hi x : R) : bool := (if Rle_dec lo x then true else false) && (if Rle_dec x hi then true else false).
(** array[idx] for idx = np.where(mask) *)
Definition select {A} (mask : list bool) (l : list A) : list A := map snd (filter fst (combine mask l)).
Definition run_critical_speed (la : linalg) (eigs : eigs_t) (eig2 : mat -> R * R) (newton : R -> search) spl (r : rotor)
  (speed_range : option (R * R)) (num_modes : nat) : St critical :=
  let num_modes := match speed_range with Some _ => ((r_ndof r - 4) * 2)%nat | None => num_modes end in
  let modal s := run_modal la eigs eig2 spl r s num_modes true false in
  sbind (modal 0) (fun m0 =>
  sbind (smap (fun i => run_search (fun s => sbind (modal s) (fun m => sbind (sres (item (mo_wn m) i)) (fun w => sret (s - w)))) (newton (nth i (mo_wn m0) 0)))
    (seq 0 (length (mo_wn m0)))) (fun wn =>
  sbind (smap (fun i => run_search (fun s => sbind (modal s) (fun m => sbind (sres (item (mo_wd m) i)) (fun w => sret (s - w)))) (newton (nth i (mo_wd m0) 0)))
    (seq 0 (length (mo_wd m0)))) (fun wd =>
  sbind (smap (fun p : nat * R => sbind (modal (snd p)) (fun m =>
      sbind (sres (item (mo_log_dec m) (fst p))) (fun ld => sbind (sres (item (mo_damping m) (fst p))) (fun dr =>
      sbind (sres (item (whirl_direction m) (fst p))) (fun wh => sret (ld, dr, wh)))))) (combine (seq 0 (length wd)) wd)) (fun rows =>
  let c := mkCritical wn wd (map (fun x => fst (fst x)) rows) (map (fun x => snd (fst x)) rows) (map snd rows) in
  sret match speed_range with
       | None => c
       | Some (lo, hi) =>
         let mask := map (in_range lo hi) wd in
         mkCritical (select mask (cs_wn c)) (select mask wd) (select mask (cs_log_dec c)) (select mask (cs_damping c)) (select mask (cs_whirl c))
       end)))).

(** Rotor._clustering_points, ross/rotor_assembly.py:1205-1265, from the damped critical speeds and their damping ratios on.
    [modes] are positions in these arrays (an index out of range raises IndexError; negative positions are not modelled).
    damping ** b is the real power of a positive number. *)
Fixpoint insert_R (x : R) (l : list R) : list R :=
  match l with [] => [x] | y :: l' => if Rle_dec x y then x :: l else y :: insert_R x l' end.
Definition sort_R (l : list R) : list R := fold_right insert_R [] l.
Definition clustering_points (omega damping : list R) (num_points : nat) (modes : option (list nat)) : res (list R) :=
  let damping := map (fun d => if Rle_dec (5 / 1000) d then d else 5 / 1000) damping in
  let np := (if 12 <? num_points then 10 else if num_points <? 2 then 4 else num_points)%nat in
  bind (match modes with None => Ok omega | Some l => mapM (item omega) l end) (fun omega =>
  bind (match modes with None => Ok damping | Some l => mapM (item damping) l end) (fun damping =>
  let a d j := 1 + Rpower d (2 * (INR np - INR j + 1) / (INR np - 1)) in
  let points := flat_map (fun p => map (fun j => fst p / a (snd p) j) (seq 0 np)) (combine omega damping) ++
                flat_map (fun p => map (fun j => fst p * a (snd p) j) (seq 0 np)) (combine omega damping) in
  Ok (0 :: sort_R points))).

(** Rotor.run_campbell, ross/rotor_assembly.py:2450-2487. One row per speed. results[i, :, c] = array: the array has [frequencies]
    entries, or one entry that is repeated, or it raises ValueError. wn.argsort() is any sorting permutation; insertion here. *)
Definition fill (n : nat) (l : list R) : res (list R) :=
  if Nat.eqb (length l) n then Ok l else match l with [x] => Ok (repeat x n) | _ => Err ValueError end.
Fixpoint insert_by (key : nat -> R) (i : nat) (l : list nat) : list nat :=
  match l with [] => [i] | j :: l' => if Rle_dec (key i) (key j) then i :: l else j :: insert_by key i l' end.
Definition argsort (l : list R) : list nat := fold_right (insert_by (fun i => nth i l 0)) [] (seq 0 (length l)).
Record campbell_row := mkRow { cr_speed : R; cr_freq : list R; cr_log_dec : list R; cr_damping : list R; cr_whirl : list R }.
Definition run_campbell (la : linalg) (eigs : eigs_t) (eig2 : mat -> R * R) spl (r : rotor) (speeds : list R) (frequencies : nat) (by_wd : bool) : St (list campbell_row) :=
  smap (fun w =>
    sbind (run_modal la eigs eig2 spl r w (2 * frequencies) true false) (fun m =>
    let idx := if by_wd then seq 0 (length (mo_wd m)) else argsort (mo_wn m) in
    let take l := fill frequencies (firstn frequencies (map (fun i => nth i l 0) idx)) in
    sbind (sres (take (if by_wd then mo_wd m else mo_wn m))) (fun f =>
    sbind (sres (take (mo_log_dec m))) (fun ld => sbind (sres (take (mo_damping m))) (fun dr =>
    sbind (sres (take (whirl_values m))) (fun wh =>
    sbind (sres (fill frequencies (firstn frequencies (mo_wn m)))) (fun _ => sret (mkRow w f ld dr wh)))))))) speeds.
