(** What the eigen-solvers promise and what history independence means (specification vocabulary for C70-C73). *)
From Coq Require Import Reals List Arith Bool Permutation Sorted.
From Coquelicot Require Import Complex.
From Verif Require Import PyBase MatBase SpecMat CMat MRotor MDynamics SpecDynamics MResults MModal.
Import ListNotations.
Open Scope list_scope.
Open Scope R_scope.

(** the eigenvalues, with multiplicity, that the dense solver finds *)
Definition spectrum (la : linalg) (N : nat) (A : mat) : list C := map (fst (la_eig la N A)) (seq 0 N).
(** scipy.sparse.linalg.eigs with sigma=1, which="LM": what it returns are eigenpairs; they are the [k] eigenvalues nearest to 1
    (all of them if there are not more than k + 1). Which vectors it finds may depend on the start vector. *)
Record eigs_ok (la : linalg) (eigs : eigs_t) : Prop := {
  eo_pair : forall N A k v0 l p, eigs N A k v0 = Converged l -> In p l -> eigenpair N A (fst p) (snd p);
  eo_near : forall N A k v0 l, eigs N A k v0 = Converged l -> exists rest, Permutation (map fst l ++ rest) (spectrum la N A) /\
    forall x y, In x (map fst l) -> In y rest -> Cmod (x - 1)%C <= Cmod (y - 1)%C;
  eo_count : forall N A k v0 l, eigs N A k v0 = Converged l -> length l = if (k + 1 <? N)%nat then k else N }.
(** the k nearest eigenvalues are well defined: a circle about 1 holds exactly k of them and none lies on it *)
Definition well_cut (spec : list C) (k : nat) : Prop := exists d, (forall z, In z spec -> Cmod (z - 1)%C <> d) /\
  length (filter (fun z => if Rlt_dec (Cmod (z - 1)%C) d then true else false) spec) = k.
(** different eigenvalues differ in the first ten decimals of their frequency or modulus *)
Definition told_apart (spec : list C) : Prop := forall x y, In x spec -> In y spec -> key_wd x = key_wd y -> key_wn x = key_wn y -> x = y.

(** the numbers a modal analysis reports *)
Definition numbers (m : modal) : list R * list R * list R * list R := (mo_wn m, mo_wd m, mo_damping m, mo_log_dec m).
Definition outcome {A} (r : res modal) (f : modal -> A) : res A := bind r (fun m => Ok (f m)).
(** modal analyses of this rotor with this many modes report the same numbers whatever was run before *)
Definition steady (la : linalg) (eigs : eigs_t) (eig2 : mat -> R * R) spl (r : rotor) (num_modes : nat) : Prop :=
  forall s st st', outcome (fst (run_modal la eigs eig2 spl r s num_modes true false st)) numbers =
                   outcome (fst (run_modal la eigs eig2 spl r s num_modes true false st')) numbers.
(** [kept] are the members of [l] with the property [P], with multiplicity and in any order *)
Definition picked (P : C -> Prop) (l kept : list C) : Prop := exists dropped, Permutation (kept ++ dropped) l /\
  (forall z, In z kept -> P z) /\ (forall z, In z dropped -> ~ P z).
(** [near] are k of the values of [l], none farther from 1 than one that is left out *)
Definition nearest_to_one (k : nat) (l near : list C) : Prop := length near = k /\ exists far, Permutation (near ++ far) l /\
  forall x y, In x near -> In y far -> Cmod (x - 1)%C <= Cmod (y - 1)%C.
(** before: x comes first when sorted by the frequency, then by the modulus (ten decimals) *)
Definition before (x y : C) : Prop := key_wd x < key_wd y \/ key_wd x = key_wd y /\ key_wn x <= key_wn y.
(** the reported numbers are those of the eigenvalues in [l] *)
Definition numbers_of (l : list C) (m : modal) : Prop :=
  mo_wn m = map Cmod l /\ mo_wd m = map Im l /\ mo_damping m = map (fun z => - Re z / Cmod z) l /\
  mo_log_dec m = map (fun z => 2 * PI * (- Re z / Cmod z) / sqrt (1 - (- Re z / Cmod z) ^ 2)) l.

(** what newton returns when the function it asks is [g] *)
Fixpoint ask_pure (g : R -> res R) (p : search) : res R :=
  match p with Found x => Ok x | Fails e => Err e | Ask s next => bind (g s) (fun y => ask_pure g (next y)) end.
(** started at x0, newton answers (if it does) with a point where g vanishes up to tol *)
Definition finds_root (tol : R) (newton : R -> search) (x0 : R) (g : R -> res R) : Prop :=
  forall x, ask_pure g (newton x0) = Ok x -> exists y, g x = Ok y /\ Rabs y <= tol.
(** speed minus the i-th entry of the list [f] of a modal analysis at that speed *)
Definition mismatch (analysis : R -> res modal) (f : modal -> list R) (i : nat) (s : R) : res R :=
  bind (analysis s) (fun m => match nth_error (f m) i with Some w => Ok (s - w) | None => Err IndexError end).

(** which eigenvalues an analysis keeps: synchronous ones that oscillate, those nearest to 1 that are not of a rigid body, or all *)
Definition from_spectrum (la : linalg) (eigs : eigs_t) (N k : nat) (A : mat) (sparse sync : bool) (st : option vec) (vals : list C) : Prop :=
  let spec := spectrum la N A in
  if sync then picked (fun z => Im z <> 0 /\ Rabs (Re z) < 1000 * Rabs (Im z)) spec vals
  else if sparse then
    match eigs N A k st with
    | Converged _ => exists near, nearest_to_one (if (k + 1 <? N)%nat then k else N) spec near /\ picked (fun z => 1 / 10 < Cmod z) near vals
    | ArpackError => Permutation vals spec
    | Raised _ => False
    end
  else Permutation vals spec.
(** two halves of the same length, each sorted, the values of the second half before those of the first *)
Definition split_order (vals : list C) : Prop := exists h up down, vals = up ++ down /\ length up = h /\ length down = h /\
  StronglySorted before up /\ StronglySorted before down /\ forall x y, In x down -> In y up -> before x y.

(** the entries of a result at the positions [idx] *)
Definition at_positions {A} (idx : list nat) (l l' : list A) : Prop := Forall2 (fun k x => nth_error l k = Some x) idx l'.
(** all five arrays reduced to the positions whose damped critical speed lies in [lo, hi] *)
Definition in_band (lo hi : R) (c c' : critical) : Prop := exists idx, StronglySorted lt idx /\
  (forall k, In k idx <-> exists w, nth_error (cs_wd c) k = Some w /\ lo <= w <= hi) /\
  at_positions idx (cs_wn c) (cs_wn c') /\ at_positions idx (cs_wd c) (cs_wd c') /\ at_positions idx (cs_log_dec c) (cs_log_dec c') /\
  at_positions idx (cs_damping c) (cs_damping c') /\ at_positions idx (cs_whirl c) (cs_whirl c').

(** an array written into n columns: entry by entry, or a single entry into all of them *)
Definition spread (n : nat) (l l' : list R) : Prop := length l' = n /\ (l' = l \/ exists x, l = [x] /\ l' = repeat x n).
(** the columns of one row of a Campbell diagram, taken from an analysis in the order [idx] *)
Definition row_from (idx : list nat) (frequencies : nat) (freq : list R) (m : modal) (row : campbell_row) : Prop :=
  exists f ld dr wh, at_positions (firstn frequencies idx) freq f /\ at_positions (firstn frequencies idx) (mo_log_dec m) ld /\
    at_positions (firstn frequencies idx) (mo_damping m) dr /\ at_positions (firstn frequencies idx) (whirl_values m) wh /\
    spread frequencies f (cr_freq row) /\ spread frequencies ld (cr_log_dec row) /\ spread frequencies dr (cr_damping row) /\ spread frequencies wh (cr_whirl row).
