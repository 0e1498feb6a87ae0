(** Undamped critical speed map and level 1 stability analysis: ross/rotor_assembly.py:Rotor.run_ucs, run_level1. Rotors with 4
    degrees of freedom per node (with 6 the code converts every rebuilt rotor with convert_6dof_to_4dof; not modelled here). Floats
    are exact reals. The result classes only store their arguments and draw. *)
From Coq Require Import Reals String List Arith Bool ZArith.
From Coquelicot Require Import Complex.
From Verif Require Import PyBase MatBase CMat MMaterial MShaft MDisk MBearing MRotor MDynamics MResults MModal MSave.
Import ListNotations.
Open Scope list_scope.
Open Scope R_scope.

(** BearingElement(n, kxx=..., cxx=0, kxy=..., kyx=...) with every other argument at its default, ross/bearing_seal_element.py:120-140 *)
Definition spring_args (n : nat) (k kxy kyx : R) : bargs :=
  mkBArgs n (CScal k) (CScal 0) None None (CScal kxy) (CScal kyx) None (CScal 0) (CScal 0) None (CScal 0) (CScal 0) None None None 1 "#355d7a".
Definition spring (n : nat) (k : R) : res obrg := bind (bearing_init (spring_args n k 0 0)) (fun b => Ok (OBearing b)).
Definition is_seal (o : obrg) : bool := match o with OSeal _ => true | _ => false end.
(** bearings_elements, lines 2552-2555: without the seals *)
Definition ucs_bearings (ro : robj) : list obrg := filter (fun o => negb (is_seal o)) (ro_br ro).
(** the rotor of lines 2560-2561 and 2600-2610: the same shaft and disks on springs; no point masses, links or parameters *)
Definition ucs_rotor (ro : robj) (k : R) : res robj :=
  bind (mapM (fun o => spring (ob_n o) k) (ucs_bearings ro)) (fun brs => robj_init (ro_sh ro) (ro_dk ro) brs [] None None None None).

(** np.linspace(a, b, num), np.logspace(a, b, num) *)
Definition linspace (a b : R) (num : nat) : list R := map (fun i => a + INR i * ((b - a) / INR (num - 1))) (seq 0 num).
Definition logspace (a b : R) (num : nat) : list R := map (fun x => Rpower 10 x) (linspace a b num).
(** int(x): towards zero *)
Definition trunc (x : R) : Z := if Rle_dec 0 x then Int_part x else (- Int_part (- x))%Z.
(** lines 2533-2540. log10 of a number that is not positive is -inf or nan and int() of it raises (OverflowError for zero, reported
    as ValueError here). *)
Definition ucs_range spl (ro : robj) (range : option (R * R)) : res (R * R) :=
  match range with
  | Some p => Ok p
  | None =>
    match ro_rated ro with
    | None => Ok (6, 11)
    | Some w =>
      bind (item (ro_br ro) 0) (fun o => bind (eval_coef spl (brg_of o) kxx w) (fun k =>
      if Rlt_dec 0 k then let z := trunc (ln k / ln 10) in Ok (IZR (z - 3), IZR (z + 3)) else Err ValueError))
    end
  end.
(** l[::2] *)
Fixpoint evens {A} (l : list A) : list A := match l with x :: _ :: l => x :: evens l | _ => l end.
(** rotor_wn.min(), .max(): ValueError when there is nothing *)
Definition extreme (f : R -> R -> R) (l : list R) : res R := match l with [] => Err ValueError | x :: l => Ok (fold_left f l x) end.
(** np.array_equal of two lists of coefficients *)
Definition same_list (l l' : list R) : bool := if list_eq_dec Req_EM_T l l' then true else false.

Record ucs := mkUcs { uc_range : R * R; uc_log : list R; uc_freq : list R; uc_wn : list (list R); uc_bearing0 : obrg; uc_points : list pt; uc_modal : list modal }.

(** The column of one stiffness, lines 2559-2569: rotor_wn[:, i] = modal.wn[::2]. A new rotor starts without v0. *)
Definition ucs_column (la : linalg) (eigs : eigs_t) (eig2 : mat -> R * R) spl (ro : robj) (num_modes : nat) (sync : bool) (k : R) : res (list R) :=
  bind (ucs_rotor ro k) (fun u =>
  bind (fst (run_modal la eigs eig2 spl (ro_val u) 0 num_modes true sync None)) (fun m =>
  fill (num_modes / 2 / 2) (evens (mo_wn m)))).
(** lines 2600-2616 *)
Definition ucs_critical (la : linalg) (eigs : eigs_t) (eig2 : mat -> R * R) spl (ro : robj) (p : pt) : res modal :=
  bind (ucs_rotor ro (fst p)) (fun u => fst (run_modal la eigs eig2 spl (ro_val u) (snd p) 12 true false None)).

(** Rotor.run_ucs, ross/rotor_assembly.py:2489-2636; the rows of [uc_wn] are the rows of rotor_wn. *)
Definition run_ucs (la : linalg) (eigs : eigs_t) (eig2 : mat -> R * R) spl (ro : robj) (range frange : option (R * R)) (num_modes num : nat) (sync : bool) : res ucs :=
  bind (ucs_range spl ro range) (fun sr =>
  let klog := logspace (fst sr) (snd sr) num in
  bind (mapM (ucs_column la eigs eig2 spl ro num_modes sync) klog) (fun cols =>
  let rows := map (fun j => map (fun col => nth j col 0) cols) (seq 0 (num_modes / 2 / 2)) in
  bind (item (ucs_bearings ro) 0) (fun b0 =>
  bind (match frange with
        | Some p => Ok (linspace (fst p) (snd p) 30)
        | None =>
          match b_frequency (brg_of b0) with
          | Some f => Ok f
          | None => bind (extreme Rmin (concat rows)) (fun lo => bind (extreme Rmax (concat rows)) (fun hi =>
                    Ok (linspace (lo - lo * (1 / 10)) (hi + lo * (1 / 10)) 10)))
          end
        end) (fun freq =>
  let coeffs := if same_list (fst (b_coef (brg_of b0) kxx)) (fst (b_coef (brg_of b0) kyy)) then [kxx] else [kxx; kyy] in
  bind (mapM (fun wc : list R * cname =>
      bind (mapM (eval_coef spl (brg_of b0) (snd wc)) freq) (fun x2 =>
      let pts := intersection la (combine klog (fst wc)) (combine x2 freq) in
      bind (mapM (ucs_critical la eigs eig2 spl ro) pts) (fun ms => Ok (pts, ms))))
    (flat_map (fun wn => map (fun c => (wn, c)) coeffs) rows)) (fun found =>
  Ok (mkUcs sr klog freq rows b0 (concat (map fst found)) (concat (map snd found)))))))).

(** bearings[0].__class__(n=n, kxx=0, cxx=0, kxy=Q, kyx=-Q), line 2717: only BearingElement and SealElement take these arguments *)
Definition cross_coupling (o : obrg) (n : nat) (Q : R) : res obrg :=
  match o with
  | OBearing _ => bind (bearing_init (spring_args n 0 Q (- Q))) (fun b => Ok (OBearing b))
  | OSeal _ => bind (seal_init (spring_args n 0 Q (- Q)) None) (fun s => Ok (OSeal s))
  | _ => Err TypeError
  end.
(** the rotor of lines 2716-2720 *)
Definition level1_rotor (ro : robj) (n : nat) (Q : R) : res robj :=
  bind (item (ro_br ro) 0) (fun b0 => bind (cross_coupling b0 n Q) (fun c =>
  robj_init (ro_sh ro) (ro_dk ro) (ro_br ro ++ [c]) [] None None None None)).
(** modal.log_dec[modal.whirl_direction() != "Backward"][0] *)
Definition first_forward (m : modal) : res R :=
  item (select (map (fun w => negb (whirl_eqb w Backward)) (whirl_direction m)) (mo_log_dec m)) 0.
(** Rotor.run_level1, ross/rotor_assembly.py:2638-2728. bearing.kxx is a list, which has no attribute interpolated; run_modal with
    speed None multiplies a matrix by None. The first modal analysis is made on the rotor itself and may change its _v0. *)
Definition run_level1 (la : linalg) (eigs : eigs_t) (eig2 : mat -> R * R) spl (ro : robj) (n : nat) (range : option (R * R)) (num : nat) : St (list R * list R) :=
  sbind (sres (match range with
               | Some p => Ok p
               | None => match ro_rated ro with Some _ => bind (item (ro_br ro) 0) (fun _ => Err AttributeError) | None => Ok (6, 11) end
               end)) (fun sr =>
  let Qs := linspace (fst sr) (snd sr) num in
  sbind (sres (match ro_rated ro with Some w => Ok w | None => Err TypeError end)) (fun speed =>
  sbind (run_modal la eigs eig2 spl (ro_val ro) speed 12 true false) (fun _ =>
  sbind (sres (mapM (fun Q => bind (level1_rotor ro n Q) (fun u =>
      bind (fst (run_modal la eigs eig2 spl (ro_val u) speed 12 true false None)) first_forward)) Qs)) (fun ld =>
  sret (Qs, ld))))).
