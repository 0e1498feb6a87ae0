(** Rotor.integrate_system with the pseudo-modal method and with matrices given by the caller, ross/rotor_assembly.py:1465-1524 and :2022-2180. *)
From Coq Require Import Reals String List Arith Bool ZArith.
From Verif Require Import PyBase MatBase MBearing MRotor MDynamics MTime.
Import ListNotations.
Open Scope list_scope.
Open Scope R_scope.

(** scipy.linalg.eigh(A, B) of two n by n matrices: eigenvalues and a matrix whose columns are eigenvectors. The contract is in SpecPseudo.v. *)
Definition eigh_t := nat -> mat -> mat -> res (vec * mat).

(** lines 1507-1509: the factors for elm.K(speed), 2 by 2 or 3 by 3 *)
Definition mask_size (nd : nat) : nat := if Nat.eqb nd 6 then 3%nat else 2%nat.
Definition mask (nd : nat) : mat := if Nat.eqb nd 6 then lmat [[0; 1; 0]; [1; 0; 0]; [0; 0; 0]] else lmat [[0; 1]; [1; 0]].
(** line 1513, elm.K(speed) * rmv_cross_coeffs with the sign of -=: numpy refuses to multiply arrays of sizes that do not fit. *)
Definition cross_part spl (nd : nat) (w : R) (e : elem) : res (nat * mat) :=
  bind (el_K spl w e) (fun km => if Nat.eqb (fst km) (mask_size nd) then Ok (fst km, fun i j => - (snd km i j * mask nd i j)) else Err ValueError).
(** lines 1503-1513 *)
Definition aux_stiffness spl (r : rotor) (w : R) : res mat :=
  bind (rotor_K spl r w []) (fun K => assemble (r_ndof r) (r_dofs r) (cross_part spl (r_nd r) w) (r_brg r) K).
(** lines 1502-1516: the number of columns and the modal matrix; [:num_modes] of a matrix with fewer columns is the whole matrix *)
Definition pseudo_modal (eigh : eigh_t) spl (r : rotor) (w : R) (num_modes : nat) : res (nat * mat) :=
  bind (rotor_M spl r (Some w)) (fun M =>
  bind (aux_stiffness spl r w) (fun K =>
  bind (eigh (r_ndof r) K M) (fun wv => Ok (Nat.min num_modes (r_ndof r), snd wv)))).

(** the three functions get_array: lines 1518-1522 and lines 2098-2099 *)
Record transform := mkTransform { t_mat : mat -> mat; t_to : vec -> vec; t_from : vec -> vec }.
Definition direct : transform := mkTransform (fun A => A) (fun x => x) (fun x => x).
Definition modal (n m : nat) (V : mat) : transform :=
  mkTransform (fun A => mulm n (mulm n (mtrans V) A) V) (fun x => mulv n (mtrans V) x) (fun q => mulv m V q).

(** the keyword arguments M, C, K, G, Ksdt *)
Record given := mkGiven { g_M : option mat; g_C : option mat; g_K : option mat; g_G : option mat; g_Ksdt : option mat }.
Definition nothing : given := mkGiven None None None None None.

(** lines 2108-2121 *)
Definition forces_in (T : transform) (F : nat -> vec) (nrow : nat) (extra : option (nat -> R -> nstate -> vec)) (step : nat) (dt : R) (s : nstate) : res vec :=
  if (step <? nrow)%nat then
    Ok (match extra with
        | None => t_to T (F step)
        | Some g => vadd (t_to T (F step)) (t_to T (g step dt (mkN (t_from T (n_y s)) (t_from T (n_v s)) (t_from T (n_a s)))))
        end)
  else Err IndexError.
(** lines 2101-2172. The default of kwargs.get is evaluated even when the argument is given. Simplification: the given matrices have the right size.
    Option 1: the truth value of an array raises ValueError, so the Warning of lines 2133-2136 is never raised. *)
Definition system_in (T : transform) (gv : given) spl (r : rotor) (speed : speed_arg) (F : nat -> vec) (nrow : nat) (t : list R) (extra : option (nat -> R -> nstate -> vec))
    : res (nat -> R -> nstate -> res sysm) :=
  bind (rotor_M spl r None) (fun M0 =>
  bind (rotor_G spl r) (fun G0 =>
  bind (rotor_Ksdt r) (fun Ksdt0 =>
  let M := t_mat T (default M0 (g_M gv)) in
  let C2 := t_mat T (default G0 (g_G gv)) in
  let K2 := t_mat T (default Ksdt0 (g_Ksdt gv)) in
  let ref := match speed with SNum s => s | SArr l => suml l / INR (length l) end in
  let steady := bind (rotor_C spl r ref []) (fun C0 => bind (rotor_K spl r ref []) (fun K0 =>
    Ok (t_mat T (default C0 (g_C gv)), t_mat T (default K0 (g_K gv))))) in
  let option3 := bind steady (fun CK => Ok (fun step dt s => bind (forces_in T F nrow extra step dt s) (fun f => Ok (M, madd (fst CK) (mscale ref C2), snd CK, f)))) in
  match speed with
  | SArr l =>
      if varies l then
        if negb (Nat.eqb (length l) (length t)) then Err ValueError (* np.gradient *) else
        match var_brgs r with
        | [] => (* option 2 *)
            bind steady (fun CK => Ok (fun step dt s => bind (forces_in T F nrow extra step dt s) (fun f =>
              Ok (M, madd (fst CK) (mscale (nth step l 0) C2), madd (snd CK) (mscale (gradient l t step) K2), f))))
        | vb => (* option 1 *)
            match g_C gv, g_K gv with
            | None, None =>
                bind (rotor_C spl r ref (map el_tag vb)) (fun C0 =>
                bind (rotor_K spl r ref (map el_tag vb)) (fun K0 =>
                Ok (fun step dt s =>
                  bind (assemble_C_K spl r vb C0 K0 (nth step l 0)) (fun CK =>
                  bind (forces_in T F nrow extra step dt s) (fun f =>
                  Ok (M, madd (t_mat T (fst CK)) (mscale (nth step l 0) C2), madd (t_mat T (snd CK)) (mscale (gradient l t step) K2), f))))))
            | _, _ => Err ValueError
            end
        end
      else option3
  | SNum _ => option3
  end))).

(** lines 2080-2180 *)
Definition integrate_with (eigh : eigh_t) (la : linalg) spl (r : rotor) (o : nopts) (num_modes : option Z) (gv : given) (speed : speed_arg) (F : nat -> vec) (nrow : nat)
    (t : list R) (extra : option (nat -> R -> nstate -> vec)) : res (list vec) :=
  let ref := match speed with SNum s => s | SArr l => suml l / INR (length l) end in
  bind (match num_modes with
        | Some z => if (0 <? z)%Z then bind (pseudo_modal eigh spl r ref (Z.to_nat z)) (fun mV => Ok (fst mV, modal (r_ndof r) (fst mV) (snd mV))) else Ok (r_ndof r, direct)
        | None => Ok (r_ndof r, direct)
        end) (fun nT =>
  bind (system_in (snd nT) gv spl r speed F nrow t extra) (fun func =>
  bind (newmark la (fst nT) o func t) (fun l => Ok (map (t_from (snd nT)) l)))).
