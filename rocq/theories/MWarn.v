(** Model of Rotor._check_frequency_array, ross/rotor_assembly.py:1164-1194, and of the analyses that call it before they compute. No proofs here. *)
From Coq Require Import Reals List Bool.
From Verif Require Import PyBase MatBase CMat MBearing MRotor MDynamics MModal MUcs.
Import ListNotations.
Open Scope R_scope.

(** bearing.frequency *)
Definition el_frequency (e : elem) : option (list R) := match e with EBrg _ b => b_frequency (brg_base b) | _ => None end.
(** The loop over the bearings, :1186-1194: true when the warning is given. np.max, np.min, max and min of nothing raise ValueError ([extreme]). *)
Fixpoint check_frequency_array (range : list R) (brgs : list elem) : res bool :=
  match brgs with
  | [] => Ok false
  | e :: l =>
      match el_frequency e with
      | None => check_frequency_array range l
      | Some f =>
          bind (extreme Rmax range) (fun hi => bind (extreme Rmax f) (fun top =>
          if Rlt_dec top hi then Ok true else
          bind (extreme Rmin range) (fun lo => bind (extreme Rmin f) (fun bottom =>
          if Rlt_dec lo bottom then Ok true else check_frequency_array range l))))
      end
  end.
(** run_freq_response with its warning, ross/rotor_assembly.py:1685-1705 *)
Definition freq_response_warning (la : linalg) spl (r : rotor) (speeds : list R) (modes : option (list nat)) : res (bool * list (cmat * cmat * cmat)) :=
  bind (check_frequency_array speeds (r_brg r)) (fun w => bind (run_freq_response la spl r speeds modes) (fun y => Ok (w, y))).
(** run_campbell with its warning, ross/rotor_assembly.py:2452-2487 *)
Definition campbell_warning (la : linalg) (eigs : eigs_t) (eig2 : mat -> R * R) spl (r : rotor) (speeds : list R) (frequencies : nat) (by_wd : bool) : St (bool * list campbell_row) :=
  sbind (sres (check_frequency_array speeds (r_brg r))) (fun w => sbind (run_campbell la eigs eig2 spl r speeds frequencies by_wd) (fun y => sret (w, y))).
