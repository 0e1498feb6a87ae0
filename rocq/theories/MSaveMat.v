(** Model of Rotor.save_mat, ross/rotor_assembly.py:2981-3013. No proofs here. *)
From Coq Require Import Reals String List.
From Verif Require Import PyBase MatBase MRotor.
Import ListNotations.
Open Scope R_scope.

(** The dictionary given to scipy.io.savemat, :3004-3010. Simplification: what scipy does with it, and the name of the file, are not modelled. *)
Record matfile := mkMatfile { mf_M : mat; mf_K : mat; mf_C : mat; mf_G : mat; mf_nodes : list R }.
Definition save_mat spl (r : rotor) (speed : R) (frequency : option R) : res matfile :=
  let f := default speed frequency in
  bind (rotor_M spl r (Some f)) (fun M => bind (rotor_K spl r f []) (fun K => bind (rotor_C spl r f []) (fun D => bind (rotor_G spl r) (fun G =>
  Ok (mkMatfile M K D G (r_nodes_pos r)))))).
