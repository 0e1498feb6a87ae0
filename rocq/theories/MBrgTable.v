(** Model of BearingElement.from_table and BearingElement.table_to_toml, ross/bearing_seal_element.py:805-875 and :764-803. No proofs here. *)
From Coq Require Import Reals String List.
From Verif Require Import PyBase PyDict MatBase MBearing MTable.
Import ListNotations.
Open Scope string_scope.
Open Scope list_scope.
Open Scope R_scope.

(** A parameter list of read_table_file as a list of numbers; None when an entry is not a number (text, an empty cell, or the None that stands for a
    missing kyy, cyy or frequency column): what numpy and scipy do with those is not modelled. *)
Fixpoint numbers (l : list pyval) : option (list R) :=
  match l with
  | [] => Some []
  | VNum x :: l => match numbers l with Some xs => Some (x :: xs) | None => None end
  | _ => None
  end.
Definition param (d : dict (list pyval)) (k : string) : option (list R) := match dget d k with Some l => numbers l | None => None end.
(** from_table, :805-875. None: not modelled, see [numbers]. *)
Definition bearing_from_table (n : nat) (s : sheet) (tag : option string) (n_link : option nat) (scale_factor : R) (color : string) : res (option bearing) :=
  bind (read_table TBearing s) (fun '(d, _) =>
  match param d "kxx", param d "cxx", param d "kyy", param d "kxy", param d "kyx", param d "cyy", param d "cxy", param d "cyx", param d "frequency" with
  | Some vkxx, Some vcxx, Some vkyy, Some vkxy, Some vkyx, Some vcyy, Some vcxy, Some vcyx, Some f =>
      bind (bearing_init (mkBArgs n (CArr vkxx) (CArr vcxx) None (Some (CArr vkyy)) (CArr vkxy) (CArr vkyx) (Some (CArr vcyy)) (CArr vcxy) (CArr vcyx)
        None (CScal 0) (CScal 0) (Some f) tag n_link scale_factor color)) (fun b => Ok (Some b))
  | _, _, _, _, _, _, _, _, _ => Ok None
  end).
(** table_to_toml, :789-803: the entries of the dictionary *)
Record brg_toml := mkBrgToml { bt_n : nat; bt_kxx : list R; bt_cxx : list R; bt_kyy : list R; bt_kxy : list R; bt_kyx : list R; bt_cyy : list R; bt_cxy : list R;
  bt_cyx : list R; bt_frequency : option (list R) }.
Definition table_to_toml (n : nat) (s : sheet) : res (option brg_toml) :=
  bind (bearing_from_table n s None None 1 "#355d7a") (fun o =>
  match o with
  | None => Ok None
  | Some b => let c x := fst (b_coef b x) in
              Ok (Some (mkBrgToml (b_n b) (c kxx) (c cxx) (c kyy) (c kxy) (c kyx) (c cyy) (c cxy) (c cyx) (b_frequency b)))
  end).
(** the dictionary, once written and read again, as the keyword arguments of the constructor: cls( **data ), ross/element.py:85-95 *)
Definition from_toml (t : brg_toml) : res bearing :=
  bearing_init (mkBArgs (bt_n t) (CArr (bt_kxx t)) (CArr (bt_cxx t)) None (Some (CArr (bt_kyy t))) (CArr (bt_kxy t)) (CArr (bt_kyx t)) (Some (CArr (bt_cyy t)))
    (CArr (bt_cxy t)) (CArr (bt_cyx t)) None (CScal 0) (CScal 0) (bt_frequency t) None None 1 "#355d7a").
