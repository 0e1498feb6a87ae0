(** Saving and loading of results: ross/results.py:41-175, :1822-1834, with the constructors of the result classes. *)
From Coq Require Import Reals String Ascii List Bool Arith ZArith.
From Coquelicot Require Import Complex.
From Verif Require Import PyBase PyDict MSave MDynamics.
Import ListNotations.
Open Scope string_scope.
Open Scope list_scope.

(** ** Values *)

(** A numpy array (or a list of lists): shape and entries in row order. The shape [] is an array without dimension, as np.array("text"). *)
Definition arr (A : Type) : Type := (list nat * list A)%type.
(** A value of a toml file *)
Inductive wval :=
| WNum (x : R) | WInt (z : Z) | WBool (b : bool) | WText (s : string)
| WReals (a : arr R) | WInts (a : arr Z) | WTexts (a : arr string) | WTab (d : dict wval).
(** A value of an argument of a results class. Lists and arrays are not told apart. [VCplx] is a single complex number, [VFrame] a pandas table,
    of which only the names of the columns appear, [VDict] a dictionary, [VDict0] np.array(dictionary), [VObj] any other object and [VObjs] a list
    of them, each given by the text repr(object). *)
Inductive rval :=
| VNone | VNum (x : R) | VInt (z : Z) | VBool (b : bool) | VStr (s : string) | VCplx (z : C)
| VReals (a : arr R) | VInts (a : arr Z) | VComplex (a : arr C) | VStrs (a : arr string)
| VFrame (columns : list string) | VDict (d : dict wval) | VDict0 (d : dict wval) | VRotor (r : robj) | VObj (repr : string) | VObjs (reprs : list string).

(** ** The classes and the parameters of their constructors, ross/results.py:235, :385, :793, :866, :1414, :1859, :2355, :3797, :4212, :4409, :4515, :4845, :5122 *)
Inductive rclass := ROrbit | RShape | RCritical | RModal | RCampbell | RFrequency | RForced | RStatic | RSummary | RConvergence | RTime | RUcs | RLevel1.
Definition rname (c : rclass) : string :=
  match c with
  | ROrbit => "Orbit" | RShape => "Shape" | RCritical => "CriticalSpeedResults" | RModal => "ModalResults" | RCampbell => "CampbellResults"
  | RFrequency => "FrequencyResponseResults" | RForced => "ForcedResponseResults" | RStatic => "StaticResults" | RSummary => "SummaryResults"
  | RConvergence => "ConvergenceResults" | RTime => "TimeResponseResults" | RUcs => "UCSResults" | RLevel1 => "Level1Results"
  end.
(** with the defaults; [None] for a parameter without default *)
Definition required (l : list string) : list (string * option rval) := map (fun k => (k, None)) l.
Definition rparams (c : rclass) : list (string * option rval) :=
  match c with
  | ROrbit => required ["node"; "node_pos"; "ru_e"; "rv_e"]
  | RShape => required ["vector"; "nodes"; "nodes_pos"; "shaft_elements_length"; "number_dof"] ++ [("normalize", Some (VBool false))]
  | RCritical => required ["_wn"; "_wd"; "log_dec"; "damping_ratio"; "whirl_direction"]
  | RModal => required ["speed"; "evalues"; "evectors"; "wn"; "wd"; "damping_ratio"; "log_dec"; "ndof"; "nodes"; "nodes_pos"; "shaft_elements_length"; "number_dof"]
  | RCampbell => required ["speed_range"; "wd"; "log_dec"; "damping_ratio"; "whirl_values"; "modal_results"; "number_dof"; "run_modal"]
  | RFrequency => required ["freq_resp"; "velc_resp"; "accl_resp"; "speed_range"; "number_dof"]
  | RForced => required ["rotor"; "forced_resp"; "velc_resp"; "accl_resp"; "speed_range"] ++ [("unbalance", Some VNone)]
  | RStatic => required ["deformation"; "Vx"; "Bm"; "w_shaft"; "disk_forces"; "bearing_forces"; "nodes"; "nodes_pos"; "Vx_axis"]
  | RSummary => required ["df_shaft"; "df_disks"; "df_bearings"; "brg_forces"; "CG"; "Ip"; "tag"]
  | RConvergence => required ["el_num"; "eigv_arr"; "error_arr"]
  | RTime => required ["rotor"; "t"; "yout"; "xout"]
  | RUcs => required ["stiffness_range"; "stiffness_log"; "bearing_frequency_range"; "wn"; "bearing"; "intersection_points"; "critical_points_modal"]
  | RLevel1 => required ["stiffness_range"; "log_dec"]
  end.
(** the arguments a constructor computes with (the others only store theirs): a text there is a TypeError of numpy *)
Definition computed (c : rclass) : list string :=
  match c with ROrbit => ["ru_e"; "rv_e"] | RShape => ["vector"] | RModal => ["evectors"] | _ => [] end.
Definition is_text (v : rval) : bool := match v with VStr _ | VStrs _ => true | _ => false end.
(** An object of a results class: its constructor arguments, which are also its attributes. *)
Record results := mkResults { rs_class : rclass; rs_args : dict rval }.
(** cls( **data) *)
Fixpoint take_args (ps : list (string * option rval)) (d : dict rval) : res (dict rval) :=
  match ps with
  | [] => Ok []
  | (k, dflt) :: ps =>
      match dget d k, dflt with
      | Some v, _ => bind (take_args ps d) (fun l => Ok ((k, v) :: l))
      | None, Some v => bind (take_args ps d) (fun l => Ok ((k, v) :: l))
      | None, None => Err TypeError
      end
  end.
Definition construct (c : rclass) (d : dict rval) : res results :=
  if negb (forallb (fun p => existsb (String.eqb (fst p)) (map fst (rparams c))) d) then Err TypeError else
  bind (take_args (rparams c) d) (fun l =>
  if existsb (fun p => existsb (String.eqb (fst p)) (computed c) && is_text (snd p)) l then Err TypeError else Ok (mkResults c l)).

(** ** Files *)

(** A section of a file: of a results object, or of Rotor.save *)
Inductive content := CRes (d : dict wval) | CElem (s : section).
(** A path: no file, a file that is not toml, or a file with these sections. *)
Inductive node := NoFile | Broken | Toml (d : dict content).
Definition fs := string -> node.
Definition put (s : fs) (p : string) (n : node) : fs := fun q => if String.eqb q p then n else s q.

(** ** What toml writes *)

(** np.array(nested list) of an array with a zero among its dimensions has no further dimensions *)
Fixpoint upto_zero (s : list nat) : list nat := match s with [] => [] | O :: _ => [O] | n :: s => n :: upto_zero s end.
Definition norm {A} (a : arr A) : arr A := (upto_zero (fst a), snd a).
(** toml writes repr(object) between double quotes without escapes: a quote or a line end spoils the file. A backslash may; it counts as such here. *)
Fixpoint clean (s : string) : bool :=
  match s with
  | EmptyString => true
  | String c s => negb (Ascii.eqb c """" || Ascii.eqb c "010" || Ascii.eqb c "\") && clean s
  end.
Inductive written := Skip | Put (w : wval) | Spoil | Fail.
Definition put_arr {A} (f : arr A -> wval) (a : arr A) : written := match fst a with [] => Fail | _ => Put (f (norm a)) end.
(** [crepr] is repr of a complex number. An array without dimension cannot be iterated: TypeError. Of a table the names of the columns are written. *)
Definition dump (crepr : C -> string) (v : rval) : written :=
  match v with
  | VNone => Skip
  | VNum x => Put (WNum x) | VInt z => Put (WInt z) | VBool b => Put (WBool b) | VStr s => Put (WText s)
  | VCplx z => Put (WText (crepr z))
  | VReals a => put_arr WReals a | VInts a => put_arr WInts a | VStrs a => put_arr WTexts a
  | VComplex a => put_arr (fun b => WTexts (fst b, map crepr (snd b))) a
  | VFrame l => Put (WTexts ([length l], l))
  | VDict d => Put (WTab d)
  | VDict0 _ => Fail
  | VRotor _ => Put (WText "<ross.rotor_assembly.Rotor object>")
  | VObj s => if clean s then Put (WText s) else Spoil
  | VObjs l => if forallb clean l then Put (WTexts ([length l], l)) else Spoil
  end.
(** the section; [None]: the text is no toml *)
Fixpoint dump_args (crepr : C -> string) (d : dict rval) : res (option (dict wval)) :=
  match d with
  | [] => Ok (Some [])
  | (k, v) :: d =>
      match dump crepr v with
      | Fail => Err TypeError
      | w => bind (dump_args crepr d) (fun r => Ok match w, r with
               | Put x, Some l => Some ((k, x) :: l)
               | Skip, r => r
               | _, _ => None
               end)
      end
  end.

(** ** Results.save, ross/results.py:80-103, and CampbellResults.save, :1822-1827
    Result: the files afterwards and the outcome. The file is opened for writing, and thus emptied, before its new text is made. *)
(** str(file)[:-5] + "_rotor" + str(file)[-5:] *)
Definition aux_file (p : string) : string :=
  let k := (String.length p - 5)%nat in (substring 0 k p ++ "_rotor" ++ substring k (String.length p - k) p)%string.
(** data["CampbellResults"].pop("modal_results") *)
Definition drop_modal (d : dict content) : dict content :=
  map (fun p => if String.eqb (fst p) "CampbellResults" then (fst p, match snd p with CRes s => CRes (ddel s "modal_results") | c => c end) else p) d.
Definition of_rotor_file (f : file) : node := match f with Some d => Toml (map (fun p => (fst p, CElem (snd p))) d) | None => NoFile end.
Definition res_save (crepr : C -> string) (s : fs) (p : string) (o : results) : fs * res unit :=
  match (match s p with NoFile => Ok [] | Broken => Err ValueError | Toml d => Ok d end) with
  | Err e => (s, Err e)
  | Ok data =>
      let args := match rs_class o with RCampbell => ddel (rs_args o) "modal_results" | _ => rs_args o end in
      match dump_args crepr args with
      | Err e => (put s p (Toml []), Err e)
      | Ok sec =>
          let s1 := put s p (match sec with Some l => Toml (drop_modal (dset data (rname (rs_class o)) (CRes l))) | None => Broken end) in
          match dget (rs_args o) "rotor" with
          | Some (VRotor r) => let fr := rotor_save None r in (put s1 (aux_file p) (of_rotor_file (fst fr)), snd fr)
          | Some _ => (s1, Err AttributeError)
          | None => (s1, Ok tt)
          end
      end
  end.

(** ** Results.load, ross/results.py:149-175, and CampbellResults.load, :1829-1834 *)

(** np.array(texts).dtype is <U40 ... <U49 *)
Definition longest (l : list string) : nat := fold_right (fun s n => Nat.max (String.length s) n) 0%nat l.
Definition str_type (l : list string) : bool := ((40 <=? longest l) && (longest l <=? 49))%nat.
(** [cparse] is complex(text); an exception leaves the value of the file *)
Definition read_texts (cparse : string -> option C) (a : arr string) (kept : rval) : rval :=
  if str_type (snd a)
  then match mapM (fun t => match cparse t with Some z => Ok z | None => Err ValueError end) (snd a) with Ok l => VComplex (fst a, l) | Err _ => kept end
  else VStrs a.
(** np.array([]) is an array of floats, whatever was written *)
Definition read_arr {A} (f : arr A -> rval) (a : arr A) : rval := match snd a with [] => VReals (fst a, []) | _ => f a end.
Definition read_val (cparse : string -> option C) (w : wval) : rval :=
  match w with
  | WNum x => VNum x | WInt z => VInt z | WBool b => VBool b
  | WText t => read_texts cparse ([], [t]) (VStr t)
  | WReals a => VReals a | WInts a => read_arr VInts a
  | WTexts a => read_arr (fun a => read_texts cparse a (VStrs a)) a
  | WTab d => VDict0 d
  end.
(** Simplification: sections of results in the file of a rotor are refused. *)
Definition to_rotor_file (n : node) : res file :=
  match n with
  | NoFile => Ok None
  | Broken => Err ValueError
  | Toml d => bind (mapM (fun p => match snd p with CElem s => Ok (fst p, s) | CRes _ => Err RuntimeErr end) d) (fun d => Ok (Some d))
  end.
Fixpoint read_args (cparse : string -> option C) (s : fs) (p : string) (d : dict wval) : res (dict rval) :=
  match d with
  | [] => Ok []
  | (k, w) :: d =>
      bind (if String.eqb k "rotor" then bind (to_rotor_file (s (aux_file p))) (fun f => bind (rotor_load f) (fun r => Ok (VRotor r))) else Ok (read_val cparse w)) (fun v =>
      bind (read_args cparse s p d) (fun l => Ok ((k, v) :: l)))
  end.
(** list(data.values())[0]: the first section, whatever the class. Simplification: a first section written by Rotor.save is refused. *)
Definition res_load (cparse : string -> option C) (c : rclass) (s : fs) (p : string) : res results :=
  match s p with
  | NoFile => Err FileNotFound
  | Broken => Err ValueError
  | Toml [] => Err IndexError
  | Toml ((_, CElem _) :: _) => Err TypeError
  | Toml ((_, CRes d) :: _) =>
      bind (read_args cparse s p d) (fun l =>
      construct c (match c with RCampbell => dset l "modal_results" VNone | _ => l end))
  end.

(** repr(bearing), ross/bearing_seal_element.py:365-386 and :1899-1920: the first line and the rest of the text *)
Definition bearing_repr (class_n n_link_text rest : string) : string :=
  (class_n ++ ", n_link=" ++ n_link_text ++ "," ++ String "010" rest)%string.
