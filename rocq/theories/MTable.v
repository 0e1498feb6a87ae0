(** Model of ross/utils.py:read_table_file and of the from_table class methods that call it.
    An Excel sheet is what pandas hands over: a rectangle of cells. Not modelled: the file format, the
    decoding of the cells, booleans and dates in cells. *)
From Coq Require Import Reals List String Ascii Bool Arith ZArith DecimalString.
From Verif Require Import PyBase PyDict.
Import ListNotations.
Open Scope string_scope.
Open Scope list_scope.
Open Scope R_scope.

(** A cell: empty (NaN), text, a whole number, or any other number. *)
Inductive cell := CNaN | CStr (s : string) | CInt (z : Z) | CFlt (x : R).
Definition sheet := list (list cell).

(** Python values that end up in the parameter lists. *)
Inductive pyval := VNone | VNaN | VStr (s : string) | VBool (b : bool) | VNum (x : R).

(** Series.tolist(): the Python value of a cell. *)
Definition cell_val (c : cell) : pyval :=
  match c with CNaN => VNaN | CStr s => VStr s | CInt z => VNum (IZR z) | CFlt x => VNum x end.

(** str.lower, for ASCII text. *)
Definition lower_ascii (c : ascii) : ascii :=
  let k := nat_of_ascii c in
  if (65 <=? k)%nat && (k <=? 90)%nat then ascii_of_nat (k + 32)%nat else c.
Fixpoint lower (s : string) : string :=
  match s with EmptyString => EmptyString | String c s' => String (lower_ascii c) (lower s') end.

(** [p in s] for strings. *)
Fixpoint contains (p s : string) : bool :=
  String.prefix p s || match s with EmptyString => false | String _ s' => contains p s' end.

(** The element kinds of read_table_file: bearing, disk, shaft with sheet_type "Model", shaft with another
    sheet_type. *)
Inductive table_kind := TBearing | TDisk | TShaftModel | TShaftSimple.

(** header_key_word, ross/utils.py:56-114. *)
Definition key_word (k : table_kind) : string :=
  match k with TBearing => "kxx" | TDisk => "ip" | TShaftModel => "od_left" | TShaftSimple => "material" end.

(** parameter_columns, ross/utils.py:58-114. *)
Definition required_columns (k : table_kind) : list (string * list string) :=
  match k with
  | TBearing => [("kxx", ["kxx"]); ("cxx", ["cxx"])]
  | TDisk => [("n", ["unnamed: 0"; "n"]); ("m", ["m"; "mass"]); ("Id", ["it"; "id"]); ("Ip", ["ip"])]
  | _ => [("L", ["length"]); ("idl", ["i_d_l"; "idl"; "id_left"]); ("odl", ["o_d_l"; "odl"; "od_left"]);
          ("idr", ["i_d_r"; "idr"; "id_right"]); ("odr", ["o_d_r"; "odr"; "od_right"]);
          ("material", ["material"; "matnum"])]
  end.

(** optional_parameter_columns with default_dictionary, ross/utils.py:60-108. *)
Definition optional_columns (k : table_kind) : list (string * (list string * pyval)) :=
  match k with
  | TBearing => [("kyy", (["kyy"], VNone)); ("kxy", (["kxy"], VNum 0)); ("kyx", (["kyx"], VNum 0));
                 ("cyy", (["cyy"], VNone)); ("cxy", (["cxy"], VNum 0)); ("cyx", (["cyx"], VNum 0));
                 ("frequency", (["frequency"; "speed"], VNone))]
  | TDisk => []
  | _ => [("n", (["n"; "elemnum"], VNone)); ("axial_force", (["axial_force"; "axial force"; "axial"], VNum 0));
          ("torque", (["torque"], VNum 0)); ("shear_effects", (["shear_effects"; "shear effects"], VBool true));
          ("rotary_inertia", (["rotary_inertia"; "rotary inertia"], VBool true));
          ("gyroscopic", (["gyroscopic"], VBool true));
          ("shear_method_calc", (["shear_method_calc"; "shear method calc"], VStr "cowper"))]
  end.

(** The variables of the header search, ross/utils.py:117-120. *)
Record scan := mkScan { sc_header : option nat; sc_metric : bool; sc_rpm : bool }.
Definition sc_found (st : scan) : bool := match sc_header st with Some _ => true | None => false end.

(** One text cell of the header search, ross/utils.py:123-135. *)
Definition scan_text (key : string) (index : nat) (st : scan) (s : string) : scan :=
  let h := if sc_found st then sc_header st else if String.eqb (lower s) key then Some index else sc_header st in
  let m := if contains "inches" (lower s) || contains "lbm" (lower s) || contains "lb" (lower s) then true else sc_metric st in
  let r := if contains "rpm" (lower s) then true else sc_rpm st in
  mkScan h m r.

(** The cells of one row, with the inner break of ross/utils.py:136-137. *)
Fixpoint scan_row (key : string) (index : nat) (st : scan) (row : list cell) : scan :=
  match row with
  | [] => st
  | CStr s :: row => let st' := scan_text key index st s in
                     if sc_found st' && sc_metric st' && sc_rpm st' then st' else scan_row key index st' row
  | _ :: row => scan_row key index st row
  end.

(** The rows, with the outer break of ross/utils.py:138-139. *)
Fixpoint scan_rows (key : string) (index : nat) (st : scan) (rows : sheet) : scan :=
  match rows with
  | [] => st
  | row :: rows => let st' := scan_row key index st row in
                   if sc_found st' && sc_metric st' then st' else scan_rows key (S index) st' rows
  end.
Definition scan_sheet (key : string) (s : sheet) : scan := scan_rows key 0 (mkScan None false false) s.

(** Column names given by pd.read_excel(header=k) to the cells of row k: text as it is, empty cells become
    "Unnamed: j", and a name that is already taken by an earlier column is changed ("x.1"): such a column,
    like one whose header cell is a number, cannot be asked for by the names used here ([None]). *)
Definition raw_name (j : nat) (c : cell) : option string :=
  match c with
  | CStr s => Some s
  | CNaN => Some ("Unnamed: " ++ NilZero.string_of_uint (Nat.to_uint j))%string
  | _ => None
  end.
Definition opt_eqb (a b : option string) : bool :=
  match a, b with Some x, Some y => String.eqb x y | _, _ => false end.
Fixpoint names_from (j : nat) (seen : list (option string)) (row : list cell) : list (option string) :=
  match row with
  | [] => []
  | c :: row => let nm := raw_name j c in
                (if existsb (opt_eqb nm) seen then None else nm) :: names_from (S j) (nm :: seen) row
  end.
Definition col_names (row : list cell) : list (option string) := names_from 0 [] row.
(** df.columns.str.lower(), ross/utils.py:204. *)
Definition lower_names (l : list (option string)) : list (option string) := map (option_map lower) l.

(** The positions of the columns with a given name. *)
Fixpoint positions (name : string) (j : nat) (l : list (option string)) : list nat :=
  match l with
  | [] => []
  | c :: l => (if opt_eqb (Some name) c then [j] else []) ++ positions name (S j) l
  end.
Definition cell_at (row : list cell) (j : nat) : cell := nth j row CNaN.

(** df[name].tolist(): KeyError without such a column ([None]), AttributeError when two columns share the
    lower-cased name (df[name] is then a DataFrame). *)
Definition column (names : list (option string)) (rows : sheet) (name : string) : option (res (list pyval)) :=
  match positions name 0 names with
  | [] => None
  | [j] => Some (Ok (map (fun row => cell_val (cell_at row j)) rows))
  | _ => Some (Err AttributeError)
  end.

(** isinstance(x, (int, float)) and not isna(x) for a cell of a row given by iterrows. When every cell of the
    table is a whole number all columns are int64, the row holds numpy.int64 values, and those are not
    instances of int. *)
Definition all_whole (rows : sheet) : bool :=
  forallb (forallb (fun c => match c with CInt _ => true | _ => false end)) rows.
Definition is_number (whole : bool) (c : cell) : bool :=
  match c with CInt _ => negb whole | CFlt _ => true | _ => false end.
(** row[header_key_word] is a number (a repeated column name gives a Series, never a number). *)
Definition key_number (names : list (option string)) (whole : bool) (key : string) (row : list cell) : bool :=
  match positions key 0 names with [j] => is_number whole (cell_at row j) | _ => false end.

(** The data rows, ross/utils.py:207-239: the rows kept and the final value of first_data_row_found. *)
Fixpoint data_rows (num : list cell -> bool) (first last : bool) (rows : sheet) : sheet * bool :=
  match rows with
  | [] => ([], first)
  | r :: rows =>
      if negb first && num r then let (k, f) := data_rows num true last rows in (r :: k, f)
      else if negb first then data_rows num first last rows
      else if first && negb last then
        if num r then let (k, f) := data_rows num first last rows in (r :: k, f)
        else data_rows num first true rows
      else data_rows num first last rows
  end.

(** The first listed name that is a column, ross/utils.py:244-254 and 255-264. *)
Fixpoint first_column (names : list (option string)) (rows : sheet) (alts : list string) : option (res (list pyval)) :=
  match alts with
  | [] => None
  | a :: alts => match column names rows a with Some r => Some r | None => first_column names rows alts end
  end.
Fixpoint read_required names rows (cols : list (string * list string)) (d : dict (list pyval)) : res (dict (list pyval)) :=
  match cols with
  | [] => Ok d
  | (k, alts) :: cols =>
      match first_column names rows alts with
      | Some (Ok l) => read_required names rows cols (dset d k l)
      | Some (Err e) => Err e
      | None => Err ValueError
      end
  end.
Fixpoint read_optional names rows (cols : list (string * (list string * pyval))) (d : dict (list pyval)) : res (dict (list pyval)) :=
  match cols with
  | [] => Ok d
  | (k, (alts, dflt)) :: cols =>
      match first_column names rows alts with
      | Some (Ok l) => read_optional names rows cols (dset d k l)
      | Some (Err e) => Err e
      | None => read_optional names rows cols (dset d k (repeat dflt (List.length rows)))
      end
  end.

(** [v * f] and [v - 1] for a float f. *)
Definition vmul (f : R) (v : pyval) : res pyval :=
  match v with
  | VNum x => Ok (VNum (x * f)) | VNaN => Ok VNaN
  | VBool b => Ok (VNum ((if b then 1 else 0) * f))
  | VNone | VStr _ => Err TypeError
  end.
Definition vpred (v : pyval) : res pyval :=
  match v with
  | VNum x => Ok (VNum (x - 1)) | VNaN => Ok VNaN
  | VBool b => Ok (VNum ((if b then 1 else 0) - 1))
  | VNone | VStr _ => Err TypeError
  end.
Fixpoint mapM {A B} (f : A -> res B) (l : list A) : res (list B) :=
  match l with [] => Ok [] | x :: l => bind (f x) (fun y => bind (mapM f l) (fun r => Ok (y :: r))) end.

(** int(v): truncation. Simplification: text always raises ValueError (int("3") would be 3). *)
Definition trunc (x : R) : Z := if Rle_dec 0 x then Int_part x else (- Int_part (- x))%Z.
Definition vint (v : pyval) : res Z :=
  match v with
  | VNum x => Ok (trunc x) | VBool b => Ok (if b then 1 else 0)%Z
  | VNaN | VStr _ => Err ValueError
  | VNone => Err TypeError
  end.
Definition str_of_Z (z : Z) : string := NilZero.string_of_int (Z.to_int z).

(** Replace one parameter list by its image, for every row: parameters[k][i] = f(parameters[k][i]). *)
Definition update (k : string) (f : pyval -> res pyval) (d : dict (list pyval)) : res (dict (list pyval)) :=
  match dget d k with
  | None => Err KeyError
  | Some l => bind (mapM f l) (fun l' => Ok (dset d k l'))
  end.
Fixpoint update_all (fs : list (string * R)) (d : dict (list pyval)) : res (dict (list pyval)) :=
  match fs with
  | [] => Ok d
  | (k, f) :: fs => bind (update k (vmul f) d) (update_all fs)
  end.

(** The conversion factors, ross/utils.py:279-308 (the loops over rows and over names are exchanged; every
    exception they raise is a TypeError). *)
Definition metric_factors (k : table_kind) : list (string * R) :=
  match k with
  | TBearing => let f := 1751268369864 / 10 ^ 10 in
      [("kxx", f); ("cxx", f); ("kyy", f); ("kxy", f); ("kyx", f); ("cyy", f); ("cxy", f); ("cyx", f)]
  | TDisk => [("m", 45359237 / 10 ^ 8); ("Id", 2926397 / 10 ^ 10); ("Ip", 2926397 / 10 ^ 10)]
  | _ => let f := 254 / 10 ^ 4 in
      [("L", f); ("idl", f); ("odl", f); ("idr", f); ("odr", f); ("axial_force", 4448221615255 / 10 ^ 12)]
  end.
Definition rpm_factors (k : table_kind) : list (string * R) :=
  match k with TBearing => [("frequency", 1047197551197 / 10 ^ 13)] | _ => [] end.

(** One material of a Model sheet: the entries of new_materials at one position, ross/utils.py:171-201. *)
Record mat_row := mkMatRow { mt_no : Z; mt_rho : pyval; mt_e : pyval; mt_g : pyval; mt_color : pyval }.

(** The row of the "matno" header, ross/utils.py:153-161. *)
Fixpoint find_text (key : string) (index : nat) (rows : sheet) : option nat :=
  match rows with
  | [] => None
  | row :: rows =>
      if existsb (fun c => match c with CStr s => String.eqb (lower s) key | _ => false end) row
      then Some index else find_text key (S index) rows
  end.
(** row[name] with the names as written (not lower-cased). *)
Definition row_get (names : list (option string)) (row : list cell) (name : string) : res cell :=
  match positions name 0 names with [] => Err KeyError | j :: _ => Ok (cell_at row j) end.
Definition mat_color (names : list (option string)) (row : list cell) : pyval :=
  match positions "color" 0 names with
  | [] => VStr "#525252"
  | j :: _ => match cell_at row j with CNaN => VStr "#525252" | c => cell_val c end
  end.
(** ross/utils.py:176-191 *)
Fixpoint mat_rows (names : list (option string)) (rows : sheet) : res (list mat_row) :=
  match rows with
  | [] => Ok []
  | row :: rows =>
      bind (row_get names row "matno") (fun c =>
      match c with
      | CNaN => Ok []
      | _ => bind (vint (cell_val c)) (fun no =>
             bind (row_get names row "rhoa") (fun r =>
             bind (row_get names row "ea") (fun e =>
             bind (row_get names row "ga") (fun g =>
             bind (mat_rows names rows) (fun ms =>
             Ok (mkMatRow no (cell_val r) (cell_val e) (cell_val g) (mat_color names row) :: ms))))))
      end)
  end.
(** ross/utils.py:192-196 *)
Definition mat_metric (m : mat_row) : res mat_row :=
  bind (vmul (27679904 / 10 ^ 3) (mt_rho m)) (fun r =>
  bind (vmul (6894757 / 10 ^ 3) (mt_e m)) (fun e =>
  bind (vmul (6894757 / 10 ^ 3) (mt_g m)) (fun g =>
  Ok (mkMatRow (mt_no m) r e g (mt_color m))))).
Definition read_materials (metric : bool) (s : sheet) : res (list mat_row) :=
  match find_text "matno" 0 s with
  | None => Err ValueError
  | Some h =>
      bind (mat_rows (col_names (nth h s [])) (skipn (S h) s)) (fun ms =>
      if metric then mapM mat_metric ms else Ok ms)
  end.

(** read_table_file, ross/utils.py:18-310: the parameter lists and the materials of a Model sheet. The
    bearing's n, which is handed through unchanged, is left out. *)
Definition read_table (k : table_kind) (s : sheet) : res (dict (list pyval) * list mat_row) :=
  let st := scan_sheet (key_word k) s in
  match sc_header st with
  | None => Err ValueError
  | Some h =>
      bind (match k with TShaftModel => read_materials (sc_metric st) s | _ => Ok [] end) (fun ms =>
      let names := lower_names (col_names (nth h s [])) in
      let body := skipn (S h) s in
      let (rows, found) := data_rows (key_number names (all_whole body) (key_word k)) false false body in
      if negb found then Err DataNotFound else
      bind (read_required names rows (required_columns k) []) (fun d =>
      bind (read_optional names rows (optional_columns k) d) (fun d =>
      bind (match k with
            | TShaftModel => update "material" (fun v => bind (vint v) (fun z => Ok (VStr ("shaft_mat_" ++ str_of_Z z)%string))) d
            | _ => Ok d end) (fun d =>
      bind (match k with TBearing => Ok d | _ => update "n" vpred d end) (fun d =>
      bind (if sc_metric st then update_all (metric_factors k) d else Ok d) (fun d =>
      bind (if sc_rpm st then update_all (rpm_factors k) d else Ok d) (fun d =>
      Ok (d, ms))))))))
  end.

(** The i-th entry of a parameter list. *)
Definition entry (d : dict (list pyval)) (k : string) (i : nat) : pyval :=
  match dget d k with Some l => nth i l VNone | None => VNone end.

(** DiskElement.from_table, ross/disk_element.py:499-520: the arguments of every disk; float(x) keeps a number,
    int(n) truncates (disk_element.py:60). Simplification: text in m, Id, Ip always raises ValueError. *)
Record disk_row := mkDiskRow { tb_n : Z; tb_m : pyval; tb_Id : pyval; tb_Ip : pyval }.
Definition vfloat (v : pyval) : res pyval :=
  match v with
  | VNum x => Ok (VNum x) | VNaN => Ok VNaN | VBool b => Ok (VNum (if b then 1 else 0))
  | VStr _ => Err ValueError | VNone => Err TypeError
  end.
Definition disk_from_table (s : sheet) : res (list disk_row) :=
  bind (read_table TDisk s) (fun p =>
  let d := fst p in
  mapM (fun i =>
    bind (vfloat (entry d "Id" i)) (fun id =>
    bind (vfloat (entry d "Ip" i)) (fun ip =>
    bind (vint (entry d "n" i)) (fun n =>
    bind (vfloat (entry d "m" i)) (fun m => Ok (mkDiskRow n m id ip))))))
    (seq 0 (List.length (default [] (dget d "n"))))).

(** ShaftElement.from_table with sheet_type "Model", ross/shaft_element.py:1057-1095: for every element its row
    of arguments and the material its number stands for; a number without material is a KeyError, and the
    last of several materials with one number is the one used. *)
Definition find_material (ms : list mat_row) (name : string) : option mat_row :=
  find (fun m => String.eqb ("shaft_mat_" ++ str_of_Z (mt_no m))%string name) (rev ms).
Record shaft_row := mkShaftRow { sr_material : mat_row; sr_arg : string -> pyval }.
Definition shaft_from_table (s : sheet) : res (list shaft_row) :=
  bind (read_table TShaftModel s) (fun p =>
  let (d, ms) := p in
  mapM (fun i =>
    match entry d "material" i with
    | VStr name => match find_material ms name with
                   | Some m => Ok (mkShaftRow m (fun k => entry d k i))
                   | None => Err KeyError
                   end
    | _ => Err KeyError
    end) (seq 0 (List.length (default [] (dget d "L"))))).
