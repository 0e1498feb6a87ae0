(** What a table of elements in a sheet is: the vocabulary of the statements about reading tables. *)
From Coq Require Import Reals List String Bool Arith ZArith DecimalString.
From Verif Require Import PyBase PyDict MTable.
Import ListNotations.
Open Scope string_scope.
Open Scope list_scope.
Open Scope R_scope.

Definition the_row (s : sheet) (i : nat) : list cell := nth i s [].
Definition the_cell (s : sheet) (i j : nat) : cell := nth j (the_row s i) CNaN.

(** a text cell equal to the word, ignoring case *)
Definition says (w : string) (c : cell) : Prop := exists t, c = CStr t /\ lower t = w.
(** a text cell in which the word occurs, ignoring case *)
Definition mentions (w : string) (c : cell) : Prop :=
  exists t a b, c = CStr t /\ lower t = (a ++ w ++ b)%string.

(** the unit marks *)
Definition english_mark (c : cell) : Prop := mentions "inches" c \/ mentions "lb" c.
Definition rpm_mark (c : cell) : Prop := mentions "rpm" c.
Definition marked (mark : cell -> Prop) (s : sheet) (i : nat) : Prop := exists c, In c (the_row s i) /\ mark c.
(** the sheet carries an English unit somewhere *)
Definition english (s : sheet) : Prop := exists i, marked english_mark s i.
(** "rpm" in a row that is not below both the header and a row with an English unit *)
Definition speaks_rpm (s : sheet) (h : nat) : Prop :=
  exists i, marked rpm_mark s i /\ ~ ((h < i)%nat /\ exists e, (e < i)%nat /\ marked english_mark s e).

(** row [h] is the first one with a cell equal to the word *)
Definition header_row (w : string) (s : sheet) (h : nat) : Prop :=
  (exists c, In c (the_row s h) /\ says w c) /\ forall i c, (i < h)%nat -> In c (the_row s i) -> ~ says w c.

(** the name of column [j]: the text of its header cell, unless an earlier header cell has the same text *)
Definition col_text (header : list cell) (j : nat) : option string :=
  match nth_error header j with
  | Some (CStr t) => Some t
  | Some CNaN => Some ("Unnamed: " ++ NilZero.string_of_uint (Nat.to_uint j))%string
  | _ => None
  end.
Definition named (header : list cell) (w : string) (j : nat) : Prop :=
  exists t, col_text header j = Some t /\ lower t = w /\ forall i, (i < j)%nat -> col_text header i <> Some t.
Definition the_column (header : list cell) (w : string) (j : nat) : Prop :=
  named header w j /\ forall i, named header w i -> i = j.
(** the column used for a parameter: the only one with the first of the accepted names that occurs *)
Definition source (header : list cell) (alts : list string) (j : nat) : Prop :=
  exists before w after, alts = before ++ w :: after /\ the_column header w j /\
    forall w' i, In w' before -> ~ named header w' i.
Definition no_source (header : list cell) (alts : list string) : Prop := forall w i, In w alts -> ~ named header w i.

(** numbers: when nothing but whole numbers stands below the header, they are not recognised *)
Definition only_whole (s : sheet) (h : nat) : Prop :=
  forall i c, (h < i < List.length s)%nat -> In c (the_row s i) -> exists z, c = CInt z.
Definition a_number (s : sheet) (h : nat) (c : cell) : Prop :=
  (exists x, c = CFlt x) \/ ((exists z, c = CInt z) /\ ~ only_whole s h).

(** the table of a sheet: header row [h], data rows [a] to [b] (excluded): the first unbroken run of rows with
    a number in the key column *)
Record table (k : table_kind) (s : sheet) (h a b : nat) : Prop := {
  tb_header : header_row (key_word k) s h;
  tb_order : (h < a < b)%nat /\ (b <= List.length s)%nat;
  tb_rows : exists j, the_column (the_row s h) (key_word k) j /\
     (forall i, (h < i < a)%nat -> ~ a_number s h (the_cell s i j)) /\
     (forall i, (a <= i < b)%nat -> a_number s h (the_cell s i j)) /\
     (b = List.length s \/ ~ a_number s h (the_cell s b j)) }.

(** the accepted column names and the default of every parameter *)
Definition accepted (k : table_kind) (p : string) (alts : list string) (dflt : option pyval) : Prop :=
  (In (p, alts) (required_columns k) /\ dflt = None) \/
  (exists d, In (p, (alts, d)) (optional_columns k) /\ dflt = Some d).

(** how many SI units an English unit is, per parameter; 1 when the parameter has no unit here *)
Definition inch : R := 254 / 10 ^ 4.            (* m *)
Definition pound_mass : R := 45359237 / 10 ^ 8.  (* kg *)
Definition gravity : R := 980665 / 10 ^ 5.       (* m/s^2 *)
Definition pound_force : R := pound_mass * gravity.
(** the factor applied by the code *)
Definition factor (k : table_kind) (p : string) : R :=
  match k with
  | TBearing => if existsb (String.eqb p) ["kxx"; "cxx"; "kyy"; "kxy"; "kyx"; "cyy"; "cxy"; "cyx"] then 1751268369864 / 10 ^ 10 else 1
  | TDisk => if String.eqb p "m" then 45359237 / 10 ^ 8
             else if String.eqb p "Id" || String.eqb p "Ip" then 2926397 / 10 ^ 10 else 1
  | _ => if existsb (String.eqb p) ["L"; "idl"; "odl"; "idr"; "odr"] then 254 / 10 ^ 4
         else if String.eqb p "axial_force" then 4448221615255 / 10 ^ 12 else 1
  end.
(** the same factor from the definitions of the units *)
Definition true_factor (k : table_kind) (p : string) : R :=
  match k with
  | TBearing => if existsb (String.eqb p) ["kxx"; "cxx"; "kyy"; "kxy"; "kyx"; "cyy"; "cxy"; "cyx"] then pound_force / inch else 1
  | TDisk => if String.eqb p "m" then pound_mass
             else if String.eqb p "Id" || String.eqb p "Ip" then pound_mass * inch ^ 2 else 1
  | _ => if existsb (String.eqb p) ["L"; "idl"; "odl"; "idr"; "odr"] then inch
         else if String.eqb p "axial_force" then pound_force else 1
  end.
(** revolutions per minute in rad/s, as applied *)
Definition rpm_factor (k : table_kind) (p : string) : R :=
  match k with TBearing => if String.eqb p "frequency" then 1047197551197 / 10 ^ 13 else 1 | _ => 1 end.
(** the node numbers of disks and shafts count from 1 in the sheet *)
Definition shift (k : table_kind) (p : string) : R :=
  match k with TBearing => 0 | _ => if String.eqb p "n" then 1 else 0 end.
(** the parameters that must be numbers when the sheet has the units [eng], [rpm] *)
Definition numeric (k : table_kind) (p : string) (eng rpm : bool) : bool :=
  match k with
  | TBearing => (eng && existsb (String.eqb p) ["kxx"; "cxx"; "kyy"; "kxy"; "kyx"; "cyy"; "cxy"; "cyx"])
                || (rpm && String.eqb p "frequency")
  | TDisk => String.eqb p "n" || (eng && existsb (String.eqb p) ["m"; "Id"; "Ip"])
  | _ => String.eqb p "n" || (eng && existsb (String.eqb p) ["L"; "idl"; "odl"; "idr"; "odr"; "axial_force"])
  end.
(** the value read from a number *)
Definition si (k : table_kind) (p : string) (eng rpm : bool) (x : R) : R :=
  (x - shift k p) * (if eng then factor k p else 1) * (if rpm then rpm_factor k p else 1).
(** what a value [v] of the table becomes: numbers are converted to SI, empty cells stay, anything else is only
    accepted where no conversion applies; on a Model sheet the material becomes a name *)
Definition reads (k : table_kind) (p : string) (eng rpm : bool) (v w : pyval) : Prop :=
  if match k with TShaftModel => String.eqb p "material" | _ => false end then
    match v with VNum x => w = VStr ("shaft_mat_" ++ str_of_Z (trunc x))%string | VBool _ => True | _ => False end
  else
    match v with
    | VNum x => w = VNum (si k p eng rpm x)
    | VNaN => w = VNaN
    | VBool _ => numeric k p eng rpm = false -> w = v
    | VStr _ | VNone => numeric k p eng rpm = false /\ w = v
    end.
(** a bool that tells the truth about a proposition *)
Definition tells (b : bool) (P : Prop) : Prop := b = true <-> P.
(** a number or an empty cell *)
Definition value (v : pyval) : Prop := (exists x, v = VNum x) \/ v = VNaN.
(** the column with exactly this header text (the first one) *)
Definition exact_column (header : list cell) (w : string) (j : nat) : Prop :=
  col_text header j = Some w /\ forall i, (i < j)%nat -> col_text header i <> Some w.
(** a number times a factor when the sheet is in English units *)
Definition scaled (eng : bool) (f : R) (v w : pyval) : Prop :=
  if eng then match v with VNum x => w = VNum (x * f) | VNaN => w = VNaN | _ => False end else w = v.
