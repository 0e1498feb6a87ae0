(** What a bearing built from a table of coefficients is: vocabulary for the bearings computed from a fluid film and those read from a sheet. *)
From Coq Require Import Reals List String Arith.
From Verif Require Import PyBase MatBase SpecMat MBearing MTable SpecTable.
Import ListNotations.
Open Scope string_scope.
Open Scope list_scope.
Open Scope R_scope.

(** the 2x2 matrix [[xx, xy], [yx, yy]] between the node and the ground, or between the node and the node it is linked to *)
Definition couples (link : option nat) (xx xy yx yy : R) (A : mat) : Prop :=
  match link with
  | None => A 0%nat 0%nat = xx /\ A 0%nat 1%nat = xy /\ A 1%nat 0%nat = yx /\ A 1%nat 1%nat = yy
  | Some _ => forall x, mulv 4 A x 0%nat = xx * (x 0%nat - x 2%nat) + xy * (x 1%nat - x 3%nat) /\
                        mulv 4 A x 1%nat = yx * (x 0%nat - x 2%nat) + yy * (x 1%nat - x 3%nat) /\
                        mulv 4 A x 2%nat = - (xx * (x 0%nat - x 2%nat) + xy * (x 1%nat - x 3%nat)) /\
                        mulv 4 A x 3%nat = - (yx * (x 0%nat - x 2%nat) + yy * (x 1%nat - x 3%nat))
  end.
(** two numbers agree to the tolerance of the smoothing of a table of [n] points *)
Definition close (n : nat) (u v : R) : Prop := (u - v) ^ 2 <= INR n * (1 + 1 / 1000).
(** the coefficients of the [i]-th speed *)
Record eight := mkEight { e_kxx : R; e_kxy : R; e_kyx : R; e_kyy : R; e_cxx : R; e_cxy : R; e_cyx : R; e_cyy : R }.

(** the values a parameter of a bearing sheet has: the numbers of its column in SI units, one for each data row, or zeros when [zero] and there is no such column *)
Definition column_values (s : sheet) (h a z : nat) (eng rpm : bool) (p : string) (alts : list string) (zero : bool) (l : list R) : Prop :=
  List.length l = (z - a)%nat /\
  ((exists j, source (the_row s h) alts j /\ forall i, (i < z - a)%nat -> exists x, cell_val (the_cell s (a + i) j) = VNum x /\ nth_error l i = Some (si TBearing p eng rpm x)) \/
   (zero = true /\ no_source (the_row s h) alts /\ forall i, (i < z - a)%nat -> nth_error l i = Some 0)).
(** the name of a coefficient in a sheet, and whether it may be missing *)
Definition sheet_name (c : cname) : string :=
  match c with kxx => "kxx" | kyy => "kyy" | kxy => "kxy" | kyx => "kyx" | cxx => "cxx" | cyy => "cyy" | cxy => "cxy" | cyx => "cyx" | _ => "" end.
Definition cross (c : cname) : bool := match c with kxy | kyx | cxy | cyx => true | _ => false end.
Definition in_sheet (c : cname) : Prop := match c with mxx | myy | mxy | myx => False | _ => True end.
(** nothing in the way of reading the column *)
Definition readable_column (s : sheet) (h a z : nat) (alts : list string) (zero : bool) : Prop :=
  (exists j, source (the_row s h) alts j /\ forall i, (a <= i < z)%nat -> exists x, cell_val (the_cell s i j) = VNum x) \/ (zero = true /\ no_source (the_row s h) alts).
