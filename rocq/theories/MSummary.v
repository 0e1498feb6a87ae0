(** Model of Rotor.summary, ross/rotor_assembly.py:3299-3330, and of the tables SummaryResults.plot shows, ross/results.py:4212-4277. No proofs here. *)
From Coq Require Import Reals String List Bool.
From Verif Require Import PyBase MatBase MBearing MRotor MStatic.
Import ListNotations.
Open Scope string_scope.
Open Scope list_scope.
Open Scope R_scope.

(** A data frame: its columns in order, a label and one cell for every row. Labels may occur more than once. Cells other than tags and positions are not
    modelled ([COther]). *)
Inductive cell := CTag (t : string) | CPos (p : option R) | COther.
Definition frame := list (string * list cell).
Definition labels (f : frame) : list string := map fst f.
(** frame[label], KeyError when there is no such column. Simplification: with several columns of the label the first one; no such label is read here. *)
Fixpoint column (label : string) (f : frame) : res (list cell) :=
  match f with [] => Err KeyError | (l, c) :: f => if String.eqb l label then Ok c else column label f end.

(** self.df, ross/rotor_assembly.py:295-300, :366-371, :439-477: the rows of all elements with the positions found in the constructor, as in [rotor_init] *)
Definition rotor_df (r : rotor) : res (list row) :=
  bind (disk_positions (r_nodes_pos r) (r_disk r)) (fun dpos =>
  locate_all (sort_rows (
      map (fun p => elem_row (fst p) (Some (fst (snd p))) (Some (snd (snd p)))) (combine (r_shaft r) (r_shaft_pos r))
      ++ map (fun p => elem_row (fst p) (Some (snd p)) (Some (snd p))) (combine (r_disk r) dpos)
      ++ map (fun b => elem_row b None None) (filter (fun b => match b with EBrg _ (RB4 true _) => false | _ => true end) (r_brg r))
      ++ map (fun b => elem_row b None None) (r_pm r)
      ++ map (fun b => elem_row b None None) (filter (fun b => match b with EBrg _ (RB4 true _) => true | _ => false end) (r_brg r)))) (r_brg r)).

(** pd.DataFrame([el.summary() for el in l]) with the column shaft_number added, :254-262, :303-304; [attrs]: the other attributes of the elements. Without
    elements there are no columns but shaft_number. *)
Definition elements_frame (attrs : list string) (l : list elem) : frame :=
  match l with
  | [] => [("shaft_number", [])]
  | _ => map (fun a => (a, map (fun _ => COther) l)) attrs ++ [("tag", map (fun e => CTag (el_tag e)) l); ("shaft_number", map (fun _ => COther) l)]
  end.

(** pandas: which labels have occurred before in the list *)
Fixpoint duplicated (seen l : list string) : list bool :=
  match l with [] => [] | x :: l => existsb (String.eqb x) seen :: duplicated (x :: seen) l end.
(** pandas, core/reshape/merge.py:_items_overlap_with_suffix: a suffix makes a label occur twice that did not before *)
Definition suffix_clash (old new : list string) : bool := existsb (fun p => (negb (fst p) && snd p)%bool) (combine (duplicated [] old) (duplicated [] new)).
Definition rename_left (f : frame) : frame := map (fun c => if String.eqb (fst c) "nodes_pos_l" then ("nodes_pos_l_x", snd c) else c) f.
(** pd.merge(f, df[["tag", "nodes_pos_l"]], on="tag", how="left"). Tags are unique in df, so every row of f finds one position. A column nodes_pos_l of f gets
    the suffix _x and the new one _y; from pandas 2.0 on ([strict]) MergeError, a ValueError, is raised when that repeats a label, before it was a warning. *)
Definition merge_pos (strict : bool) (df : list row) (f : frame) : res frame :=
  bind (column "tag" f) (fun tags =>
  let new := map (fun c => match c with CTag t => CPos (row_pos df t) | _ => CPos None end) tags in
  if existsb (String.eqb "nodes_pos_l") (labels f) then
    if (strict && suffix_clash (labels f) (labels (rename_left f)))%bool then Err ValueError
    else Ok (rename_left f ++ [("nodes_pos_l_y", new)])
  else Ok (f ++ [("nodes_pos_l", new)])).

(** the attributes of the rotor that summary assigns: df_disks and df_bearings *)
Record frames := mkFrames { fr_disks : frame; fr_brgs : frame }.
(** the two frames after the constructor, :254-262, :303-309; seals are not among the bearings. [da], [ba]: attributes of disks and bearings *)
Definition frames_init (da ba : list string) (r : rotor) : frames :=
  mkFrames (elements_frame da (r_disk r)) (elements_frame ba (filter (fun b => negb (is_seal b)) (r_brg r))).
Record summary := mkSummary { su_disks : frame; su_brgs : frame; su_forces : list (string * R) }.
(** Rotor.summary, :3317-3330. [static]: bearing_forces_tag after run_static, or what run_static raises. *)
Definition rotor_summary (strict : bool) (df : list row) (static : res (list (string * R))) (st : frames) : res summary * frames :=
  match merge_pos strict df (fr_disks st) with
  | Err e => (Err e, st)
  | Ok d =>
      match merge_pos strict df (fr_brgs st) with
      | Err e => (Err e, mkFrames d (fr_brgs st))
      | Ok b => (bind static (fun f => Ok (mkSummary d b f)), mkFrames d b)
      end
  end.
(** SummaryResults.plot, ross/results.py:4261-4277: tag and nodal position of the disks, the same for the bearings, and the forces; the columns that do not change
    are left out. *)
Definition summary_tables (s : summary) : res (list (cell * cell) * list (cell * cell) * list R) :=
  bind (column "tag" (su_disks s)) (fun dt => bind (column "nodes_pos_l" (su_disks s)) (fun dp =>
  bind (column "tag" (su_brgs s)) (fun bt => bind (column "nodes_pos_l" (su_brgs s)) (fun bp =>
  Ok (combine dt dp, combine bt bp, map snd (su_forces s)))))).
(** the k-th call of summary on a rotor, counted from 0, and the state it leaves *)
Fixpoint nth_summary (strict : bool) (df : list row) (static : res (list (string * R))) (st : frames) (k : nat) : res summary * frames :=
  match k with O => rotor_summary strict df static st | S k => rotor_summary strict df static (snd (nth_summary strict df static st k)) end.
