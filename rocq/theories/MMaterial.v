(** Model of ross/materials.py. *)
From Coq Require Import Reals List String Ascii Bool.
From Verif Require Import PyBase PyDict.
Import ListNotations.
Open Scope R_scope.

(** The attributes of a Material object (ross/materials.py:79-83, name at :60). *)
Record material := mkMaterial {
  mname : string; mrho : R; mE : R; mG_s : R; mPoisson : R; mcolor : string }.

(** [" " in name], ross/materials.py:61 (substring test for the one-character string " "). *)
Fixpoint has_space (s : string) : bool :=
  match s with
  | EmptyString => false
  | String c s' => if Ascii.eqb c " "%char then true else has_space s'
  end.

(** the number of given constants, ross/materials.py:64-67 *)
Definition given (o : option R) : nat := match o with Some _ => 1%nat | None => 0%nat end.

(** Material.__init__, ross/materials.py:56-83.
    Simplification: arguments are already plain numbers (see MUnits for check_units), and a
    division by zero raises (Python floats; numpy scalars would give inf instead). *)
Definition material_init (name : string) (rho : R) (E G_s Poisson : option R)
    (color : string) : res material :=
  if has_space name then Err ValueError
  else if negb (Nat.eqb (given E + given G_s + given Poisson) 2) then Err ValueError
  else match E, G_s, Poisson with
       | None, Some g, Some p => Ok (mkMaterial name rho (g * (2 * (1 + p))) g p color)
       | Some e, None, Some p =>
           if Req_EM_T (2 * (1 + p)) 0 then Err ZeroDivision
           else Ok (mkMaterial name rho e (e / (2 * (1 + p))) p color)
       | Some e, Some g, None =>
           if Req_EM_T (2 * g) 0 then Err ZeroDivision
           else Ok (mkMaterial name rho e g (e / (2 * g) - 1) color)
       | _, _, _ => Err ValueError (* unreachable: excluded by the count above *)
       end.

(** The library file AVAILABLE_MATERIALS_PATH: [None] when the file does not exist,
    otherwise the table data["Materials"] (ross/materials.py:165-198). The toml text
    format is not modelled: a dump followed by a load returns the same table. *)
Definition libfile := option (dict material).

(** Material.get_data, ross/materials.py:180-198: a missing file is created empty. *)
Definition get_data (f : libfile) : dict material * libfile :=
  match f with
  | Some d => (d, f)
  | None => ([], Some [])
  end.

(** Material.load_material, ross/materials.py:200-226: the saved Poisson ratio is dropped
    and the object is rebuilt from E and G_s; KeyError for an unknown name. *)
Definition load_material (f : libfile) (name : string) : res material * libfile :=
  let (d, f') := get_data f in
  match dget d name with
  | None => (Err KeyError, f')
  | Some m => (material_init (mname m) (mrho m) (Some (mE m)) (Some (mG_s m)) None (mcolor m), f')
  end.

(** Material.remove_material, ross/materials.py:228-251: unknown names leave the file alone. *)
Definition remove_material (f : libfile) (name : string) : libfile :=
  let (d, f') := get_data f in
  match dget d name with
  | None => f'
  | Some _ => Some (ddel d name)
  end.

(** Material.available_materials, ross/materials.py:253-274. *)
Definition available_materials (f : libfile) : list string := dkeys (fst (get_data f)).

(** Material.save_material, ross/materials.py:276-280. *)
Definition save_material (f : libfile) (m : material) : libfile :=
  let (d, f') := get_data f in
  Some (dset d (mname m) m).

(** Operations on the library, for histories. *)
Inductive libop := OpSave (m : material) | OpRemove (name : string) | OpLoad (name : string).

Definition libstep (f : libfile) (o : libop) : libfile :=
  match o with
  | OpSave m => save_material f m
  | OpRemove n => remove_material f n
  | OpLoad n => snd (load_material f n)
  end.

Definition librun (f : libfile) (h : list libop) : libfile := fold_left libstep h f.

(** numpy.isclose(a, b) with the default tolerances: |a-b| <= 1e-8 + 1e-5*|b|. *)
Definition isclose (a b : R) : Prop := Rabs (a - b) <= / 100000000 + / 100000 * Rabs b.

(** Material.__eq__, ross/materials.py:85-112: only the numeric attributes are compared,
    in the order rho, E, G_s, Poisson, by numpy.allclose(self, other). *)
Definition material_eq (a b : material) : Prop :=
  isclose (mrho a) (mrho b) /\ isclose (mE a) (mE b) /\
  isclose (mG_s a) (mG_s b) /\ isclose (mPoisson a) (mPoisson b).

(** *** The library file with crashes and several processes.
    One step is one visible effect on the file: reading it, truncating it (open(..., "w"),
    ross/materials.py:177), finishing toml.dump (:178). Simplification: a partially
    written text counts as the truncated file; creating a missing file is one step. *)
Inductive fstate := FMissing | FTruncated | FTable (d : dict material).

(** where a process is inside save_material / load_material *)
Inductive proc :=
| PSave (m : material)             (* save_material(m) not started *)
| PSaveRead (d : dict material)    (* data read and updated, :278-279 *)
| PSaveOpen (d : dict material)    (* file opened for writing, :177 *)
| PLoad (name : string)            (* load_material(name) not started *)
| PDone (r : res (option material)).

(** toml.load of an empty file is {} so data["Materials"] raises KeyError, :217, :279 *)
Definition pstep (f : fstate) (p : proc) : fstate * proc :=
  match p with
  | PSave m =>
      match f with
      | FMissing => (FTable [], PSaveRead (dset [] (mname m) m))
      | FTruncated => (f, PDone (Err KeyError))
      | FTable d => (f, PSaveRead (dset d (mname m) m))
      end
  | PSaveRead d => (FTruncated, PSaveOpen d)
  | PSaveOpen d => (FTable d, PDone (Ok None))
  | PLoad n =>
      match f with
      | FMissing => (FTable [], PDone (Err KeyError))
      | FTruncated => (f, PDone (Err KeyError))
      | FTable d => (f, PDone (match fst (load_material (Some d) n) with Ok m => Ok (Some m) | Err e => Err e end))
      end
  | PDone r => (f, p)
  end.

(** a schedule is the list of the processes that make a step; unknown numbers do nothing *)
Fixpoint replace_nth {A} (l : list A) (k : nat) (x : A) : list A :=
  match l, k with
  | [], _ => []
  | _ :: l', O => x :: l'
  | y :: l', S k' => y :: replace_nth l' k' x
  end.
Definition sstep (st : fstate * list proc) (k : nat) : fstate * list proc :=
  match nth_error (snd st) k with
  | None => st
  | Some p => let (f', p') := pstep (fst st) p in (f', replace_nth (snd st) k p')
  end.
Definition srun (st : fstate * list proc) (sched : list nat) : fstate * list proc :=
  fold_left sstep sched st.
