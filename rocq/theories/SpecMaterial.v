(** What the material library is supposed to be: a map from names to materials. *)
From Coq Require Import Reals List String Bool.
From Verif Require Import PyBase PyDict MMaterial.
Import ListNotations.
Open Scope R_scope.

(** a material whose constants are consistent *)
Definition consistent (m : material) : Prop :=
  mE m = 2 * mG_s m * (1 + mPoisson m) /\ mG_s m <> 0 /\ has_space (mname m) = false.

(** the library as a map, and the effect of an operation on it *)
Definition libmap := string -> option material.
Definition map_step (l : libmap) (o : libop) : libmap :=
  match o with
  | OpSave m => fun n => if String.eqb n (mname m) then Some m else l n
  | OpRemove k => fun n => if String.eqb n k then None else l n
  | OpLoad _ => l
  end.
Definition map_run (l : libmap) (h : list libop) : libmap := fold_left map_step h l.

Definition empty_map : libmap := fun _ => None.

(** the operations save only consistent materials *)
Definition saves_consistent (h : list libop) : Prop :=
  forall m, In (OpSave m) h -> consistent m.

(** only loading processes *)
Definition loader (p : proc) : Prop := exists n, p = PLoad n.
