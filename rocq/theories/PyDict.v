(** Python dictionaries with string keys, in insertion order. *)
From Coq Require Import List String Bool.
Import ListNotations.
Open Scope string_scope.

Definition dict (A : Type) := list (string * A).

(** d[k] / d.get(k): [None] stands for the KeyError. *)
Fixpoint dget {A} (d : dict A) (k : string) : option A :=
  match d with
  | [] => None
  | (k', v) :: d' => if String.eqb k k' then Some v else dget d' k
  end.

(** d[k] = v: an existing key keeps its place, a new key goes last. *)
Fixpoint dset {A} (d : dict A) (k : string) (v : A) : dict A :=
  match d with
  | [] => [(k, v)]
  | (k', v') :: d' => if String.eqb k k' then (k, v) :: d' else (k', v') :: dset d' k v
  end.

(** del d[k] (no effect when absent; the callers test for the KeyError first). *)
Fixpoint ddel {A} (d : dict A) (k : string) : dict A :=
  match d with
  | [] => []
  | (k', v') :: d' => if String.eqb k k' then d' else (k', v') :: ddel d' k
  end.

Definition dkeys {A} (d : dict A) : list string := map fst d.

(** k in d *)
Definition dmem {A} (d : dict A) (k : string) : bool :=
  match dget d k with Some _ => true | None => false end.
