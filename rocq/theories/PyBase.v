(** Shared vocabulary: Python exceptions as values. *)
From Coq Require Import List String.
Import ListNotations.

(** The exception classes raised by the modelled code (ross/*.py). *)
Inductive exn : Type :=
| ValueError | KeyError | AttributeError | TypeError | IndexError
| WarningExn | RuntimeErr | FileNotFound | ZeroDivision | LinAlgError | SystemExit | DataNotFound.

(** Outcome of a Python call: a returned value or a raised exception. *)
Inductive res (A : Type) : Type :=
| Ok : A -> res A
| Err : exn -> res A.
Arguments Ok {A} _.
Arguments Err {A} _.

Definition bind {A B} (r : res A) (f : A -> res B) : res B :=
  match r with Ok a => f a | Err e => Err e end.

Definition is_ok {A} (r : res A) : Prop := exists a, r = Ok a.

(** Optional argument with a default value ([if x is None: x = d]). *)
Definition default {A} (d : A) (o : option A) : A :=
  match o with Some a => a | None => d end.
