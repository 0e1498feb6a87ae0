(** Specification vocabulary for unit handling. *)
From Coq Require Import Reals List String ZArith.
From Verif Require Import PyBase MUnits.
Import ListNotations.
Open Scope string_scope.

Definition no_us (s : string) : Prop := forall p q, s <> p ++ "_" ++ q.
Fixpoint join_us (l : list string) : string :=
  match l with [] => "" | [s] => s | s :: r => s ++ "_" ++ join_us r end.
(** [l] is the list of pieces of [s] between underscores *)
Definition pieces (s : string) (l : list string) : Prop :=
  l <> [] /\ join_us l = s /\ Forall no_us l.
Definition has_substring (sub s : string) : Prop := exists p q, s = p ++ sub ++ q.
Definition in_table (n : string) : Prop := exists u, In (n, u) units_table.

(** the table key that gives the unit of an argument name, if any *)
Inductive unit_key (name : string) : string -> Prop :=
| uk_full : in_table name -> unit_key name name
| uk_flow_m : ~ in_table name -> has_substring "flow_m" name -> unit_key name "flow_m"
| uk_flow_v : ~ in_table name -> ~ has_substring "flow_m" name -> has_substring "flow_v" name ->
    unit_key name "flow_v"
| uk_piece : forall l1 t l2, ~ in_table name -> ~ has_substring "flow_m" name ->
    ~ has_substring "flow_v" name -> pieces name (l1 ++ t :: l2) ->
    Forall (fun s => ~ in_table s) l1 -> in_table t -> unit_key name t.

(** the value of a quantity in the base units of its dimension *)
Definition base_value (m : R) (u : punit) : R := (m * u_scale u + u_off u)%R.
(** two quantities denote the same physical quantity *)
Definition same_quantity (m1 : R) (u1 : punit) (m2 : R) (u2 : punit) : Prop :=
  u_dim u1 = u_dim u2 /\ base_value m1 u1 = base_value m2 u2.
