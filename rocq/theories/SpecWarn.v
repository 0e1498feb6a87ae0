(** What it means for a speed to lie inside a table, and for two interpolations to agree inside the tables. *)
From Coq Require Import Reals List.
From Verif Require Import PyBase MBearing MRotor.
Import ListNotations.
Open Scope R_scope.

(** some speed of the table is not above w, and some is not below *)
Definition inside (table : list R) (w : R) : Prop := exists lo hi, In lo table /\ In hi table /\ lo <= w <= hi.
(** the bearing (or seal) e has this table of speeds *)
Definition has_table (e : elem) (table : list R) : Prop := exists tag b, e = EBrg tag b /\ b_frequency (brg_base b) = Some table.
(** two interpolations give the same values as long as they are not asked for values outside the table *)
Definition same_inside (spl spl' : list R -> list R -> R -> R) : Prop := forall xs ys w, inside xs w -> spl xs ys w = spl' xs ys w.
