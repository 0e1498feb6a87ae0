(** What the tables of a summary should show. *)
From Coq Require Import Reals String List.
From Verif Require Import PyBase MBearing MRotor MSummary.
Import ListNotations.
Open Scope string_scope.
Open Scope list_scope.
Open Scope R_scope.

(** attributes of an element: none has one of these names *)
Definition plain (attrs : list string) : Prop := forall a, In a attrs -> ~ In a ["tag"; "nodes_pos_l"; "nodes_pos_l_x"; "nodes_pos_l_y"].
(** one row for every element, in order: its tag and the position [at] gives *)
Definition lists_elements (at_ : elem -> option R) (l : list elem) (rows : list (cell * cell)) : Prop :=
  rows = map (fun e => (CTag (el_tag e), CPos (at_ e))) l.
Definition not_seal (e : elem) : bool := match e with EBrg _ (RB4 true _) => false | _ => true end.
(** where a bearing stands: at its node of the shaft, or, beyond the shaft, where a bearing linked to its node stands *)
Inductive stands_at (r : rotor) : nat -> R -> Prop :=
| stands_shaft n z : nth_error (r_nodes_pos r) n = Some z -> stands_at r n z
| stands_linked b n z : In b (r_brg r) -> el_link b = Some n -> nth_error (r_nodes_pos r) n = None -> stands_at r (el_n b) z -> stands_at r n z.
