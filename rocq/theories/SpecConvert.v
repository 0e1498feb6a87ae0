(** Names in CamelCase and in underscore_case. *)
From Coq Require Import String Ascii List.
Import ListNotations.
Open Scope list_scope.

Definition capitals : list ascii := list_ascii_of_string "ABCDEFGHIJKLMNOPQRSTUVWXYZ".
Definition smalls : list ascii := list_ascii_of_string "abcdefghijklmnopqrstuvwxyz".
(** the small letter of a capital *)
Definition small_of (u x : ascii) : Prop := exists i, nth_error capitals i = Some u /\ nth_error smalls i = Some x.
(** c written small *)
Definition written_small (c d : ascii) : Prop := small_of c d \/ (~ In c capitals /\ d = c).
(** a word: a capital and at least one small letter; the same word without the capital *)
Definition word (w : list ascii) : Prop := exists u x r, w = u :: x :: r /\ In u capitals /\ Forall (fun c => In c smalls) (x :: r).
Definition small_word (w v : list ascii) : Prop := Forall2 written_small w v.
(** words joined by underscores *)
Fixpoint joined (ws : list (list ascii)) : list ascii :=
  match ws with [] => [] | [w] => w | w :: ws => w ++ "_"%char :: joined ws end.
(** [out] is [inp] written small, with underscores put between *)
Inductive inserted : list ascii -> list ascii -> Prop :=
| ins_nil : inserted [] []
| ins_char c d inp out : written_small c d -> inserted inp out -> inserted (c :: inp) (d :: out)
| ins_underscore inp out : inserted inp out -> inserted inp ("_"%char :: out).
