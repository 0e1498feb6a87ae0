(** Model of utils.convert, ross/utils.py:437-457. No proofs here. *)
From Coq Require Import String Ascii List Bool Arith.
Import ListNotations.
Open Scope list_scope.

(** Simplification: names are strings of 8-bit characters; the letters are those of ASCII, the ones [A-Z] and [a-z] match. str.lower changes only them here. *)
Definition between (a b : ascii) (c : ascii) : bool := (Nat.leb (nat_of_ascii a) (nat_of_ascii c) && Nat.leb (nat_of_ascii c) (nat_of_ascii b))%bool.
Definition upper (c : ascii) : bool := between "A" "Z" c.
Definition lower (c : ascii) : bool := between "a" "z" c.
Definition digit (c : ascii) : bool := between "0" "9" c.
Definition to_lower (c : ascii) : ascii := if upper c then ascii_of_nat (nat_of_ascii c + 32) else c.
Definition newline : ascii := ascii_of_nat 10.

(** re.sub("(.)([A-Z][a-z]+)", r"\1_\2", name), :456: scanning from the left, greedily and without overlaps. [Free]: no match in progress; [Head]: the capital of
    a match comes next; [Tail]: its small letters. The dot matches all but a newline. *)
Inductive scan := Free | Head | Tail.
Definition word_next (l : list ascii) : bool := match l with u :: x :: _ => (upper u && lower x)%bool | _ => false end.
Fixpoint sub_words (m : scan) (l : list ascii) : list ascii :=
  match l with
  | [] => []
  | c :: l =>
      let free := if (negb (Ascii.eqb c newline) && word_next l)%bool then c :: "_"%char :: sub_words Head l else c :: sub_words Free l in
      match m with
      | Head => c :: sub_words Tail l
      | Tail => if lower c then c :: sub_words Tail l else free
      | Free => free
      end
  end.
(** re.sub("([a-z0-9])([A-Z])", r"\1_\2", s1), :457; [Head]: the capital of a match comes next *)
Definition capital_next (l : list ascii) : bool := match l with u :: _ => upper u | [] => false end.
Fixpoint sub_capitals (m : bool) (l : list ascii) : list ascii :=
  match l with
  | [] => []
  | c :: l =>
      if m then c :: sub_capitals false l
      else if ((lower c || digit c) && capital_next l)%bool then c :: "_"%char :: sub_capitals true l else c :: sub_capitals false l
  end.
Definition convert_chars (l : list ascii) : list ascii := map to_lower (sub_capitals false (sub_words Free l)).
Definition convert (name : string) : string := string_of_list_ascii (convert_chars (list_ascii_of_string name)).
