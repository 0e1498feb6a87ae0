(** What a random element or a random rotor should stand for, for the properties of ross/stochastic. *)
From Coq Require Import Reals List String Ascii Bool Arith.
From Verif Require Import PyBase PyDict MMaterial MDisk MRotor MStoch.
Import ListNotations.
Open Scope string_scope.
Open Scope list_scope.

(** x is entry i of the random value v; v has n entries (a text counts as the list of its characters) *)
Definition entry (v : sv) (i : nat) (x : sv) : Prop :=
  match v with
  | SList l => nth_error l i = Some x
  | SStr s => exists c, String.get i s = Some c /\ x = SStr (String c "")
  | _ => False
  end.
Definition entries (v : sv) (n : nat) : Prop :=
  match v with SList l => List.length l = n | SStr s => String.length s = n | _ => False end.

(** the keyword arguments of sample i: the attributes by name, the random ones replaced by their entry i *)
Definition sample_of (attrs : dict sv) (rnd : list string) (i : nat) (kw : dict sv) : Prop :=
  Forall2 (fun a b => fst b = fst a /\ (In (fst a) rnd -> entry (snd a) i (snd b)) /\ (~ In (fst a) rnd -> snd b = snd a)) attrs kw.

(** the same for tables over the frequency: one row per frequency, one column per sample *)
Definition column (v : sv) (i : nat) (x : sv) : Prop :=
  match v with SList rows => exists col, x = SList col /\ Forall2 (fun r y => entry r i y) rows col | _ => False end.
Definition table_sample_of (attrs : dict sv) (rnd : list string) (i : nat) (kw : dict sv) : Prop :=
  Forall2 (fun a b => fst b = fst a /\ (In (fst a) rnd -> column (snd a) i (snd b)) /\ (~ In (fst a) rnd -> snd b = snd a)) attrs kw.

(** calling a class by keyword *)
Definition call_by_keyword {A} (c : pyclass A) (kw : dict sv) : res A := c_body c (dget kw).

(** one entry of an element list of ST_Rotor: the element used in rotor i, and the number of samples it has *)
Definition chosen {A} (i : nat) (arg : rarg A) (x : A) : Prop :=
  match arg with RFixed a => x = a | RStoch it => exists l, it = Ok l /\ nth_error l i = Some x | RSamples _ => False end.
Definition has_samples {A} (n : nat) (arg : rarg A) : Prop :=
  match arg with RFixed _ => True | RStoch it => exists l, it = Ok l /\ List.length l = n | RSamples _ => False end.
Definition random_arg {A} (arg : rarg A) : Prop := match arg with RStoch _ => True | _ => False end.
(** the caller's lists hold elements only, no lists *)
Definition no_lists {A} (l : list (rarg A)) : Prop := forall x, In x l -> match x with RSamples _ => False | _ => True end.
Definition elements_only (a : elem_args) : Prop := no_lists (ea_sh a) /\ no_lists (ea_dk a) /\ no_lists (ea_br a) /\ no_lists (ea_pm a).
Definition some_random (a : elem_args) : Prop :=
  (exists x, In x (ea_sh a) /\ random_arg x) \/ (exists x, In x (ea_dk a) /\ random_arg x) \/
  (exists x, In x (ea_br a) /\ random_arg x) \/ (exists x, In x (ea_pm a) /\ random_arg x).
Definition all_samples (n : nat) (a : elem_args) : Prop :=
  (forall x, In x (ea_sh a) -> has_samples n x) /\ (forall x, In x (ea_dk a) -> has_samples n x) /\
  (forall x, In x (ea_br a) -> has_samples n x) /\ (forall x, In x (ea_pm a) -> has_samples n x).
(** r is the deterministic rotor built from the elements of sample i *)
Definition rotor_of_sample (a : elem_args) (i : nat) (r : rotor) : Prop :=
  exists sh dk br pm, Forall2 (chosen i) (ea_sh a) sh /\ Forall2 (chosen i) (ea_dk a) dk /\ Forall2 (chosen i) (ea_br a) br /\
    Forall2 (chosen i) (ea_pm a) pm /\ rotor_init sh dk br pm = Ok r.

(** els are the samples of e: as many as the first attribute declared random has entries, sample i built by keyword from the entries i *)
Definition samples {A} (c : pyclass A) (e : stoch) (els : list A) : Prop :=
  exists k rest v, st_random e = Some (k :: rest) /\ dget (st_attrs e) k = Some v /\ entries v (List.length els) /\
    forall i x, nth_error els i = Some x -> exists kw, sample_of (st_attrs e) (k :: rest) i kw /\ call_by_keyword c kw = Ok x.

(** numbers and arrays in ST_DiskElement.from_geometry: an array must have N entries; the value for sample i *)
Definition shape_ok (N : nat) (a : arr) : Prop := match a with Sc _ => True | Ar l => List.length l = N end.
Definition at_ (a : arr) (i : nat) : R := match a with Sc x => x | Ar l => nth i l 0%R end.
Definition is_list (a : arr) : bool := match a with Sc _ => false | Ar _ => true end.
