(** What saving and loading does to the arguments of results objects, in plain terms. *)
From Coq Require Import Reals String List Bool Arith ZArith.
From Coquelicot Require Import Complex.
From Verif Require Import PyBase PyDict MSave MRes.
Import ListNotations.

(** An object that a constructor returned *)
Definition made (o : results) : Prop := exists d, construct (rs_class o) d = Ok o.
(** at least one dimension, and no dimension of length zero but the last *)
Definition whole {A} (a : arr A) : Prop := fst a <> [] /\ forall i, nth_error (fst a) i = Some 0%nat -> S i = length (fst a).
(** the longest text has 40 to 49 characters *)
Definition in_window (l : list string) : Prop := (exists t, In t l /\ 40 <= String.length t)%nat /\ (forall t, In t l -> String.length t <= 49)%nat.
(** Values that are read as they were written: numbers, truth values, arrays of numbers and of texts, and arrays of complex numbers if the longest
    text of an entry has 40 to 49 characters and the texts are exact. *)
Definition survives (crepr : C -> string) (cparse : string -> option C) (v : rval) : Prop :=
  match v with
  | VNum _ | VInt _ | VBool _ => True
  | VReals a => whole a
  | VInts a => whole a /\ snd a <> []
  | VStrs a => whole a /\ snd a <> [] /\ ~ in_window (snd a)
  | VComplex a => whole a /\ in_window (map crepr (snd a)) /\ forall z, In z (snd a) -> cparse (crepr z) = Some z
  | _ => False
  end.
(** What the other values become: complex numbers with shorter or longer texts become texts, single texts and dictionaries become arrays without
    dimension, tables the names of their columns, objects the text of their repr; empty arrays, tables and lists become empty arrays of floats. *)
Inductive becomes (crepr : C -> string) (cparse : string -> option C) : rval -> rval -> Prop :=
| becomes_same v : survives crepr cparse v -> becomes crepr cparse v v
| becomes_texts a : whole a -> snd a <> [] -> ~ in_window (map crepr (snd a)) -> becomes crepr cparse (VComplex a) (VStrs (fst a, map crepr (snd a)))
| becomes_number z : in_window [crepr z] -> cparse (crepr z) = Some z -> becomes crepr cparse (VCplx z) (VComplex ([], [z]))
| becomes_number_text z : ~ in_window [crepr z] -> becomes crepr cparse (VCplx z) (VStrs ([], [crepr z]))
| becomes_text t : ~ in_window [t] -> becomes crepr cparse (VStr t) (VStrs ([], [t]))
| becomes_dict d : becomes crepr cparse (VDict d) (VDict0 d)
| becomes_names l : l <> [] -> ~ in_window l -> becomes crepr cparse (VFrame l) (VStrs ([length l], l))
| becomes_repr t : clean t = true -> ~ in_window [t] -> becomes crepr cparse (VObj t) (VStrs ([], [t]))
| becomes_reprs l : (forall t, In t l -> clean t = true) -> l <> [] -> ~ in_window l -> becomes crepr cparse (VObjs l) (VStrs ([length l], l))
| becomes_empty v sh : whole (sh, @nil R) -> v = VInts (sh, []) \/ v = VStrs (sh, []) \/ v = VComplex (sh, []) -> becomes crepr cparse v (VReals (sh, []))
| becomes_none v : v = VFrame [] \/ v = VObjs [] -> becomes crepr cparse v (VReals ([0%nat], [])).
(** A rotor that Rotor.save stores and Rotor.load reads, as r' *)
Definition rotor_becomes (r r' : robj) : Prop := exists f, rotor_save None r = (f, Ok tt) /\ rotor_load f = Ok r'.
(** the argument k of a results object before and after: present, or None where None is the default *)
Definition arg_becomes (crepr : C -> string) (cparse : string -> option C) (c : rclass) (k : string) (v v' : rval) : Prop :=
  (k <> "rotor"%string /\ k <> "modal_results"%string /\ becomes crepr cparse v v') \/
  (v = VNone /\ v' = VNone /\ In (k, Some VNone) (rparams c)) \/
  (k = "rotor"%string /\ exists r r', v = VRotor r /\ v' = VRotor r' /\ rotor_becomes r r') \/
  (c = RCampbell /\ k = "modal_results"%string /\ v' = VNone).
Definition a_text (v : rval) : Prop := (exists t, v = VStr t) \/ exists a, v = VStrs a.
(** an array without dimension *)
Definition zero_dim (v : rval) : Prop :=
  match v with VReals a => fst a = [] | VInts a => fst a = [] | VComplex a => fst a = [] | VStrs a => fst a = [] | VDict0 _ => True | _ => False end.
Definition spoils (v : rval) : Prop := match v with VObj t => clean t = false | VObjs l => exists t, In t l /\ clean t = false | _ => False end.
(** Files written by any sequence of saves, successful or not, starting without files *)
Inductive after_saves (crepr : C -> string) : fs -> Prop :=
| no_saves : after_saves crepr (fun _ => NoFile)
| one_more s p o : after_saves crepr s -> made o -> after_saves crepr (fst (res_save crepr s p o)).
