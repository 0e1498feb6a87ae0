(** Theorems about unit handling (property C12). *)
From Coq Require Import Reals List String Ascii Bool ZArith Lra.
From Verif Require Import PyBase MUnits SpecUnits LUnits.
Import ListNotations.
Open Scope string_scope.

(** The theorems hold for every unit registry [reg] (what pint understands by a unit string).
    [unit_key name k] is the independent statement of which table entry governs an argument name. *)

(** A quantity is converted to the unit of its argument name, keeping the physical quantity, or
    refused when the dimension is wrong. *)
Theorem C12_quantity_converted : forall reg name k us m u,
  ~ units_piece name -> unit_key name k -> In (k, us) units_table -> u_scale (reg us) <> 0%R ->
  (u_dim u = u_dim (reg us) ->
     exists x, convert reg name (VQty m u) = Ok (VNum x) /\ base_value x (reg us) = base_value m u) /\
  (u_dim u <> u_dim (reg us) -> convert reg name (VQty m u) = Err TypeError).
Proof. exact convert_ok_iff. Qed.
Example C12_quantity_converted_instance :
  ~ units_piece "inlet_pressure" /\ unit_key "inlet_pressure" "pressure" /\ In ("pressure", "pascal") units_table /\
  ~ units_piece "G_s" /\ unit_key "G_s" "G_s" /\ unit_key "oil_flow_v" "flow_v".
Proof.
  repeat split; try (apply unit_key_iff; reflexivity); try (rewrite units_piece_iff; discriminate).
  apply lookup_in. reflexivity.
Qed.

(** The same physical quantity in two units gives the same result ... *)
Theorem C12_same_quantity_same_value : forall reg name m1 u1 m2 u2,
  (exists k, unit_key name k) -> ~ units_piece name -> same_quantity m1 u1 m2 u2 ->
  convert reg name (VQty m1 u1) = convert reg name (VQty m2 u2).
Proof. exact convert_same. Qed.
(** ... and in the expected unit, the same as the plain number. *)
Theorem C12_plain_number_is_table_unit : forall reg name k us m,
  ~ units_piece name -> unit_key name k -> In (k, us) units_table -> u_scale (reg us) <> 0%R ->
  convert reg name (VQty m (reg us)) = convert reg name (VNum m).
Proof. exact convert_target. Qed.
(** Values without a unit are passed unchanged, whatever the name. *)
Theorem C12_plain_unchanged : forall reg name v, (forall m u, v <> VQty m u) -> convert reg name v = Ok v.
Proof. exact convert_plain. Qed.
Theorem C12_no_unit_name_unchanged : forall reg name v,
  (units_piece name \/ forall k, ~ unit_key name k) -> convert reg name v = Ok v.
Proof. exact convert_nokey. Qed.
Example C12_no_unit_instance : units_piece "frequency_units" /\ (forall k, ~ unit_key "tag" k).
Proof.
  split; [apply units_piece_iff; reflexivity|].
  intros k H. apply unit_key_iff in H. discriminate.
Qed.

(** Every name of the table is its own key, and no name has two. *)
Theorem C12_key_unique : forall name k1 k2, unit_key name k1 -> unit_key name k2 -> k1 = k2.
Proof. intros name k1 k2 H1 H2. apply unit_key_iff in H1, H2. congruence. Qed.

(** The whole call: each positional argument is converted by the name of its parameter, each
    keyword by its own name, and the function gets exactly these. *)
Theorem C12_call : forall A reg argnames (f : list pyval -> list (string * pyval) -> res A) args kw a k,
  List.length args = List.length argnames ->
  List.length a = List.length args ->
  (forall i n v, nth_error argnames i = Some n -> nth_error args i = Some v ->
     exists w, nth_error a i = Some w /\ convert reg n v = Ok w) ->
  map fst k = map fst kw ->
  (forall i n v, nth_error kw i = Some (n, v) -> exists w, nth_error k i = Some (n, w) /\ convert reg n v = Ok w) ->
  checked reg argnames f args kw = f a k.
Proof. exact checked_call. Qed.
Theorem C12_call_fails_only_on_dimension : forall A reg argnames (f : list pyval -> list (string * pyval) -> res A) args kw,
  (forall i n v, nth_error argnames i = Some n -> nth_error args i = Some v -> exists w, convert reg n v = Ok w) ->
  (forall n v, In (n, v) kw -> exists w, convert reg n v = Ok w) ->
  exists a k, checked reg argnames f args kw = f a k.
Proof. exact checked_total. Qed.

(** Unit handling does not reach every documented physical argument: the mass mz of a 6-dof point
    mass given as a quantity is refused, although mx and my are accepted the same way. *)
Theorem C12_mz_refuted : forall reg kg, u_scale (reg "kg") <> 0%R -> reg "kg" = kg -> u_dim kg <> [] ->
  pm6_call reg [("n", VNum 0); ("mx", VQty 10 kg); ("my", VQty 20 kg); ("mz", VNum 30)] = Ok (10, 20, 30)%R /\
  pm6_call reg [("n", VNum 0); ("mx", VQty 10 kg); ("my", VQty 20 kg); ("mz", VQty 30 kg)] = Err TypeError.
Proof. exact mz_refuted. Qed.
Example C12_mz_instance : let reg := fun _ : string => mkUnit [1%Z] 1 0 in u_scale (reg "kg") <> 0%R /\ u_dim (reg "kg") <> [].
Proof. simpl. split; [lra|discriminate]. Qed.

Print Assumptions C12_quantity_converted.
Print Assumptions C12_same_quantity_same_value.
Print Assumptions C12_no_unit_name_unchanged.
Print Assumptions C12_call.
Print Assumptions C12_mz_refuted.
