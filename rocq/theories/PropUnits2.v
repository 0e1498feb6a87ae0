(** C12: every argument with a unit is handed over in SI. *)
From Coq Require Import Reals List String Ascii Bool ZArith Lra.
From Verif Require Import PyBase MUnits SpecUnits SpecUnits2 LUnits.
Import ListNotations.
Open Scope string_scope.

Definition dim_eqb (a b : dim) : bool := let '(a1, a2, a3, a4) := a in let '(b1, b2, b3, b4) := b in (Z.eqb a1 b1 && Z.eqb a2 b2 && Z.eqb a3 b3 && Z.eqb a4 b4)%bool.
Lemma dim_eqb_ok a b : dim_eqb a b = true -> a = b.
Proof.
  destruct a as [[[a1 a2] a3] a4], b as [[[b1 b2] b3] b4]. simpl. intros H. apply andb_true_iff in H as (H & H4). apply andb_true_iff in H as (H & H3). apply andb_true_iff in H as (H1 & H2).
  apply Z.eqb_eq in H1, H2, H3, H4. congruence.
Qed.
Definition row_ok (kv : string * string) : bool :=
  existsb (fun p => existsb (String.eqb (fst kv)) (snd p) && existsb (fun q => String.eqb (snd kv) (fst q) && dim_eqb (fst p) (snd q)) si_units) meanings.
Lemma rows_ok : forallb row_ok units_table = true.
Proof. vm_compute. reflexivity. Qed.
Lemma row_dim k us : In (k, us) units_table -> exists d, means k d /\ In (us, d) si_units.
Proof.
  intros H. pose proof (proj1 (forallb_forall _ _) rows_ok _ H) as Q. unfold row_ok in Q. apply existsb_exists in Q as ([d names] & I & Q). cbn [fst snd] in Q. apply andb_true_iff in Q as (Q1 & Q2).
  apply existsb_exists in Q1 as (n & I1 & E1). apply String.eqb_eq in E1 as <-. apply existsb_exists in Q2 as ([us' d'] & I2 & E2). cbn [fst snd] in E2. apply andb_true_iff in E2 as (E2 & E3).
  apply String.eqb_eq in E2 as <-. apply dim_eqb_ok in E3 as <-. exists d. split; [exists names; auto|auto].
Qed.
(** every name with a meaning is in the table, and means one thing only *)
Definition all_names : list string := flat_map snd meanings.
Lemma names_in : forallb in_units all_names = true.
Proof. vm_compute. reflexivity. Qed.
Fixpoint nodupb (l : list string) : bool := match l with [] => true | x :: l => negb (existsb (String.eqb x) l) && nodupb l end.
Lemma names_once : nodupb all_names = true.
Proof. vm_compute. reflexivity. Qed.
Lemma nodupb_ok l : nodupb l = true -> NoDup l.
Proof.
  induction l as [|x l IH]; simpl; intros H; constructor; apply andb_true_iff in H as (H1 & H2); auto. intros I. apply negb_true_iff in H1.
  assert (existsb (String.eqb x) l = true) by (apply existsb_exists; exists x; split; auto; apply String.eqb_refl). congruence.
Qed.
Theorem C12_table_meaning : forall name, (exists us, In (name, us) units_table) <-> exists d, means name d.
Proof.
  intros name. split.
  - intros (us & H). destruct (row_dim _ _ H) as (d & M & _). eauto.
  - intros (d & names & I & J). assert (K : In name all_names) by (apply in_flat_map; exists (d, names); auto). pose proof (proj1 (forallb_forall _ _) names_in _ K) as Q.
    unfold in_units in Q. apply existsb_exists in Q as ([k us] & I2 & E). simpl in E. apply String.eqb_eq in E as ->. eauto.
Qed.
Theorem C12_meaning_unique : forall name d1 d2, means name d1 -> means name d2 -> d1 = d2.
Proof.
  intros name d1 d2 (n1 & I1 & J1) (n2 & I2 & J2). pose proof (nodupb_ok _ names_once) as ND. unfold all_names in ND. revert ND I1 I2. generalize meanings as l. induction l as [|[d ns] l IH]; simpl; [tauto|].
  intros ND I1 I2. assert (X : forall d' n', In (d', n') l -> In name n' -> In name (flat_map snd l)) by (intros d' n' A B; apply in_flat_map; exists (d', n'); auto).
  assert (Y : forall a b : list string, NoDup (a ++ b) -> In name a -> In name b -> False).
  { intros a b N A B. induction a as [|z a IHa]; [destruct A|]. inversion N; subst. destruct A as [->|A]; [apply H1; apply in_or_app; auto|auto]. }
  destruct I1 as [E1|I1], I2 as [E2|I2].
  - congruence.
  - injection E1 as <- <-. exfalso. eapply Y; eauto.
  - injection E2 as <- <-. exfalso. eapply Y; eauto.
  - apply IH; auto. clear -ND. induction ns as [|z ns IHn]; auto. inversion ND; auto.
Qed.
(** with a registry that reads the unit strings as SI units: an argument is handed over as its SI value if its dimension is the one of its
    name, and refused otherwise *)
Theorem C12_si_value : forall reg name k d m u, si_registry reg -> ~ units_piece name -> unit_key name k -> means k d ->
  (u_dim u = pint_dim d -> convert reg name (VQty m u) = Ok (VNum (base_value m u))) /\ (u_dim u <> pint_dim d -> convert reg name (VQty m u) = Err TypeError).
Proof.
  intros reg name k d m u S N K M. destruct (proj2 (C12_table_meaning k) (ex_intro _ d M)) as (us & T). destruct (row_dim _ _ T) as (d' & M' & I).
  rewrite (C12_meaning_unique _ _ _ M M') in *. pose proof (S _ _ I) as E.
  destruct (convert_ok_iff reg name k us m u N K T) as (Q1 & Q2); [rewrite E; simpl; lra|]. rewrite E in Q1, Q2. simpl in Q1, Q2. split; auto.
  intros D. destruct (Q1 D) as (x & -> & B). unfold base_value in B at 1. simpl in B. do 2 f_equal. lra.
Qed.
(** a registry of this kind; a torque in pound feet, a temperature in degrees Celsius *)
Definition ex_reg (us : string) : punit := match find (fun q => String.eqb us (fst q)) si_units with Some q => mkUnit (pint_dim (snd q)) 1 0 | None => mkUnit [] 1 0 end.
Example C12_si_instance : si_registry ex_reg /\ convert ex_reg "torque" (VQty 2 (mkUnit [1; 2; -2; 0]%Z 1.355 0)) = Ok (VNum (2 * 1.355 + 0)) /\
  convert ex_reg "oil_temperature" (VQty 20 (mkUnit [0; 0; 0; 1]%Z 1 273.15)) = Ok (VNum (20 * 1 + 273.15)) /\ convert ex_reg "torque" (VQty 2 (mkUnit [1; 1; -2; 0]%Z 1 0)) = Err TypeError.
Proof.
  assert (S : si_registry ex_reg). { intros us d I. unfold si_units in I. repeat (destruct I as [I|I]; [injection I; intros <- <-; vm_compute; reflexivity|]). destruct I. }
  split; [exact S|].
  assert (M1 : means "torque" (times force length)) by (eexists; split; [do 17 right; left; reflexivity|left; reflexivity]).
  assert (M2 : means "temperature" temperature) by (eexists; split; [do 9 right; left; reflexivity|left; reflexivity]).
  assert (N1 : ~ units_piece "torque") by (rewrite units_piece_iff; discriminate). assert (N2 : ~ units_piece "oil_temperature") by (rewrite units_piece_iff; discriminate).
  assert (K1 : unit_key "torque" "torque") by (apply unit_key_iff; reflexivity). assert (K2 : unit_key "oil_temperature" "temperature") by (apply unit_key_iff; reflexivity).
  repeat split.
  - apply (C12_si_value ex_reg "torque" _ _ 2 (mkUnit [1; 2; -2; 0]%Z 1.355 0) S N1 K1 M1). reflexivity.
  - apply (C12_si_value ex_reg "oil_temperature" _ _ 20 (mkUnit [0; 0; 0; 1]%Z 1 273.15) S N2 K2 M2). reflexivity.
Qed.

Print Assumptions C12_table_meaning.
Print Assumptions C12_si_value.
