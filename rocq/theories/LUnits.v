(** Lemmas about unit handling. *)
From Coq Require Import Reals List String Ascii Bool ZArith Lia Lra.
From Verif Require Import PyBase MUnits SpecUnits.
Import ListNotations.
Open Scope string_scope.

Lemma lookup_in t n u : lookup t n = Some u -> In (n, u) t.
Proof.
  induction t as [|(k, v) t IH]; simpl; [discriminate|].
  destruct (String.eqb_spec k n); [intros E; inversion E; subst; auto|auto].
Qed.
Lemma lookup_none t n : lookup t n = None -> forall u, ~ In (n, u) t.
Proof.
  induction t as [|(k, v) t IH]; simpl; [auto|].
  destruct (String.eqb_spec k n); [discriminate|].
  intros E u [H|H]; [inversion H; subst; auto|exact (IH E u H)].
Qed.
Lemma in_table_lookup n : in_table n <-> exists u, lookup units_table n = Some u.
Proof.
  split.
  - intros (u & H). destruct (lookup units_table n) eqn:E; [eauto|]. destruct (lookup_none _ _ E u H).
  - intros (u & H). exists u. apply lookup_in, H.
Qed.
Lemma not_table_lookup n : ~ in_table n <-> lookup units_table n = None.
Proof.
  rewrite in_table_lookup. destruct (lookup units_table n); split; auto.
  - intros H; destruct H; eauto.
  - discriminate.
  - intros _ (u & H); discriminate.
Qed.

Lemma str_in_spec n l : str_in n l = true <-> In n l.
Proof.
  unfold str_in. rewrite existsb_exists. split.
  - intros (x & H & E). apply String.eqb_eq in E. subst; auto.
  - intros H. exists n. split; auto. apply String.eqb_refl.
Qed.

Lemma prefix_spec sub s : prefix sub s = true <-> exists q, s = sub ++ q.
Proof.
  revert s; induction sub as [|c sub IH]; intros s.
  - destruct s; simpl; split; eauto.
  - destruct s as [|d s]; simpl; [split; [discriminate|intros (q & H); discriminate]|].
    destruct (ascii_dec c d) as [->|N].
    + rewrite IH. split; intros (q & H); exists q; [subst; auto|inversion H; auto].
    + split; [discriminate|]. intros (q & H); inversion H; subst; congruence.
Qed.
Lemma contains_spec sub s : contains sub s = true <-> has_substring sub s.
Proof.
  unfold has_substring. induction s as [|c s IH].
  - cbn [contains]. rewrite orb_false_r, prefix_spec. split.
    + intros (q & H). exists "", q. auto.
    + intros (p & q & H). destruct p; [|discriminate]. eauto.
  - cbn [contains]. rewrite orb_true_iff, prefix_spec, IH. split.
    + intros [(q & H)|(p & q & H)]; [exists "", q; auto|exists (String c p), q; simpl; f_equal; auto].
    + intros (p & q & H). destruct p as [|d p]; [left; exists q; auto|right].
      inversion H; eauto.
Qed.

Lemma split_nonempty s : split_us s <> [].
Proof. destruct s; simpl; [discriminate|]. destruct (Ascii.eqb _ _); [discriminate|]. destruct (split_us s); discriminate. Qed.
Lemma join_split s : join_us (split_us s) = s.
Proof.
  induction s as [|c s IH]; [reflexivity|]. cbn [split_us].
  pose proof (split_nonempty s) as NE.
  destruct (Ascii.eqb_spec c "_"%char) as [->|N].
  - destruct (split_us s); [congruence|]. simpl in *. rewrite IH. reflexivity.
  - destruct (split_us s) as [|h [|h2 t]]; [congruence| |]; simpl in *; rewrite <- IH; reflexivity.
Qed.
Lemma no_us_char c s : c <> "_"%char -> no_us s -> no_us (String c s).
Proof. intros N H p q E. destruct p as [|d p]; simpl in E; inversion E; subst; [congruence|]. exact (H p q eq_refl). Qed.
Lemma split_no_us s : Forall no_us (split_us s).
Proof.
  assert (E0 : no_us "") by (intros p q E; destruct p; discriminate).
  induction s as [|c s IH]; cbn [split_us]; [repeat constructor; auto|].
  destruct (Ascii.eqb_spec c "_"%char) as [->|N]; [constructor; auto|].
  destruct (split_us s) as [|h t].
  - repeat constructor. apply no_us_char; auto.
  - inversion IH; subst. constructor; auto. apply no_us_char; auto.
Qed.
Lemma pieces_split s : pieces s (split_us s).
Proof. exact (conj (split_nonempty s) (conj (join_split s) (split_no_us s))). Qed.

Lemma app_us_inj a b p q : no_us a -> no_us b -> a ++ "_" ++ p = b ++ "_" ++ q -> a = b /\ p = q.
Proof.
  revert b; induction a as [|c a IH]; intros b Ha Hb E.
  - destruct b as [|d b]; simpl in E; inversion E; subst; auto. exfalso. apply (Hb "" b). reflexivity.
  - destruct b as [|d b]; simpl in E; inversion E; subst.
    + exfalso. apply (Ha "" a). reflexivity.
    + destruct (IH b) as (-> & ->); auto.
      * intros x y E2. apply (Ha (String d x) y). rewrite E2. reflexivity.
      * intros x y E2. apply (Hb (String d x) y). rewrite E2. reflexivity.
Qed.
Lemma pieces_unique s l1 l2 : pieces s l1 -> pieces s l2 -> l1 = l2.
Proof.
  revert s l2; induction l1 as [|a l1 IH]; intros s l2 (N1 & J1 & F1) (N2 & J2 & F2); [congruence|].
  destruct l2 as [|b l2]; [congruence|]. inversion F1; inversion F2; subst.
  destruct l1 as [|a1 l1], l2 as [|b1 l2].
  - simpl in *. congruence.
  - exfalso. cbn [join_us] in J2. apply (H1 b (join_us (b1 :: l2))). auto.
  - exfalso. cbn [join_us] in J2. apply (H5 a (join_us (a1 :: l1))). auto.
  - cbn [join_us] in J2. destruct (app_us_inj _ _ _ _ H5 H1 J2) as (-> & E).
    f_equal. apply (IH (join_us (a1 :: l1))); split; try discriminate; split; auto.
Qed.
Lemma pieces_iff s l : pieces s l <-> l = split_us s.
Proof. split; [intros H; exact (pieces_unique s l _ H (pieces_split s))|intros ->; apply pieces_split]. Qed.

Fixpoint nodupb (l : list string) : bool :=
  match l with [] => true | n :: r => negb (str_in n r) && nodupb r end.
Lemma nodupb_spec l : nodupb l = true -> NoDup l.
Proof.
  induction l as [|n l IH]; simpl; [constructor|]. rewrite andb_true_iff, negb_true_iff. intros (H & H2).
  constructor; auto. rewrite <- str_in_spec. congruence.
Qed.
Lemma nodup_keys : NoDup (map fst units_table).
Proof. apply nodupb_spec. vm_compute. reflexivity. Qed.
Lemma in_lookup n u : In (n, u) units_table -> lookup units_table n = Some u.
Proof.
  pose proof nodup_keys as D. revert D. generalize units_table as t. induction t as [|(k, v) t IH]; [intros _ []|].
  cbn [map fst In lookup]. intros D H. inversion D; subst. destruct H as [H|H].
  - inversion H; subst. rewrite String.eqb_refl. reflexivity.
  - destruct (String.eqb_spec k n) as [->|]; [|auto]. exfalso. apply H2. apply (in_map fst) in H. exact H.
Qed.

Local Arguments lookup : simpl never.
Local Arguments units_table : simpl never.

(** first candidate in the table *)
Fixpoint first_key (l : list string) : option string :=
  match l with [] => None | n :: r => match lookup units_table n with Some _ => Some n | None => first_key r end end.
Lemma conv_loop_key reg l v : v <> VNone -> conv_loop reg l v =
  match first_key l with
  | None => Ok v
  | Some k => match lookup units_table k, v with
              | Some u, VQty m q => bind (qty_to m q (reg u)) (fun x => Ok (VNum x))
              | _, _ => Ok v end
  end.
Proof.
  intros N. induction l as [|n l IH]; simpl; [reflexivity|].
  destruct (lookup units_table n) eqn:E; [|exact IH].
  rewrite E. destruct v; congruence.
Qed.
Lemma conv_loop_none reg l : conv_loop reg l VNone = Ok VNone.
Proof. induction l as [|n l IH]; simpl; [reflexivity|]. destruct (lookup units_table n); exact IH. Qed.

Lemma first_key_in l k : first_key l = Some k -> exists l1 l2, l = (l1 ++ k :: l2)%list /\ Forall (fun s => ~ in_table s) l1 /\ in_table k.
Proof.
  induction l as [|n l IH]; simpl; [discriminate|]. destruct (lookup units_table n) eqn:E.
  - intros H; inversion H; subst. exists [], l. repeat split; auto. apply in_table_lookup; eauto.
  - intros H. destruct (IH H) as (l1 & l2 & -> & F & I). exists (n :: l1), l2. repeat split; auto.
    constructor; auto. apply not_table_lookup; auto.
Qed.
Lemma first_key_app l1 k l2 : Forall (fun s => ~ in_table s) l1 -> in_table k -> first_key (l1 ++ k :: l2) = Some k.
Proof.
  induction l1 as [|n l1 IH]; simpl; intros F I.
  - apply in_table_lookup in I. destruct I as (u & ->). reflexivity.
  - inversion F; subst. apply not_table_lookup in H1. rewrite H1. auto.
Qed.

Lemma single_no_piece name : In name (split_us name) -> split_us name = [name].
Proof.
  intros H. assert (N : no_us name) by (pose proof (split_no_us name) as F; rewrite Forall_forall in F; auto).
  symmetry. apply pieces_iff. repeat split; [discriminate|]. repeat constructor; auto.
Qed.

Lemma has_substring_dec a b : has_substring a b \/ ~ has_substring a b.
Proof. rewrite <- contains_spec. destruct (contains a b); auto. Qed.

Lemma flow_m_in : in_table "flow_m". Proof. apply in_table_lookup. eexists; reflexivity. Qed.
Lemma flow_v_in : in_table "flow_v". Proof. apply in_table_lookup. eexists; reflexivity. Qed.

(** the code's candidate order computes the specified key *)
Lemma first_key_full name : in_table name -> first_key (candidates name) = Some name.
Proof.
  intros I. assert (I' := I). apply in_table_lookup in I'. destruct I' as (u & E). unfold candidates.
  set (cv := contains "flow_v" name). set (cm := contains "flow_m" name).
  destruct (str_in name _) eqn:S; [|simpl; rewrite E; reflexivity].
  apply str_in_spec in S.
  assert (D : name = "flow_m" \/ name = "flow_v" \/ In name (split_us name)).
  { destruct cm, cv; simpl in S; intuition. }
  destruct D as [->|[->|D]]; [reflexivity|reflexivity|].
  (* name has no underscore: it contains neither flow_m nor flow_v *)
  apply single_no_piece in D.
  assert (NU : no_us name) by (pose proof (split_no_us name) as F; rewrite D in F; inversion F; auto).
  assert (Cv : cv = false).
  { destruct cv eqn:C; auto. exfalso. unfold cv in C. apply contains_spec in C. destruct C as (p & q & C).
    apply (NU (p ++ "flow") ("v" ++ q)). rewrite C. clear. induction p; simpl; [reflexivity|f_equal; auto]. }
  assert (Cm : cm = false).
  { destruct cm eqn:C; auto. exfalso. unfold cm in C. apply contains_spec in C. destruct C as (p & q & C).
    apply (NU (p ++ "flow") ("m" ++ q)). rewrite C. clear. induction p; simpl; [reflexivity|f_equal; auto]. }
  rewrite Cv, Cm, D. simpl. rewrite E. reflexivity.
Qed.

Lemma first_key_notfull name : ~ in_table name -> first_key (candidates name) =
  if contains "flow_m" name then Some "flow_m" else if contains "flow_v" name then Some "flow_v"
  else first_key (split_us name).
Proof.
  intros N. assert (N' := N). apply not_table_lookup in N'. unfold candidates.
  match goal with |- first_key (if ?b then ?l else _) = _ => transitivity (first_key l) end.
  { destruct (str_in name _); [reflexivity|]. simpl. rewrite N'. reflexivity. }
  destruct (contains "flow_m" name); [reflexivity|]. destruct (contains "flow_v" name); reflexivity.
Qed.

Lemma unit_key_iff name k : unit_key name k <-> first_key (candidates name) = Some k.
Proof.
  split.
  - intros H. destruct H as [I|N Hm|N Hm Hv|l1 t l2 N Hm Hv P F I].
    + apply first_key_full; auto.
    + rewrite first_key_notfull by auto. apply contains_spec in Hm. rewrite Hm. reflexivity.
    + rewrite first_key_notfull by auto. rewrite <- contains_spec in Hm, Hv.
      destruct (contains "flow_m" name); [congruence|]. rewrite Hv. reflexivity.
    + rewrite first_key_notfull by auto. rewrite <- contains_spec in Hm, Hv.
      destruct (contains "flow_m" name); [congruence|]. destruct (contains "flow_v" name); [congruence|].
      apply pieces_iff in P. rewrite <- P. apply first_key_app; auto.
  - intros E. destruct (lookup units_table name) eqn:L.
    + assert (I : in_table name) by (apply in_table_lookup; eauto).
      rewrite first_key_full in E by auto. inversion E; subst. constructor; auto.
    + apply not_table_lookup in L. rewrite first_key_notfull in E by auto.
      destruct (contains "flow_m" name) eqn:Cm.
      * inversion E; subst. apply contains_spec in Cm. apply uk_flow_m; auto.
      * assert (Nm : ~ has_substring "flow_m" name) by (rewrite <- contains_spec; congruence).
        destruct (contains "flow_v" name) eqn:Cv.
        -- inversion E; subst. apply contains_spec in Cv. apply uk_flow_v; auto.
        -- assert (Nv : ~ has_substring "flow_v" name) by (rewrite <- contains_spec; congruence).
           destruct (first_key_in _ _ E) as (l1 & l2 & S & F & I).
           apply (uk_piece name l1 k l2); auto. rewrite <- S. apply pieces_split.
Qed.

Definition units_piece (name : string) : Prop := exists l, pieces name l /\ In "units" l.
Lemma units_piece_iff name : units_piece name <-> str_in "units" (split_us name) = true.
Proof.
  rewrite str_in_spec. split.
  - intros (l & P & I). apply pieces_iff in P. subst; auto.
  - intros I. exists (split_us name). split; auto. apply pieces_split.
Qed.

Lemma unit_key_table name k : unit_key name k -> in_table k.
Proof. intros H; destruct H; auto using flow_m_in, flow_v_in. Qed.

Lemma convert_qty reg name k us m u : ~ units_piece name -> unit_key name k -> In (k, us) units_table ->
  convert reg name (VQty m u) = bind (qty_to m u (reg us)) (fun x => Ok (VNum x)).
Proof.
  intros NU K I. unfold convert. rewrite units_piece_iff in NU. destruct (str_in "units" _); [congruence|].
  rewrite conv_loop_key by discriminate. apply unit_key_iff in K. rewrite K.
  rewrite (in_lookup _ _ I). reflexivity.
Qed.
Lemma convert_plain reg name v : (forall m u, v <> VQty m u) -> convert reg name v = Ok v.
Proof.
  intros H. unfold convert. destruct (str_in _ _); [reflexivity|].
  destruct v; try (rewrite conv_loop_key by discriminate; destruct (first_key _) as [k|]; [|reflexivity]; destruct (lookup units_table k); reflexivity).
  - apply conv_loop_none.
  - destruct (H m u eq_refl).
Qed.
Lemma convert_nokey reg name v : (units_piece name \/ forall k, ~ unit_key name k) -> convert reg name v = Ok v.
Proof.
  intros H. unfold convert. destruct (str_in "units" (split_us name)) eqn:S; [reflexivity|].
  destruct H as [H|H]; [apply units_piece_iff in H; congruence|].
  assert (E : first_key (candidates name) = None).
  { destruct (first_key (candidates name)) eqn:E; auto. apply unit_key_iff in E. destruct (H _ E). }
  destruct v; try (rewrite conv_loop_key, E by discriminate; reflexivity). apply conv_loop_none.
Qed.

Lemma convert_ok_iff reg name k us m u : ~ units_piece name -> unit_key name k -> In (k, us) units_table ->
  u_scale (reg us) <> 0%R ->
  (u_dim u = u_dim (reg us) -> exists x, convert reg name (VQty m u) = Ok (VNum x) /\ base_value x (reg us) = base_value m u) /\
  (u_dim u <> u_dim (reg us) -> convert reg name (VQty m u) = Err TypeError).
Proof.
  intros NU K I S. rewrite (convert_qty reg name k us) by auto. unfold qty_to.
  destruct (list_eq_dec _ _ _) as [E|E]; simpl; split; intros D; try congruence.
  eexists; split; [reflexivity|]. unfold base_value. field. exact S.
Qed.
Lemma convert_same reg name m1 u1 m2 u2 : (exists k, unit_key name k) -> ~ units_piece name ->
  same_quantity m1 u1 m2 u2 -> convert reg name (VQty m1 u1) = convert reg name (VQty m2 u2).
Proof.
  intros (k & K) NU (D & B). destruct (unit_key_table _ _ K) as (us & I).
  rewrite !(convert_qty reg name k us) by auto. unfold qty_to. rewrite <- D.
  destruct (list_eq_dec _ _ _); [|reflexivity]. simpl. unfold base_value in B. rewrite B. reflexivity.
Qed.
Lemma convert_target reg name k us m : ~ units_piece name -> unit_key name k -> In (k, us) units_table ->
  u_scale (reg us) <> 0%R -> convert reg name (VQty m (reg us)) = convert reg name (VNum m).
Proof.
  intros NU K I S. rewrite (convert_qty reg name k us) by auto. unfold qty_to.
  destruct (list_eq_dec _ _ _) as [E|E]; [|congruence]. simpl.
  rewrite convert_plain by discriminate. do 2 f_equal. field. exact S.
Qed.

(** pointwise on calls *)
Lemma conv_args_ok reg names args : Forall2 (fun n v => True) names args ->
  forall out, conv_args reg names args = Ok out <->
  (List.length out = List.length args /\
   forall i n v, nth_error names i = Some n -> nth_error args i = Some v ->
     exists w, nth_error out i = Some w /\ convert reg n v = Ok w).
Proof.
  intros F. induction F as [|n v names args _ F IH]; intros out; simpl.
  - split.
    + intros E; inversion E; subst. split; auto. intros i n v H. destruct i; discriminate.
    + intros (L & _). destruct out; [reflexivity|discriminate].
  - split.
    + intros E. destruct (convert reg n v) as [v'|] eqn:C; [|discriminate]. simpl in E.
      destruct (conv_args reg names args) as [r|] eqn:A; [|discriminate]. simpl in E. inversion E; subst.
      destruct (proj1 (IH r) eq_refl) as (L & A2). simpl. split; [congruence|].
      intros [|i] n0 v0 H1 H2; simpl in *; [|exact (A2 i n0 v0 H1 H2)]. inversion H1; inversion H2; subst. eauto.
    + intros (L & A). destruct out as [|w out]; [discriminate|].
      destruct (A 0%nat n v eq_refl eq_refl) as (w' & W & C). simpl in W. inversion W; subst w'. rewrite C. simpl.
      rewrite (proj2 (IH out)); [reflexivity|]. split; [simpl in L; congruence|].
      intros i n0 v0 H1 H2. apply (A (S i) n0 v0 H1 H2).
Qed.
Lemma conv_kwargs_ok reg kw out : conv_kwargs reg kw = Ok out <->
  map fst out = map fst kw /\
  (forall i n v, nth_error kw i = Some (n, v) -> exists w, nth_error out i = Some (n, w) /\ convert reg n v = Ok w).
Proof.
  revert out; induction kw as [|(k, v) kw IH]; intros out; simpl.
  - split.
    + intros E; inversion E; subst. split; auto. intros i n v H; destruct i; discriminate.
    + intros (L & _). destruct out; [reflexivity|discriminate].
  - split.
    + intros E. destruct (convert reg k v) as [v'|] eqn:C; [|discriminate]. simpl in E.
      destruct (conv_kwargs reg kw) as [r|] eqn:A; [|discriminate]. simpl in E. inversion E; subst.
      destruct (proj1 (IH r) eq_refl) as (L & A2). simpl. split; [congruence|].
      intros [|i] n0 v0 H1; simpl in *; [|exact (A2 i n0 v0 H1)]. inversion H1; subst. eauto.
    + intros (L & A). destruct out as [|(k', w) out]; [discriminate|].
      destruct (A 0%nat k v eq_refl) as (w' & W & C). simpl in W. inversion W; subst. rewrite C. simpl.
      rewrite (proj2 (IH out)); [reflexivity|]. split; [simpl in L; congruence|].
      intros i n0 v0 H1. apply (A (S i) n0 v0 H1).
Qed.

Lemma conv_args_some reg names args a : List.length args = List.length names -> List.length a = List.length args ->
  (forall i n v, nth_error names i = Some n -> nth_error args i = Some v ->
     exists w, nth_error a i = Some w /\ convert reg n v = Ok w) -> conv_args reg names args = Ok a.
Proof.
  intros L La H. apply conv_args_ok; auto.
  clear - L. revert names L; induction args; destruct names; simpl; intros; try discriminate; constructor; auto.
Qed.
Lemma checked_call A reg argnames (f : list pyval -> list (string * pyval) -> res A) args kw a k :
  List.length args = List.length argnames -> List.length a = List.length args ->
  (forall i n v, nth_error argnames i = Some n -> nth_error args i = Some v ->
     exists w, nth_error a i = Some w /\ convert reg n v = Ok w) ->
  map fst k = map fst kw ->
  (forall i n v, nth_error kw i = Some (n, v) -> exists w, nth_error k i = Some (n, w) /\ convert reg n v = Ok w) ->
  checked reg argnames f args kw = f a k.
Proof.
  intros L La Ha Lk Hk. unfold checked. rewrite (conv_args_some _ _ _ _ L La Ha). simpl.
  rewrite (proj2 (conv_kwargs_ok reg kw k) (conj Lk Hk)). reflexivity.
Qed.
Lemma checked_total A reg argnames (f : list pyval -> list (string * pyval) -> res A) args kw :
  (forall i n v, nth_error argnames i = Some n -> nth_error args i = Some v -> exists w, convert reg n v = Ok w) ->
  (forall n v, In (n, v) kw -> exists w, convert reg n v = Ok w) ->
  exists a k, checked reg argnames f args kw = f a k.
Proof.
  intros Ha Hk. unfold checked.
  assert (A1 : exists a, conv_args reg argnames args = Ok a).
  { clear Hk. revert args Ha. induction argnames as [|n names IH]; intros args Ha; simpl; [eauto|].
    destruct args as [|v args]; [eauto|]. destruct (Ha 0%nat n v eq_refl eq_refl) as (w & ->). simpl.
    destruct (IH args) as (r & ->); [intros i n0 v0 H1 H2; exact (Ha (S i) n0 v0 H1 H2)|]. simpl. eauto. }
  assert (A2 : exists k, conv_kwargs reg kw = Ok k).
  { clear A1. induction kw as [|(n, v) kw IH]; simpl; [eauto|].
    destruct (Hk n v (or_introl eq_refl)) as (w & ->). simpl.
    destruct IH as (r & ->); [intros; apply Hk; right; auto|]. simpl. eauto. }
  destruct A1 as (a & ->), A2 as (k & ->). simpl. eauto.
Qed.

Lemma mz_refuted reg kg : u_scale (reg "kg") <> 0%R -> reg "kg" = kg -> u_dim kg <> [] ->
  pm6_call reg [("n", VNum 0); ("mx", VQty 10 kg); ("my", VQty 20 kg); ("mz", VNum 30)] = Ok (10, 20, 30)%R /\
  pm6_call reg [("n", VNum 0); ("mx", VQty 10 kg); ("my", VQty 20 kg); ("mz", VQty 30 kg)] = Err TypeError.
Proof.
  intros S E D.
  assert (CX : forall m, convert reg "mx" (VQty m kg) = Ok (VNum m)).
  { intros m. rewrite <- E at 1. rewrite (convert_target reg "mx" "mx" "kg"); [reflexivity| | |apply lookup_in; reflexivity|auto].
    - rewrite units_piece_iff; discriminate.
    - apply unit_key_iff; reflexivity. }
  assert (CY : forall m, convert reg "my" (VQty m kg) = Ok (VNum m)).
  { intros m. rewrite <- E at 1. rewrite (convert_target reg "my" "my" "kg"); [reflexivity| | |apply lookup_in; reflexivity|auto].
    - rewrite units_piece_iff; discriminate.
    - apply unit_key_iff; reflexivity. }
  assert (NK : forall k v, k = "mz" \/ k = "n" -> convert reg k v = Ok v).
  { intros k v H. apply convert_nokey. right. intros k0 U. apply unit_key_iff in U.
    destruct H as [-> | ->]; discriminate U. }
  unfold pm6_call, checked; cbn [conv_args conv_kwargs bind].
  rewrite !NK by auto. cbn [bind]. rewrite CX. cbn [bind]. rewrite CY. cbn [bind]. rewrite !NK by auto. cbn [bind].
  split; unfold pm6_body; cbn.
  - reflexivity.
  - destruct (list_eq_dec Z.eq_dec (u_dim kg) []); [congruence|reflexivity].
Qed.
