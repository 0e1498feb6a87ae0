(** Lemmas about reading tables: the whole function, its conversions, and the materials. *)
From Coq Require Import Reals List String Bool Arith ZArith Lia Lra.
From Verif Require Import PyBase PyDict MTable SpecTable LMaterial LTable LTable2.
Import ListNotations.
Open Scope string_scope.
Open Scope list_scope.

Definition rename (v : pyval) : res pyval := bind (vint v) (fun z => Ok (VStr ("shaft_mat_" ++ str_of_Z z)%string)).
(** the part of read_table after the header search and the materials, on given data rows *)
Definition read_rows (k : table_kind) (header : list cell) (rows : sheet) (eng rpm : bool) : res (dict (list pyval)) :=
  let names := lower_names (col_names header) in
  bind (read_required names rows (required_columns k) []) (fun d =>
  bind (read_optional names rows (optional_columns k) d) (fun d =>
  bind (match k with TShaftModel => update "material" rename d | _ => Ok d end) (fun d =>
  bind (match k with TBearing => Ok d | _ => update "n" vpred d end) (fun d =>
  bind (if eng then update_all (metric_factors k) d else Ok d) (fun d =>
  if rpm then update_all (rpm_factors k) d else Ok d))))).

Lemma bind_ok {A} (r : res A) : bind r (fun d => Ok d) = r.
Proof. destruct r; reflexivity. Qed.
Lemma bind_if {A B} (c : bool) (r r' : res A) (f : A -> res B) : bind (if c then r else r') f = if c then bind r f else bind r' f.
Proof. destruct c; reflexivity. Qed.

Lemma read_eq k s h a b : table k s h a b ->
  read_table k s =
  bind (match k with TShaftModel => read_materials (sc_metric (scan_sheet (key_word k) s)) s | _ => Ok [] end) (fun ms =>
  bind (read_rows k (the_row s h) (rows_between s a b) (sc_metric (scan_sheet (key_word k) s)) (sc_rpm (scan_sheet (key_word k) s)))
    (fun d => Ok (d, ms))).
Proof.
  intros T. unfold read_table.
  assert (H : sc_header (scan_sheet (key_word k) s) = Some h) by (apply scan_header, T). rewrite H.
  destruct (match k with TShaftModel => _ | _ => _ end) as [ms|e]; cbn [bind]; [|reflexivity].
  rewrite (table_rows k s h a b T). cbn [negb]. unfold read_rows. fold rename. unfold the_row.
  destruct (read_required _ _ _ _) as [d1|]; cbn [bind]; [|reflexivity].
  destruct (read_optional _ _ _ _) as [d2|]; cbn [bind]; [|reflexivity].
  destruct (match k with TShaftModel => _ | _ => _ end) as [d3|]; cbn [bind]; [|reflexivity].
  destruct (match k with TBearing => _ | _ => _ end) as [d4|]; cbn [bind]; [|reflexivity].
  destruct (if sc_metric _ then _ else _) as [d5|]; cbn [bind]; [|reflexivity]. reflexivity.
Qed.
Lemma read_table_ok k s d ms : read_table k s = Ok (d, ms) -> exists h a b, table k s h a b.
Proof.
  unfold read_table. destruct (sc_header (scan_sheet (key_word k) s)) as [h|] eqn:H; [|discriminate].
  apply scan_header in H. destruct (match k with TShaftModel => _ | _ => _ end) as [m|e]; cbn [bind]; [|discriminate].
  rewrite data_rows_eq. destruct (existsb _ (skipn (S h) s)) eqn:X; cbn [negb]; [|discriminate].
  intros _. destruct (table_exists k s h H X) as (a & b & T). eauto.
Qed.
Lemma read_table_nodata k s h : header_row (key_word k) s h -> (forall a b, ~ table k s h a b) -> k <> TShaftModel ->
  read_table k s = Err DataNotFound.
Proof.
  intros H N K. unfold read_table. assert (E : sc_header (scan_sheet (key_word k) s) = Some h) by (apply scan_header, H).
  rewrite E. replace (match k with TShaftModel => _ | _ => _ end) with (Ok [] : res (list mat_row)) by (destruct k; try reflexivity; now destruct K).
  cbn [bind]. rewrite data_rows_eq. destruct (existsb _ (skipn (S h) s)) eqn:X; cbn [negb]; [|reflexivity].
  destruct (table_exists k s h H X) as (a & b & T). destruct (N a b T).
Qed.

Lemma required_nodup k : NoDup (map fst (required_columns k)).
Proof. destruct k; cbn; repeat (constructor; [cbn; intuition discriminate|]); constructor. Qed.
Lemma optional_nodup k : NoDup (map fst (optional_columns k)).
Proof. destruct k; cbn; repeat (constructor; [cbn; intuition discriminate|]); constructor. Qed.
Lemma metric_nodup k : NoDup (map fst (metric_factors k)).
Proof. destruct k; cbn; repeat (constructor; [cbn; intuition discriminate|]); constructor. Qed.
Lemma rpm_nodup k : NoDup (map fst (rpm_factors k)).
Proof. destruct k; cbn; repeat (constructor; [cbn; intuition discriminate|]); constructor. Qed.
Lemma required_not_optional k p : In p (map fst (required_columns k)) -> ~ In p (map fst (optional_columns k)).
Proof. destruct k; cbn; intuition (subst; discriminate). Qed.

(** the steps a value goes through *)
Definition chain (k : table_kind) (p : string) (eng rpm : bool) (v : pyval) : res pyval :=
  bind (if match k with TShaftModel => String.eqb p "material" | _ => false end then rename v else Ok v) (fun v =>
  bind (if match k with TBearing => false | _ => String.eqb p "n" end then vpred v else Ok v) (fun v =>
  bind (if eng then maybe (dget (metric_factors k) p) v else Ok v) (fun v =>
  if rpm then maybe (dget (rpm_factors k) p) v else Ok v))).

Definition mset (k : table_kind) (p : string) : bool :=
  match k with
  | TBearing => existsb (String.eqb p) ["kxx"; "cxx"; "kyy"; "kxy"; "kyx"; "cyy"; "cxy"; "cyx"]
  | TDisk => existsb (String.eqb p) ["m"; "Id"; "Ip"]
  | _ => existsb (String.eqb p) ["L"; "idl"; "odl"; "idr"; "odr"; "axial_force"]
  end.
Definition rset (k : table_kind) (p : string) : bool := match k with TBearing => String.eqb p "frequency" | _ => false end.
Definition nset (k : table_kind) (p : string) : bool := match k with TBearing => false | _ => String.eqb p "n" end.
Lemma metric_lookup k p : dget (metric_factors k) p = if mset k p then Some (factor k p) else None.
Proof.
  destruct k; unfold mset, factor; cbn [metric_factors dget existsb].
  - repeat match goal with |- context [String.eqb p ?x] => destruct (String.eqb p x); [reflexivity|] end. reflexivity.
  - destruct (String.eqb p "m"); [reflexivity|]. destruct (String.eqb p "Id"); [reflexivity|].
    destruct (String.eqb p "Ip"); reflexivity.
  - do 5 match goal with |- context [String.eqb p ?x] => destruct (String.eqb p x); [reflexivity|] end.
    destruct (String.eqb p "axial_force"); reflexivity.
  - do 5 match goal with |- context [String.eqb p ?x] => destruct (String.eqb p x); [reflexivity|] end.
    destruct (String.eqb p "axial_force"); reflexivity.
Qed.
Lemma factor_1 k p : mset k p = false -> factor k p = 1%R.
Proof.
  destruct k; unfold mset, factor; cbn [existsb]; intros H; rewrite ?orb_false_iff in H.
  - destruct H as (-> & -> & -> & -> & -> & -> & -> & -> & _). reflexivity.
  - destruct H as (-> & -> & -> & _). reflexivity.
  - destruct H as (-> & -> & -> & -> & -> & -> & _). reflexivity.
  - destruct H as (-> & -> & -> & -> & -> & -> & _). reflexivity.
Qed.
Lemma rpm_lookup k p : dget (rpm_factors k) p = if rset k p then Some (rpm_factor k p) else None.
Proof. destruct k; cbn [rpm_factors dget rset rpm_factor]; [|reflexivity..]. destruct (String.eqb p "frequency"); reflexivity. Qed.
Lemma rpm_1 k p : rset k p = false -> rpm_factor k p = 1%R.
Proof. destruct k; cbn [rset rpm_factor]; [|reflexivity..]. intros ->. reflexivity. Qed.
Lemma shift_n k p : shift k p = if nset k p then 1%R else 0%R.
Proof. destruct k; reflexivity. Qed.
Lemma numeric_sets k p eng rpm : numeric k p eng rpm = nset k p || (eng && mset k p) || (rpm && rset k p).
Proof.
  destruct k; unfold numeric, nset, mset, rset; [reflexivity|..]; rewrite andb_false_r, orb_false_r; reflexivity.
Qed.
Lemma chain_reads k p eng rpm v w : chain k p eng rpm v = Ok w -> reads k p eng rpm v w.
Proof.
  unfold chain, reads. intros H.
  destruct (match k with TShaftModel => String.eqb p "material" | _ => false end) eqn:M.
  - destruct k; try discriminate. apply String.eqb_eq in M. subst p.
    destruct v; cbn in H |- *; try discriminate; try exact I.
    destruct eng, rpm; cbn in H; injection H; intros <-; reflexivity.
  - cbn [bind] in H. rewrite metric_lookup, rpm_lookup in H. unfold si. rewrite shift_n, numeric_sets.
    change (match k with TBearing => false | _ => String.eqb p "n" end) with (nset k p) in H.
    pose proof (factor_1 k p) as F1. pose proof (rpm_1 k p) as R1.
    revert H F1 R1. generalize (factor k p) (rpm_factor k p). intros mf rf H F1 R1.
    destruct (nset k p), (mset k p), (rset k p); try rewrite (F1 eq_refl) in *; try rewrite (R1 eq_refl) in *; clear F1 R1;
      destruct eng, rpm; cbn [andb orb bind maybe] in *;
      destruct v; cbn [vpred vmul maybe bind] in H; try discriminate H;
      injection H; intros <-; first [reflexivity | (f_equal; ring) | (split; reflexivity) | (intros; first [reflexivity|discriminate])].
Qed.

Lemma forall2_comp (f g : pyval -> res pyval) l1 : forall l2 l3,
  Forall2 (fun v w => f v = Ok w) l1 l2 -> Forall2 (fun v w => g v = Ok w) l2 l3 ->
  Forall2 (fun v w => bind (f v) g = Ok w) l1 l3.
Proof.
  induction l1 as [|x l1 IH]; intros l2 l3 F G; inversion F as [|? y ? l2' E F']; subst; inversion G as [|? z ? l3' E' G']; subst; constructor.
  - now rewrite E.
  - now apply (IH l2').
Qed.
Lemma forall2_ext (f g : pyval -> res pyval) l1 l2 : (forall v, f v = g v) ->
  Forall2 (fun v w => f v = Ok w) l1 l2 -> Forall2 (fun v w => g v = Ok w) l1 l2.
Proof. intros E F. induction F; constructor; [now rewrite <- E|assumption]. Qed.
Lemma update_step q f d d' : update q f d = Ok d' -> forall p l, dget d p = Some l ->
  exists l', dget d' p = Some l' /\ Forall2 (fun v w => (if String.eqb p q then f v else Ok v) = Ok w) l l'.
Proof.
  intros U p l G. destruct (update_ok _ _ _ _ U) as [(l0 & l1 & G0 & G1 & F) O].
  destruct (String.eqb_spec p q) as [->|N].
  - rewrite G in G0. injection G0; intros ->. eauto.
  - exists l. rewrite O by exact N. split; [exact G|apply forall2_refl_ok].
Qed.
Lemma stage_mat k d d' : match k with TShaftModel => update "material" rename d | _ => Ok d end = Ok d' ->
  forall p l, dget d p = Some l -> exists l', dget d' p = Some l' /\
    Forall2 (fun v w => (if match k with TShaftModel => String.eqb p "material" | _ => false end then rename v else Ok v) = Ok w) l l'.
Proof.
  intros E p l G. destruct k; try (injection E; intros <-; exists l; split; [exact G|apply forall2_refl_ok]).
  exact (update_step _ _ _ _ E p l G).
Qed.
Lemma stage_n k d d' : match k with TBearing => Ok d | _ => update "n" vpred d end = Ok d' ->
  forall p l, dget d p = Some l -> exists l', dget d' p = Some l' /\
    Forall2 (fun v w => (if match k with TBearing => false | _ => String.eqb p "n" end then vpred v else Ok v) = Ok w) l l'.
Proof.
  intros E p l G. destruct k; try (injection E; intros <-; exists l; split; [exact G|apply forall2_refl_ok]).
  all: exact (update_step _ _ _ _ E p l G).
Qed.
Lemma stage_fs (c : bool) fs d d' : NoDup (map fst fs) -> (if c then update_all fs d else Ok d) = Ok d' ->
  forall p l, dget d p = Some l -> exists l', dget d' p = Some l' /\
    Forall2 (fun v w => (if c then maybe (dget fs p) v else Ok v) = Ok w) l l'.
Proof.
  intros ND E p l G. destruct c; [exact (update_all_ok fs d d' ND E p l G)|].
  injection E; intros <-. exists l. split; [exact G|apply forall2_refl_ok].
Qed.

(** every parameter list is its column, or its default, sent through the chain *)
Lemma read_rows_ok k s h a b eng rpm d : read_rows k (the_row s h) (rows_between s a b) eng rpm = Ok d ->
  forall p alts dflt, accepted k p alts dflt ->
  exists l0 l, dget d p = Some l /\ Forall2 (fun v w => chain k p eng rpm v = Ok w) l0 l /\
    ((exists j, source (the_row s h) alts j /\ l0 = col_vals s a b j) \/
     (exists v, dflt = Some v /\ no_source (the_row s h) alts /\ l0 = repeat v (b - a))).
Proof.
  unfold read_rows. intros E p alts dflt A.
  destruct (read_required _ _ _ _) as [d1|] eqn:E1; cbn [bind] in E; [|discriminate].
  destruct (read_optional _ _ _ _) as [d2|] eqn:E2; cbn [bind] in E; [|discriminate].
  destruct (match k with TShaftModel => update "material" rename d2 | _ => Ok d2 end) as [d3|] eqn:E3; cbn [bind] in E; [|discriminate].
  destruct (match k with TBearing => Ok d3 | _ => update "n" vpred d3 end) as [d4|] eqn:E4; cbn [bind] in E; [|discriminate].
  destruct (if eng then update_all (metric_factors k) d4 else Ok d4) as [d5|] eqn:E5; cbn [bind] in E; [|discriminate].
  destruct (read_required_ok _ _ _ _ _ _ _ (required_nodup k) E1) as [A1 B1].
  destruct (read_optional_ok _ _ _ _ _ _ _ (optional_nodup k) E2) as [A2 B2].
  assert (S0 : exists l0, dget d2 p = Some l0 /\
    ((exists j, source (the_row s h) alts j /\ l0 = col_vals s a b j) \/
     (exists v, dflt = Some v /\ no_source (the_row s h) alts /\ l0 = repeat v (b - a)))).
  { destruct A as [[I ->]|(v & I & ->)].
    - destruct (A1 p alts I) as (j & S & G). exists (col_vals s a b j). split; [|left; eauto].
      rewrite B2; [exact G|]. apply required_not_optional. apply in_map_iff. exists (p, alts). split; [reflexivity|exact I].
    - destruct (A2 p alts v I) as [(j & S & G)|[N G]]; eexists; (split; [exact G|]); [left; eauto|right; eauto]. }
  destruct S0 as (l0 & G2 & SRC). exists l0.
  destruct (stage_mat k d2 d3 E3 p l0 G2) as (l3 & G3 & F3).
  destruct (stage_n k d3 d4 E4 p l3 G3) as (l4 & G4 & F4).
  destruct (stage_fs eng _ d4 d5 (metric_nodup k) E5 p l4 G4) as (l5 & G5 & F5).
  destruct (stage_fs rpm _ d5 d (rpm_nodup k) E p l5 G5) as (l6 & G6 & F6).
  exists l6. split; [exact G6|]. split; [|exact SRC].
  pose proof (forall2_comp _ _ _ _ _ F5 F6) as F56. pose proof (forall2_comp _ _ _ _ _ F4 F56) as F456.
  exact (forall2_comp _ _ _ _ _ F3 F456).
Qed.
Lemma forall2_nth {A B} (P : A -> B -> Prop) l1 l2 da db : Forall2 P l1 l2 -> forall i, (i < List.length l1)%nat -> P (nth i l1 da) (nth i l2 db).
Proof.
  intros F. induction F as [|x y l1 l2 H F IH]; intros i Hi; [cbn in Hi; lia|].
  destruct i; cbn; [exact H|]. apply IH. cbn in Hi. lia.
Qed.
Lemma forall2_len {A B} (P : A -> B -> Prop) l1 l2 : Forall2 P l1 l2 -> List.length l1 = List.length l2.
Proof. intros F. induction F; cbn; congruence. Qed.

(** success *)
Lemma numlike_cell c : (exists x, cell_val c = VNum x) \/ cell_val c = VNaN -> numlike (cell_val c).
Proof. intros H; exact H. Qed.
Definition well_filled (k : table_kind) (s : sheet) (h a b : nat) (eng rpm : bool) : Prop :=
  forall p alts dflt, accepted k p alts dflt ->
    (exists j, source (the_row s h) alts j /\
       (numeric k p eng rpm = true -> forall i, (a <= i < b)%nat -> numlike (cell_val (the_cell s i j)))) \/
    (exists v, dflt = Some v /\ no_source (the_row s h) alts /\ (numeric k p eng rpm = true -> exists x, v = VNum x)).
Lemma col_vals_in s a b j v : In v (col_vals s a b j) -> exists i, (a <= i < b)%nat /\ v = cell_val (the_cell s i j).
Proof.
  unfold col_vals, rows_between. rewrite map_map. intros I. apply in_map_iff in I. destruct I as (i & <- & I).
  apply in_seq in I. exists i. split; [lia|reflexivity].
Qed.
Lemma accepted_key k p : In p (map fst (metric_factors k)) \/ In p (map fst (rpm_factors k)) \/ (k <> TBearing /\ p = "n") ->
  exists alts dflt, accepted k p alts dflt.
Proof.
  assert (R : forall alts, In (p, alts) (required_columns k) -> exists alts dflt, accepted k p alts dflt)
    by (intros alts I; exists alts, None; left; auto).
  assert (O : forall alts d, In (p, (alts, d)) (optional_columns k) -> exists alts dflt, accepted k p alts dflt)
    by (intros alts d I; exists alts, (Some d); right; eauto).
  intros H. destruct k; cbn in H, R, O;
  repeat match goal with H : _ \/ _ |- _ => destruct H as [H|H] end; try contradiction; try (destruct H as [H1 H]; try (now destruct H1)); subst;
  first [ eapply R; solve [repeat (first [left; reflexivity | right])] | eapply O; solve [repeat (first [left; reflexivity | right])] ].
Qed.
Lemma numlike_vpred l l' : Forall numlike l -> Forall2 (fun v w => vpred v = Ok w) l l' -> Forall numlike l'.
Proof.
  intros F H. induction H as [|v w l l' E H IH]; [constructor|]. inversion F as [|? ? Hv F']; subst. constructor; [|apply IH, F'].
  destruct Hv as [[x ->]| ->]; cbn in E; injection E; intros <-; [left; eauto|now right].
Qed.
Lemma source_unique header alts j j' : source header alts j -> source header alts j' -> j = j'.
Proof.
  intros (be & w & af & -> & C & Nb) (be' & w' & af' & E & C' & Nb').
  revert be' Nb' E. induction be as [|x be IH]; intros be' Nb' E.
  - destruct be' as [|y be']; cbn in E; injection E; intros; subst; [exact (proj2 C' j (proj1 C))|].
    exfalso. apply (Nb' y j (or_introl eq_refl)), C.
  - destruct be' as [|y be']; cbn in E; injection E; intros; subst.
    + exfalso. apply (Nb w' j' (or_introl eq_refl)), C'.
    + apply (IH (fun u i I => Nb u i (or_intror I)) be' (fun u i I => Nb' u i (or_intror I))). assumption.
Qed.
Lemma read_rows_total k s h a b eng rpm : well_filled k s h a b eng rpm ->
  (k = TShaftModel -> forall j, source (the_row s h) ["material"; "matnum"] j -> forall i, (a <= i < b)%nat -> exists x, cell_val (the_cell s i j) = VNum x) ->
  is_ok (read_rows k (the_row s h) (rows_between s a b) eng rpm).
Proof.
  intros W M. unfold read_rows.
  destruct (read_required_total (the_row s h) s a b (required_columns k) []) as [d1 E1].
  { intros p alts I. destruct (W p alts None (or_introl (conj I eq_refl))) as [(j & S & _)|(v & E & _)]; [eauto|discriminate]. }
  rewrite E1. cbn [bind].
  destruct (read_optional_total (the_row s h) s a b (optional_columns k) d1) as [d2 E2].
  { intros p alts v I. destruct (W p alts (Some v) (or_intror (ex_intro _ v (conj I eq_refl)))) as [(j & S & _)|(u & E & N & _)]; eauto. }
  rewrite E2. cbn [bind].
  destruct (read_required_ok _ _ _ _ _ _ _ (required_nodup k) E1) as [A1 B1].
  destruct (read_optional_ok _ _ _ _ _ _ _ (optional_nodup k) E2) as [A2 B2].
  assert (NUM : forall p alts dflt, accepted k p alts dflt -> exists l, dget d2 p = Some l /\ (numeric k p eng rpm = true -> Forall numlike l)).
  { intros p alts dflt A. pose proof (W p alts dflt A) as Wp.
    assert (CASE : (exists j, source (the_row s h) alts j /\ dget d2 p = Some (col_vals s a b j)) \/
       (exists v, dflt = Some v /\ no_source (the_row s h) alts /\ dget d2 p = Some (repeat v (b - a)))).
    { destruct A as [[I ->]|(v & I & ->)].
      - destruct (A1 p alts I) as (j & S & G). left. exists j. split; [exact S|].
        rewrite B2; [exact G|]. apply required_not_optional. apply in_map_iff. exists (p, alts). split; [reflexivity|exact I].
      - destruct (A2 p alts v I) as [(j & S & G)|[N G]]; [left|right]; eauto. }
    destruct CASE as [(j & S & G)|(v & -> & N & G)].
    - eexists. split; [exact G|]. intros Hn. apply Forall_forall. intros v I. apply col_vals_in in I. destruct I as (i & Hi & ->).
      destruct Wp as [(j' & S' & Hc)|(u & _ & N & _)].
      + rewrite (source_unique _ _ _ _ S S'). apply Hc; assumption.
      + exfalso. destruct S as (be & w & af & -> & C & _). apply (N w j); [apply in_or_app; right; now left|apply C].
    - eexists. split; [exact G|]. intros Hn. destruct Wp as [(j & S & _)|(u & Eu & _ & Hu)].
      + exfalso. destruct S as (be & w & af & -> & C & _). apply (N w j); [apply in_or_app; right; now left|apply C].
      + injection Eu; intros <-. destruct (Hu Hn) as [x ->]. apply Forall_forall. intros v' I. apply repeat_spec in I. subst. left. eauto. }
  (* materials *)
  assert (U3 : is_ok (match k with TShaftModel => update "material" rename d2 | _ => Ok d2 end)).
  { destruct k; try (eexists; reflexivity).
    destruct (A1 "material" ["material"; "matnum"]) as (j & S & G); [cbn; tauto|].
    assert (G2 : dget d2 "material" = Some (col_vals s a b j)) by (rewrite B2; [exact G|]; cbn; intuition discriminate).
    apply (update_total _ _ _ _ G2). intros v I. apply col_vals_in in I. destruct I as (i & Hi & ->).
    destruct (M eq_refl j S i Hi) as [x ->]. eexists; reflexivity. }
  destruct U3 as [d3 E3]. rewrite E3. cbn [bind].
  assert (NUM3 : forall p alts dflt, accepted k p alts dflt -> numeric k p eng rpm = true -> exists l, dget d3 p = Some l /\ Forall numlike l).
  { intros p alts dflt A Hn. destruct (NUM p alts dflt A) as (l & G & F). specialize (F Hn).
    destruct (stage_mat k d2 d3 E3 p l G) as (l' & G' & F'). exists l'. split; [exact G'|].
    assert (X : match k with TShaftModel => String.eqb p "material" | _ => false end = false).
    { destruct k; try reflexivity. destruct (String.eqb_spec p "material") as [->|]; [|reflexivity]. exfalso. destruct eng, rpm; discriminate Hn. }
    rewrite X in F'. assert (l = l') by (clear - F'; induction F'; [reflexivity|congruence]). now subst. }
  assert (U4 : is_ok (match k with TBearing => Ok d3 | _ => update "n" vpred d3 end)).
  { assert (G : k <> TBearing -> exists l, dget d3 "n" = Some l /\ Forall numlike l).
    { intros K. destruct (accepted_key k "n") as (alts & dflt & A); [right; right; auto|]. apply (NUM3 "n" alts dflt A). destruct k; [now destruct K|reflexivity..]. }
    destruct k; [eexists; reflexivity|..]; destruct (G ltac:(discriminate)) as (l & Gl & F); apply (update_total _ _ _ _ Gl); intros v I;
      destruct (proj1 (Forall_forall _ _) F v I) as [[x ->]| ->]; eexists; reflexivity. }
  destruct U4 as [d4 E4]. rewrite E4. cbn [bind].
  assert (NUM4 : forall p alts dflt, accepted k p alts dflt -> numeric k p eng rpm = true -> exists l, dget d4 p = Some l /\ Forall numlike l).
  { intros p alts dflt A Hn. destruct (NUM3 p alts dflt A Hn) as (l & G & F).
    destruct (stage_n k d3 d4 E4 p l G) as (l' & G' & F'). exists l'. split; [exact G'|].
    destruct (match k with TBearing => false | _ => String.eqb p "n" end); [exact (numlike_vpred _ _ F F')|].
    assert (l = l') by (clear - F'; induction F'; [reflexivity|congruence]). now subst. }
  assert (KEYM : forall p, In p (map fst (metric_factors k)) -> eng = true -> exists l, dget d4 p = Some l /\ Forall numlike l).
  { intros p I E. destruct (accepted_key k p (or_introl I)) as (alts & dflt & A). apply (NUM4 p alts dflt A).
    rewrite numeric_sets, E. assert (X : mset k p = true); [|rewrite X, orb_true_r; reflexivity].
    clear - I. destruct k; cbn in I; unfold mset; repeat (destruct I as [<-|I]; [reflexivity|]); destruct I. }
  assert (U5 : is_ok (if eng then update_all (metric_factors k) d4 else Ok d4)).
  { destruct eng; [|eexists; reflexivity]. apply update_all_total; [apply metric_nodup|]. intros p I. apply KEYM; [exact I|reflexivity]. }
  destruct U5 as [d5 E5]. rewrite E5. cbn [bind].
  destruct rpm; [|eexists; reflexivity]. apply update_all_total; [apply rpm_nodup|]. intros p I.
  destruct (accepted_key k p (or_intror (or_introl I))) as (alts & dflt & A).
  destruct (NUM4 p alts dflt A) as (l & G & F).
  { rewrite numeric_sets. assert (X : rset k p = true); [|rewrite X, orb_true_r; reflexivity].
    clear - I. destruct k; cbn in I; try contradiction. destruct I as [<-|[]]. reflexivity. }
  destruct eng; [exact (update_numlike _ _ _ (metric_nodup k) E5 p l G F)|]. injection E5; intros <-. eauto.
Qed.
