(** Lemmas about reading tables: materials and decimal names. *)
From Coq Require Import Reals List String Bool Arith ZArith Lia Lra DecimalString DecimalFacts DecimalZ DecimalPos.
From Verif Require Import PyBase PyDict MTable SpecTable LMaterial LTable LTable2 LTable3.
Import ListNotations.
Open Scope string_scope.
Open Scope list_scope.

Lemma find_text_eq key rows : forall idx, find_text key idx rows = first_index (row_says key) idx rows.
Proof.
  induction rows as [|r rows IH]; intros idx; cbn [find_text first_index]; [reflexivity|].
  replace (existsb (fun c => match c with CStr s => String.eqb (lower s) key | _ => false end) r) with (row_says key r) by reflexivity.
  rewrite IH. reflexivity.
Qed.
Lemma find_text_header key s h : find_text key 0 s = Some h <-> header_row key s h.
Proof.
  rewrite find_text_eq. rewrite <- scan_header. unfold scan_sheet. rewrite scan_rows_header. reflexivity.
Qed.
Lemma exact_nth header w j : In j (positions w 0 (col_names header)) <-> exact_column header w j.
Proof. rewrite positions_in, Nat.sub_0_r, col_names_nth. unfold exact_column. intuition lia. Qed.
Lemma exact_unique header w i j : exact_column header w i -> exact_column header w j -> i = j.
Proof.
  intros [A1 A2] [B1 B2]. destruct (Nat.lt_trichotomy i j) as [H|[H|H]]; [|exact H|].
  - destruct (B2 i H A1).
  - destruct (A2 j H B1).
Qed.
Lemma row_get_ok header row w c : row_get (col_names header) row w = Ok c <-> exists j, exact_column header w j /\ c = cell_at row j.
Proof.
  unfold row_get. destruct (positions w 0 (col_names header)) as [|j ps] eqn:P.
  - split; [discriminate|]. intros (j & E & _). apply exact_nth in E. rewrite P in E. destruct E.
  - assert (X : exact_column header w j) by (apply exact_nth; rewrite P; now left). split.
    + intros E. injection E; intros <-. eauto.
    + intros (j' & E & ->). now rewrite (exact_unique _ _ _ _ X E).
Qed.
Definition mat_of (names : list (option string)) (row : list cell) (m : mat_row) : Prop :=
  exists c r e g, row_get names row "matno" = Ok c /\ c <> CNaN /\ vint (cell_val c) = Ok (mt_no m) /\
    row_get names row "rhoa" = Ok r /\ mt_rho m = cell_val r /\ row_get names row "ea" = Ok e /\ mt_e m = cell_val e /\
    row_get names row "ga" = Ok g /\ mt_g m = cell_val g /\ mt_color m = mat_color names row.
Lemma mat_rows_ok names rows : forall ms, mat_rows names rows = Ok ms ->
  (List.length ms <= List.length rows)%nat /\ Forall2 (mat_of names) (firstn (List.length ms) rows) ms /\
  ((List.length ms < List.length rows)%nat -> row_get names (nth (List.length ms) rows []) "matno" = Ok CNaN).
Proof.
  induction rows as [|row rows IH]; intros ms E; cbn [mat_rows] in E.
  - injection E; intros <-. cbn. repeat split; [lia|constructor|lia].
  - destruct (row_get names row "matno") as [c|] eqn:Gn; cbn [bind] in E; [|discriminate].
    destruct (match c with CNaN => true | _ => false end) eqn:X.
    { destruct c; try discriminate. injection E; intros <-. cbn. repeat split; [lia|constructor|intros _; exact Gn]. }
    assert (E' : bind (vint (cell_val c)) (fun no =>
             bind (row_get names row "rhoa") (fun r =>
             bind (row_get names row "ea") (fun e =>
             bind (row_get names row "ga") (fun g =>
             bind (mat_rows names rows) (fun ms =>
             Ok (mkMatRow no (cell_val r) (cell_val e) (cell_val g) (mat_color names row) :: ms)))))) = Ok ms) by (destruct c; [discriminate|exact E..]).
    clear E. destruct (vint (cell_val c)) as [no|] eqn:V; cbn [bind] in E'; [|discriminate].
    destruct (row_get names row "rhoa") as [r|] eqn:Gr; cbn [bind] in E'; [|discriminate].
    destruct (row_get names row "ea") as [e|] eqn:Ge; cbn [bind] in E'; [|discriminate].
    destruct (row_get names row "ga") as [g|] eqn:Gg; cbn [bind] in E'; [|discriminate].
    destruct (mat_rows names rows) as [ms'|]; cbn [bind] in E'; [|discriminate]. injection E'; intros <-.
    destruct (IH ms' eq_refl) as (L & F & N). cbn [List.length firstn nth]. repeat split; [lia| |intros; apply N; lia].
    constructor; [|exact F]. exists c, r, e, g. cbn. repeat split; try assumption. intros ->. discriminate.
Qed.

Lemma vmul_scaled f v w : vmul f v = Ok w -> (forall b, v <> VBool b) -> scaled true f v w.
Proof. intros E N. destruct v; cbn in *; try discriminate; try (injection E; intros <-; reflexivity). now destruct (N b). Qed.
Lemma cell_val_nobool c b : cell_val c <> VBool b.
Proof. destruct c; discriminate. Qed.

Lemma str_of_Z_inj x y : str_of_Z x = str_of_Z y -> x = y.
Proof.
  unfold str_of_Z. intros E.
  assert (G : forall z, NilZero.int_of_string (NilZero.string_of_int (Z.to_int z)) = Some (Z.to_int z)).
  { intros z. destruct z as [|p|p].
    - reflexivity.
    - cbn [Z.to_int]. apply NilZero.isi; [|discriminate]. intros H. injection H; intros H'. exact (Unsigned.to_uint_nonnil p H').
    - cbn [Z.to_int]. apply NilZero.isi; [discriminate|]. intros H. injection H; intros H'. exact (Unsigned.to_uint_nonnil p H'). }
  assert (E2 : Some (Z.to_int x) = Some (Z.to_int y)) by (rewrite <- !G, E; reflexivity).
  injection E2; intros E3. rewrite <- (DecimalZ.of_to x), <- (DecimalZ.of_to y), E3. reflexivity.
Qed.
Lemma append_inj_l p a b : (p ++ a)%string = (p ++ b)%string -> a = b.
Proof. induction p as [|c p IH]; cbn; intros E; [exact E|]. injection E. exact IH. Qed.

(** the last material with a number *)
Lemma find_material_ok ms z m : find_material ms ("shaft_mat_" ++ str_of_Z z)%string = Some m ->
  exists be af, ms = be ++ m :: af /\ mt_no m = z /\ forall m', In m' af -> mt_no m' <> z.
Proof.
  unfold find_material. intros F. set (l := List.rev ms) in *. assert (E : ms = List.rev l) by (unfold l; now rewrite List.rev_involutive).
  clearbody l. subst ms. induction l as [|x l IH]; cbn [find List.rev] in *; [discriminate|].
  destruct (String.eqb _ _) eqn:X.
  - injection F; intros ->. apply String.eqb_eq, append_inj_l, str_of_Z_inj in X. exists (List.rev l), []. repeat split; [exact X|intros ? []].
  - destruct (IH F) as (be & af & -> & N & A). exists be, (af ++ [x]). split; [now rewrite <- app_assoc|]. split; [exact N|].
    intros m' I. apply in_app_or in I. destruct I as [I|[<-|[]]]; [apply A, I|]. intros E. rewrite E, String.eqb_refl in X. discriminate.
Qed.
Lemma find_material_none ms z : find_material ms ("shaft_mat_" ++ str_of_Z z)%string = None <-> forall m, In m ms -> mt_no m <> z.
Proof.
  unfold find_material. split.
  - intros F m I E. pose proof (find_none _ _ F m) as X. rewrite <- in_rev in X. specialize (X I). cbn in X. rewrite E, String.eqb_refl in X. discriminate.
  - intros N. destruct (find _ (List.rev ms)) as [m|] eqn:F; [|reflexivity]. apply find_some in F. destruct F as [I X].
    apply String.eqb_eq, append_inj_l, str_of_Z_inj in X. destruct (N m); [now apply in_rev|exact X].
Qed.
