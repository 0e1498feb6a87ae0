(** Lemmas about reading tables: the header search, the column names, the data rows. *)
From Coq Require Import Reals List String Bool Arith ZArith Lia DecimalString.
From Verif Require Import PyBase PyDict MTable SpecTable.
Import ListNotations.
Open Scope string_scope.
Open Scope list_scope.

(** * Text *)
Lemma prefix_iff : forall p s, String.prefix p s = true <-> exists b, s = (p ++ b)%string.
Proof.
  induction p as [|c p IH]; intros s.
  - split; intros; [exists s; reflexivity|destruct s; reflexivity].
  - destruct s as [|d s]; [split; [discriminate|intros [b E]; discriminate]|].
    specialize (IH s). simpl. destruct (Ascii.ascii_dec c d) as [->|N].
    + split.
      * intros H. apply IH in H. destruct H as [b ->]. exists b. reflexivity.
      * intros [b E]. injection E. intros E'. apply IH. exists b. exact E'.
    + split; [discriminate|intros [b E]; injection E; intros; subst; now destruct N].
Qed.
Lemma contains_iff : forall p s, contains p s = true <-> exists a b, s = (a ++ p ++ b)%string.
Proof.
  intros p s. induction s as [|c s IH]; cbn [contains]; rewrite orb_true_iff, prefix_iff.
  - split.
    + intros [[b E]|H]; [exists "", b; exact E|discriminate].
    + intros (a & b & E). left. destruct a; [exists b; exact E|discriminate].
  - split.
    + intros [[b E]|H]; [exists "", b; exact E|]. apply IH in H. destruct H as (a & b & ->).
      exists (String c a), b. reflexivity.
    + intros (a & b & E). destruct a as [|d a]; [left; exists b; exact E|].
      right. cbn in E. injection E; intros E' ->. apply IH. exists a, b. exact E'.
Qed.
Lemma lbm_lb : forall s, contains "lbm" s = true -> contains "lb" s = true.
Proof.
  intros s H. apply contains_iff in H. destruct H as (a & b & ->). apply contains_iff. exists a, ("m" ++ b)%string. reflexivity.
Qed.

Definition saysb (w : string) (c : cell) : bool := match c with CStr t => String.eqb (lower t) w | _ => false end.
Definition engb (c : cell) : bool := match c with CStr t => contains "inches" (lower t) || contains "lb" (lower t) | _ => false end.
Definition rpmb (c : cell) : bool := match c with CStr t => contains "rpm" (lower t) | _ => false end.

Lemma saysb_iff w c : saysb w c = true <-> says w c.
Proof.
  unfold says. destruct c; cbn; split; try discriminate; try (intros (t & E & _); discriminate).
  - intros H. apply String.eqb_eq in H. eauto.
  - intros (t & E & H). injection E; intros ->. now apply String.eqb_eq.
Qed.
Lemma mentions_iff w t : mentions w (CStr t) <-> contains w (lower t) = true.
Proof.
  rewrite contains_iff. unfold mentions. split.
  - intros (t' & a & b & E & H). injection E; intros ->. eauto.
  - intros (a & b & H). eauto.
Qed.
Lemma mentions_str w c : mentions w c -> exists t, c = CStr t.
Proof. intros (t & a & b & E & _). eauto. Qed.
Lemma engb_iff c : engb c = true <-> english_mark c.
Proof.
  unfold english_mark. destruct c as [|t|z|x]; cbn.
  2: { rewrite !mentions_iff. apply orb_true_iff. }
  all: split; [discriminate|intros [H|H]; apply mentions_str in H; destruct H; discriminate].
Qed.
Lemma rpmb_iff c : rpmb c = true <-> rpm_mark c.
Proof.
  unfold rpm_mark. destruct c as [|t|z|x]; cbn.
  2: { now rewrite mentions_iff. }
  all: split; [discriminate|intros H; apply mentions_str in H; destruct H; discriminate].
Qed.

(** * The header search *)
Definition row_says w (r : list cell) := existsb (saysb w) r.
Definition row_eng (r : list cell) := existsb engb r.
Definition row_rpm (r : list cell) := existsb rpmb r.

Lemma scan_row_eq key idx row : forall st,
  scan_row key idx st row =
  mkScan (if sc_found st then sc_header st else if row_says key row then Some idx else sc_header st)
         (sc_metric st || row_eng row) (sc_rpm st || row_rpm row).
Proof.
  unfold row_says, row_eng, row_rpm.
  induction row as [|c row IH]; intros st.
  - cbn. rewrite !orb_false_r. destruct st as [h m r]; cbn. destruct h; reflexivity.
  - destruct c as [|t|z|x]; cbn [scan_row]; try apply IH.
    cbn [existsb saysb engb rpmb].
    assert (E : scan_text key idx st t =
      mkScan (if sc_found st then sc_header st else if String.eqb (lower t) key then Some idx else sc_header st)
        (sc_metric st || (contains "inches" (lower t) || contains "lb" (lower t))) (sc_rpm st || contains "rpm" (lower t))).
    { unfold scan_text. f_equal.
      - destruct (contains "inches" (lower t)); cbn; [now rewrite orb_true_r|].
        destruct (contains "lbm" (lower t)) eqn:L; cbn.
        + rewrite (lbm_lb _ L). now rewrite orb_true_r.
        + destruct (contains "lb" (lower t)), (sc_metric st); reflexivity.
      - destruct (contains "rpm" (lower t)), (sc_rpm st); reflexivity. }
    rewrite E. clear E. destruct st as [h m r]. unfold sc_found. cbn [sc_header sc_metric sc_rpm].
    destruct h as [h|]; cbn [andb].
    + destruct ((m || (contains "inches" (lower t) || contains "lb" (lower t))) && (r || contains "rpm" (lower t))) eqn:A.
      * apply andb_true_iff in A. destruct A as [M R']. rewrite !orb_assoc. rewrite <- (orb_assoc m), M, R'. reflexivity.
      * rewrite IH. cbn. now rewrite !orb_assoc.
    + destruct (String.eqb (lower t) key); cbn [andb orb].
      * destruct ((m || (contains "inches" (lower t) || contains "lb" (lower t))) && (r || contains "rpm" (lower t))) eqn:A.
        { apply andb_true_iff in A. destruct A as [M R']. rewrite !orb_assoc. rewrite <- (orb_assoc m), M, R'. reflexivity. }
        { rewrite IH. cbn. now rewrite !orb_assoc. }
      * rewrite IH. cbn. now rewrite !orb_assoc.
Qed.

(** rows before which the search has stopped *)
Definition stopped key (st : scan) (rows : sheet) (i : nat) : bool :=
  (sc_found st || existsb (row_says key) (firstn i rows)) && (sc_metric st || existsb row_eng (firstn i rows)).

Fixpoint first_index (f : list cell -> bool) (idx : nat) (rows : sheet) : option nat :=
  match rows with [] => None | r :: rows => if f r then Some idx else first_index f (S idx) rows end.

Lemma scan_rows_header key rows : forall idx st,
  sc_header (scan_rows key idx st rows) = if sc_found st then sc_header st else first_index (row_says key) idx rows.
Proof.
  induction rows as [|r rows IH]; intros idx st; cbn [scan_rows first_index].
  - destruct st as [[h|] m p]; reflexivity.
  - rewrite scan_row_eq. destruct st as [[h|] m p]; unfold sc_found; cbn [sc_header sc_metric sc_rpm andb].
    + destruct (m || row_eng r); [reflexivity|]. rewrite IH. reflexivity.
    + destruct (row_says key r).
      * destruct (m || row_eng r); cbn [andb]; [reflexivity|]. rewrite IH. reflexivity.
      * cbn [andb]. rewrite IH. reflexivity.
Qed.
Lemma scan_rows_metric key rows : forall idx st,
  sc_metric (scan_rows key idx st rows) = sc_metric st || existsb row_eng rows.
Proof.
  induction rows as [|r rows IH]; intros idx st; cbn [scan_rows existsb].
  - now rewrite orb_false_r.
  - rewrite scan_row_eq. set (st' := mkScan _ _ _).
    destruct (sc_found st' && sc_metric st') eqn:A.
    + apply andb_true_iff in A. destruct A as [_ M]. subst st'. cbn in *. rewrite orb_assoc, M. reflexivity.
    + rewrite IH. subst st'. cbn. now rewrite orb_assoc.
Qed.
Lemma scan_rows_rpm key rows : forall idx st, sc_found st && sc_metric st = false ->
  sc_rpm (scan_rows key idx st rows) = true <->
  sc_rpm st = true \/ exists i, (i < List.length rows)%nat /\ row_rpm (nth i rows []) = true /\ stopped key st rows i = false.
Proof.
  induction rows as [|r rows IH]; intros idx st NS; cbn [scan_rows].
  - split; [now left|]. intros [H|(i & Hi & _)]; [exact H|cbn in Hi; lia].
  - rewrite scan_row_eq. set (st' := mkScan _ _ _).
    assert (Hst : forall i, stopped key st (r :: rows) (S i) = stopped key st' rows i).
    { intros i. unfold stopped. cbn [firstn existsb].
      replace (sc_found st') with (sc_found st || row_says key r)
        by (subst st'; destruct st as [[?|] m p]; unfold sc_found; cbn; [reflexivity|destruct (row_says key r); reflexivity]).
      subst st'. cbn. now rewrite !orb_assoc. }
    assert (H0 : stopped key st (r :: rows) 0 = false).
    { unfold stopped. cbn. rewrite !orb_false_r. exact NS. }
    destruct (sc_found st' && sc_metric st') eqn:A.
    + split.
      * intros H. subst st'. cbn in H. apply orb_true_iff in H. destruct H as [H|H]; [now left|].
        right. exists O. cbn [List.length nth]. repeat split; [lia|exact H|exact H0].
      * intros [H|(i & Hi & R & ST)]; subst st'; cbn [sc_rpm]; [now rewrite H|].
        destruct i as [|i]; [cbn [nth] in R; rewrite R; apply orb_true_r|].
        rewrite Hst in ST. unfold stopped in ST. apply andb_true_iff in A. destruct A as [A1 A2].
        cbn [sc_metric] in A2, ST. rewrite A1, A2 in ST. discriminate.
    + rewrite IH by exact A. split.
      * intros [H|(i & Hi & R & ST)].
        { subst st'. cbn in H. apply orb_true_iff in H. destruct H as [H|H]; [now left|].
          right. exists O. cbn [List.length nth]. repeat split; [lia|exact H|exact H0]. }
        { right. exists (S i). cbn [List.length nth]. repeat split; [lia|exact R|]. now rewrite Hst. }
      * intros [H|(i & Hi & R & ST)]; [left; subst st'; cbn; now rewrite H|].
        destruct i as [|i].
        { left. subst st'. cbn [nth] in R. cbn [sc_rpm]. rewrite R. apply orb_true_r. }
        { right. exists i. cbn [List.length nth] in Hi, R. repeat split; [lia|exact R|]. now rewrite <- Hst. }
Qed.

Lemma first_index_spec f rows : forall idx h, first_index f idx rows = Some h <->
  (idx <= h < idx + List.length rows)%nat /\ f (nth (h - idx) rows []) = true /\
  forall i, (i < h - idx)%nat -> f (nth i rows []) = false.
Proof.
  induction rows as [|r rows IH]; intros idx h; cbn [first_index List.length].
  - split; [discriminate|]. intros [H _]. lia.
  - destruct (f r) eqn:F.
    + split.
      * intros E. injection E; intros <-. rewrite Nat.sub_diag. cbn. repeat split; [lia|lia|exact F|]. intros i Hi. lia.
      * intros (H & Fh & Hb). destruct (Nat.eq_dec h idx) as [->|N]; [reflexivity|].
        specialize (Hb O ltac:(lia)). cbn in Hb. congruence.
    + rewrite IH. split.
      * intros (H & Fh & Hb). replace (h - idx)%nat with (S (h - S idx)) by lia. cbn [nth].
        repeat split; [lia|lia|exact Fh|]. intros [|i] Hi; cbn; [exact F|]. apply Hb. lia.
      * intros (H & Fh & Hb). destruct (Nat.eq_dec h idx) as [->|N].
        { rewrite Nat.sub_diag in Fh. cbn in Fh. congruence. }
        replace (h - idx)%nat with (S (h - S idx)) in Fh, Hb by lia. cbn [nth] in Fh.
        repeat split; [lia|lia|exact Fh|]. intros i Hi. apply (Hb (S i)). lia.
Qed.

Lemma row_says_iff w r : row_says w r = true <-> exists c, In c r /\ says w c.
Proof. unfold row_says. rewrite existsb_exists. split; intros (c & I & H); exists c; split; try exact I; now apply saysb_iff. Qed.
Lemma row_eng_iff r : row_eng r = true <-> exists c, In c r /\ english_mark c.
Proof. unfold row_eng. rewrite existsb_exists. split; intros (c & I & H); exists c; split; try exact I; now apply engb_iff. Qed.
Lemma row_rpm_iff r : row_rpm r = true <-> exists c, In c r /\ rpm_mark c.
Proof. unfold row_rpm. rewrite existsb_exists. split; intros (c & I & H); exists c; split; try exact I; now apply rpmb_iff. Qed.

Lemma header_row_len w s h : header_row w s h -> (h < List.length s)%nat.
Proof.
  intros [(c & I & _) _]. destruct (Nat.lt_ge_cases h (List.length s)) as [H|H]; [exact H|].
  unfold the_row in I. rewrite nth_overflow in I by lia. destruct I.
Qed.
Theorem scan_header key s h : sc_header (scan_sheet key s) = Some h <-> header_row key s h.
Proof.
  unfold scan_sheet. rewrite scan_rows_header. cbn. rewrite first_index_spec. rewrite Nat.sub_0_r.
  unfold header_row, the_row. rewrite row_says_iff. split.
  - intros (H & E & B). split; [exact E|]. intros i c Hi I S. specialize (B i Hi).
    assert (X : row_says key (nth i s []) = true) by (apply row_says_iff; eauto). congruence.
  - intros (E & B). split; [|split; [exact E|]].
    + pose proof (header_row_len key s h (conj E B)). lia.
    + intros i Hi. destruct (row_says key (nth i s [])) eqn:X; [|reflexivity].
      apply row_says_iff in X. destruct X as (c & I & S). exfalso. exact (B i c Hi I S).
Qed.
Theorem scan_metric key s : sc_metric (scan_sheet key s) = true <-> english s.
Proof.
  unfold scan_sheet. rewrite scan_rows_metric. cbn. rewrite existsb_exists. unfold english, marked, the_row. split.
  - intros (r & I & E). apply row_eng_iff in E. destruct (In_nth s r [] I) as (i & Hi & <-). eauto.
  - intros (i & E). apply row_eng_iff in E. exists (nth i s []). split; [|exact E].
    destruct (Nat.lt_ge_cases i (List.length s)) as [H|H]; [now apply nth_In|].
    rewrite nth_overflow in E by lia. discriminate.
Qed.
Lemma in_firstn_nth {A} (l : list A) d i r : In r (firstn i l) <-> exists e, (e < i)%nat /\ (e < List.length l)%nat /\ nth e l d = r.
Proof.
  revert i. induction l as [|x l IH]; intros [|i]; cbn [firstn In List.length nth].
  1, 3: split; [intros []|intros (e & H & _); lia].
  - split; [intros []|intros (e & _ & H & _); lia].
  - rewrite IH. split.
    + intros [->|(e & H1 & H2 & E)]; [exists O; repeat split; lia|]. exists (S e). repeat split; [lia|lia|exact E].
    + intros ([|e] & H1 & H2 & E); [left; exact E|]. right. exists e. repeat split; [lia|lia|exact E].
Qed.
Theorem scan_rpm key s h : header_row key s h -> (sc_rpm (scan_sheet key s) = true <-> speaks_rpm s h).
Proof.
  intros HR. pose proof (header_row_len _ _ _ HR) as HL. destruct HR as [(c0 & I0 & S0) B].
  unfold scan_sheet. rewrite scan_rows_rpm by reflexivity. cbn [sc_rpm]. unfold speaks_rpm, marked.
  assert (ST : forall i, stopped key (mkScan None false false) s i = true <->
     (h < i)%nat /\ exists e, (e < i)%nat /\ exists c, In c (the_row s e) /\ english_mark c).
  { intros i. unfold stopped. cbn [sc_found sc_header sc_metric orb]. rewrite andb_true_iff, !existsb_exists. split.
    - intros [(r & I & R) (r' & I' & R')].
      apply (in_firstn_nth s []) in I. destruct I as (e & He & Le & <-).
      apply (in_firstn_nth s []) in I'. destruct I' as (e' & He' & Le' & <-).
      apply row_says_iff in R. destruct R as (c & Ic & Sc). apply row_eng_iff in R'. split; [|exists e'; split; [exact He'|exact R']].
      destruct (Nat.lt_ge_cases e h) as [X|X]; [|lia]. exfalso. exact (B e c X Ic Sc).
    - intros [Hh (e & He & R)]. split.
      + exists (nth h s []). split; [apply (in_firstn_nth s []); exists h; repeat split; lia|]. apply row_says_iff. eauto.
      + exists (nth e s []). split; [|now apply row_eng_iff]. apply (in_firstn_nth s []). exists e. repeat split; [lia|].
        destruct (Nat.lt_ge_cases e (List.length s)) as [X|X]; [exact X|].
        destruct R as (c & I & _). unfold the_row in I. rewrite nth_overflow in I by lia. destruct I. }
  split.
  - intros [H|(i & Hi & R & NS)]; [discriminate|]. exists i. apply row_rpm_iff in R. split; [exact R|].
    intros X. apply ST in X. congruence.
  - intros (i & R & N). right. exists i. split; [|split].
    + destruct (Nat.lt_ge_cases i (List.length s)) as [X|X]; [exact X|].
      destruct R as (c & I & _). unfold the_row in I. rewrite nth_overflow in I by lia. destruct I.
    + apply row_rpm_iff. exact R.
    + destruct (stopped key (mkScan None false false) s i) eqn:X; [|reflexivity]. exfalso. apply N, ST, X.
Qed.

(** * Column names *)
Lemma opt_eqb_iff a b : opt_eqb a b = true <-> exists x, a = Some x /\ b = Some x.
Proof.
  destruct a as [x|], b as [y|]; cbn; split; try discriminate; try (intros (z & E1 & E2); discriminate).
  - intros H. apply String.eqb_eq in H. subst. eauto.
  - intros (z & E1 & E2). injection E1; injection E2; intros. subst. apply String.eqb_refl.
Qed.
Lemma positions_in name l : forall j0 j, In j (positions name j0 l) <-> (j0 <= j)%nat /\ nth_error l (j - j0) = Some (Some name).
Proof.
  induction l as [|c l IH]; intros j0 j; cbn [positions].
  - split; [intros []|intros [_ H]; destruct (j - j0)%nat; discriminate].
  - rewrite in_app_iff, IH. split.
    + intros [H|[H E]].
      * destruct (opt_eqb (Some name) c) eqn:O; [|destruct H]. destruct H as [<-|[]].
        apply opt_eqb_iff in O. destruct O as (x & E & ->). injection E; intros <-. rewrite Nat.sub_diag. split; [lia|reflexivity].
      * split; [lia|]. replace (j - j0)%nat with (S (j - S j0)) by lia. exact E.
    + intros [H E]. destruct (Nat.eq_dec j j0) as [->|N].
      * left. rewrite Nat.sub_diag in E. cbn in E. injection E; intros ->.
        assert (O : opt_eqb (Some name) (Some name) = true) by (apply opt_eqb_iff; eauto). rewrite O. now left.
      * right. split; [lia|]. replace (j - j0)%nat with (S (j - S j0)) in E by lia. exact E.
Qed.
Lemma positions_nodup name l : forall j0, NoDup (positions name j0 l).
Proof.
  induction l as [|c l IH]; intros j0; cbn [positions]; [constructor|].
  destruct (opt_eqb (Some name) c); [|apply IH]. cbn. constructor; [|apply IH].
  intros H. apply positions_in in H. lia.
Qed.
Lemma raw_col_text header : forall j, col_text header j = match nth_error header j with Some c => raw_name j c | None => None end.
Proof. intros j. unfold col_text, raw_name. destruct (nth_error header j) as [[]|]; reflexivity. Qed.

Lemma names_from_nth row : forall j0 seen j x,
  nth_error (names_from j0 seen row) j = Some (Some x) <->
  (exists c, nth_error row j = Some c /\ raw_name (j0 + j) c = Some x) /\ ~ In (Some x) seen /\
  forall i c, (i < j)%nat -> nth_error row i = Some c -> raw_name (j0 + i) c <> Some x.
Proof.
  induction row as [|c row IH]; intros j0 seen j x; cbn [names_from].
  - split; [destruct j; discriminate|]. intros [(c & E & _) _]. destruct j; discriminate.
  - destruct j as [|j]; cbn [nth_error].
    + rewrite Nat.add_0_r. destruct (existsb (opt_eqb (raw_name j0 c)) seen) eqn:X.
      * split; [discriminate|]. intros [(c' & E & R) [NI _]]. injection E; intros ->. exfalso.
        apply existsb_exists in X. destruct X as (y & I & O). apply opt_eqb_iff in O. destruct O as (z & E1 & ->).
        rewrite R in E1. injection E1; intros ->. exact (NI I).
      * split.
        { intros E. injection E; intros E'. split; [exists c; split; [reflexivity|exact E']|]. split; [|intros i c' Hi; lia].
          intros I. assert (Y : existsb (opt_eqb (raw_name j0 c)) seen = true); [|congruence].
          apply existsb_exists. exists (Some x). split; [exact I|]. apply opt_eqb_iff. exists x. split; [exact E'|reflexivity]. }
        { intros [(c' & E & R) _]. injection E; intros <-. now rewrite R. }
    + rewrite IH. replace (S j0 + j)%nat with (j0 + S j)%nat by lia. split.
      * intros (E & NI & B). split; [exact E|]. split; [intros I; apply NI; now right|].
        intros [|i] c' Hi; cbn [nth_error].
        { intros E'. injection E'; intros ->. intros R. apply NI. left. rewrite Nat.add_0_r in R. exact R. }
        { intros E'. specialize (B i c' ltac:(lia) E'). replace (j0 + S i)%nat with (S j0 + i)%nat by lia. exact B. }
      * intros (E & NI & B). split; [exact E|]. split.
        { intros [R|I]; [|exact (NI I)]. apply (B O c ltac:(lia) eq_refl). rewrite Nat.add_0_r. exact R. }
        { intros i c' Hi E'. specialize (B (S i) c' ltac:(lia) E'). replace (S j0 + i)%nat with (j0 + S i)%nat by lia. exact B. }
Qed.
Lemma col_names_nth header j x : nth_error (col_names header) j = Some (Some x) <->
  col_text header j = Some x /\ forall i, (i < j)%nat -> col_text header i <> Some x.
Proof.
  unfold col_names. rewrite names_from_nth. cbn. split.
  - intros ((c & E & R) & _ & B). rewrite raw_col_text, E. split; [exact R|]. intros i Hi. rewrite raw_col_text.
    destruct (nth_error header i) as [c'|] eqn:E'; [exact (B i c' Hi E')|discriminate].
  - intros (R & B). rewrite raw_col_text in R. destruct (nth_error header j) as [c|] eqn:E; [|discriminate].
    split; [eauto|]. split; [tauto|]. intros i c' Hi E'. specialize (B i Hi). rewrite raw_col_text, E' in B. exact B.
Qed.
Lemma lower_names_nth header j w : nth_error (lower_names (col_names header)) j = Some (Some w) <-> named header w j.
Proof.
  unfold lower_names. rewrite nth_error_map. unfold named. split.
  - destruct (nth_error (col_names header) j) as [[x|]|] eqn:E; cbn; try discriminate.
    intros H. injection H; intros <-. apply col_names_nth in E. destruct E as [E1 E2]. eauto.
  - intros (t & E1 & <- & E2). assert (E : nth_error (col_names header) j = Some (Some t)) by (apply col_names_nth; auto).
    now rewrite E.
Qed.
Lemma positions_named header w j : In j (positions w 0 (lower_names (col_names header))) <-> named header w j.
Proof. rewrite positions_in, Nat.sub_0_r, lower_names_nth. intuition lia. Qed.
Lemma positions_one header w j : positions w 0 (lower_names (col_names header)) = [j] <-> the_column header w j.
Proof.
  unfold the_column. split.
  - intros E. split; [apply positions_named; rewrite E; now left|].
    intros i H. apply positions_named in H. rewrite E in H. destruct H as [H|[]]. now symmetry.
  - intros [N U]. pose proof (positions_nodup w (lower_names (col_names header)) 0) as ND.
    apply positions_named in N. destruct (positions w 0 (lower_names (col_names header))) as [|p [|q l]] eqn:E.
    + destruct N.
    + destruct N as [->|[]]. reflexivity.
    + exfalso. assert (p = j) by (apply U, positions_named; rewrite E; now left).
      assert (q = j) by (apply U, positions_named; rewrite E; right; now left).
      subst. inversion ND as [|? ? X]. apply X. now left.
Qed.
Lemma positions_none header w : positions w 0 (lower_names (col_names header)) = [] <-> forall j, ~ named header w j.
Proof.
  split.
  - intros E j N. apply positions_named in N. rewrite E in N. destruct N.
  - intros N. destruct (positions w 0 (lower_names (col_names header))) as [|p l] eqn:E; [reflexivity|].
    exfalso. apply (N p), positions_named. rewrite E. now left.
Qed.

(** * The data rows *)
Fixpoint span_while (f : list cell -> bool) (l : sheet) : sheet :=
  match l with [] => [] | r :: l => if f r then r :: span_while f l else [] end.
Fixpoint skip_until (f : list cell -> bool) (l : sheet) : sheet :=
  match l with [] => [] | r :: l' => if f r then l else skip_until f l' end.
Lemma data_rows_last num rows : data_rows num true true rows = ([], true).
Proof. induction rows as [|r rows IH]; [reflexivity|]. cbn [data_rows negb andb]. exact IH. Qed.
Lemma data_rows_first num rows : data_rows num true false rows = (span_while num rows, true).
Proof.
  induction rows as [|r rows IH]; [reflexivity|]. cbn [data_rows negb andb span_while].
  destruct (num r); [now rewrite IH|]. apply data_rows_last.
Qed.
Lemma data_rows_eq num rows : data_rows num false false rows = (span_while num (skip_until num rows), existsb num rows).
Proof.
  induction rows as [|r rows IH]; [reflexivity|]. cbn [data_rows negb andb skip_until existsb].
  destruct (num r) eqn:E; cbn [orb]; [|exact IH]. rewrite data_rows_first. cbn [span_while]. now rewrite E.
Qed.

(** rows a..b of a sheet *)
Definition rows_between (s : sheet) (a b : nat) : sheet := map (the_row s) (seq a (b - a)).

Lemma skip_at num s : forall n a, (n <= a)%nat -> (a < List.length s)%nat ->
  (forall i, (n <= i < a)%nat -> num (nth i s []) = false) -> num (nth a s []) = true ->
  skip_until num (skipn n s) = skipn a s.
Proof.
  intros n a Hna Ha Hb Hn. remember (a - n)%nat as m eqn:Em. revert n Hna Hb Em.
  induction m as [|m IH]; intros n Hna Hb Em.
  - assert (n = a) by lia. subst n.
    destruct (skipn a s) as [|r l] eqn:E.
    + reflexivity.
    + cbn. assert (nth a s [] = r) by (rewrite <- (firstn_skipn a s), E, app_nth2; rewrite firstn_length; [|lia];
        replace (a - Nat.min a (List.length s))%nat with O by lia; reflexivity).
      now rewrite <- H, Hn.
  - destruct (skipn n s) as [|r l] eqn:E.
    + assert (List.length (skipn n s) = 0)%nat by now rewrite E. rewrite skipn_length in H. lia.
    + cbn. assert (nth n s [] = r) by (rewrite <- (firstn_skipn n s), E, app_nth2; rewrite firstn_length; [|lia];
        replace (n - Nat.min n (List.length s))%nat with O by lia; reflexivity).
      rewrite <- H, (Hb n) by lia. assert (l = skipn (S n) s).
      { clear - E. revert n E. induction s as [|x s IHs]; intros n E; [destruct n; discriminate|].
        destruct n; cbn in *; [now injection E|]. now apply IHs. }
      subst l. apply IH; [lia| |lia]. intros i Hi. apply Hb. lia.
Qed.
Lemma skipn_nth s a : (a < List.length s)%nat -> skipn a s = the_row s a :: skipn (S a) s.
Proof.
  revert a. induction s as [|x s IH]; intros a H; [cbn in H; lia|].
  destruct a; [reflexivity|]. cbn in H. cbn [skipn]. rewrite IH by lia. reflexivity.
Qed.
Lemma span_at num s : forall a b, (a <= b <= List.length s)%nat ->
  (forall i, (a <= i < b)%nat -> num (nth i s []) = true) -> (b = List.length s \/ num (nth b s []) = false) ->
  span_while num (skipn a s) = rows_between s a b.
Proof.
  intros a b Hab Hn Hb. unfold rows_between. remember (b - a)%nat as m eqn:Em. revert a Hab Hn Em.
  induction m as [|m IH]; intros a Hab Hn Em.
  - assert (a = b) by lia. subst a. destruct Hb as [->|Hb].
    + rewrite skipn_all. reflexivity.
    + destruct (Nat.eq_dec b (List.length s)) as [->|N]; [now rewrite skipn_all|].
      rewrite skipn_nth by lia. cbn. unfold the_row. now rewrite Hb.
  - rewrite skipn_nth by lia. cbn [span_while seq map]. unfold the_row at 1. rewrite (Hn a) by lia. f_equal.
    apply IH; [lia| |lia]. intros i Hi. apply Hn. lia.
Qed.
