(** Lemmas about reading tables: columns, parameter dictionaries and conversions. *)
From Coq Require Import Reals List String Bool Arith ZArith Lia Lra.
From Verif Require Import PyBase PyDict MTable SpecTable LMaterial LTable.
Import ListNotations.
Open Scope string_scope.
Open Scope list_scope.

(** * Data rows of a table *)
Lemma in_skipn (s : sheet) h r : In r (skipn (S h) s) <-> exists i, (h < i < List.length s)%nat /\ the_row s i = r.
Proof.
  unfold the_row. split.
  - intros I. apply (In_nth _ _ []) in I. destruct I as (i & Hi & E). rewrite skipn_length in Hi.
    exists (S h + i)%nat. split; [lia|]. rewrite <- E. symmetry.
    rewrite <- (firstn_skipn (S h) s) at 2. rewrite app_nth2; rewrite firstn_length; [|lia].
    f_equal. lia.
  - intros (i & Hi & <-). rewrite <- (firstn_skipn (S h) s) at 1. rewrite app_nth2; rewrite firstn_length; [|lia].
    apply nth_In. rewrite skipn_length. lia.
Qed.
Lemma all_whole_iff s h : all_whole (skipn (S h) s) = true <-> only_whole s h.
Proof.
  unfold all_whole, only_whole. rewrite forallb_forall. split.
  - intros H i c Hi I. specialize (H (the_row s i)). rewrite in_skipn in H. specialize (H (ex_intro _ i (conj Hi eq_refl))).
    rewrite forallb_forall in H. specialize (H c I). destruct c; try discriminate. eauto.
  - intros H r I. apply in_skipn in I. destruct I as (i & Hi & <-). apply forallb_forall. intros c I.
    destruct (H i c Hi I) as [z ->]. reflexivity.
Qed.
Lemma is_number_iff s h c : is_number (all_whole (skipn (S h) s)) c = true <-> a_number s h c.
Proof.
  unfold a_number. rewrite <- all_whole_iff. destruct c as [|t|z|x]; cbn [is_number].
  - split; [discriminate|intros [[x E]|[[z E] _]]; discriminate].
  - split; [discriminate|intros [[x E]|[[z E] _]]; discriminate].
  - split; [|intros [[x E]|[_ N]]; [discriminate|destruct (all_whole (skipn (S h) s)); [now destruct N|reflexivity]]].
    intros H. right. split; [eauto|]. destruct (all_whole (skipn (S h) s)); [discriminate|discriminate].
  - split; [|reflexivity]. intros _. left. eauto.
Qed.
Section table.
  Variables (k : table_kind) (s : sheet) (h : nat).
  Let header := the_row s h.
  Let names := lower_names (col_names (nth h s [])).
  Let body := skipn (S h) s.
  Let num := key_number names (all_whole body) (key_word k).

  Lemma num_iff j row : the_column header (key_word k) j -> (num row = true <-> a_number s h (cell_at row j)).
  Proof.
    intros C. unfold num, key_number, names. apply positions_one in C. unfold header, the_row in C. rewrite C.
    apply is_number_iff.
  Qed.
  Lemma num_col row : num row = true -> exists j, the_column header (key_word k) j.
  Proof.
    unfold num, key_number. destruct (positions _ 0 names) as [|j [|? ?]] eqn:E; try discriminate.
    intros _. exists j. apply positions_one. exact E.
  Qed.
  Lemma table_rows a b : table k s h a b -> data_rows num false false body = (rows_between s a b, true).
  Proof.
    intros [HH [HO HL] (j & C & B & D & E)]. rewrite data_rows_eq. unfold body.
    assert (Ha : num (nth a s []) = true) by (apply (num_iff j _ C), (D a); lia).
    rewrite (skip_at num s (S h) a); [|lia|lia| |exact Ha].
    - f_equal.
      + apply span_at; [lia| |].
        * intros i Hi. apply (num_iff j _ C), (D i), Hi.
        * destruct E as [E|E]; [now left|right]. destruct (num (nth b s [])) eqn:X; [|reflexivity].
          exfalso. apply E. apply (num_iff j _ C) in X. exact X.
      + apply existsb_exists. exists (nth a s []). split; [|exact Ha]. apply in_skipn. exists a. split; [lia|reflexivity].
    - intros i Hi. destruct (num (nth i s [])) eqn:X; [|reflexivity]. exfalso. apply (B i); [lia|]. apply (num_iff j _ C) in X. exact X.
  Qed.
  Lemma table_exists : header_row (key_word k) s h -> existsb num body = true -> exists a b, table k s h a b.
  Proof.
    intros HH X. apply existsb_exists in X. destruct X as (r & I & N). pose proof (num_col r N) as [j C].
    apply in_skipn in I. destruct I as (i0 & Hi0 & <-).
    assert (FA : exists a, (h < a <= i0)%nat /\ num (the_row s a) = true /\ forall i, (h < i < a)%nat -> num (the_row s i) = false).
    { clear - N Hi0. assert (G : forall m i0, (i0 - h <= m)%nat -> (h < i0 < List.length s)%nat -> num (the_row s i0) = true ->
        exists a, (h < a <= i0)%nat /\ num (the_row s a) = true /\ forall i, (h < i < a)%nat -> num (the_row s i) = false).
      { induction m as [|m IH]; intros i Hm Hi Ni; [lia|].
        destruct (existsb (fun e => num (the_row s e)) (seq (S h) (i - S h))) eqn:X.
        - apply existsb_exists in X. destruct X as (e & Ie & Ne). apply in_seq in Ie.
          destruct (IH e ltac:(lia) ltac:(lia) Ne) as (a & Ha & Na & Ba). exists a. repeat split; [lia|lia|exact Na|exact Ba].
        - exists i. repeat split; [lia|lia|exact Ni|]. intros e He. destruct (num (the_row s e)) eqn:Y; [|reflexivity].
          assert (Z : existsb (fun e => num (the_row s e)) (seq (S h) (i - S h)) = true); [|congruence].
          apply existsb_exists. exists e. split; [apply in_seq; lia|exact Y]. }
      exact (G _ i0 (le_n _) Hi0 N). }
    destruct FA as (a & Ha & Na & Ba).
    assert (FB : exists b, (a < b <= List.length s)%nat /\ (forall i, (a <= i < b)%nat -> num (the_row s i) = true) /\
        (b = List.length s \/ num (the_row s b) = false)).
    { assert (La : (a < List.length s)%nat) by lia. clear - Na La.
      assert (G : forall m, forall b0, (List.length s - b0 <= m)%nat -> (a < b0 <= List.length s)%nat ->
         (forall i, (a <= i < b0)%nat -> num (the_row s i) = true) ->
         exists b, (a < b <= List.length s)%nat /\ (forall i, (a <= i < b)%nat -> num (the_row s i) = true) /\
        (b = List.length s \/ num (the_row s b) = false)).
      { induction m as [|m IH]; intros b0 Hm Hb B.
        - exists b0. repeat split; [lia|lia|exact B|left; lia].
        - destruct (Nat.eq_dec b0 (List.length s)) as [E|E]; [exists b0; repeat split; [lia|lia|exact B|now left]|].
          destruct (num (the_row s b0)) eqn:Y.
          + apply (IH (S b0)); [lia|lia|]. intros i Hi. destruct (Nat.eq_dec i b0) as [->|]; [exact Y|apply B; lia].
          + exists b0. repeat split; [lia|lia|exact B|now right]. }
      apply (G _ (S a) (le_n _)); [lia|]. intros i Hi. assert (i = a) by lia. now subst. }
    destruct FB as (b & Hb & Db & Eb).
    exists a, b. constructor; [exact HH|lia|]. exists j. split; [exact C|]. repeat split.
    - intros i Hi A. apply (num_iff j _ C) in A. rewrite Ba in A by exact Hi. discriminate.
    - intros i Hi. apply (num_iff j _ C). apply Db, Hi.
    - destruct Eb as [Eb|Eb]; [now left|right]. intros A. apply (num_iff j _ C) in A. unfold the_row in Eb. unfold the_row in A. congruence.
  Qed.
  Lemma table_none : (exists a b, table k s h a b) <-> header_row (key_word k) s h /\ existsb num body = true.
  Proof.
    split.
    - intros (a & b & T). split; [apply T|]. pose proof (table_rows a b T) as E. rewrite data_rows_eq in E. now injection E.
    - intros [H1 H2]. apply table_exists; assumption.
  Qed.
End table.

(** * Columns *)
Section cols.
  Variables (header : list cell) (s : sheet) (a b : nat).
  Let names := lower_names (col_names header).
  Let rows := rows_between s a b.
  Definition col_vals (s : sheet) (a b j : nat) : list pyval := map (fun row => cell_val (cell_at row j)) (rows_between s a b).

  Lemma col_vals_len j : List.length (col_vals s a b j) = (b - a)%nat.
  Proof. unfold col_vals, rows_between. now rewrite !map_length, seq_length. Qed.
  Lemma rows_len : List.length rows = (b - a)%nat.
  Proof. unfold rows, rows_between. now rewrite map_length, seq_length. Qed.
  Lemma col_vals_nth j i d : (i < b - a)%nat -> nth i (col_vals s a b j) d = cell_val (the_cell s (a + i) j).
  Proof.
    intros H. unfold col_vals, rows_between. rewrite map_map.
    rewrite (nth_indep _ d (cell_val (cell_at (the_row s 0) j))) by (rewrite map_length, seq_length; exact H).
    rewrite (map_nth (fun x => cell_val (cell_at (the_row s x) j)) _ O), seq_nth by exact H. reflexivity.
  Qed.
  Lemma first_column_ok alts l : first_column names rows alts = Some (Ok l) <-> exists j, source header alts j /\ l = col_vals s a b j.
  Proof.
    induction alts as [|w alts IH]; cbn [first_column].
    - split; [discriminate|]. intros (j & (be & w & af & E & _) & _). destruct be; discriminate.
    - unfold column at 1. destruct (positions w 0 names) as [|j [|j' ps]] eqn:P.
      + rewrite IH. split.
        * intros (j & (be & w' & af & -> & C & N) & ->). exists j. split; [|reflexivity].
          exists (w :: be), w', af. split; [reflexivity|]. split; [exact C|]. intros v i [<-|I]; [|apply N, I].
          apply (proj1 (positions_none header w) P).
        * intros (j & (be & w' & af & E & C & N) & ->). exists j. split; [|reflexivity].
          destruct be as [|v be]; injection E; intros E1 E2; subst.
          { exfalso. apply (proj1 (positions_none header w') P j). apply C. }
          { exists be, w', af. split; [reflexivity|]. split; [exact C|]. intros u i I. apply N. now right. }
      + split.
        * intros E. injection E; intros <-. exists j. split; [|reflexivity]. exists [], w, alts. split; [reflexivity|].
          split; [now apply positions_one|]. intros ? ? [].
        * intros (j0 & (be & w' & af & E & C & N) & ->). destruct be as [|v be]; injection E; intros E1 E2; subst.
          { apply positions_one in C. fold names in C. rewrite C in P. injection P; intros ->. reflexivity. }
          { exfalso. apply (N v j); [now left|]. apply positions_named. fold names. rewrite P. now left. }
      + split; [discriminate|]. intros (j0 & (be & w' & af & E & C & N) & ->). exfalso.
        destruct be as [|v be]; injection E; intros E1 E2; subst.
        { apply positions_one in C. fold names in C. rewrite C in P. discriminate. }
        { apply (N v j); [now left|]. apply positions_named. fold names. rewrite P. now left. }
  Qed.
  Lemma first_column_none alts : first_column names rows alts = None <-> no_source header alts.
  Proof.
    unfold no_source. induction alts as [|w alts IH]; cbn [first_column].
    - split; [intros _ w i []|reflexivity].
    - unfold column at 1. destruct (positions w 0 names) as [|j ps] eqn:P.
      + rewrite IH. split.
        * intros N v i [<-|I]; [apply (proj1 (positions_none header w) P)|apply N, I].
        * intros N v i I. apply N. now right.
      + split; [destruct ps; discriminate|]. intros N. exfalso. apply (N w j); [now left|]. apply positions_named. fold names. rewrite P. now left.
  Qed.

  Lemma read_required_ok cols : forall d d', NoDup (map fst cols) -> read_required names rows cols d = Ok d' ->
    (forall p alts, In (p, alts) cols -> exists j, source header alts j /\ dget d' p = Some (col_vals s a b j)) /\
    (forall p, ~ In p (map fst cols) -> dget d' p = dget d p).
  Proof.
    induction cols as [|[p alts] cols IH]; intros d d' ND E; cbn [read_required] in E.
    - injection E; intros <-. split; [intros ? ? []|reflexivity].
    - cbn [map fst] in ND. inversion ND as [|? ? NI ND']; subst. destruct (first_column names rows alts) as [[l|e]|] eqn:F; try discriminate.
      apply first_column_ok in F. destruct F as (j & S & ->). destruct (IH _ _ ND' E) as [I1 I2]. split.
      + intros q qa [Eq|I]; [|apply (I1 q qa I)]. injection Eq; intros <- <-. exists j. split; [exact S|].
        rewrite I2 by exact NI. apply dget_dset_same.
      + intros q Hq. cbn [map fst In] in Hq. rewrite I2 by tauto. apply dget_dset_other. intros Eq. apply Hq. now left.
  Qed.
  Lemma read_required_total cols : forall d, (forall p alts, In (p, alts) cols -> exists j, source header alts j) ->
    is_ok (read_required names rows cols d).
  Proof.
    induction cols as [|[p alts] cols IH]; intros d H; cbn [read_required]; [eexists; reflexivity|].
    destruct (H p alts (or_introl eq_refl)) as [j S].
    assert (F : first_column names rows alts = Some (Ok (col_vals s a b j))) by (apply first_column_ok; eauto).
    rewrite F. apply IH. intros q qa I. apply (H q qa). now right.
  Qed.
  Lemma read_optional_ok cols : forall d d', NoDup (map fst cols) -> read_optional names rows cols d = Ok d' ->
    (forall p alts v, In (p, (alts, v)) cols -> (exists j, source header alts j /\ dget d' p = Some (col_vals s a b j)) \/
        (no_source header alts /\ dget d' p = Some (repeat v (b - a)))) /\
    (forall p, ~ In p (map fst cols) -> dget d' p = dget d p).
  Proof.
    induction cols as [|[p [alts v]] cols IH]; intros d d' ND E; cbn [read_optional] in E.
    - injection E; intros <-. split; [intros ? ? ? []|reflexivity].
    - cbn [map fst] in ND. inversion ND as [|? ? NI ND']; subst. destruct (first_column names rows alts) as [[l|e]|] eqn:F; try discriminate.
      + apply first_column_ok in F. destruct F as (j & S & ->). destruct (IH _ _ ND' E) as [I1 I2]. split.
        * intros q qa w [Eq|I]; [|apply (I1 q qa w I)]. injection Eq; intros <- <- <-. left. exists j. split; [exact S|].
          rewrite I2 by exact NI. apply dget_dset_same.
        * intros q Hq. cbn [map fst In] in Hq. rewrite I2 by tauto. apply dget_dset_other. intros Eq. apply Hq. now left.
      + apply first_column_none in F. rewrite rows_len in E. destruct (IH _ _ ND' E) as [I1 I2]. split.
        * intros q qa w [Eq|I]; [|apply (I1 q qa w I)]. injection Eq; intros <- <- <-. right. split; [exact F|].
          rewrite I2 by exact NI. apply dget_dset_same.
        * intros q Hq. cbn [map fst In] in Hq. rewrite I2 by tauto. apply dget_dset_other. intros Eq. apply Hq. now left.
  Qed.
  Lemma read_optional_total cols : forall d, (forall p alts v, In (p, (alts, v)) cols -> (exists j, source header alts j) \/ no_source header alts) ->
    is_ok (read_optional names rows cols d).
  Proof.
    induction cols as [|[p [alts v]] cols IH]; intros d H; cbn [read_optional]; [eexists; reflexivity|].
    assert (H' : forall q qa w, In (q, (qa, w)) cols -> (exists j, source header qa j) \/ no_source header qa)
      by (intros q qa w I; apply (H q qa w); now right).
    destruct (H p alts v (or_introl eq_refl)) as [[j S]|N].
    - assert (F : first_column names rows alts = Some (Ok (col_vals s a b j))) by (apply first_column_ok; eauto).
      rewrite F. apply IH, H'.
    - apply first_column_none in N. rewrite N. apply IH, H'.
  Qed.
End cols.

(** * Updates *)
Lemma mapM_ok {A B} (f : A -> res B) l : forall l', mapM f l = Ok l' <-> Forall2 (fun x y => f x = Ok y) l l'.
Proof.
  induction l as [|x l IH]; intros l'; cbn [mapM].
  - split; [intros E; injection E; intros <-; constructor|intros F; inversion F; reflexivity].
  - split.
    + destruct (f x) as [y|e] eqn:E; cbn [bind]; [|discriminate]. destruct (mapM f l) as [r|e]; cbn [bind]; [|discriminate].
      intros E'. injection E'; intros <-. constructor; [exact E|]. now apply IH.
    + intros F. inversion F as [|? y ? r E F']; subst. rewrite E. cbn [bind]. apply IH in F'. rewrite F'. reflexivity.
Qed.
Lemma mapM_total {A B} (f : A -> res B) l : (forall x, In x l -> is_ok (f x)) -> is_ok (mapM f l).
Proof.
  induction l as [|x l IH]; intros H; cbn [mapM]; [eexists; reflexivity|].
  destruct (H x (or_introl eq_refl)) as [y ->]. destruct IH as [r ->]; [intros z I; apply H; now right|]. eexists; reflexivity.
Qed.
Definition maybe (f : option R) (v : pyval) : res pyval := match f with Some f => vmul f v | None => Ok v end.
Lemma forall2_refl_ok l : Forall2 (fun v w : pyval => Ok v = Ok w) l l.
Proof. induction l; constructor; auto. Qed.
Lemma update_ok k f d d' : update k f d = Ok d' ->
  (exists l l', dget d k = Some l /\ dget d' k = Some l' /\ Forall2 (fun v w => f v = Ok w) l l') /\
  forall p, p <> k -> dget d' p = dget d p.
Proof.
  unfold update. destruct (dget d k) as [l|] eqn:G; [|discriminate].
  destruct (mapM f l) as [l'|e] eqn:M; cbn [bind]; [|discriminate]. intros E. injection E; intros <-. split.
  - exists l, l'. split; [reflexivity|]. split; [apply dget_dset_same|]. now apply mapM_ok.
  - intros p N. apply dget_dset_other. congruence.
Qed.
Lemma update_total k f d l : dget d k = Some l -> (forall v, In v l -> is_ok (f v)) -> is_ok (update k f d).
Proof.
  intros G H. unfold update. rewrite G. destruct (mapM_total f l H) as [r ->]. eexists; reflexivity.
Qed.
Lemma update_all_ok fs : forall d d', NoDup (map fst fs) -> update_all fs d = Ok d' ->
  forall p l, dget d p = Some l -> exists l', dget d' p = Some l' /\ Forall2 (fun v w => maybe (dget fs p) v = Ok w) l l'.
Proof.
  induction fs as [|[k f] fs IH]; intros d d' ND E p l G; cbn [update_all] in E.
  - injection E; intros <-. exists l. split; [exact G|]. cbn. apply forall2_refl_ok.
  - cbn [map fst] in ND. inversion ND as [|? ? NI ND']; subst.
    destruct (update k (vmul f) d) as [d1|e] eqn:U; cbn [bind] in E; [|discriminate].
    destruct (update_ok _ _ _ _ U) as [(l0 & l1 & G0 & G1 & F) O].
    cbn [dget]. destruct (String.eqb_spec p k) as [->|N].
    + rewrite G in G0. injection G0; intros <-. destruct (IH _ _ ND' E k l1 G1) as (l2 & G2 & F2).
      exists l2. split; [exact G2|]. assert (X : dget fs k = None).
      { clear - NI. induction fs as [|[q g] fs IH]; [reflexivity|]. cbn in NI |- *. destruct (String.eqb_spec k q) as [->|]; [tauto|]. apply IH. tauto. }
      rewrite X in F2. cbn [maybe] in *. assert (l1 = l2) by (clear - F2; induction F2; [reflexivity|congruence]). now subst.
    + apply (IH _ _ ND' E). now rewrite O.
Qed.
Lemma vmul_ok f v : (exists x, v = VNum x) \/ v = VNaN -> is_ok (vmul f v).
Proof. intros [[x ->]| ->]; eexists; reflexivity. Qed.
Definition numlike (v : pyval) : Prop := (exists x, v = VNum x) \/ v = VNaN.
Lemma forall2_numlike f l l' : Forall numlike l -> Forall2 (fun v w => vmul f v = Ok w) l l' -> Forall numlike l'.
Proof.
  intros F H. induction H as [|v w l l' E H IH]; [constructor|]. inversion F as [|? ? Hv F']; subst. constructor; [|apply IH, F'].
  destruct Hv as [[x ->]| ->]; cbn in E; injection E; intros <-; [left; eauto|now right].
Qed.
Lemma update_all_total fs : forall d, NoDup (map fst fs) ->
  (forall p, In p (map fst fs) -> exists l, dget d p = Some l /\ Forall numlike l) -> is_ok (update_all fs d).
Proof.
  induction fs as [|[k f] fs IH]; intros d ND H; cbn [update_all]; [eexists; reflexivity|].
  cbn [map fst] in ND. inversion ND as [|? ? NI ND']; subst.
  destruct (H k (or_introl eq_refl)) as (l & G & F).
  destruct (update_total k (vmul f) d l G) as [d1 U].
  { intros v I. apply vmul_ok. exact (proj1 (Forall_forall _ _) F v I). }
  rewrite U. cbn [bind]. apply IH; [exact ND'|]. intros p I. destruct (update_ok _ _ _ _ U) as [_ O].
  rewrite O by (intros ->; exact (NI I)). apply H. now right.
Qed.
Lemma update_numlike fs d d' : NoDup (map fst fs) -> update_all fs d = Ok d' ->
  forall p l, dget d p = Some l -> Forall numlike l -> exists l', dget d' p = Some l' /\ Forall numlike l'.
Proof.
  intros ND E p l G F. destruct (update_all_ok fs d d' ND E p l G) as (l' & G' & F2). exists l'. split; [exact G'|].
  destruct (dget fs p); cbn [maybe] in F2; [exact (forall2_numlike _ _ _ F F2)|].
  assert (l = l') by (clear - F2; induction F2; [reflexivity|congruence]). now subst.
Qed.
