(** C89: bearings read from a table in a sheet, and the dictionary made from such a table *)
From Coq Require Import Reals List String Bool Arith ZArith Lia Lra.
From Verif Require Import PyBase PyDict MatBase SpecMat MBearing SpecBearing LBearing LBearing2 MTable SpecTable LTable LTable2 LTable3 PropTable MBrgTable SpecBrgTable LBrgTable.
Import ListNotations.
Open Scope string_scope.
Open Scope list_scope.
Open Scope R_scope.

Lemma numbers_map l xs : numbers l = Some xs <-> l = map VNum xs.
Proof.
  split.
  - revert xs. induction l as [|v l IH]; intros xs E; cbn in E; [injection E as <-; reflexivity|]. destruct v; try discriminate. destruct (numbers l); [|discriminate]. injection E as <-. cbn. f_equal. apply IH. reflexivity.
  - intros ->. induction xs as [|x xs IH]; [reflexivity|]. cbn. rewrite IH. reflexivity.
Qed.
(** the values of the nine parameters, as a function of the coefficient *)
Definition vals (v1 v2 v3 v4 v5 v6 v7 v8 : list R) (c : cname) : list R :=
  match c with kxx => v1 | cxx => v2 | kyy => v3 | kxy => v4 | kyx => v5 | cyy => v6 | cxy => v7 | cyx => v8 | _ => [] end.
Lemma from_table_ok n s tag link sc col b : bearing_from_table n s tag link sc col = Ok (Some b) ->
  exists d ms v f, read_table TBearing s = Ok (d, ms) /\ (forall c, massc c = false -> dget d (sheet_name c) = Some (map VNum (v c))) /\
    dget d "frequency" = Some (map VNum f) /\ bearing_init (tb_args n v f tag link sc col) = Ok b.
Proof.
  unfold bearing_from_table. destruct (read_table TBearing s) as [[d ms]|]; cbn [bind]; [|discriminate].
  assert (P : forall k xs, param d k = Some xs -> dget d k = Some (map VNum xs)). { intros k xs. unfold param. destruct (dget d k); [|discriminate]. intros E. apply numbers_map in E. congruence. }
  destruct (param d "kxx") as [v1|] eqn:E1; [|discriminate]. destruct (param d "cxx") as [v2|] eqn:E2; [|discriminate]. destruct (param d "kyy") as [v3|] eqn:E3; [|discriminate].
  destruct (param d "kxy") as [v4|] eqn:E4; [|discriminate]. destruct (param d "kyx") as [v5|] eqn:E5; [|discriminate]. destruct (param d "cyy") as [v6|] eqn:E6; [|discriminate].
  destruct (param d "cxy") as [v7|] eqn:E7; [|discriminate]. destruct (param d "cyx") as [v8|] eqn:E8; [|discriminate]. destruct (param d "frequency") as [f|] eqn:E9; [|discriminate].
  destruct (bearing_init _) as [b'|] eqn:B; cbn [bind]; [|discriminate]. intros E. injection E as <-.
  exists d, ms, (vals v1 v2 v3 v4 v5 v6 v7 v8), f. split; [reflexivity|]. split; [|split; [apply P, E9|exact B]].
  intros c M. destruct c; try discriminate; apply P; assumption.
Qed.
Lemma reads_num p eng rpm v x : (forall b, v <> VBool b) -> reads TBearing p eng rpm v (VNum x) -> exists y, v = VNum y /\ x = si TBearing p eng rpm y.
Proof. unfold reads. intros B. destruct v; intros H; try (destruct H; discriminate); try discriminate; [destruct (B b eq_refl)|]. injection H as ->. eauto. Qed.
Lemma cell_not_bool c b : cell_val c <> VBool b.
Proof. destruct c; discriminate. Qed.
Lemma nth_num xs i v : (i < List.length xs)%nat -> exists x, nth i (map VNum xs) v = VNum x /\ nth_error xs i = Some x.
Proof.
  intros H. destruct (nth_error xs i) as [x|] eqn:E; [|apply nth_error_None in E; lia]. exists x. split; [|reflexivity]. apply nth_error_nth. apply map_nth_error. exact E.
Qed.
Lemma si_zero p eng rpm : si TBearing p eng rpm 0 = 0.
Proof. unfold si, shift. ring. Qed.
Lemma values_of s h a z eng rpm p alts dflt zero l :
  (forall v, dflt = Some v -> v = VNone \/ (v = VNum 0 /\ zero = true)) ->
  List.length (map VNum l) = (z - a)%nat -> (a < z)%nat ->
    ((exists j, source (the_row s h) alts j /\ forall i, (i < z - a)%nat -> reads TBearing p eng rpm (cell_val (the_cell s (a + i) j)) (nth i (map VNum l) VNone)) \/
     (exists v, dflt = Some v /\ no_source (the_row s h) alts /\ forall i, (i < z - a)%nat -> reads TBearing p eng rpm v (nth i (map VNum l) VNone))) ->
  column_values s h a z eng rpm p alts zero l.
Proof.
  intros D L Haz C. rewrite map_length in L. split; [exact L|]. destruct C as [(j & S & C)|(v & E & N & C)].
  - left. exists j. split; [exact S|]. intros i Hi. specialize (C i Hi). destruct (nth_num l i VNone) as (x & E1 & E2); [lia|]. rewrite E1 in C.
    apply reads_num in C; [|intros b; apply cell_not_bool]. destruct C as (y & Ey & ->). exists y. split; assumption.
  - right. assert (V : v = VNum 0 /\ zero = true).
    { destruct (D v E) as [->|V]; [|exact V]. exfalso. specialize (C 0%nat ltac:(lia)). destruct (nth_num l 0 VNone) as (x & E1 & _); [lia|]. rewrite E1 in C. apply reads_num in C; [|discriminate]. destruct C as (y & Ey & _). discriminate. }
    destruct V as (-> & ->). split; [reflexivity|]. split; [exact N|]. intros i Hi. specialize (C i Hi). destruct (nth_num l i VNone) as (x & E1 & E2); [lia|]. rewrite E1 in C.
    apply reads_num in C; [|discriminate]. destruct C as (y & Ey & ->). injection Ey as <-. rewrite si_zero in E2. exact E2.
Qed.
Definition accepts (c : cname) : option pyval := match c with kxx | cxx => None | kyy | cyy => Some VNone | _ => Some (VNum 0) end.
Lemma accepted_coef c : massc c = false -> accepted TBearing (sheet_name c) [sheet_name c] (accepts c).
Proof. destruct c; intros M; try discriminate; (left; split; [cbn; tauto|reflexivity]) || (right; eexists; split; [cbn; tauto|reflexivity]). Qed.

(** A bearing read from a sheet: it is at the node and has the tag, link, scale and colour it was given; its frequencies and its eight coefficients are the numbers of
    the columns of those names, one for every row of the table, in SI units; a cross-coupled coefficient without a column is 0; every mass coefficient is 0. *)
Theorem C89_from_table : forall n s tag link sc col b, bearing_from_table n s tag link sc col = Ok (Some b) ->
  b_n b = n /\ b_tag b = tag /\ b_n_link b = link /\ b_scale_factor b = sc /\ b_color b = col /\
  exists h a z eng rpm f, table TBearing s h a z /\ tells eng (english s) /\ tells rpm (speaks_rpm s h) /\ b_frequency b = Some f /\
    column_values s h a z eng rpm "frequency" ["frequency"; "speed"] false f /\
    (forall c, in_sheet c -> column_values s h a z eng rpm (sheet_name c) [sheet_name c] (cross c) (fst (b_coef b c))) /\
    (forall c, ~ in_sheet c -> fst (b_coef b c) = repeat 0 (List.length f)).
Proof.
  intros n s tag link sc col b H. destruct (from_table_ok _ _ _ _ _ _ _ H) as (d & ms & v & f & R & V & Vf & B).
  destruct (tb_fields _ _ _ _ _ _ _ _ B) as (F1 & F2 & F3 & F4 & F5 & F6). do 5 (split; [assumption|]).
  destruct (C32_read TBearing s d ms R) as (h & a & z & eng & rpm & T & Te & Tr & C). exists h, a, z, eng, rpm, f. do 4 (split; [assumption|]).
  pose proof (proj1 (tb_order _ _ _ _ _ T)) as Ord. split; [|split].
  - destruct (C "frequency" ["frequency"; "speed"] (Some VNone)) as (l & Gl & L & Q). { right. eexists. split; [cbn; tauto|reflexivity]. }
    rewrite Vf in Gl. injection Gl as <-. apply (values_of s h a z eng rpm _ _ (Some VNone) false f); [|exact L|lia|exact Q]. intros w E. injection E as <-. left. reflexivity.
  - intros c Hc. assert (M : massc c = false) by (destruct c; cbn in Hc; try reflexivity; contradiction). rewrite (tb_fst _ _ _ _ _ _ _ _ _ B M).
    destruct (C _ _ _ (accepted_coef c M)) as (l & Gl & L & Q). rewrite (V c M) in Gl. injection Gl as <-.
    apply (values_of s h a z eng rpm _ _ (accepts c) (cross c) (v c)); [|exact L|lia|exact Q]. intros w E. destruct c; cbn in E; try discriminate; injection E as <-; auto.
  - intros c Hc. assert (M : massc c = true) by (destruct c; cbn in Hc; try (exfalso; apply Hc; exact Logic.I); reflexivity).
    destruct (bearing_init_ok _ _ B) as (_ & _ & _ & _ & _ & _ & P). specialize (P c). rewrite tb_resolve, M in P. unfold process_coefficient in P. cbn [ba_frequency tb_args] in P.
    destruct (Nat.ltb 1 _).
    + destruct (spline_accepts _ _); [injection P as <-; reflexivity|]. destruct (_ || _)%bool; [|injection P as <-; reflexivity]. destruct (interp1d_accepts _ _); [injection P as <-; reflexivity|discriminate].
    + destruct (repeat 0 (List.length f)) as [|x l] eqn:E; [discriminate|]. injection P as <-. reflexivity.
Qed.
(** Up to four rows, with increasing speeds: at the speed of each row the matrices are made of the numbers of that row. More rows: to within the smoothing of the table. *)
Theorem C89_matrices : forall n s tag link sc col b f spl i w, bearing_from_table n s tag link sc col = Ok (Some b) -> smoothing_spline spl -> b_frequency b = Some f -> increasing f ->
  (List.length f <= 4)%nat -> nth_error f i = Some w -> let at_row c := nth i (fst (b_coef b c)) 0 in
  (exists A, bearing_K spl b w = Ok A /\ couples link (at_row kxx) (at_row kxy) (at_row kyx) (at_row kyy) A) /\
  (exists A, bearing_C spl b w = Ok A /\ couples link (at_row cxx) (at_row cxy) (at_row cyx) (at_row cyy) A) /\
  (exists A, bearing_M spl b w = Ok A /\ couples link 0 0 0 0 A).
Proof.
  intros n s tag link sc col b f spl i w H S Ef I L Hw at_row. destruct (C89_from_table _ _ _ _ _ _ _ H) as (_ & _ & _ & _ & _ & h & a & z & eng & rpm & f' & _ & _ & _ & Ef' & CF & CC & _).
  assert (f' = f) by congruence. subst f'. destruct (from_table_ok _ _ _ _ _ _ _ H) as (d & ms & v & f' & R & V & Vf & B). destruct (tb_fields _ _ _ _ _ _ _ _ B) as (_ & _ & _ & _ & _ & F6). assert (f' = f) by congruence. subst f'.
  assert (Hi : (i < List.length f)%nat) by (apply nth_error_Some; congruence).
  assert (Q : forall c, massc c = false -> nth_error (v c) i = Some (at_row c)).
  { intros c M. unfold at_row. rewrite (tb_fst _ _ _ _ _ _ _ _ _ B M). apply nth_error_nth'. assert (Hc : in_sheet c) by (destruct c; try exact Logic.I; discriminate). destruct (CC c Hc) as (Lc & _). rewrite (tb_fst _ _ _ _ _ _ _ _ _ B M) in Lc. destruct CF as (Lf & _). lia. }
  destruct (tb_short n v f tag link sc col b spl i w _ _ _ _ _ _ _ _ S I ltac:(lia) B Hw (Q kxx eq_refl) (Q kxy eq_refl) (Q kyx eq_refl) (Q kyy eq_refl) (Q cxx eq_refl) (Q cxy eq_refl) (Q cyx eq_refl) (Q cyy eq_refl)) as (K1 & K2).
  split; [exact K1|]. split; [exact K2|]. apply (tb_mass n v f tag link sc col b spl w S I); [|exact B]. intros ->. cbn in Hi. lia.
Qed.
Theorem C89_long_matrices : forall n s tag link sc col b f spl i w, bearing_from_table n s tag link sc col = Ok (Some b) -> smoothing_spline spl -> b_frequency b = Some f -> increasing f ->
  (5 <= List.length f)%nat -> nth_error f i = Some w -> let at_row c := nth i (fst (b_coef b c)) 0 in let near := close (List.length f) in
  (exists A k1 k2 k3 k4, bearing_K spl b w = Ok A /\ couples link k1 k2 k3 k4 A /\ near k1 (at_row kxx) /\ near k2 (at_row kxy) /\ near k3 (at_row kyx) /\ near k4 (at_row kyy)) /\
  (exists A k1 k2 k3 k4, bearing_C spl b w = Ok A /\ couples link k1 k2 k3 k4 A /\ near k1 (at_row cxx) /\ near k2 (at_row cxy) /\ near k3 (at_row cyx) /\ near k4 (at_row cyy)).
Proof.
  intros n s tag link sc col b f spl i w H S Ef I L Hw at_row near. destruct (C89_from_table _ _ _ _ _ _ _ H) as (_ & _ & _ & _ & _ & h & a & z & eng & rpm & f' & _ & _ & _ & Ef' & CF & CC & _).
  assert (f' = f) by congruence. subst f'. destruct (from_table_ok _ _ _ _ _ _ _ H) as (d & ms & v & f' & R & V & Vf & B). destruct (tb_fields _ _ _ _ _ _ _ _ B) as (_ & _ & _ & _ & _ & F6). assert (f' = f) by congruence. subst f'.
  assert (Hi : (i < List.length f)%nat) by (apply nth_error_Some; congruence).
  assert (Q : forall c, massc c = false -> nth_error (v c) i = Some (at_row c)).
  { intros c M. unfold at_row. rewrite (tb_fst _ _ _ _ _ _ _ _ _ B M). apply nth_error_nth'. assert (Hc : in_sheet c) by (destruct c; try exact Logic.I; discriminate). destruct (CC c Hc) as (Lc & _). rewrite (tb_fst _ _ _ _ _ _ _ _ _ B M) in Lc. destruct CF as (Lf & _). lia. }
  exact (tb_long n v f tag link sc col b spl i w _ _ _ _ _ _ _ _ S I L B Hw (Q kxx eq_refl) (Q kxy eq_refl) (Q kyx eq_refl) (Q kyy eq_refl) (Q cxx eq_refl) (Q cxy eq_refl) (Q cyx eq_refl) (Q cyy eq_refl)).
Qed.
Lemma read_at s h a z d ms eng rpm : table TBearing s h a z -> tells eng (english s) -> tells rpm (speaks_rpm s h) -> read_table TBearing s = Ok (d, ms) ->
  forall p alts dflt, accepted TBearing p alts dflt -> exists l, dget d p = Some l /\ List.length l = (z - a)%nat /\
    ((exists j, source (the_row s h) alts j /\ forall i, (i < z - a)%nat -> reads TBearing p eng rpm (cell_val (the_cell s (a + i) j)) (nth i l VNone)) \/
     (exists v, dflt = Some v /\ no_source (the_row s h) alts /\ forall i, (i < z - a)%nat -> reads TBearing p eng rpm v (nth i l VNone))).
Proof.
  intros T E1 E2 E. rewrite (read_eq TBearing s h a z T) in E.
  assert (X1 : sc_metric (scan_sheet (key_word TBearing) s) = eng). { apply eq_true_iff_eq. unfold tells in E1. rewrite E1. apply scan_metric. }
  assert (X2 : sc_rpm (scan_sheet (key_word TBearing) s) = rpm). { apply eq_true_iff_eq. unfold tells in E2. rewrite E2. apply scan_rpm, T. }
  rewrite X1, X2 in E. cbn [bind] in E. destruct (read_rows TBearing (the_row s h) (rows_between s a z) eng rpm) as [d'|] eqn:RR; cbn [bind] in E; [|discriminate].
  injection E; intros _ <-. clear E. intros p alts dflt A. destruct (read_rows_ok TBearing s h a z eng rpm d' RR p alts dflt A) as (l0 & l & G & F & SRC).
  exists l. split; [exact G|]. pose proof (forall2_len _ _ _ F) as L. destruct SRC as [(j & S & ->)|(v & -> & N & ->)].
  - rewrite col_vals_len in L. split; [now symmetry|]. left. exists j. split; [exact S|]. intros i Hi. apply chain_reads.
    rewrite <- (col_vals_nth s a z j i VNone Hi). apply (forall2_nth _ _ _ VNone VNone F). now rewrite col_vals_len.
  - rewrite repeat_length in L. split; [now symmetry|]. right. exists v. split; [reflexivity|]. split; [exact N|]. intros i Hi. apply chain_reads.
    assert (X : nth i (repeat v (z - a)) v = v) by apply nth_repeat. rewrite <- X at 1. apply (forall2_nth _ _ _ v VNone F). now rewrite repeat_length.
Qed.
Lemma nth_error_eq {A} (l : list A) : forall l', (forall i, nth_error l i = nth_error l' i) -> l = l'.
Proof. induction l as [|x l IH]; intros [|y l'] H; [reflexivity|discriminate (H 0%nat)|discriminate (H 0%nat)|]. f_equal; [specialize (H 0%nat); cbn in H; congruence|]. apply IH. intros i. apply (H (S i)). Qed.
Lemma source_named header alts j : source header alts j -> ~ no_source header alts.
Proof. intros (b & w & c & -> & (N & _) & _) S. apply (S w j); [apply in_or_app; right; left; reflexivity|exact N]. Qed.
Lemma all_nums l n : List.length l = n -> (forall i, (i < n)%nat -> exists x, nth i l VNone = VNum x) -> exists xs, l = map VNum xs /\ List.length xs = n.
Proof.
  revert n. induction l as [|v l IH]; intros n L H; cbn in L; subst n; [exists []; split; reflexivity|]. destruct (IH (List.length l) eq_refl) as (xs & -> & Lx). { intros i Hi. apply (H (S i)). lia. }
  destruct (H 0%nat ltac:(lia)) as (x & E). cbn in E. exists (x :: xs). split; [cbn; congruence|cbn; lia].
Qed.
Lemma readable_vals s h a z d eng rpm p alts dflt zero : (a < z)%nat -> (zero = true -> dflt = Some (VNum 0)) -> readable_column s h a z alts zero ->
  (exists l, dget d p = Some l /\ List.length l = (z - a)%nat /\
    ((exists j, source (the_row s h) alts j /\ forall i, (i < z - a)%nat -> reads TBearing p eng rpm (cell_val (the_cell s (a + i) j)) (nth i l VNone)) \/
     (exists v, dflt = Some v /\ no_source (the_row s h) alts /\ forall i, (i < z - a)%nat -> reads TBearing p eng rpm v (nth i l VNone)))) ->
  exists xs : list R, dget d p = Some (map VNum xs) /\ List.length xs = (z - a)%nat /\
    forall j, source (the_row s h) alts j -> forall i, (i < z - a)%nat -> exists x, cell_val (the_cell s (a + i) j) = VNum x /\ nth_error xs i = Some (si TBearing p eng rpm x).
Proof.
  intros Haz D Rd (l & G & L & Q).
  assert (N : forall i, (i < z - a)%nat -> exists x, nth i l VNone = VNum x).
  { intros i Hi. destruct Rd as [(j & S & C)|(Z & Ns)]; destruct Q as [(j' & S' & Q)|(v & Ev & Ns' & Q)].
    - rewrite (source_unique _ _ _ _ S' S) in Q. specialize (Q i Hi). destruct (C (a + i)%nat ltac:(lia)) as (x & Ex). rewrite Ex in Q. unfold reads in Q. eauto.
    - destruct (source_named _ _ _ S Ns').
    - destruct (source_named _ _ _ S' Ns).
    - rewrite (D Z) in Ev. injection Ev as <-. specialize (Q i Hi). unfold reads in Q. eauto. }
  destruct (all_nums l _ L N) as (xs & -> & Lx). exists xs. split; [exact G|]. split; [exact Lx|]. intros j S i Hi. destruct Q as [(j' & S' & Q)|(v & _ & Ns' & _)]; [|destruct (source_named _ _ _ S Ns')].
  rewrite (source_unique _ _ _ _ S' S) in Q. specialize (Q i Hi). destruct (nth_num xs i VNone) as (x & E1 & E2); [lia|]. rewrite E1 in Q. apply reads_num in Q; [|intros b; apply cell_not_bool]. destruct Q as (y & Ey & ->). eauto.
Qed.
(** It is built from every sheet with a table whose columns hold numbers, of which the cross-coupled ones may be missing, and whose speeds increase from row to row. *)
Theorem C89_builds : forall n s tag link sc col h a z eng rpm f, table TBearing s h a z -> tells eng (english s) -> tells rpm (speaks_rpm s h) ->
  (forall c, in_sheet c -> readable_column s h a z [sheet_name c] (cross c)) -> column_values s h a z eng rpm "frequency" ["frequency"; "speed"] false f -> increasing f ->
  exists b, bearing_from_table n s tag link sc col = Ok (Some b) /\ b_frequency b = Some f.
Proof.
  intros n s tag link sc col h a z eng rpm f T Te Tr RC CF I. pose proof (proj1 (tb_order _ _ _ _ _ T)) as Ord.
  assert (RF : readable_column s h a z ["frequency"; "speed"] false).
  { destruct CF as (_ & [(j & S & C)|(Z & _)]); [|discriminate]. left. exists j. split; [exact S|]. intros i Hi. destruct (C (i - a)%nat ltac:(lia)) as (x & E & _). replace (a + (i - a))%nat with i in E by lia. eauto. }
  assert (OK : is_ok (read_table TBearing s)).
  { apply (C32_returns TBearing s h a z eng rpm); auto; [discriminate|]. intros p alts dflt A.
    assert (W : forall zero, (zero = true -> dflt = Some (VNum 0)) -> readable_column s h a z alts zero ->
      (exists j, source (the_row s h) alts j /\ (numeric TBearing p eng rpm = true -> forall i, (a <= i < z)%nat -> value (cell_val (the_cell s i j)))) \/
      (exists v, dflt = Some v /\ no_source (the_row s h) alts /\ (numeric TBearing p eng rpm = true -> exists x, v = VNum x))).
    { intros zero D [(j & S & C)|(Z & Ns)]; [left; exists j; split; [exact S|]; intros _ i Hi; left; apply C; exact Hi|right; exists (VNum 0); rewrite (D Z); split; [reflexivity|]; split; [exact Ns|]; eauto]. }
    destruct A as [(A & ->)|(v & A & ->)]; cbn in A.
    - destruct A as [A|[A|[]]]; injection A as <- <-; [apply (W false); [discriminate|exact (RC kxx Logic.I)]|apply (W false); [discriminate|exact (RC cxx Logic.I)]].
    - repeat match type of A with _ \/ _ => destruct A as [A|A] end; try contradiction; injection A as <- <- <-.
      + apply (W false); [discriminate|exact (RC kyy Logic.I)]. + apply (W true); [reflexivity|exact (RC kxy Logic.I)]. + apply (W true); [reflexivity|exact (RC kyx Logic.I)].
      + apply (W false); [discriminate|exact (RC cyy Logic.I)]. + apply (W true); [reflexivity|exact (RC cxy Logic.I)]. + apply (W true); [reflexivity|exact (RC cyx Logic.I)].
      + apply (W false); [discriminate|exact RF]. }
  destruct OK as [[d ms] R].
  assert (V : forall c, exists xs, massc c = false -> dget d (sheet_name c) = Some (map VNum xs) /\ List.length xs = (z - a)%nat).
  { intros c. destruct (massc c) eqn:M; [exists []; discriminate|]. assert (Hc : in_sheet c) by (destruct c; try exact Logic.I; discriminate).
    destruct (readable_vals s h a z d eng rpm (sheet_name c) [sheet_name c] (accepts c) (cross c)) as (xs & G & L & _); [lia|destruct c; try discriminate; reflexivity|exact (RC c Hc)|exact (read_at s h a z d ms eng rpm T Te Tr R _ _ _ (accepted_coef c M))|].
    exists xs. intros _. split; assumption. }
  assert (Vf : dget d "frequency" = Some (map VNum f)).
  { destruct (readable_vals s h a z d eng rpm "frequency" ["frequency"; "speed"] (Some VNone) false) as (xs & G & L & Q); [lia|discriminate|exact RF| |].
    { apply (read_at s h a z d ms eng rpm T Te Tr R). right. eexists. split; [cbn; tauto|reflexivity]. }
    rewrite G. do 2 f_equal. destruct CF as (Lf & [(j & S & C)|(Z & _)]); [|discriminate]. apply nth_error_eq. intros i.
    destruct (Nat.lt_ge_cases i (z - a)) as [Hi|Hi]; [|rewrite (proj2 (nth_error_None xs i)), (proj2 (nth_error_None f i)) by lia; reflexivity].
    destruct (Q j S i Hi) as (x & E1 & ->). destruct (C i Hi) as (y & E2 & ->). congruence. }
  destruct (V kxx) as (v1 & V1). destruct (V1 eq_refl) as (G1 & L1). destruct (V cxx) as (v2 & V2). destruct (V2 eq_refl) as (G2 & L2). destruct (V kyy) as (v3 & V3). destruct (V3 eq_refl) as (G3 & L3).
  destruct (V kxy) as (v4 & V4). destruct (V4 eq_refl) as (G4 & L4). destruct (V kyx) as (v5 & V5). destruct (V5 eq_refl) as (G5 & L5). destruct (V cyy) as (v6 & V6). destruct (V6 eq_refl) as (G6 & L6).
  destruct (V cxy) as (v7 & V7). destruct (V7 eq_refl) as (G7 & L7). destruct (V cyx) as (v8 & V8). destruct (V8 eq_refl) as (G8 & L8). cbn [sheet_name] in *. destruct CF as (Lf & _).
  destruct (tb_ok n (vals v1 v2 v3 v4 v5 v6 v7 v8) f tag link sc col I) as (b & B). { intros ->. cbn in Lf. lia. } { intros c M. destruct c; try discriminate; cbn [vals]; lia. }
  exists b. split; [|exact (proj2 (proj2 (proj2 (proj2 (proj2 (tb_fields _ _ _ _ _ _ _ _ B))))))].
  assert (P : forall k xs, dget d k = Some (map VNum xs) -> param d k = Some xs). { intros k xs E. unfold param. rewrite E. apply numbers_map. reflexivity. }
  unfold bearing_from_table. rewrite R. cbn [bind]. rewrite (P _ _ G1), (P _ _ G2), (P _ _ G3), (P _ _ G4), (P _ _ G5), (P _ _ G6), (P _ _ G7), (P _ _ G8), (P _ _ Vf).
  change (mkBArgs _ _ _ _ _ _ _ _ _ _ _ _ _ _ _ _ _ _) with (tb_args n (vals v1 v2 v3 v4 v5 v6 v7 v8) f tag link sc col). rewrite B. reflexivity.
Qed.
(** The dictionary made from a table is that of the bearing read from it, and a bearing made from the dictionary is that bearing: at the given node, with no tag and no link. *)
Theorem C89_toml : forall n s t, table_to_toml n s = Ok (Some t) ->
  exists b, bearing_from_table n s None None 1 "#355d7a" = Ok (Some b) /\ from_toml t = Ok b /\ b_n b = n /\ b_tag b = None /\ b_n_link b = None /\
    bt_n t = n /\ bt_frequency t = b_frequency b /\ bt_kxx t = fst (b_coef b kxx) /\ bt_kxy t = fst (b_coef b kxy) /\ bt_kyx t = fst (b_coef b kyx) /\ bt_kyy t = fst (b_coef b kyy) /\
    bt_cxx t = fst (b_coef b cxx) /\ bt_cxy t = fst (b_coef b cxy) /\ bt_cyx t = fst (b_coef b cyx) /\ bt_cyy t = fst (b_coef b cyy).
Proof.
  intros n s t. unfold table_to_toml. destruct (bearing_from_table n s None None 1 "#355d7a") as [[b|]|] eqn:E; cbn [bind]; try discriminate. intros H. injection H as <-.
  exists b. split; [reflexivity|]. destruct (from_table_ok _ _ _ _ _ _ _ E) as (d & ms & v & f & _ & _ & _ & B). destruct (tb_fields _ _ _ _ _ _ _ _ B) as (F1 & F2 & F3 & F4 & F5 & F6).
  split; [|cbn [bt_n bt_frequency bt_kxx bt_kxy bt_kyx bt_kyy bt_cxx bt_cxy bt_cyx bt_cyy]; repeat split; assumption].
  unfold from_toml. cbn [bt_n bt_frequency bt_kxx bt_kxy bt_kyx bt_kyy bt_cxx bt_cxy bt_cyx bt_cyy].
  rewrite F1, F6, (tb_fst _ _ _ _ _ _ _ _ kxx B eq_refl), (tb_fst _ _ _ _ _ _ _ _ kxy B eq_refl), (tb_fst _ _ _ _ _ _ _ _ kyx B eq_refl), (tb_fst _ _ _ _ _ _ _ _ kyy B eq_refl),
    (tb_fst _ _ _ _ _ _ _ _ cxx B eq_refl), (tb_fst _ _ _ _ _ _ _ _ cxy B eq_refl), (tb_fst _ _ _ _ _ _ _ _ cyx B eq_refl), (tb_fst _ _ _ _ _ _ _ _ cyy B eq_refl). exact B.
Qed.
(** The dictionary exists whenever the bearing does, and the tag and the link a bearing was read with do not change it. *)
Theorem C89_toml_drops_link : forall n s tag link sc col b, bearing_from_table n s tag link sc col = Ok (Some b) ->
  exists t b', table_to_toml n s = Ok (Some t) /\ from_toml t = Ok b' /\ b_n_link b' = None /\ b_tag b' = None /\ b_frequency b' = b_frequency b /\ forall c, b_coef b' c = b_coef b c.
Proof.
  intros n s tag link sc col b E. destruct (from_table_ok _ _ _ _ _ _ _ E) as (d & ms & v & f & R & V & Vf & B).
  assert (B' : exists b', bearing_init (tb_args n v f None None 1 "#355d7a") = Ok b' /\ b_frequency b' = b_frequency b /\ forall c, b_coef b' c = b_coef b c).
  { revert B. unfold bearing_init. cbn [ba_frequency tb_args]. change (resolve (mkBArgs n _ _ _ _ _ _ _ _ _ _ _ _ _ tag link sc col)) with (resolve (tb_args n v f None None 1 "#355d7a")).
    change (resolve (mkBArgs n _ _ _ _ _ _ _ _ _ _ _ _ _ None None 1 "#355d7a")) with (resolve (tb_args n v f None None 1 "#355d7a")).
    destruct (process_all _ _ _) as [ps|]; cbn [bind]; [|discriminate]. destruct (length_check _ _); [|discriminate]. intros H. injection H as <-. eexists. split; [reflexivity|]. split; [reflexivity|]. intros c. reflexivity. }
  destruct B' as (b' & B' & Fq & Fc).
  assert (E' : bearing_from_table n s None None 1 "#355d7a" = Ok (Some b')).
  { unfold bearing_from_table. rewrite R. cbn [bind]. assert (P : forall k xs, dget d k = Some (map VNum xs) -> param d k = Some xs). { intros k xs H. unfold param. rewrite H. apply numbers_map. reflexivity. }
    rewrite (P "kxx" _ (V kxx eq_refl)), (P "cxx" _ (V cxx eq_refl)), (P "kyy" _ (V kyy eq_refl)), (P "kxy" _ (V kxy eq_refl)), (P "kyx" _ (V kyx eq_refl)), (P "cyy" _ (V cyy eq_refl)), (P "cxy" _ (V cxy eq_refl)), (P "cyx" _ (V cyx eq_refl)), (P "frequency" _ Vf).
    change (mkBArgs _ _ _ _ _ _ _ _ _ _ _ _ _ _ _ _ _ _) with (tb_args n v f None None 1 "#355d7a"). rewrite B'. reflexivity. }
  assert (T : exists t, table_to_toml n s = Ok (Some t)) by (unfold table_to_toml; rewrite E'; eexists; reflexivity). destruct T as (t & T). exists t, b'. split; [exact T|].
  destruct (C89_toml n s t T) as (b'' & E'' & F & _ & X1 & X2 & _). assert (b'' = b') by congruence. subst b''. repeat split; assumption.
Qed.
(** A sheet in SI units, two speeds, no cross coupling. *)
Definition si_sheet : sheet :=
  [[CStr "Frequency"; CStr "Kxx"; CStr "Kyy"; CStr "Cxx"; CStr "Cyy"; CStr "Kxy"];
   [CFlt 100; CFlt 5; CFlt 6; CFlt 1; CFlt 2; CFlt 3];
   [CFlt 200; CFlt 7; CFlt 8; CFlt 3; CFlt 4; CFlt 9]].
Example C89_instance : exists b t, bearing_from_table 3 si_sheet (Some "brg") (Some 5%nat) 1 "red" = Ok (Some b) /\ table_to_toml 3 si_sheet = Ok (Some t) /\
  b_frequency b = Some [100; 200] /\ fst (b_coef b kyy) = [6; 8] /\ fst (b_coef b kxy) = [3; 9] /\ fst (b_coef b cyx) = [0; 0].
Proof.
  assert (E : exists b, bearing_from_table 3 si_sheet (Some "brg") (Some 5%nat) 1 "red" = Ok (Some b) /\ b_frequency b = Some [100; 200] /\ fst (b_coef b kyy) = [6; 8] /\ fst (b_coef b kxy) = [3; 9] /\ fst (b_coef b cyx) = [0; 0]).
  { assert (R : read_table TBearing si_sheet = Ok ([("kxx", [VNum 5; VNum 7]); ("cxx", [VNum 1; VNum 3]); ("kyy", [VNum 6; VNum 8]); ("kxy", [VNum 3; VNum 9]); ("kyx", [VNum 0; VNum 0]);
      ("cyy", [VNum 2; VNum 4]); ("cxy", [VNum 0; VNum 0]); ("cyx", [VNum 0; VNum 0]); ("frequency", [VNum 100; VNum 200])], [])) by (vm_compute; reflexivity).
    unfold bearing_from_table. rewrite R. cbn [bind param dget String.eqb Ascii.eqb Bool.eqb numbers].
    match goal with |- context [bearing_init ?args] => change args with (tb_args 3 (vals [5; 7] [1; 3] [6; 8] [3; 9] [0; 0] [2; 4] [0; 0] [0; 0]) [100; 200] (Some "brg") (Some 5%nat) 1 "red") end.
    set (v := vals [5; 7] [1; 3] [6; 8] [3; 9] [0; 0] [2; 4] [0; 0] [0; 0]).
    assert (I : increasing [100; 200]) by (split; [lra|exact Logic.I]).
    assert (N : [100; 200] <> []) by (intros X; inversion X).
    assert (L : forall c, massc c = false -> List.length (v c) = List.length [100; 200]).
    { intros c M. destruct c; cbn in M; try discriminate M; reflexivity. }
    destruct (tb_ok 3 v [100; 200] (Some "brg") (Some 5%nat) 1 "red" I N L) as (b & B).
    rewrite B. cbn [bind]. exists b. split; [reflexivity|]. split; [exact (proj2 (proj2 (proj2 (proj2 (proj2 (tb_fields _ _ _ _ _ _ _ _ B))))))|].
    rewrite (tb_fst _ _ _ _ _ _ _ _ kyy B eq_refl), (tb_fst _ _ _ _ _ _ _ _ kxy B eq_refl), (tb_fst _ _ _ _ _ _ _ _ cyx B eq_refl). repeat split. }
  destruct E as (b & E & F). destruct (C89_toml_drops_link _ _ _ _ _ _ _ E) as (t & _ & T & _). exists b, t. split; [exact E|]. split; [exact T|exact F].
Qed.

Print Assumptions C89_from_table.
Print Assumptions C89_matrices.
Print Assumptions C89_long_matrices.
Print Assumptions C89_builds.
Print Assumptions C89_toml.
Print Assumptions C89_toml_drops_link.
Print Assumptions C89_instance.
