(** C32: reading tables of elements from a sheet. *)
From Coq Require Import Reals List String Bool Arith ZArith Lia Lra.
From Verif Require Import PyBase PyDict MTable SpecTable LMaterial LTable LTable2 LTable3 LTable4.
Import ListNotations.
Open Scope string_scope.
Open Scope list_scope.
Open Scope R_scope.

(** Whatever is read comes from the table of the sheet: the header is the first row with the key word, the data
    are the first unbroken run of rows with a number in the key column, every parameter list has one entry per
    data row, and entry i depends on its own row only: it is the cell of the parameter's column converted to SI
    units and 0-based node numbers, or the default when the sheet has no such column. *)
Theorem C32_read : forall k s d ms, read_table k s = Ok (d, ms) ->
  exists h a b eng rpm, table k s h a b /\ tells eng (english s) /\ tells rpm (speaks_rpm s h) /\
  forall p alts dflt, accepted k p alts dflt -> exists l, dget d p = Some l /\ List.length l = (b - a)%nat /\
    ((exists j, source (the_row s h) alts j /\
        forall i, (i < b - a)%nat -> reads k p eng rpm (cell_val (the_cell s (a + i) j)) (nth i l VNone)) \/
     (exists v, dflt = Some v /\ no_source (the_row s h) alts /\
        forall i, (i < b - a)%nat -> reads k p eng rpm v (nth i l VNone))).
Proof.
  intros k s d ms E. destruct (read_table_ok k s d ms E) as (h & a & b & T). rewrite (read_eq k s h a b T) in E.
  set (eng := sc_metric (scan_sheet (key_word k) s)) in *. set (rpm := sc_rpm (scan_sheet (key_word k) s)) in *.
  exists h, a, b, eng, rpm. split; [exact T|]. split; [apply scan_metric|]. split; [apply scan_rpm, T|].
  destruct (match k with TShaftModel => read_materials eng s | _ => Ok [] end) as [m|]; cbn [bind] in E; [|discriminate].
  destruct (read_rows k (the_row s h) (rows_between s a b) eng rpm) as [d'|] eqn:RR; cbn [bind] in E; [|discriminate].
  injection E; intros _ <-. clear E. intros p alts dflt A.
  destruct (read_rows_ok k s h a b eng rpm d' RR p alts dflt A) as (l0 & l & G & F & SRC).
  exists l. split; [exact G|]. pose proof (forall2_len _ _ _ F) as L.
  destruct SRC as [(j & S & ->)|(v & -> & N & ->)].
  - rewrite col_vals_len in L. split; [now symmetry|]. left. exists j. split; [exact S|]. intros i Hi. apply chain_reads.
    rewrite <- (col_vals_nth s a b j i VNone Hi). apply (forall2_nth _ _ _ VNone VNone F). now rewrite col_vals_len.
  - rewrite repeat_length in L. split; [now symmetry|]. right. exists v. split; [reflexivity|]. split; [exact N|].
    intros i Hi. apply chain_reads.
    assert (X : nth i (repeat v (b - a)) v = v) by apply nth_repeat. rewrite <- X at 1.
    apply (forall2_nth _ _ _ v VNone F). now rewrite repeat_length.
Qed.

(** It succeeds on every sheet with a table whose required columns are there once, whose converted columns hold
    numbers or empty cells, and, for shafts, with an element number column. *)
Theorem C32_returns : forall k s h a b eng rpm, k <> TShaftModel -> table k s h a b -> tells eng (english s) -> tells rpm (speaks_rpm s h) ->
  (forall p alts dflt, accepted k p alts dflt ->
    (exists j, source (the_row s h) alts j /\
       (numeric k p eng rpm = true -> forall i, (a <= i < b)%nat -> value (cell_val (the_cell s i j)))) \/
    (exists v, dflt = Some v /\ no_source (the_row s h) alts /\ (numeric k p eng rpm = true -> exists x, v = VNum x))) ->
  is_ok (read_table k s).
Proof.
  intros k s h a b eng rpm K T E1 E2 W. rewrite (read_eq k s h a b T).
  assert (X1 : sc_metric (scan_sheet (key_word k) s) = eng).
  { apply eq_true_iff_eq. unfold tells in E1. rewrite E1. apply scan_metric. }
  assert (X2 : sc_rpm (scan_sheet (key_word k) s) = rpm).
  { apply eq_true_iff_eq. unfold tells in E2. rewrite E2. apply scan_rpm, T. }
  rewrite X1, X2.
  replace (match k with TShaftModel => _ | _ => _ end) with (Ok [] : res (list mat_row)) by (destruct k; try reflexivity; now destruct K).
  cbn [bind]. destruct (read_rows_total k s h a b eng rpm W) as [d ->]; [intros ->; now destruct K|]. eexists; reflexivity.
Qed.
(** No row with the key word: ValueError. A header but no data below it: DataNotFoundError. *)
Theorem C32_no_header : forall k s, (forall h, ~ header_row (key_word k) s h) -> read_table k s = Err ValueError.
Proof.
  intros k s N. unfold read_table. destruct (sc_header (scan_sheet (key_word k) s)) as [h|] eqn:E; [|reflexivity].
  apply scan_header in E. destruct (N h E).
Qed.
Theorem C32_no_data : forall k s h, k <> TShaftModel -> header_row (key_word k) s h -> (forall a b, ~ table k s h a b) ->
  read_table k s = Err DataNotFound.
Proof. intros k s h K H N. exact (read_table_nodata k s h H N K). Qed.

(** The rest of the sheet does not matter, as long as it leaves the units alone. *)
Theorem C32_local : forall k s s' h a b h' a' b', k <> TShaftModel -> table k s h a b -> table k s' h' a' b' ->
  the_row s h = the_row s' h' -> (b - a = b' - a')%nat -> (forall i, (i < b - a)%nat -> the_row s (a + i) = the_row s' (a' + i)) ->
  (english s <-> english s') -> (speaks_rpm s h <-> speaks_rpm s' h') -> read_table k s = read_table k s'.
Proof.
  intros k s s' h a b h' a' b' K T T' EH EL ER EE EP. rewrite (read_eq k s h a b T), (read_eq k s' h' a' b' T').
  replace (match k with TShaftModel => read_materials (sc_metric (scan_sheet (key_word k) s)) s | _ => Ok [] end) with (Ok [] : res (list mat_row))
    by (destruct k; try reflexivity; now destruct K).
  replace (match k with TShaftModel => read_materials (sc_metric (scan_sheet (key_word k) s')) s' | _ => Ok [] end) with (Ok [] : res (list mat_row))
    by (destruct k; try reflexivity; now destruct K).
  assert (X1 : sc_metric (scan_sheet (key_word k) s) = sc_metric (scan_sheet (key_word k) s'))
    by (apply eq_true_iff_eq; now rewrite !scan_metric).
  assert (X2 : sc_rpm (scan_sheet (key_word k) s) = sc_rpm (scan_sheet (key_word k) s')).
  { apply eq_true_iff_eq. rewrite (scan_rpm _ s h), (scan_rpm _ s' h'); [exact EP|apply T'|apply T]. }
  assert (X3 : rows_between s a b = rows_between s' a' b').
  { unfold rows_between. rewrite <- EL. apply (nth_ext _ _ [] []); [now rewrite !map_length, !seq_length|].
    intros i Hi. rewrite map_length, seq_length in Hi.
    rewrite (nth_indep _ [] (the_row s 0)) by (rewrite map_length, seq_length; exact Hi).
    rewrite (nth_indep (map (the_row s') _) [] (the_row s' 0)) by (rewrite map_length, seq_length; exact Hi).
    rewrite !(map_nth (the_row _)), !seq_nth by exact Hi. apply ER, Hi. }
  rewrite X1, X2, X3, EH. reflexivity.
Qed.

(** ** A sheet of disks *)
Definition disk_sheet (unit note : string) : sheet :=
  [[CStr "Impellers"; CNaN; CNaN; CNaN];
   [CStr "N"; CStr "Mass"; CStr "It"; CStr "Ip"];
   [CNaN; CStr unit; CNaN; CNaN];
   [CInt 4; CFlt (151 / 10); CInt 2; CInt 3];
   [CInt 7; CInt 6; CNaN; CFlt (1 / 2)];
   [CStr note; CInt 1; CInt 1; CNaN];
   [CInt 9; CInt 9; CInt 9; CInt 9]].
Ltac rows7 i H := destruct i as [|[|[|[|[|[|[|i]]]]]]]; try lia; cbn in H.

Lemma disk_header u n : header_row "ip" (disk_sheet u n) 1.
Proof.
  split.
  - exists (CStr "Ip"). split; [cbn; tauto|]. exists "Ip". split; reflexivity.
  - intros i c Hi I. destruct i; [|lia]. cbn in I. intros (t & -> & L). 
    destruct I as [E|[E|[E|[E|[]]]]]; try discriminate E. injection E; intros <-. discriminate L.
Qed.
Lemma disk_key u n : the_column (the_row (disk_sheet u n) 1) "ip" 3.
Proof. apply positions_one. reflexivity. Qed.
Lemma disk_table u n : table TDisk (disk_sheet u n) 1 3 5.
Proof.
  constructor; [apply disk_header|cbn; lia|]. exists 3%nat. split; [apply disk_key|].
  assert (NW : ~ only_whole (disk_sheet u n) 1).
  { intros W. destruct (W 3%nat (CFlt (151 / 10))) as [z E]; [cbn; lia|cbn; tauto|discriminate]. }
  repeat split.
  - intros i Hi. assert (i = 2)%nat by lia. subst. intros [[x E]|[[z E] _]]; discriminate.
  - intros i Hi. assert (i = 3 \/ i = 4)%nat as [->| ->] by lia; [right; split; [cbn; eauto|exact NW]|left; cbn; eauto].
  - right. intros [[x E]|[[z E] _]]; discriminate.
Qed.
(** the sheet in SI units *)
Example C32_instance : read_table TDisk (disk_sheet "kg" "end of data") =
  Ok ([("n", [VNum (4 - 1); VNum (7 - 1)]); ("m", [VNum (151 / 10); VNum 6]); ("Id", [VNum 2; VNaN]); ("Ip", [VNum 3; VNum (1 / 2)])], []).
Proof. vm_compute. reflexivity. Qed.
(** and in pounds and inches *)
Example C32_english_instance : read_table TDisk (disk_sheet "lbm" "end of data") =
  Ok ([("n", [VNum (4 - 1); VNum (7 - 1)]); ("m", [VNum (151 / 10 * (45359237 / 10 ^ 8)); VNum (6 * (45359237 / 10 ^ 8))]);
       ("Id", [VNum (2 * (2926397 / 10 ^ 10)); VNaN]); ("Ip", [VNum (3 * (2926397 / 10 ^ 10)); VNum (1 / 2 * (2926397 / 10 ^ 10))])], []).
Proof. vm_compute. reflexivity. Qed.
(** The hypotheses of C32_returns hold for the sheet in English units. *)
Lemma english_disk n : english (disk_sheet "lbm" n).
Proof. exists 2%nat, (CStr "lbm"). split; [cbn; tauto|]. right. exists "lbm", "", "m". split; reflexivity. Qed.
Lemma disk_returns_hyp n : forall p alts dflt, accepted TDisk p alts dflt ->
    (exists j, source (the_row (disk_sheet "lbm" n) 1) alts j /\
       (numeric TDisk p true false = true -> forall i, (3 <= i < 5)%nat -> value (cell_val (the_cell (disk_sheet "lbm" n) i j)))) \/
    (exists v, dflt = Some v /\ no_source (the_row (disk_sheet "lbm" n) 1) alts /\ (numeric TDisk p true false = true -> exists x, v = VNum x)).
Proof.
  intros p alts dflt [[I ->]|(v & I & _)]; [|destruct I]. left.
  assert (V : forall j, (j < 4)%nat -> forall i, (3 <= i < 5)%nat -> value (cell_val (the_cell (disk_sheet "lbm" n) i j))).
  { intros j Hj i Hi. assert (i = 3 \/ i = 4)%nat as [->| ->] by lia;
    destruct j as [|[|[|[|j]]]]; try lia; unfold value; cbn; first [left; eexists; reflexivity|right; reflexivity]. }
  cbn in I. destruct I as [E|[E|[E|[E|[]]]]]; injection E; intros <- <-.
  - exists 0%nat. split; [|intros _; apply V; lia]. exists ["unnamed: 0"], "n", []. split; [reflexivity|]. split; [apply positions_one; reflexivity|].
    intros w i [<-|[]]. apply positions_none. reflexivity.
  - exists 1%nat. split; [|intros _; apply V; lia]. exists ["m"], "mass", []. split; [reflexivity|]. split; [apply positions_one; reflexivity|].
    intros w i [<-|[]]. apply positions_none. reflexivity.
  - exists 2%nat. split; [|intros _; apply V; lia]. exists [], "it", ["id"]. split; [reflexivity|]. split; [apply positions_one; reflexivity|].
    intros w i [].
  - exists 3%nat. split; [|intros _; apply V; lia]. exists [], "ip", []. split; [reflexivity|]. split; [apply positions_one; reflexivity|].
    intros w i [].
Qed.
Example C32_returns_instance : is_ok (read_table TDisk (disk_sheet "lbm" "end of data")).
Proof.
  apply (C32_returns TDisk _ 1 3 5 true false); [discriminate|apply disk_table|split; [intros _; apply english_disk|reflexivity]| |apply disk_returns_hyp].
  split; [discriminate|]. intros (i & (c & I & M) & _). exfalso. apply rpmb_iff in M.
  assert (R : row_rpm (the_row (disk_sheet "lbm" "end of data") i) = true) by (apply existsb_exists; eauto).
  destruct i as [|[|[|[|[|[|[|i]]]]]]]; try discriminate R. destruct i; discriminate R.
Qed.

(** The title of C32 is false as it stands: a note below the table that happens to contain the letters "lb"
    changes every mass, although header and data rows are the same. *)
Theorem C32_note_refuted : exists s s' h a b, table TDisk s h a b /\ table TDisk s' h a b /\
  (forall i, (i <> b)%nat -> the_row s i = the_row s' i) /\
  exists d d', read_table TDisk s = Ok (d, []) /\ read_table TDisk s' = Ok (d', []) /\ dget d "m" <> dget d' "m".
Proof.
  exists (disk_sheet "kg" "as sold"), (disk_sheet "kg" "see album"), 1%nat, 3%nat, 5%nat.
  split; [apply disk_table|]. split; [apply disk_table|]. split.
  { intros i Hi. destruct i as [|[|[|[|[|[|i]]]]]]; try reflexivity. now destruct Hi. }
  exists [("n", [VNum (4 - 1); VNum (7 - 1)]); ("m", [VNum (151 / 10); VNum 6]); ("Id", [VNum 2; VNaN]); ("Ip", [VNum 3; VNum (1 / 2)])],
    [("n", [VNum (4 - 1); VNum (7 - 1)]); ("m", [VNum (151 / 10 * (45359237 / 10 ^ 8)); VNum (6 * (45359237 / 10 ^ 8))]);
     ("Id", [VNum (2 * (2926397 / 10 ^ 10)); VNaN]); ("Ip", [VNum (3 * (2926397 / 10 ^ 10)); VNum (1 / 2 * (2926397 / 10 ^ 10))])].
  split; [vm_compute; reflexivity|]. split; [vm_compute; reflexivity|]. cbn [dget String.eqb Ascii.eqb Bool.eqb]. intros E. injection E; intros E1 E2. lra.
Qed.
(** A sheet on which every value happens to be a whole number has no data. *)
Theorem C32_whole_refuted : exists s, header_row "ip" s 0 /\ List.length s = 2%nat /\
  (forall j, (j < 4)%nat -> exists z, the_cell s 1 j = CInt z) /\ read_table TDisk s = Err DataNotFound.
Proof.
  exists [[CStr "n"; CStr "m"; CStr "Id"; CStr "Ip"]; [CInt 4; CInt 10; CInt 2; CInt 3]]. split.
  - split; [|intros i c Hi; lia]. exists (CStr "Ip"). split; [cbn; tauto|]. exists "Ip". split; reflexivity.
  - split; [reflexivity|]. split; [|vm_compute; reflexivity]. intros j Hj. destruct j as [|[|[|[|j]]]]; try lia; eexists; reflexivity.
Qed.

(** ** Units *)
(** the factors agree with the definitions of the units to 2 parts in ten million *)
Theorem C32_factors : forall k p, Rabs (factor k p - true_factor k p) <= 2 / 10 ^ 7 * true_factor k p.
Proof.
  assert (A : forall x y, - (2 / 10 ^ 7 * y) <= x - y <= 2 / 10 ^ 7 * y -> Rabs (x - y) <= 2 / 10 ^ 7 * y) by (intros x y H; apply Rabs_le; exact H).
  intros k p. apply A. unfold factor, true_factor, pound_force, pound_mass, inch, gravity.
  destruct k; repeat match goal with |- context [if ?c then _ else _] => destruct c end; lra.
Qed.
(** A bearing sheet with a title in English units and the speed unit below the header. *)
Definition bearing_sheet (title : string) : sheet :=
  [[CStr title; CNaN; CNaN; CNaN; CNaN];
   [CStr "Speed"; CStr "Kxx"; CStr "Kyy"; CStr "Cxx"; CStr "Cyy"];
   [CStr "RPM"; CStr "lb/in"; CStr "lb/in"; CStr "lb-s/in"; CStr "lb-s/in"];
   [CInt 3000; CInt 5; CInt 6; CFlt (1 / 2); CInt 1]].
Definition bearing_params (kxx kyy cxx cyy freq f : R) : dict (list pyval) :=
  [("kxx", [VNum (kxx * f)]); ("cxx", [VNum (cxx * f)]); ("kyy", [VNum (kyy * f)]); ("kxy", [VNum (0 * f)]); ("kyx", [VNum (0 * f)]);
   ("cyy", [VNum (cyy * f)]); ("cxy", [VNum (0 * f)]); ("cyx", [VNum (0 * f)]); ("frequency", [VNum freq])].
Example C32_bearing_instance : read_table TBearing (bearing_sheet "Bearing 1") =
  Ok (bearing_params 5 6 (1 / 2) 1 (3000 * (1047197551197 / 10 ^ 13)) (1751268369864 / 10 ^ 10), []).
Proof. vm_compute. reflexivity. Qed.
(** The speed unit is not seen once the header and an English unit have been: the same sheet with "lb" in its
    title keeps its speeds in rpm. *)
Theorem C32_rpm_refuted : exists s, (exists i, marked rpm_mark s i) /\
  read_table TBearing s = Ok (bearing_params 5 6 (1 / 2) 1 3000 (1751268369864 / 10 ^ 10), []).
Proof.
  exists (bearing_sheet "Bearing 1 (lb, in)"). split.
  - exists 2%nat, (CStr "RPM"). split; [cbn; tauto|]. exists "RPM", "", "". split; reflexivity.
  - vm_compute. reflexivity.
Qed.
(** kyy and the other optional coefficients cannot be left out of an English sheet. *)
Theorem C32_optional_refuted : exists s h a b, table TBearing s h a b /\ read_table TBearing s = Err TypeError /\
  no_source (the_row s h) ["kyy"] /\ (forall p alts, In (p, alts) (required_columns TBearing) -> exists j, source (the_row s h) alts j).
Proof.
  set (s := [[CStr "kxx"; CStr "cxx"]; [CStr "lb/in"; CStr "lb-s/in"]; [CInt 5; CFlt (1 / 2)]] : sheet).
  exists s, 0%nat, 2%nat, 3%nat. split; [|split; [vm_compute; reflexivity|]].
  - constructor.
    + split; [|intros i c Hi; lia]. exists (CStr "kxx"). split; [cbn; tauto|]. exists "kxx". split; reflexivity.
    + cbn. lia.
    + exists 0%nat. split; [apply positions_one; reflexivity|]. repeat split.
      * intros i Hi. assert (i = 1)%nat by lia. subst. intros [[x E]|[[z E] _]]; discriminate.
      * intros i Hi. assert (i = 2)%nat by lia. subst. right. split; [cbn; eauto|]. intros W.
        destruct (W 1%nat (CStr "lb/in")) as [z E]; [cbn; lia|cbn; tauto|discriminate].
      * left. reflexivity.
  - split.
    + intros w i [<-|[]]. apply positions_none. reflexivity.
    + intros p alts I. cbn in I. destruct I as [E|[E|[]]]; injection E; intros <- <-.
      * exists 0%nat, [], "kxx", []. split; [reflexivity|]. split; [apply positions_one; reflexivity|intros ? ? []].
      * exists 1%nat, [], "cxx", []. split; [reflexivity|]. split; [apply positions_one; reflexivity|intros ? ? []].
Qed.

(** ** Shafts *)
(** The torque of a shaft table is never converted, the axial force always is. *)
Theorem C32_torque_refuted : forall k x, k = TShaftModel \/ k = TShaftSimple -> si k "torque" true false x = x /\
  si k "axial_force" true false x = x * (4448221615255 / 10 ^ 12).
Proof. intros k x [->| ->]; unfold si; cbn; split; lra. Qed.
(** A shaft table must have an element number, although the element itself can do without. *)
Theorem C32_shaft_number_refuted : forall k s h a b d ms, k = TShaftModel \/ k = TShaftSimple -> table k s h a b ->
  no_source (the_row s h) ["n"; "elemnum"] -> read_table k s <> Ok (d, ms).
Proof.
  intros k s h a b d ms K T N E. destruct (C32_read k s d ms E) as (h' & a' & b' & eng & rpm & T' & _ & _ & C).
  assert (A : accepted k "n" ["n"; "elemnum"] (Some VNone)) by (right; exists VNone; split; [destruct K as [->| ->]; cbn; tauto|reflexivity]).
  assert (HH : h' = h).
  { pose proof (proj2 (scan_header (key_word k) s h) (tb_header _ _ _ _ _ T)) as X.
    pose proof (proj2 (scan_header (key_word k) s h') (tb_header _ _ _ _ _ T')) as X'. congruence. }
  subst h'. destruct (C "n" _ _ A) as (l & G & L & [(j & (be & w & af & Ea & Cw & _) & _)|(v & Ev & _ & R)]).
  - apply (N w j); [rewrite Ea; apply in_or_app; right; now left|apply Cw].
  - injection Ev; intros <-. assert (O : (0 < b' - a')%nat) by (destruct T' as [_ X _]; lia).
    specialize (R 0%nat O). destruct K as [->| ->]; cbn in R; destruct R as [R _]; discriminate.
Qed.
(** Only numbers are read as materials from a Simple sheet: a sheet that names library materials has no data. *)
Theorem C32_simple : forall s d ms, read_table TShaftSimple s = Ok (d, ms) ->
  forall l v, dget d "material" = Some l -> In v l -> exists x, v = VNum x.
Proof.
  intros s d ms E l v G I. destruct (C32_read _ _ _ _ E) as (h & a & b & eng & rpm & T & _ & _ & C).
  assert (A : accepted TShaftSimple "material" ["material"; "matnum"] None) by (left; split; [cbn; tauto|reflexivity]).
  destruct (C "material" _ _ A) as (l' & G' & L & SRC). rewrite G in G'. injection G'; intros <-.
  destruct T as [HH HO (j0 & C0 & _ & D & _)].
  destruct SRC as [(j & S & R)|(v' & Ev & _)]; [|discriminate].
  assert (j = j0); [|subst].
  { destruct S as (be & w & af & Ea & Cw & Nb). destruct be as [|x be]; cbn in Ea; injection Ea; intros; subst.
    - apply (proj2 C0), Cw.
    - exfalso. apply (Nb "material" j0); [now left|apply C0]. }
  destruct (In_nth l v VNone I) as (i & Hi & <-). rewrite L in Hi. specialize (R i Hi).
  specialize (D (a + i)%nat ltac:(lia)). destruct D as [[x Ex]|[[z Ez] _]]; [rewrite Ex in R|rewrite Ez in R]; cbn in R; rewrite R; eauto.
Qed.
(** A Model sheet also yields its materials: the rows below the first row with "matno", up to the first one
    without a number there; densities and moduli are converted with the rest. *)
Theorem C32_materials : forall s d ms, read_table TShaftModel s = Ok (d, ms) ->
  exists h eng, header_row "matno" s h /\ tells eng (english s) /\ (List.length ms <= List.length s - S h)%nat /\
  (forall i, (i < List.length ms)%nat ->
     let m := nth i ms (mkMatRow 0 VNone VNone VNone VNone) in
     exists jn jr je jg x, exact_column (the_row s h) "matno" jn /\ exact_column (the_row s h) "rhoa" jr /\
       exact_column (the_row s h) "ea" je /\ exact_column (the_row s h) "ga" jg /\
       cell_val (the_cell s (S h + i) jn) = VNum x /\ mt_no m = trunc x /\
       scaled eng (27679904 / 10 ^ 3) (cell_val (the_cell s (S h + i) jr)) (mt_rho m) /\
       scaled eng (6894757 / 10 ^ 3) (cell_val (the_cell s (S h + i) je)) (mt_e m) /\
       scaled eng (6894757 / 10 ^ 3) (cell_val (the_cell s (S h + i) jg)) (mt_g m)) /\
  ((List.length ms < List.length s - S h)%nat -> exists jn, exact_column (the_row s h) "matno" jn /\ the_cell s (S h + List.length ms) jn = CNaN).
Proof.
  intros s d ms E. destruct (read_table_ok _ _ _ _ E) as (h0 & a & b & T). rewrite (read_eq _ s h0 a b T) in E.
  set (eng := sc_metric (scan_sheet (key_word TShaftModel) s)) in *.
  destruct (read_materials eng s) as [ms'|] eqn:RM; cbn [bind] in E; [|discriminate].
  destruct (read_rows _ _ _ _ _) as [d'|]; cbn [bind] in E; [|discriminate]. injection E; intros <- _. clear E.
  unfold read_materials in RM. destruct (find_text "matno" 0 s) as [h|] eqn:F; [|discriminate].
  apply find_text_header in F. exists h, eng. split; [exact F|]. split; [apply scan_metric|].
  destruct (mat_rows (col_names (nth h s [])) (skipn (S h) s)) as [m0|] eqn:MR; cbn [bind] in RM; [|discriminate].
  destruct (mat_rows_ok _ _ _ MR) as (L & FA & N). rewrite skipn_length in L, N.
  assert (FS : Forall2 (fun m m' => mt_no m' = mt_no m /\ ((eng = false /\ m' = m) \/ (eng = true /\ mat_metric m = Ok m'))) m0 ms').
  { destruct eng.
    - apply mapM_ok in RM. clear - RM. induction RM as [|m m' l l' H RM IH]; constructor; [|exact IH]. split; [|right; auto].
      unfold mat_metric in H. destruct (vmul _ (mt_rho m)); cbn [bind] in H; [|discriminate].
      destruct (vmul _ (mt_e m)); cbn [bind] in H; [|discriminate]. destruct (vmul _ (mt_g m)); cbn [bind] in H; [|discriminate].
      injection H; intros <-. reflexivity.
    - injection RM; intros <-. clear. induction m0; constructor; [split; [reflexivity|left; auto]|assumption]. }
  pose proof (forall2_len _ _ _ FS) as LE. rewrite <- LE. split; [exact L|].
  assert (NS : forall i, nth i (skipn (S h) s) [] = the_row s (S h + i)).
  { intros i. unfold the_row. destruct (Nat.le_gt_cases (List.length s) (S h + i)) as [X|X].
    - rewrite !nth_overflow; [reflexivity|lia|rewrite skipn_length; lia].
    - rewrite <- (firstn_skipn (S h) s) at 2. rewrite app_nth2; rewrite firstn_length; [|lia]. f_equal. lia. }
  split.
  - intros i Hi m.
    assert (FI : mat_of (col_names (nth h s [])) (the_row s (S h + i)) (nth i m0 (mkMatRow 0 VNone VNone VNone VNone))).
    { rewrite <- NS. rewrite <- (firstn_skipn (List.length m0) (skipn (S h) s)) at 1.
      assert (LF : List.length (firstn (List.length m0) (skipn (S h) s)) = List.length m0) by (rewrite firstn_length, skipn_length; lia).
      rewrite app_nth1 by lia. apply (forall2_nth _ _ _ _ _ FA). lia. }
    pose proof (forall2_nth _ _ _ (mkMatRow 0 VNone VNone VNone VNone) (mkMatRow 0 VNone VNone VNone VNone) FS i Hi) as [NO SC].
    fold m in NO, SC. destruct FI as (c & r & e & g & Gn & Nn & V & Gr & Er & Ge & Ee & Gg & Eg & _).
    apply row_get_ok in Gn. destruct Gn as (jn & Xn & ->). apply row_get_ok in Gr. destruct Gr as (jr & Xr & ->).
    apply row_get_ok in Ge. destruct Ge as (je & Xe & ->). apply row_get_ok in Gg. destruct Gg as (jg & Xg & ->).
    assert (VX : exists x, cell_val (the_cell s (S h + i) jn) = VNum x /\ mt_no m = trunc x).
    { change (cell_at (the_row s (S h + i)) jn) with (the_cell s (S h + i) jn) in *.
      destruct (cell_val (the_cell s (S h + i) jn)) eqn:CV; try discriminate V.
      - exfalso. exact (cell_val_nobool _ _ CV).
      - injection V; intros V'. exists x. split; [reflexivity|]. now rewrite NO, <- V'. }
    destruct VX as (x & VX1 & VX2). exists jn, jr, je, jg, x.
    repeat (split; [assumption|]).
    change (cell_at (the_row s (S h + i)) jr) with (the_cell s (S h + i) jr) in *.
    change (cell_at (the_row s (S h + i)) je) with (the_cell s (S h + i) je) in *.
    change (cell_at (the_row s (S h + i)) jg) with (the_cell s (S h + i) jg) in *.
    destruct SC as [[EF EM]|[ET MM]].
    + unfold scaled. rewrite EF, EM. repeat split; assumption.
    + rewrite ET. unfold mat_metric in MM.
      destruct (vmul _ (mt_rho _)) as [r'|] eqn:M1; cbn [bind] in MM; [|discriminate].
      destruct (vmul _ (mt_e _)) as [e'|] eqn:M2; cbn [bind] in MM; [|discriminate].
      destruct (vmul _ (mt_g _)) as [g'|] eqn:M3; cbn [bind] in MM; [|discriminate].
      injection MM; intros EM. rewrite <- EM. cbn [mt_rho mt_e mt_g]. rewrite Er in M1. rewrite Ee in M2. rewrite Eg in M3.
      repeat split; (apply vmul_scaled; [assumption|apply cell_val_nobool]).
  - intros Hl. specialize (N Hl). rewrite NS in N. apply row_get_ok in N. destruct N as (jn & Xn & Ec). exists jn. split; [exact Xn|]. symmetry. exact Ec.
Qed.

(** It succeeds on a Model sheet too, when moreover the elements give a material number and the material rows hold
    numbers. *)
Theorem C32_model_returns : forall s h a b eng rpm hm n jn jr je jg,
  table TShaftModel s h a b -> tells eng (english s) -> tells rpm (speaks_rpm s h) ->
  (forall p alts dflt, accepted TShaftModel p alts dflt ->
    (exists j, source (the_row s h) alts j /\
       (numeric TShaftModel p eng rpm = true -> forall i, (a <= i < b)%nat -> value (cell_val (the_cell s i j)))) \/
    (exists v, dflt = Some v /\ no_source (the_row s h) alts /\ (numeric TShaftModel p eng rpm = true -> exists x, v = VNum x))) ->
  (forall j, source (the_row s h) ["material"; "matnum"] j -> forall i, (a <= i < b)%nat -> exists x, cell_val (the_cell s i j) = VNum x) ->
  header_row "matno" s hm -> exact_column (the_row s hm) "matno" jn -> exact_column (the_row s hm) "rhoa" jr ->
  exact_column (the_row s hm) "ea" je -> exact_column (the_row s hm) "ga" jg ->
  (forall i, (hm < i <= hm + n)%nat -> (exists x, cell_val (the_cell s i jn) = VNum x) /\
     value (cell_val (the_cell s i jr)) /\ value (cell_val (the_cell s i je)) /\ value (cell_val (the_cell s i jg))) ->
  (S (hm + n) >= List.length s \/ the_cell s (S (hm + n)) jn = CNaN)%nat ->
  exists d ms, read_table TShaftModel s = Ok (d, ms) /\ (List.length ms <= n)%nat.
Proof.
  intros s h a b eng rpm hm n jn jr je jg T E1 E2 W M HM Xn Xr Xe Xg V Z. rewrite (read_eq _ s h a b T).
  assert (X1 : sc_metric (scan_sheet (key_word TShaftModel) s) = eng).
  { apply eq_true_iff_eq. unfold tells in E1. rewrite E1. apply scan_metric. }
  assert (X2 : sc_rpm (scan_sheet (key_word TShaftModel) s) = rpm).
  { apply eq_true_iff_eq. unfold tells in E2. rewrite E2. apply scan_rpm, T. }
  rewrite X1, X2.
  destruct (read_rows_total TShaftModel s h a b eng rpm W) as [d Ed]; [intros _; exact M|]. rewrite Ed.
  unfold read_materials. apply find_text_header in HM. rewrite HM.
  assert (G : forall w j row, exact_column (the_row s hm) w j -> row_get (col_names (nth hm s [])) row w = Ok (cell_at row j)).
  { intros w j row X. apply row_get_ok. exists j. split; [exact X|reflexivity]. }
  assert (MR : exists ms, mat_rows (col_names (nth hm s [])) (skipn (S hm) s) = Ok ms /\ (List.length ms <= n)%nat /\
      Forall (fun m => value (mt_rho m) /\ value (mt_e m) /\ value (mt_g m)) ms).
  { assert (GEN : forall r q, (q + r = n)%nat -> exists ms, mat_rows (col_names (nth hm s [])) (skipn (S (hm + q)) s) = Ok ms /\ (List.length ms <= r)%nat /\
      Forall (fun m => value (mt_rho m) /\ value (mt_e m) /\ value (mt_g m)) ms).
    { induction r as [|r IH]; intros q Hq.
      - destruct (Nat.le_gt_cases (List.length s) (S (hm + q))) as [L|L].
        + rewrite skipn_all2 by lia. exists []. split; [reflexivity|]. split; [cbn; lia|constructor].
        + rewrite skipn_nth by lia. cbn [mat_rows]. rewrite (G _ jn _ Xn). cbn [bind].
          destruct Z as [Z|Z]; [lia|]. replace (hm + n)%nat with (hm + q)%nat in Z by lia. 
          change (cell_at (the_row s (S (hm + q))) jn) with (the_cell s (S (hm + q)) jn). rewrite Z.
          exists []. split; [reflexivity|]. split; [cbn; lia|constructor].
      - destruct (Nat.le_gt_cases (List.length s) (S (hm + q))) as [L|L].
        + rewrite skipn_all2 by lia. exists []. split; [reflexivity|]. split; [cbn; lia|constructor].
        + rewrite skipn_nth by lia. cbn [mat_rows]. rewrite (G _ jn _ Xn), (G _ jr _ Xr), (G _ je _ Xe), (G _ jg _ Xg). cbn [bind].
          destruct (V (S (hm + q)) ltac:(lia)) as ((x & Hx) & V2 & V3 & V4).
          change (cell_at (the_row s (S (hm + q))) jn) with (the_cell s (S (hm + q)) jn).
          destruct (IH (S q) ltac:(lia)) as (ms & Em & Lm & Fm). replace (hm + S q)%nat with (S (hm + q)) in Em by lia. rewrite Em.
          assert (Hv : vint (cell_val (the_cell s (S (hm + q)) jn)) = Ok (trunc x)) by now rewrite Hx. rewrite Hv. cbn [bind].
          destruct (the_cell s (S (hm + q)) jn); [discriminate Hx|..];
          (eexists; split; [reflexivity|]; split; [cbn; lia|]; constructor; [|exact Fm]; cbn; repeat split; assumption). }
    destruct (GEN n 0%nat eq_refl) as (ms & Em & Lm & Fm). rewrite Nat.add_0_r in Em. eauto. }
  destruct MR as (ms & -> & Lm & Fm). cbn [bind]. destruct eng; [|exists d, ms; split; [reflexivity|exact Lm]].
  destruct (mapM_total mat_metric ms) as [ms' Em].
  { intros m I. destruct (proj1 (Forall_forall _ _) Fm m I) as (V1 & V2 & V3). unfold mat_metric.
    destruct (vmul_ok (27679904 / 10 ^ 3) _ V1) as [r ->]. destruct (vmul_ok (6894757 / 10 ^ 3) _ V2) as [e ->].
    destruct (vmul_ok (6894757 / 10 ^ 3) _ V3) as [g ->]. eexists; reflexivity. }
  rewrite Em. cbn [bind]. exists d, ms'. split; [reflexivity|]. apply mapM_ok in Em. rewrite <- (forall2_len _ _ _ Em). exact Lm.
Qed.

(** ** Elements *)
(** DiskElement.from_table gives one disk per data row: its node is the row's number minus one (as an integer), its
    mass and inertias are the row's. *)
Theorem C32_disks : forall s l, disk_from_table s = Ok l ->
  exists h a b eng rpm jn jm jt jp, table TDisk s h a b /\ tells eng (english s) /\ List.length l = (b - a)%nat /\
    source (the_row s h) ["unnamed: 0"; "n"] jn /\ source (the_row s h) ["m"; "mass"] jm /\
    source (the_row s h) ["it"; "id"] jt /\ source (the_row s h) ["ip"] jp /\
  forall i, (i < b - a)%nat -> let t := nth i l (mkDiskRow 0 VNone VNone VNone) in
    (exists x, cell_val (the_cell s (a + i) jn) = VNum x /\ tb_n t = trunc (x - 1)) /\
    reads TDisk "m" eng rpm (cell_val (the_cell s (a + i) jm)) (tb_m t) /\
    reads TDisk "Id" eng rpm (cell_val (the_cell s (a + i) jt)) (tb_Id t) /\
    reads TDisk "Ip" eng rpm (cell_val (the_cell s (a + i) jp)) (tb_Ip t).
Proof.
  intros s l E. unfold disk_from_table in E. destruct (read_table TDisk s) as [[d ms]|] eqn:R; cbn [bind fst] in E; [|discriminate].
  destruct (C32_read _ _ _ _ R) as (h & a & b & eng & rpm & T & E1 & E2 & C).
  assert (A : forall p alts, In (p, alts) (required_columns TDisk) -> exists lp j, dget d p = Some lp /\ List.length lp = (b - a)%nat /\ source (the_row s h) alts j /\
      forall i, (i < b - a)%nat -> reads TDisk p eng rpm (cell_val (the_cell s (a + i) j)) (nth i lp VNone)).
  { intros p alts I. destruct (C p alts None (or_introl (conj I eq_refl))) as (lp & G & L & [(j & S & Rd)|(v & Ev & _)]); [eauto 8|discriminate]. }
  destruct (A "n" ["unnamed: 0"; "n"] ltac:(cbn; tauto)) as (ln & jn & Gn & Ln & Sn & Rn).
  destruct (A "m" ["m"; "mass"] ltac:(cbn; tauto)) as (lm & jm & Gm & Lm & Sm & Rm).
  destruct (A "Id" ["it"; "id"] ltac:(cbn; tauto)) as (lt & jt & Gt & Lt & St & Rt).
  destruct (A "Ip" ["ip"] ltac:(cbn; tauto)) as (lp & jp & Gp & Lp & Sp & Rp).
  exists h, a, b, eng, rpm, jn, jm, jt, jp. split; [exact T|]. split; [exact E1|].
  rewrite Gn in E. cbn [default] in E. apply mapM_ok in E. pose proof (forall2_len _ _ _ E) as LL. rewrite seq_length, Ln in LL.
  split; [now symmetry|]. do 4 (split; [assumption|]). intros i Hi.
  pose proof (forall2_nth _ _ _ 0%nat (mkDiskRow 0 VNone VNone VNone) E i) as Q. rewrite seq_length, Ln in Q. specialize (Q Hi).
  cbn beta in Q. rewrite seq_nth in Q by exact Hi. cbn [Nat.add] in Q. unfold entry in Q. rewrite Gn, Gm, Gt, Gp in Q.
  set (t := nth i l _) in *. cbv zeta.
  specialize (Rn i Hi). specialize (Rm i Hi). specialize (Rt i Hi). specialize (Rp i Hi).
  assert (VF : forall p v w z, reads TDisk p eng rpm v w -> (forall b', v <> VBool b') -> vfloat w = Ok z -> reads TDisk p eng rpm v z).
  { intros p v w z Hr Nb Hf. unfold reads in *. cbn in Hr |- *. destruct v; try (destruct Hr as [Hn Hr]; subst w; cbn in Hf; discriminate).
    - subst w. cbn in Hf. injection Hf; intros <-. reflexivity.
    - now destruct (Nb b0).
    - subst w. cbn in Hf. injection Hf; intros <-. reflexivity. }
  destruct (vfloat (nth i lt VNone)) as [id|] eqn:Q1; cbn [bind] in Q; [|discriminate].
  destruct (vfloat (nth i lp VNone)) as [ip|] eqn:Q2; cbn [bind] in Q; [|discriminate].
  destruct (vint (nth i ln VNone)) as [z|] eqn:Q3; cbn [bind] in Q; [|discriminate].
  destruct (vfloat (nth i lm VNone)) as [m|] eqn:Q4; cbn [bind] in Q; [|discriminate].
  injection Q; intros Et. rewrite <- Et. cbn [tb_n tb_m tb_Id tb_Ip].
  split; [|split; [|split]]; try (eapply VF; [eassumption|apply cell_val_nobool|assumption]).
  unfold reads in Rn. cbn in Rn. destruct (cell_val (the_cell s (a + i) jn)) as [| |t'|bb|x] eqn:CV.
  - destruct Rn as [Rn _]. discriminate.
  - rewrite Rn in Q3. discriminate.
  - destruct Rn as [Rn _]. discriminate.
  - exfalso. exact (cell_val_nobool _ _ CV).
  - exists x. split; [reflexivity|]. rewrite Rn in Q3. cbn in Q3. injection Q3; intros <-. f_equal. unfold si. cbn. destruct eng, rpm; cbn; lra.
Qed.

(** ShaftElement.from_table on a Model sheet: every element gets the material whose number stands in its row, the
    last one if the sheet lists that number more than once; otherwise the whole call fails. *)
Theorem C32_shafts : forall s l, shaft_from_table s = Ok l ->
  exists d ms h a b j, read_table TShaftModel s = Ok (d, ms) /\ table TShaftModel s h a b /\ List.length l = (b - a)%nat /\
    source (the_row s h) ["material"; "matnum"] j /\
  forall i, (i < b - a)%nat -> let t := nth i l (mkShaftRow (mkMatRow 0 VNone VNone VNone VNone) (fun _ => VNone)) in
    (exists x be af, cell_val (the_cell s (a + i) j) = VNum x /\ ms = be ++ sr_material t :: af /\ mt_no (sr_material t) = trunc x /\
       (forall m, In m af -> mt_no m <> trunc x)) /\
    (forall p, sr_arg t p = entry d p i).
Proof.
  intros s l E. unfold shaft_from_table in E. destruct (read_table TShaftModel s) as [[d ms]|] eqn:R; cbn [bind] in E; [|discriminate].
  destruct (C32_read _ _ _ _ R) as (h & a & b & eng & rpm & T & E1 & E2 & C).
  assert (AM : accepted TShaftModel "material" ["material"; "matnum"] None) by (left; split; [cbn; tauto|reflexivity]).
  destruct (C "material" ["material"; "matnum"] None AM) as (lm & Gm & Lm & [(j & S & Rd)|(v & Ev & _)]); [|discriminate].
  destruct (C "L" ["length"] None (or_introl (conj (or_introl eq_refl) eq_refl))) as (ll & Gl & Ll & _).
  exists d, ms, h, a, b, j. split; [reflexivity|]. split; [exact T|].
  rewrite Gl in E. cbn [default] in E. apply mapM_ok in E. pose proof (forall2_len _ _ _ E) as LL. rewrite seq_length, Ll in LL.
  split; [now symmetry|]. split; [exact S|]. intros i Hi.
  pose proof (forall2_nth _ _ _ 0%nat (mkShaftRow (mkMatRow 0 VNone VNone VNone VNone) (fun _ => VNone)) E i) as Q. rewrite seq_length, Ll in Q. specialize (Q Hi).
  cbn beta in Q. rewrite seq_nth in Q by exact Hi. cbn [Nat.add] in Q.
  set (t := nth i l _) in *. cbv zeta. specialize (Rd i Hi). unfold reads in Rd. cbn [String.eqb Ascii.eqb Bool.eqb] in Rd.
  destruct (cell_val (the_cell s (a + i) j)) as [| |t'|bb|x] eqn:CV; try contradiction.
  { exfalso. exact (cell_val_nobool _ _ CV). }
  assert (EM : entry d "material" i = VStr ("shaft_mat_" ++ str_of_Z (trunc x))%string) by (unfold entry; rewrite Gm; exact Rd).
  rewrite EM in Q. destruct (find_material ms _) as [m|] eqn:FM; [|discriminate]. injection Q; intros Et. rewrite <- Et. cbn [sr_material sr_arg].
  split; [|reflexivity]. destruct (find_material_ok _ _ _ FM) as (be & af & B1 & B2 & B3). exists x, be, af. auto.
Qed.

Ltac src be w af := exists be, w, af; split; [reflexivity|]; split; [apply positions_one; reflexivity|];
  let H := fresh in intros ? ? H; cbn in H; repeat (destruct H as [<-|H]; [apply positions_none; reflexivity|]); destruct H.
(** a Model sheet *)
Definition model_sheet : sheet :=
  [[CStr "matno"; CStr "rhoa"; CStr "ea"; CStr "ga"; CNaN; CNaN; CNaN];
   [CInt 1; CInt 7850; CFlt 211; CFlt 81; CNaN; CNaN; CNaN];
   [CNaN; CNaN; CNaN; CNaN; CNaN; CNaN; CNaN];
   [CStr "elemnum"; CStr "length"; CStr "id_Left"; CStr "od_Left"; CStr "id_Right"; CStr "od_Right"; CStr "matnum"];
   [CInt 1; CFlt (1 / 2); CInt 0; CFlt (1 / 20); CInt 0; CFlt (1 / 20); CInt 1];
   [CInt 2; CFlt (1 / 4); CInt 0; CFlt (1 / 10); CInt 0; CFlt (1 / 10); CInt 1]].
Example C32_model_instance : exists d ms, read_table TShaftModel model_sheet = Ok (d, ms).
Proof.
  assert (T : table TShaftModel model_sheet 3 4 6).
  { constructor.
    - split; [exists (CStr "od_Left"); split; [cbn; tauto|exists "od_Left"; split; reflexivity]|].
      intros i c Hi I S. apply saysb_iff in S. assert (R : row_says "od_left" (the_row model_sheet i) = true) by (apply existsb_exists; eauto).
      destruct i as [|[|[|i]]]; try lia; discriminate R.
    - cbn. lia.
    - exists 3%nat. split; [apply positions_one; reflexivity|]. repeat split.
      + intros i Hi. lia.
      + intros i Hi. assert (i = 4 \/ i = 5)%nat as [->| ->] by lia; left; cbn; eauto.
      + left. reflexivity. }
  destruct (C32_model_returns model_sheet 3 4 6 false false 0 1 0 1 2 3) as (d & ms & E & _); [exact T| | | | | | | | | | | |eauto].
  - split; [discriminate|]. intros X. apply scan_metric with (key := "od_left") in X. vm_compute in X. discriminate.
  - split; [discriminate|]. intros X. apply (scan_rpm "od_left" model_sheet 3) in X; [vm_compute in X; discriminate|apply T].
  - intros p alts dflt A.
    assert (V : forall j, (j < 7)%nat -> forall i, (4 <= i < 6)%nat -> value (cell_val (the_cell model_sheet i j))).
    { intros j Hj i Hi. left. assert (i = 4 \/ i = 5)%nat as [->| ->] by lia; destruct j as [|[|[|[|[|[|[|j]]]]]]]; try lia; eexists; reflexivity. }
    destruct A as [[I ->]|(v & I & ->)]; cbn in I.
    + left. repeat match goal with H : _ \/ _ |- _ => destruct H as [E|I]; [injection E; intros <- <-|] end; [..|destruct I].
      * exists 1%nat. split; [|intros _; apply V; lia]. src (@nil string) "length" (@nil string).
      * exists 2%nat. split; [|intros _; apply V; lia]. src ["i_d_l"; "idl"] "id_left" (@nil string).
      * exists 3%nat. split; [|intros _; apply V; lia]. src ["o_d_l"; "odl"] "od_left" (@nil string).
      * exists 4%nat. split; [|intros _; apply V; lia]. src ["i_d_r"; "idr"] "id_right" (@nil string).
      * exists 5%nat. split; [|intros _; apply V; lia]. src ["o_d_r"; "odr"] "od_right" (@nil string).
      * exists 6%nat. split; [|intros _; apply V; lia]. src ["material"] "matnum" (@nil string).
    + destruct I as [E|I].
      * injection E; intros <- <- <-. left. exists 0%nat. split; [|intros _; apply V; lia]. exists ["n"], "elemnum", []. split; [reflexivity|]. split; [apply positions_one; reflexivity|].
        intros w i [<-|[]]. apply positions_none. reflexivity.
      * right. repeat match goal with H : _ \/ _ |- _ => destruct H as [E|I]; [injection E; intros <- <- <-|] end; [..|destruct I];
          (eexists; split; [reflexivity|]; split; [apply (first_column_none _ model_sheet 4 6); reflexivity|discriminate]).
  - intros j S i Hi.
    assert (j = 6%nat); [|subst].
    { apply (source_unique (the_row model_sheet 3) ["material"; "matnum"]); [exact S|]. exists ["material"], "matnum", []. split; [reflexivity|]. split; [apply positions_one; reflexivity|].
      intros w i' [<-|[]]. apply positions_none. reflexivity. }
    assert (i = 4 \/ i = 5)%nat as [->| ->] by lia; eexists; reflexivity.
  - split; [|intros i c Hi; lia]. exists (CStr "matno"). split; [cbn; tauto|]. exists "matno". split; reflexivity.
  - apply exact_nth. vm_compute. tauto.
  - apply exact_nth. vm_compute. tauto.
  - apply exact_nth. vm_compute. tauto.
  - apply exact_nth. vm_compute. tauto.
  - intros i Hi. assert (i = 1)%nat by lia. subst. unfold value. cbn. repeat split; try left; eexists; reflexivity.
  - right. reflexivity.
Qed.
Example C32_disks_instance : exists l, disk_from_table (disk_sheet "kg" "end of data") = Ok l /\ List.length l = 2%nat.
Proof. unfold disk_from_table. rewrite C32_instance. eexists. split; [cbn; reflexivity|reflexivity]. Qed.

(** the speed factor is the ratio of rpm to rad/s, to one part in a million *)
Lemma pi_bounds : 31415926 / 10 ^ 7 <= PI <= 31415927 / 10 ^ 7.
Proof.
  pose proof (PI_2_3_7_ineq 7) as [L U]. cbn [Nat.mul Nat.add sum_f_R0] in L, U. unfold tg_alt, PI_2_3_7_tg, Ratan_seq in L, U.
  cbn [pow Nat.mul Nat.add INR] in L, U. split; lra.
Qed.
Theorem C32_rpm_factor : Rabs (rpm_factor TBearing "frequency" - 2 * PI / 60) <= 1 / 10 ^ 7 * (2 * PI / 60).
Proof. pose proof pi_bounds. unfold rpm_factor. cbn [String.eqb Ascii.eqb Bool.eqb]. apply Rabs_le. lra. Qed.

Print Assumptions C32_read.
Print Assumptions C32_returns.
Print Assumptions C32_no_header.
Print Assumptions C32_no_data.
Print Assumptions C32_local.
Print Assumptions C32_instance.
Print Assumptions C32_english_instance.
Print Assumptions C32_returns_instance.
Print Assumptions C32_note_refuted.
Print Assumptions C32_whole_refuted.
Print Assumptions C32_factors.
Print Assumptions C32_bearing_instance.
Print Assumptions C32_rpm_refuted.
Print Assumptions C32_optional_refuted.
Print Assumptions C32_torque_refuted.
Print Assumptions C32_shaft_number_refuted.
Print Assumptions C32_simple.
Print Assumptions C32_materials.
Print Assumptions C32_model_returns.
Print Assumptions C32_disks.
Print Assumptions C32_shafts.
Print Assumptions C32_model_instance.
Print Assumptions C32_disks_instance.
Print Assumptions C32_rpm_factor.
