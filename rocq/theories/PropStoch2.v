(** C47: random bearings and random rotors (ross/stochastic). *)
From Coq Require Import Reals List String Ascii Bool Arith Lia Lra.
From Coquelicot Require Import Complex.
From Verif Require Import PyBase PyDict MatBase CMat MMaterial MShaft MDisk MBearing MRotor MDynamics MStoch SpecStoch LStoch LStoch2 LStoch3 LRotorEx PropStoch.
Import ListNotations.
Open Scope string_scope.
Open Scope list_scope.
Open Scope R_scope.
Local Notation length := List.length.

(** ** bearings *)
Lemma st_bearing_keys a e0 e : st_bearing a = Ok e0 -> reached e0 e -> c_sig bearing_class = map fst (st_attrs e) ++ ["color"].
Proof.
  intros H R. apply reached_keys in R as (K & _). rewrite K. unfold st_bearing in H. destruct (sb_random a); [|discriminate]. destruct (str_in _ _); [discriminate|]. injection H as <-. reflexivity.
Qed.
(** constant coefficients: when the first random attribute is a list of numbers, iterating gives exactly the samples *)
Theorem C47_bearing_samples : forall a e0 e k rest v x els, st_bearing a = Ok e0 -> reached e0 e -> st_random e = Some (k :: rest) -> dget (st_attrs e) k = Some v ->
  entry v 0 x -> (forall n, ~ entries x n) -> (st_bearing_list e = Ok els <-> samples bearing_class e els).
Proof.
  intros a e0 e k rest v x els H R Rn G X N. rewrite <- (samples_iff bearing_class e els ["color"]); [|eapply st_bearing_keys; eauto].
  unfold st_bearing_list, st_list. rewrite (bearing_rows_plain e (k :: rest) v); [tauto|apply first_random_ok; eauto|]. apply sv_get_iff in X. rewrite X. cbn [bind].
  destruct x; simpl in *; auto; exfalso; eapply N; reflexivity.
Qed.
(** coefficient tables (one row per frequency, one column per sample): sample i has the columns i *)
Theorem C47_bearing_tables : forall a e0 e k rest els, st_bearing a = Ok e0 -> reached e0 e -> st_random e = Some (k :: rest) ->
  (forall j v, In (j, v) (st_attrs e) -> In j (k :: rest) -> exists rows, v = SList (map SList rows)) ->
  (st_bearing_list e = Ok els <->
   exists row0 rows, dget (st_attrs e) k = Some (SList (map SList (row0 :: rows))) /\ length els = length row0 /\
     forall i x, nth_error els i = Some x -> exists kw, table_sample_of (st_attrs e) (k :: rest) i kw /\ call_by_keyword bearing_class kw = Ok x).
Proof.
  intros a e0 e k rest els H R Rn T. pose proof (st_bearing_keys a e0 e H R) as S. split.
  - intros L. eapply bearing_tables; eauto. assert (Q : NoDup (c_sig bearing_class)) by (simpl; repeat constructor; simpl; intuition discriminate). rewrite S in Q.
    clear -Q. induction (map fst (st_attrs e)) as [|x l IH]; [constructor|]. inversion Q; subst. constructor; auto. intros I. apply H1. apply in_or_app. auto.
  - intros (row0 & rows & G & L & P). apply (bearing_tables_conv e els k rest ["color"] row0 (map SList rows)); auto.
Qed.
(** a frequency can not be random; the list of random names grows by the direct coefficients left out *)
Theorem C47_bearing_init : forall a l, sb_random a = Some l ->
  (In "frequency" l -> st_bearing a = Err ValueError) /\
  (~ In "frequency" l -> exists e rnd, st_bearing a = Ok e /\ st_random e = Some rnd /\
    (forall k, In k rnd <-> In k l \/ (k = "kyy" /\ In "kxx" l /\ sb_kyy a = SNone) \/ (k = "cyy" /\ In "cxx" l /\ sb_cyy a = SNone) \/ (k = "myy" /\ In "mxx" l /\ sb_myy a = SNone)) /\
    dget (st_attrs e) "kxx" = Some (sb_kxx a) /\ (sb_kyy a = SNone -> dget (st_attrs e) "kyy" = Some (sb_kxx a)) /\ (sb_kyy a <> SNone -> dget (st_attrs e) "kyy" = Some (sb_kyy a)) /\
    dget (st_attrs e) "cxx" = Some (sb_cxx a) /\ (sb_cyy a = SNone -> dget (st_attrs e) "cyy" = Some (sb_cxx a)) /\ (sb_cyy a <> SNone -> dget (st_attrs e) "cyy" = Some (sb_cyy a)) /\
    (sb_mxx a <> SNone -> dget (st_attrs e) "mxx" = Some (sb_mxx a) /\ (sb_myy a = SNone -> dget (st_attrs e) "myy" = Some (sb_mxx a))) /\
    (sb_mxx a = SNone -> sb_myy a = SNone -> dget (st_attrs e) "mxx" = Some (SNum 0) /\ dget (st_attrs e) "myy" = Some (SNum 0)) /\
    (sb_myy a <> SNone -> dget (st_attrs e) "myy" = Some (sb_myy a))).
Proof.
  intros a l R. unfold st_bearing. rewrite R. split.
  - intros I. apply str_in_iff in I. rewrite I. reflexivity.
  - intros N. assert (str_in "frequency" l = false) as ->. { destruct (str_in "frequency" l) eqn:E; auto. apply str_in_iff in E. tauto. }
    eexists. eexists. split; [reflexivity|]. split; [reflexivity|]. split.
    { assert (SN : forall v, is_none v = true <-> v = SNone) by (intros []; simpl; split; congruence).
      assert (G : forall b v k1 k2 r, b = is_none v -> forall k, In k (if b then join k1 k2 r else r) <-> In k r \/ (k = k2 /\ In k1 r /\ v = SNone)).
      { intros b v k1 k2 r -> k. destruct (is_none v) eqn:E; [rewrite in_join; apply SN in E; tauto|]. split; auto. intros [?|(_ & _ & ->)]; auto. discriminate. }
      intros k. rewrite (G _ (sb_myy a) "mxx" "myy" _ eq_refl), !(G _ (sb_cyy a) "cxx" "cyy" _ eq_refl), !(G _ (sb_kyy a) "kxx" "kyy" _ eq_refl).
      intuition (try discriminate; auto). }
    repeat split; cbn [st_attrs dget String.eqb Ascii.eqb Bool.eqb]; intros; try match goal with Q : sb_kyy a = SNone |- _ => rewrite Q | Q : sb_cyy a = SNone |- _ => rewrite Q end; try reflexivity;
    try (destruct (sb_kyy a); try tauto; reflexivity); try (destruct (sb_cyy a); try tauto; reflexivity);
    try (destruct (sb_myy a), (sb_mxx a); try tauto; try discriminate; reflexivity).
Qed.
(** a table mixed with a list of constants: the table is then read along its rows, so that sample i gets the values of all the samples at
    frequency i. With as many samples as frequencies nothing is noticed. *)
Lemma table_row_mixed e k l xs i : In (k, SList xs) (st_attrs e) -> In k l -> xs <> [] -> (forall x n, In x xs -> ~ entries x n) ->
  (forall j w, In (j, w) (st_attrs e) -> In j l -> (exists t, column w i t) \/ exists ys, w = SList ys /\ ys <> [] /\ forall y n, In y ys -> ~ entries y n) ->
  table_row e l i = Err TypeError.
Proof.
  intros I J NE NX A. unfold table_row.
  assert (TE : forall ys, ys <> [] -> (forall y n, In y ys -> ~ entries y n) -> column_get (SList ys) i = Err TypeError).
  { intros ys N1 N2. destruct ys as [|y ys]; [tauto|]. unfold column_get. cbn [sv_len bind List.length seq mapM sv_get nth_error]. assert (Q : sv_get y i = Err TypeError).
    { specialize (N2 y). destruct y; simpl in *; auto; exfalso; eapply N2; eauto. }
    rewrite Q. reflexivity. }
  induction (st_attrs e) as [|[j w] at_ IH]; [destruct I|]. cbn [mapM fst snd]. destruct I as [E|I].
  - injection E as -> ->. apply str_in_iff in J. rewrite J. rewrite TE; auto.
  - destruct (str_in j l) eqn:Q.
    + apply str_in_iff in Q. destruct (A j w (or_introl eq_refl) Q) as [(t & C)|(ys & -> & N1 & N2)].
      * rewrite (column_get_conv _ _ _ C). cbn [bind]. rewrite IH; auto. intros j' w' I'. apply A. right; auto.
      * rewrite TE; auto.
    + cbn [bind]. rewrite IH; auto. intros j' w' I'. apply A. right; auto.
Qed.
Theorem C47_bearing_mixed_refuted : forall n (ktab : list (list sv)) (cs : list sv) freq a e0 els N, (0 < N)%nat -> length ktab = N -> Forall (fun row => length row = N) ktab -> length cs = N ->
  (forall c m, In c cs -> ~ entries c m) ->
  a = mkStBrg (SInt n) (SList (map SList ktab)) (SList cs) SNone SNone (SNum 0) (SNum 0) SNone (SNum 0) (SNum 0) SNone (SNum 0) (SNum 0) freq SNone SNone (SNum 1) (Some ["kxx"; "cxx"]) ->
  st_bearing a = Ok e0 -> st_bearing_list e0 = Ok els ->
  length els = N /\ forall i x, nth_error els i = Some x -> exists kw row, call_by_keyword bearing_class kw = Ok x /\ nth_error ktab i = Some row /\ dget kw "kxx" = Some (SList row) /\ dget kw "kyy" = Some (SList row).
Proof.
  intros n ktab cs freq a e0 els N HN L1 L2 L3 NC -> H HL. unfold st_bearing in H. cbn -[join] in H. injection H as <-.
  change (join "cxx" "cyy" (join "kxx" "kyy" ["kxx"; "cxx"])) with ["kxx"; "cxx"; "kyy"; "cyy"] in HL.
  match type of HL with st_bearing_list ?e = _ => set (e0 := e) in * end.
  change (join "mxx" "myy" ["kxx"; "cxx"; "kyy"; "cyy"]) with ["kxx"; "cxx"; "kyy"; "cyy"] in e0.
  assert (P : bearing_rows e0 = random_rows e0).
  { unfold bearing_rows, random_rows. assert (F : first_random e0 = Ok (["kxx"; "cxx"; "kyy"; "cyy"], SList (map SList ktab))) by reflexivity. rewrite F. cbn [bind fst snd].
    destruct ktab as [|row0 ktab]; [simpl in L1; lia|]. cbn [map sv_get nth_error bind sv_len]. inversion L2 as [|? ? Lr L2']; subst. rewrite Lr. destruct (length cs) as [|N'] eqn:LC; [lia|].
    cbn [seq collect_rows].
    assert (TR : table_row e0 ["kxx"; "cxx"; "kyy"; "cyy"] 0 = Err TypeError).
    { apply (table_row_mixed e0 "cxx" _ cs 0%nat); auto.
      - right. right. left. reflexivity.
      - right. left. reflexivity.
      - intros ->. discriminate.
      - assert (CO : exists t, column (SList (map SList (row0 :: ktab))) 0 t).
        { simpl. assert (G : forall l, Forall (fun row : list sv => length row = S N') l -> exists col, Forall2 (fun r y => entry r 0 y) (map SList l) col).
          { clear. induction 1 as [|r l Hr Hl (col & IH)]; [exists []; constructor|]. destruct r as [|y r]; [discriminate|]. exists (y :: col). constructor; auto. reflexivity. }
          destruct (G (row0 :: ktab)) as (col & GC); [constructor; [congruence|eapply Forall_impl; [|exact L2']; intros; simpl in *; congruence]|]. exists (SList col), col. split; [reflexivity|]. exact GC. }
        assert (NE : cs <> []) by (intros ->; discriminate).
        intros j w I J. simpl in I, J. destruct J as [<-|[<-|[<-|[<-|[]]]]]; repeat (destruct I as [I|I]; [injection I; intros; subst; try discriminate; first [left; exact CO|right; exists cs; auto]|]); destruct I. }
    change (length (row0 :: ktab)) with (S (length ktab)). cbn [seq collect_rows]. rewrite TR. match goal with |- bind ?m _ = _ => destruct m end; reflexivity. }
  unfold st_bearing_list in HL. rewrite P in HL. change (st_list bearing_class e0 = Ok els) in HL. apply (samples_iff bearing_class e0 els ["color"]) in HL; [|reflexivity].
  destruct HL as (k & rest & v & R & G & NN & S). injection R as <- <-. injection G as <-. simpl in NN. rewrite map_length in NN. split; [congruence|]. intros i x Hx. destruct (S i x Hx) as (kw & Sk & C).
  pose proof (sample_get _ _ _ _ "kxx" Sk) as S1. pose proof (sample_get _ _ _ _ "kyy" Sk) as S2. simpl dget in S1, S2.
  destruct (dget kw "kxx") as [y|] eqn:D1; [|tauto]. destruct (dget kw "kyy") as [z|] eqn:D2; [|tauto]. destruct S1 as (S1 & _), S2 as (S2 & _). specialize (S1 (or_introl eq_refl)). specialize (S2 (or_intror (or_intror (or_introl eq_refl)))).
  simpl in S1, S2. rewrite nth_error_map in S1, S2. destruct (nth_error ktab i) as [row|] eqn:Er; [|discriminate]. injection S1 as <-. injection S2 as <-. exists kw, row. auto.
Qed.
Definition ex_brg_args (kxx cxx freq : sv) (rnd : list string) : st_brg_args :=
  mkStBrg (SInt 3) kxx cxx SNone SNone (SNum 0) (SNum 0) SNone (SNum 0) (SNum 0) SNone (SNum 0) (SNum 0) freq SNone SNone (SNum 1) (Some rnd).
Example C47_bearing_instance : exists e els b, st_bearing (ex_brg_args (SList [SNum 10; SNum 20]) (SNum 5) SNone ["kxx"]) = Ok e /\ st_random e = Some ["kxx"; "kyy"] /\
  st_bearing_list e = Ok els /\ length els = 2%nat /\ nth_error els 1 = Some b /\ fst (b_coef b kxx) = [20] /\ fst (b_coef b kyy) = [20] /\ fst (b_coef b cyy) = [5].
Proof. eexists. eexists. eexists. split; [reflexivity|]. split; [reflexivity|]. split; [reflexivity|]. repeat split. Qed.

(** ** rotors *)
(** what an accepted ST_Rotor is: at least one random element, all random elements with RV_size samples, first sample a valid rotor *)
Theorem C47_rotor_init : forall a s, elements_only a -> st_rotor_init a = Ok s -> some_random a /\ all_samples (sr_size s) a /\ rotor_of_sample a 0 (sr_first s).
Proof.
  intros a s E H. destruct (init_inv a s E H) as (V & F). split; [|split; auto; apply (ri_size a s V)]. pose proof (ri_any a s V) as Q.
  assert (G : forall A (l : list (rarg A)) (b : bool), (b = false <-> its l = []) -> b = true -> exists x, In x l /\ random_arg x).
  { intros A l b B T. destruct (its l) as [|it r] eqn:EI; [destruct B as [_ B]; rewrite B in T; auto; discriminate|]. exists (RStoch it). split; [|simpl; auto]. apply in_its. rewrite EI. left; auto. }
  rewrite !orb_true_iff in Q. unfold some_random. destruct Q as [[[Q|Q]|Q]|Q].
  - left. eapply G; [apply (ri_fs a s V)|auto].
  - right; left. eapply G; [apply (ri_fd a s V)|auto].
  - right; right; left. eapply G; [apply (ri_fb a s V)|auto].
  - right; right; right. eapply G; [apply (ri_fp a s V)|auto].
Qed.
Lemma all_samples_only n a : all_samples n a -> elements_only a.
Proof. intros (H1 & H2 & H3 & H4). repeat split; intros x I; [specialize (H1 x I)|specialize (H2 x I)|specialize (H3 x I)|specialize (H4 x I)]; destruct x; simpl in *; auto. Qed.
Lemma class_size_samples {A} n (l : list (rarg A)) : (forall x, In x l -> has_samples n x) -> class_size l = Ok (match its l with [] => None | _ => Some n end).
Proof.
  intros H. destruct (its l) eqn:E; [apply class_size_none; auto|]. apply class_size_some. split; [congruence|]. intros it I. apply in_its in I. apply (H _ I).
Qed.
Theorem C47_rotor_accepted : forall a n r, some_random a -> all_samples n a -> rotor_of_sample a 0 r -> exists s, st_rotor_init a = Ok s /\ sr_size s = n /\ sr_first s = r.
Proof.
  intros a n r SR AS F. pose proof AS as (S1 & S2 & S3 & S4). unfold st_rotor_init. rewrite !(class_size_samples n) by auto. cbn [bind].
  set (o1 := match its (ea_sh a) with [] => None | _ => Some n end). set (o2 := match its (ea_dk a) with [] => None | _ => Some n end).
  set (o3 := match its (ea_br a) with [] => None | _ => Some n end). set (o4 := match its (ea_pm a) with [] => None | _ => Some n end).
  assert (Z : exists rest, somes [o1; o2; o3; o4] = n :: rest /\ forallb (Nat.eqb n) rest = true).
  { assert (SN : forall m, In m (somes [o1; o2; o3; o4]) -> m = n).
    { intros m I. apply in_somes in I. simpl in I. unfold o1, o2, o3, o4 in I. destruct (its (ea_sh a)), (its (ea_dk a)), (its (ea_br a)), (its (ea_pm a)); intuition congruence. }
    assert (NE : somes [o1; o2; o3; o4] <> []).
    { intros EQ. assert (forall m, In (Some m) [o1; o2; o3; o4] -> False) by (intros m I; apply in_somes in I; rewrite EQ in I; destruct I).
      assert (G : forall A (l : list (rarg A)) , (match its l with [] => None | _ => Some n end) <> Some n -> ~ exists x, In x l /\ random_arg x).
      { intros A l Q. destruct (its l) eqn:EI; [apply its_nil; auto|congruence]. }
      destruct SR as [Q|[Q|[Q|Q]]]; revert Q; apply G; intros Q; apply (H n); [left; exact Q|right; left; exact Q|right; right; left; exact Q|right; right; right; left; exact Q]. }
    destruct (somes [o1; o2; o3; o4]) as [|m rest]; [tauto|]. exists rest. rewrite (SN m (or_introl eq_refl)). split; auto. apply forallb_eqb. intros k I. apply SN. right; auto. }
  destruct Z as (rest & -> & ->). destruct (expand_ok n _ S1) as (e1 & -> & E1). destruct (expand_ok n _ S2) as (e2 & -> & E2). destruct (expand_ok n _ S3) as (e3 & -> & E3). destruct (expand_ok n _ S4) as (e4 & -> & E4). cbn [bind].
  set (s := mkSR (mkEA e1 e2 e3 e4) (is_some o1) (is_some o2) (is_some o3) (is_some o4) n r).
  assert (G : forall A (l : list (rarg A)), is_some (match its l with [] => None | _ => Some n end) = false <-> its l = []) by (intros A l; destruct (its l); simpl; split; congruence).
  assert (V : rotor_inv a s).
  { constructor; simpl; auto; try apply G. unfold o1, o2, o3, o4. destruct SR as [Q|[Q|[Q|Q]]].
    - destruct (its (ea_sh a)) eqn:EI; auto. apply its_nil in EI. tauto.
    - destruct (its (ea_dk a)) eqn:EI; [|rewrite ?orb_true_r; auto]. apply its_nil in EI. tauto.
    - destruct (its (ea_br a)) eqn:EI; [|rewrite ?orb_true_r; auto]. apply its_nil in EI. tauto.
    - destruct (its (ea_pm a)) eqn:EI; [|rewrite ?orb_true_r; auto]. apply its_nil in EI. tauto. }
  apply (rotor_sample_iff a s 0 r V) in F as (x & X & M). change (args_of (mkEA e1 e2 e3 e4) (is_some o1, is_some o2, is_some o3, is_some o4) 0 = Ok x) in X. rewrite X. cbn [bind]. rewrite M. cbn [bind]. exists s. auto.
Qed.
(** no random element: IndexError, not a deterministic rotor *)
Theorem C47_rotor_not_random : forall a, ~ some_random a -> st_rotor_init a = Err IndexError.
Proof.
  intros a N. unfold some_random in N. unfold st_rotor_init.
  assert (H1 : class_size (ea_sh a) = Ok None) by (apply class_size_none, its_nil; tauto). assert (H2 : class_size (ea_dk a) = Ok None) by (apply class_size_none, its_nil; tauto).
  assert (H3 : class_size (ea_br a) = Ok None) by (apply class_size_none, its_nil; tauto). assert (H4 : class_size (ea_pm a) = Ok None) by (apply class_size_none, its_nil; tauto).
  rewrite H1, H2, H3, H4. reflexivity.
Qed.
(** sample sizes that differ, in one class or between classes: ValueError *)
Definition sampled_with {A} (l : list (rarg A)) (n : nat) : Prop := exists x, In (RStoch (Ok x)) l /\ length x = n.
Definition sampled_any (a : elem_args) (n : nat) : Prop := sampled_with (ea_sh a) n \/ sampled_with (ea_dk a) n \/ sampled_with (ea_br a) n \/ sampled_with (ea_pm a) n.
Definition samples_exist (a : elem_args) : Prop :=
  (forall it, In (RStoch it) (ea_sh a) -> is_ok it) /\ (forall it, In (RStoch it) (ea_dk a) -> is_ok it) /\ (forall it, In (RStoch it) (ea_br a) -> is_ok it) /\ (forall it, In (RStoch it) (ea_pm a) -> is_ok it).
Lemma class_size_total {A} (l : list (rarg A)) : (forall it, In (RStoch it) l -> is_ok it) ->
  class_size l = Err ValueError \/ (exists n, class_size l = Ok (Some n) /\ forall m, sampled_with l m -> m = n) \/ (class_size l = Ok None /\ forall m, ~ sampled_with l m).
Proof.
  intros O. assert (O' : forall it, In it (its l) -> is_ok it) by (intros it I; apply O, in_its; auto). destruct (its l) as [|it r] eqn:E.
  - right. right. split; [apply class_size_none; auto|]. intros m (x & I & _). apply in_its in I. rewrite E in I. destruct I.
  - unfold class_size. rewrite E. destruct (O' it (or_introl eq_refl)) as [x ->]. cbn [bind]. destruct (all_len_total (length x) r) as [b B]; [intros; apply O'; right; auto|]. rewrite B. cbn [bind].
    destruct b; [|auto]. right. left. exists (length x). split; auto. intros m (y & I & <-). apply in_its in I. rewrite E in I. rewrite all_len_true in B. destruct I as [I|I]; [congruence|].
    destruct (B _ I) as (z & Q & <-). congruence.
Qed.
Theorem C47_rotor_sizes : forall a n m, samples_exist a -> sampled_any a n -> sampled_any a m -> n <> m -> st_rotor_init a = Err ValueError.
Proof.
  intros a n m (O1 & O2 & O3 & O4) Sn Sm NE. unfold st_rotor_init.
  destruct (class_size_total _ O1) as [->|D1]; [reflexivity|].
  assert (P1 : exists o, class_size (ea_sh a) = Ok o /\ forall k, sampled_with (ea_sh a) k -> o = Some k).
  { destruct D1 as [(k & -> & U)|(-> & U)]; eexists; split; try reflexivity; intros k' S'; [rewrite (U k' S'); auto|destruct (U k' S')]. }
  destruct P1 as (o1 & -> & U1). cbn [bind]. clear D1.
  destruct (class_size_total _ O2) as [->|D2]; [reflexivity|].
  assert (P2 : exists o, class_size (ea_dk a) = Ok o /\ forall k, sampled_with (ea_dk a) k -> o = Some k).
  { destruct D2 as [(k & -> & U)|(-> & U)]; eexists; split; try reflexivity; intros k' S'; [rewrite (U k' S'); auto|destruct (U k' S')]. }
  destruct P2 as (o2 & -> & U2). cbn [bind]. clear D2.
  destruct (class_size_total _ O3) as [->|D3]; [reflexivity|].
  assert (P3 : exists o, class_size (ea_br a) = Ok o /\ forall k, sampled_with (ea_br a) k -> o = Some k).
  { destruct D3 as [(k & -> & U)|(-> & U)]; eexists; split; try reflexivity; intros k' S'; [rewrite (U k' S'); auto|destruct (U k' S')]. }
  destruct P3 as (o3 & -> & U3). cbn [bind]. clear D3.
  destruct (class_size_total _ O4) as [->|D4]; [reflexivity|].
  assert (P4 : exists o, class_size (ea_pm a) = Ok o /\ forall k, sampled_with (ea_pm a) k -> o = Some k).
  { destruct D4 as [(k & -> & U)|(-> & U)]; eexists; split; try reflexivity; intros k' S'; [rewrite (U k' S'); auto|destruct (U k' S')]. }
  destruct P4 as (o4 & -> & U4). cbn [bind]. clear D4.
  assert (G : forall k, sampled_any a k -> In k (somes [o1; o2; o3; o4])).
  { intros k S. apply in_somes. destruct S as [S|[S|[S|S]]]; [rewrite (U1 k S)|rewrite (U2 k S)|rewrite (U3 k S)|rewrite (U4 k S)]; simpl; auto. }
  pose proof (G n Sn) as In_. pose proof (G m Sm) as Im_. destruct (somes [o1; o2; o3; o4]) as [|k rest]; [destruct In_|].
  destruct (forallb (Nat.eqb k) rest) eqn:FB; auto. exfalso. rewrite forallb_eqb in FB. apply NE. destruct In_ as [<-|I1], Im_ as [<-|I2]; auto; try (rewrite (FB _ I1)); try (rewrite (FB _ I2)); auto.
Qed.
(** the lists handed to ST_Rotor are changed in place: a second ST_Rotor from the same lists always fails *)
Theorem C47_rotor_reuse_refuted : forall a s, elements_only a -> st_rotor_init a = Ok s -> st_rotor_init (sr_args s) = Err IndexError.
Proof.
  intros a s E H. destruct (init_inv a s E H) as (V & _). apply C47_rotor_not_random. unfold some_random.
  pose proof (its_exp _ _ (ri_sh a s V)) as I1. pose proof (its_exp _ _ (ri_dk a s V)) as I2. pose proof (its_exp _ _ (ri_br a s V)) as I3. pose proof (its_exp _ _ (ri_pm a s V)) as I4.
  apply its_nil in I1, I2, I3, I4. tauto.
Qed.
(** iterating: any computation f on the rotors sees exactly the RV_size rotors of the samples, in order *)
Theorem C47_rotor_iteration : forall B a s (f : rotor -> res B) out, elements_only a -> st_rotor_init a = Ok s ->
  (for_rotors s f = Ok out <-> length out = sr_size s /\ forall i y, nth_error out i = Some y -> exists r, rotor_of_sample a i r /\ f r = Ok y).
Proof. intros B a s f out E H. apply for_rotors_iff. apply (init_inv a s E H). Qed.

(** ** Monte Carlo loops *)
Theorem C47_freq_response : forall la spl a s inp out speeds modes cols, elements_only a -> st_rotor_init a = Ok s ->
  (st_freq_response la spl s inp out speeds modes = Ok cols <->
   length cols = sr_size s /\ forall i col, nth_error cols i = Some col -> exists r fr, rotor_of_sample a i r /\ run_freq_response la spl r speeds modes = Ok fr /\
     (inp < r_ndof r)%nat /\ (out < r_ndof r)%nat /\ col = map (fun p => (fst (fst p) inp out, snd (fst p) inp out, snd p inp out)) fr).
Proof.
  intros la spl a s inp out speeds modes cols E H. unfold st_freq_response. rewrite (C47_rotor_iteration _ a s _ cols E H).
  assert (G : forall r col, (bind (run_freq_response la spl r speeds modes) (fun fr => if ((inp <? r_ndof r) && (out <? r_ndof r))%nat%bool
      then Ok (map (fun p => let '(H, V, A) := p in (H inp out, V inp out, A inp out)) fr) else Err IndexError) = Ok col) <->
    exists fr, run_freq_response la spl r speeds modes = Ok fr /\ (inp < r_ndof r)%nat /\ (out < r_ndof r)%nat /\ col = map (fun p => (fst (fst p) inp out, snd (fst p) inp out, snd p inp out)) fr).
  { intros r col. split.
    - intros Q. ob Q. destruct ((inp <? r_ndof r) && (out <? r_ndof r))%nat eqn:B; [|discriminate]. apply andb_true_iff in B as (B1 & B2). apply Nat.ltb_lt in B1, B2. injection Q as <-.
      exists a0. repeat split; auto. apply map_ext. intros [[x y] z]. reflexivity.
    - intros (fr & -> & B1 & B2 & ->). apply Nat.ltb_lt in B1, B2. cbn [bind]. rewrite B1, B2. cbn [andb]. f_equal. apply map_ext. intros [[x y] z]. reflexivity. }
  split; intros (L & P); split; auto; intros i y Hy.
  - destruct (P i y Hy) as (r & Sr & Q). apply G in Q as (fr & Q). exists r, fr. tauto.
  - destruct (P i y Hy) as (r & fr & Sr & Q). exists r. split; auto. apply G. eauto.
Qed.
(** unbalance at one node, random magnitude, random or constant phase, one value per rotor: response i is that of rotor i with magnitude i *)
Definition at_u (u : uarg) (i : nat) (x : R) : Prop := match u with U0 y => x = y | U1 l => nth_error l i = Some x | U2 _ => False end.
Definition u_ok (n : nat) (u : uarg) : Prop := match u with U0 _ => True | U1 l => length l = n | U2 _ => False end.
Definition zero_response (freq : list R) : list (cvec * cvec * cvec) := map (fun _ => ((fun _ => RtoC 0), (fun _ => RtoC 0), (fun _ => RtoC 0))) freq.
Lemma u_args (bm bp : bool) mag phase n l : mapM (fun i => bind (if bm then u_get mag i else Ok mag) (fun m => bind (if bp then u_get phase i else Ok phase) (fun p => Ok (m, p)))) (seq 0 n) = Ok l ->
  length l = n /\ forall i y, nth_error l i = Some y -> (if bm then u_get mag i else Ok mag) = Ok (fst y) /\ (if bp then u_get phase i else Ok phase) = Ok (snd y).
Proof. intros H. apply mapM_F2, F2_seq in H as (L & H). split; auto. intros i y Hy. specialize (H i y Hy). ob H. ob H. injection H as <-. auto. Qed.
Lemma pad_full {B} n (z : B) l : length l = n -> pad n z l = l.
Proof. intros <-. unfold pad. rewrite Nat.sub_diag. apply app_nil_r. Qed.
Theorem C47_unbalance_one_node : forall la spl a s n mag phase freq modes out, elements_only a -> st_rotor_init a = Ok s -> u_ok (sr_size s) mag -> u_ok (sr_size s) phase ->
  (exists l, mag = U1 l) \/ (exists l, phase = U1 l) ->
  (st_unbalance_response la spl s (NInt n) mag phase freq modes = Ok out <->
   length out = sr_size s /\ forall i y, nth_error out i = Some y -> exists r m p, rotor_of_sample a i r /\ at_u mag i m /\ at_u phase i p /\ run_unbalance_response la spl r [n] [m] [p] freq modes = Ok y).
Proof.
  intros la spl a s n mag phase freq modes out E H Um Up Rn. pose proof (proj1 (init_inv a s E H)) as V. unfold st_unbalance_response.
  set (bm := match mag with U0 _ => false | _ => true end). set (bp := match phase with U0 _ => false | _ => true end).
  assert (Em : u_random (NInt n) mag = Ok bm) by (destruct mag; reflexivity). assert (Ep : u_random (NInt n) phase = Ok bp) by (destruct phase; reflexivity). rewrite Em, Ep. cbn [bind].
  assert (OB : (bm || bp)%bool = true) by (destruct Rn as [(l & ->)|(l & ->)]; unfold bm, bp; simpl; auto; destruct mag; auto). rewrite OB.
  assert (SZ : u_size (if bm then mag else phase) = Ok (sr_size s)). { unfold bm. destruct mag as [x|l|]; simpl in *; try tauto; [|congruence]. destruct Rn as [(l & Q)|(l & ->)]; [discriminate|]. simpl in *. congruence. }
  rewrite SZ. cbn [bind].
  assert (GT : forall u b, u_ok (sr_size s) u -> b = (match u with U0 _ => false | _ => true end) -> forall i, (i < sr_size s)%nat -> exists x, (if b then u_get u i else Ok u) = Ok (U0 x) /\ at_u u i x).
  { intros u b U -> i Hi. destruct u as [x|l|]; simpl in *; [eauto| |tauto]. destruct (nth_error l i) as [x|] eqn:Q; [eauto|]. apply nth_error_None in Q. lia. }
  assert (AU : forall u i x y, at_u u i x -> at_u u i y -> x = y) by (intros [x0|l|] i x y; simpl; try tauto; congruence).
  match goal with |- context [mapM ?g (seq 0 (sr_size s))] => assert (AR : exists l, mapM g (seq 0 (sr_size s)) = Ok l) end.
  { assert (W : forall l, (forall i, In i l -> (i < sr_size s)%nat) -> exists r, mapM (fun i => bind (if bm then u_get mag i else Ok mag) (fun m => bind (if bp then u_get phase i else Ok phase) (fun p => Ok (m, p)))) l = Ok r).
    { induction l as [|i l IH]; intros Hl; cbn [mapM]; [eauto|]. destruct (GT mag bm Um eq_refl i) as (x & -> & _); [apply Hl; left; auto|]. destruct (GT phase bp Up eq_refl i) as (y & -> & _); [apply Hl; left; auto|].
      cbn [bind]. destruct IH as (r & ->); [intros; apply Hl; right; auto|]. cbn [bind]. eauto. }
    apply W. intros i I. apply in_seq in I. lia. }
  destruct AR as (args & AR). rewrite AR. cbn [bind]. apply u_args in AR as (La & Pa). split.
  - intros Q. ob Q. destruct (zip_sound a s args _ a0 V E0) as (L & P). rewrite La, Nat.min_id in L. rewrite pad_full in Q by auto. injection Q as <-. split; auto. intros i y Hy.
    destruct (P i y Hy) as (r & [m p] & Sr & Ha & F). exists r. assert (Hi : (i < sr_size s)%nat) by (rewrite <- L; apply nth_error_Some; congruence). destruct (Pa i _ Ha) as (A1 & A2). simpl in *.
    destruct (GT mag bm Um eq_refl i Hi) as (x & G1 & G2). destruct (GT phase bp Up eq_refl i Hi) as (z & G3 & G4). rewrite G1 in A1. rewrite G3 in A2. injection A1 as <-. injection A2 as <-. exists x, z. auto.
  - intros (L & P). erewrite (zip_complete a s args _ out V La L).
    + cbn [bind]. rewrite pad_full; auto.
    + intros i y Hy. destruct (P i y Hy) as (r & m & p & Sr & A1 & A2 & F). assert (Hi : (i < sr_size s)%nat) by (rewrite <- L; apply nth_error_Some; congruence).
      destruct (nth_error args i) as [[m' p']|] eqn:Ha; [|apply nth_error_None in Ha; lia]. exists r, (m', p'). split; auto. split; auto. destruct (Pa i _ Ha) as (B1 & B2). simpl in B1, B2.
      destruct (GT mag bm Um eq_refl i Hi) as (x & G1 & G2). destruct (GT phase bp Up eq_refl i Hi) as (z & G3 & G4). rewrite G1 in B1. rewrite G3 in B2. injection B1 as <-. injection B2 as <-. simpl.
      rewrite (AU mag i x m G2 A1), (AU phase i z p G4 A2). exact F.
Qed.
(** with fewer magnitudes than rotors the responses of the remaining rotors are silently zero *)
Theorem C47_unbalance_short_refuted : forall la spl a s n mags phase freq modes out i, elements_only a -> st_rotor_init a = Ok s ->
  st_unbalance_response la spl s (NInt n) (U1 mags) (U0 phase) freq modes = Ok out -> (length mags <= i < sr_size s)%nat -> length out = sr_size s /\ nth_error out i = Some (zero_response freq).
Proof.
  intros la spl a s n mags phase freq modes out i E H Q Hi. pose proof (proj1 (init_inv a s E H)) as V. unfold st_unbalance_response in Q. cbn [u_random bind orb u_size] in Q. ob Q. ob Q. apply (u_args true false) in E0 as (L & _).
  destruct (zip_sound a s a0 _ a1 V E1) as (L1 & _). rewrite L in L1. injection Q as <-. unfold pad. rewrite Nat.min_r in L1 by lia. split; [rewrite app_length, repeat_length; lia|].
  rewrite nth_error_app2 by lia. rewrite L1. rewrite (nth_error_nth' _ (zero_response freq)) by (rewrite repeat_length; lia). f_equal. apply nth_repeat.
Qed.
(** without a random unbalance the argument modes has no effect *)
Theorem C47_unbalance_modes_refuted : forall la spl s nodes mags phases freq modes modes', mags <> [] -> phases <> [] ->
  st_unbalance_response la spl s (NList nodes) (U1 mags) (U1 phases) freq modes = st_unbalance_response la spl s (NList nodes) (U1 mags) (U1 phases) freq modes'.
Proof. intros la spl s nodes [|m mags] [|p phases] freq modes modes' H1 H2; try tauto; reflexivity. Qed.
Theorem C47_unbalance_fixed : forall la spl a s nodes mags phases freq modes out, elements_only a -> st_rotor_init a = Ok s -> mags <> [] -> phases <> [] ->
  (st_unbalance_response la spl s (NList nodes) (U1 mags) (U1 phases) freq modes = Ok out <->
   length out = sr_size s /\ forall i y, nth_error out i = Some y -> exists r, rotor_of_sample a i r /\ run_unbalance_response la spl r nodes mags phases freq None = Ok y).
Proof.
  intros la spl a s nodes [|m mags] [|p phases] freq modes out E H H1 H2; try tauto. unfold st_unbalance_response. cbn [u_random bind orb]. exact (C47_rotor_iteration _ a s _ out E H).
Qed.
(** several nodes with lists of lists: the outer list is indexed by the sample although the number of samples is taken from the first inner
    list. Rows per node with more samples than nodes: IndexError. Rows per sample: only as many rotors are run as there are nodes, the rest
    of the responses is zero. *)
Theorem C47_unbalance_rows_per_node_refuted : forall la spl s nodes mags phases freq modes row0, nth_error mags 0 = Some row0 -> phases <> [] -> (length mags < length row0)%nat ->
  st_unbalance_response la spl s (NList nodes) (U2 mags) (U2 phases) freq modes = Err IndexError.
Proof.
  intros la spl s nodes mags phases freq modes row0 H0 HP HL. destruct mags as [|r0 mags]; [discriminate|]. simpl in H0. injection H0 as ->. destruct phases as [|p0 phases]; [tauto|].
  unfold st_unbalance_response. cbn [u_random bind orb u_size]. match goal with |- context [mapM ?g ?l] => assert (Q : mapM g l = Err IndexError) end.
  { match goal with |- mapM ?g _ = _ => assert (W : forall k n, (k <= length (row0 :: mags))%nat -> (length (row0 :: mags) < k + n)%nat -> mapM g (seq k n) = Err IndexError) end.
    { intros k n. revert k. induction n as [|n IH]; intros k L1 L2; [lia|]. cbn [seq mapM u_get]. destruct (nth_error (row0 :: mags) k) as [x|] eqn:X; cbn [bind]; [|reflexivity].
      assert (K : (k < length (row0 :: mags))%nat) by (apply nth_error_Some; congruence).
      destruct (nth_error (p0 :: phases) k); cbn [bind]; [|reflexivity]. rewrite IH by lia. reflexivity. }
    apply W; [lia|exact HL]. }
  rewrite Q. reflexivity.
Qed.
Theorem C47_unbalance_rows_per_sample_refuted : forall la spl a s nodes mags phases freq modes out row0, elements_only a -> st_rotor_init a = Ok s -> nth_error mags 0 = Some row0 ->
  st_unbalance_response la spl s (NList nodes) (U2 mags) (U2 phases) freq modes = Ok out ->
  length out = sr_size s /\
  (forall i y, (i < Nat.min (sr_size s) (length row0))%nat -> nth_error out i = Some y -> exists r ms ps, rotor_of_sample a i r /\ nth_error mags i = Some ms /\ nth_error phases i = Some ps /\ run_unbalance_response la spl r nodes ms ps freq modes = Ok y) /\
  (forall i, (length row0 <= i < sr_size s)%nat -> nth_error out i = Some (zero_response freq)).
Proof.
  intros la spl a s nodes mags phases freq modes out row0 E H H0 Q. pose proof (proj1 (init_inv a s E H)) as V. destruct mags as [|r0 mags]; [discriminate|]. simpl in H0. injection H0 as ->.
  destruct phases as [|p0 phases]; [discriminate|]. unfold st_unbalance_response in Q. cbn [u_random bind orb u_size] in Q. ob Q. ob Q. apply (u_args true true) in E0 as (L & P).
  destruct (zip_sound a s a0 _ a1 V E1) as (L1 & P1). rewrite L in L1. injection Q as <-. unfold pad. split; [rewrite app_length, repeat_length; lia|]. split.
  - intros i y Hi Hy. rewrite nth_error_app1 in Hy by lia. destruct (P1 i y Hy) as (r & [m p] & Sr & Ha & F). destruct (P i _ Ha) as (A1 & A2). cbn [fst snd u_get] in *.
    destruct (nth_error (row0 :: mags) i) as [ms|]; [|discriminate]. destruct (nth_error (p0 :: phases) i) as [ps|]; [|discriminate]. injection A1 as <-. injection A2 as <-. exists r, ms, ps. auto.
  - intros i Hi. rewrite nth_error_app2 by lia. rewrite (nth_error_nth' _ (zero_response freq)) by (rewrite repeat_length; lia). f_equal. apply nth_repeat.
Qed.
(** time response: one force array for all the rotors, or one per rotor along the first axis (the documentation says the third) *)
Theorem C47_time_response : forall IC T (tr : rotor -> R -> arr2 -> list R -> IC -> res T) zero a s speed f times ic out, elements_only a -> st_rotor_init a = Ok s ->
  (st_time_response tr zero s speed (F2 f) times ic = Ok out <->
   length out = sr_size s /\ forall i y, nth_error out i = Some y -> exists r, rotor_of_sample a i r /\ tr r speed f times ic = Ok y).
Proof. intros IC T tr zero a s speed f times ic out E H. exact (C47_rotor_iteration _ a s _ out E H). Qed.
Theorem C47_time_axis_refuted : forall IC T (tr : rotor -> R -> arr2 -> list R -> IC -> res T) zero a s speed f times ic out, elements_only a -> st_rotor_init a = Ok s ->
  st_time_response tr zero s speed (F3 f) times ic = Ok out ->
  length out = sr_size s /\
  (forall i y, (i < Nat.min (sr_size s) (a3_d1 f))%nat -> nth_error out i = Some y -> exists r, rotor_of_sample a i r /\ tr r speed (mkA2 (a3_d2 f) (a3_d3 f) (fun j k => a3 f i j k)) times ic = Ok y) /\
  (forall i, (a3_d1 f <= i < sr_size s)%nat -> nth_error out i = Some zero).
Proof.
  intros IC T tr zero a s speed f times ic out E H Q. pose proof (proj1 (init_inv a s E H)) as V. unfold st_time_response in Q. ob Q. destruct (zip_sound a s _ _ a0 V E0) as (L & P).
  unfold slices in L. rewrite map_length, seq_length in L. injection Q as <-. unfold pad. split; [rewrite app_length, repeat_length; lia|]. split.
  - intros i y Hi Hy. rewrite nth_error_app1 in Hy by lia. destruct (P i y Hy) as (r & F & Sr & Ha & Ft). unfold slices in Ha. rewrite nth_error_map, nth_error_seq in Ha.
    replace (i <? a3_d1 f)%nat with true in Ha by (symmetry; apply Nat.ltb_lt; lia). injection Ha as <-. eauto.
  - intros i Hi. rewrite nth_error_app2 by lia. rewrite (nth_error_nth' _ zero) by (rewrite repeat_length; lia). f_equal. apply nth_repeat.
Qed.

(** two different disks as samples of the disk of the example rotor *)
Definition ex_elems : elem_args := mkEA (map RFixed (exS false)) [RStoch (Ok [ex_disk false 1 "d0"; heavy_disk])] (map RFixed (exB false)) (map RFixed (exP false)).
Lemma fixed_chosen {A} i (l : list A) : Forall2 (chosen i) (map RFixed l) l.
Proof. induction l; simpl; constructor; simpl; auto. Qed.
Example C47_rotor_instance : exists s r0 r1, elements_only ex_elems /\ st_rotor_init ex_elems = Ok s /\ sr_size s = 2%nat /\ for_rotors s Ok = Ok [r0; r1] /\
  rotor_init (exS false) (exD false) (exB false) (exP false) = Ok r0 /\ rotor_init (exS false) [heavy_disk] (exB false) (exP false) = Ok r1.
Proof.
  destruct (ex_rotor false) as (r0 & H0 & _). destruct heavy_rotor as (r1 & H1).
  assert (F0 : rotor_of_sample ex_elems 0 r0). { exists (exS false), (exD false), (exB false), (exP false). repeat split; auto; try apply fixed_chosen. constructor; [|constructor]. simpl. eauto. }
  assert (F1 : rotor_of_sample ex_elems 1 r1). { exists (exS false), [heavy_disk], (exB false), (exP false). repeat split; auto; try apply fixed_chosen. constructor; [|constructor]. simpl. eauto. }
  assert (AS : all_samples 2 ex_elems). { repeat split; intros x I; simpl in I; try (apply in_map_iff in I as (y & <- & _); simpl; auto); intuition (subst; simpl; eauto). }
  assert (EO : elements_only ex_elems) by (eapply all_samples_only; eauto).
  destruct (C47_rotor_accepted ex_elems 2 r0) as (s & Hs & Sz & _); auto. { right. left. eexists. split; [left; reflexivity|simpl; auto]. }
  exists s, r0, r1. repeat (split; auto). apply (C47_rotor_iteration _ ex_elems s); auto. split; [simpl; auto|]. intros [|[|i]] y Hy; simpl in Hy; try injection Hy as <-; eauto. destruct i; discriminate.
Qed.

Print Assumptions C47_material_samples.
Print Assumptions C47_point_mass_samples.
Print Assumptions C47_shaft_samples.
Print Assumptions C47_disk_samples.
Print Assumptions C47_disk_geometry.
Print Assumptions C47_bearing_samples.
Print Assumptions C47_bearing_tables.
Print Assumptions C47_bearing_mixed_refuted.
Print Assumptions C47_rotor_accepted.
Print Assumptions C47_rotor_sizes.
Print Assumptions C47_rotor_iteration.
Print Assumptions C47_freq_response.
Print Assumptions C47_unbalance_one_node.
Print Assumptions C47_time_axis_refuted.
