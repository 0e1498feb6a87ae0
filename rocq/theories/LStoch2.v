(** Lemmas for ross/stochastic: bearings and rotors. *)
From Coq Require Import Reals List String Ascii Bool Arith Lia Lra.
From Coquelicot Require Import Complex.
From Verif Require Import PyBase PyDict MatBase CMat MMaterial MShaft MDisk MBearing MRotor MDynamics MStoch SpecStoch LStoch.
Import ListNotations.
Open Scope string_scope.
Open Scope list_scope.
Local Notation length := List.length.

(** ** bearings *)
Lemma bearing_rows_plain e rnd v : first_random e = Ok (rnd, v) -> bind (sv_get v 0) sv_len = Err TypeError -> bearing_rows e = random_rows e.
Proof.
  intros F H. unfold bearing_rows, random_rows. rewrite F. simpl. rewrite H. destruct (sv_len v) as [n|]; simpl; auto.
  destruct (mapM (sample_row e rnd) (seq 0 n)); reflexivity.
Qed.
(** a table: a list of rows *)
Definition is_table (v : sv) : Prop := exists rows, v = SList (map SList rows).
Lemma column_get_table rows i : (exists x, column_get (SList (map SList rows)) i = Ok x /\ column (SList (map SList rows)) i x) \/ column_get (SList (map SList rows)) i = Err IndexError.
Proof.
  unfold column_get, column. cbn [sv_len bind]. rewrite map_length.
  assert (G : forall m done, m = length done ->
    (exists col, mapM (fun j => bind (sv_get (SList (map SList (done ++ rows))) j) (fun r => sv_get r i)) (seq m (length rows)) = Ok col /\ Forall2 (fun r y => entry r i y) (map SList rows) col)
    \/ mapM (fun j => bind (sv_get (SList (map SList (done ++ rows))) j) (fun r => sv_get r i)) (seq m (length rows)) = Err IndexError).
  { induction rows as [|r rows IH]; intros m done E; [left; exists []; split; constructor|]. cbn [length seq mapM].
    assert (Q : sv_get (SList (map SList (done ++ r :: rows))) m = Ok (SList r)).
    { simpl. rewrite map_app. rewrite nth_error_app2; rewrite map_length, <- E; [rewrite Nat.sub_diag; reflexivity|lia]. }
    rewrite Q. cbn [bind]. destruct (sv_get (SList r) i) as [y|x] eqn:Y; cbn [bind].
    2:{ right. simpl in Y. destruct (nth_error r i); [discriminate|congruence]. }
    apply sv_get_iff in Y.
    specialize (IH (S m) (done ++ [r])). rewrite <- app_assoc in IH. simpl app in IH. destruct IH as [(col & -> & F)| ->].
    - rewrite app_length, E. simpl. lia.
    - left. exists (y :: col). split; [reflexivity|]. simpl. constructor; auto.
    - right. reflexivity. }
  destruct (G 0%nat [] eq_refl) as [(col & C & F)|C]; simpl app in C; rewrite C; cbn [bind]; [left; exists (SList col); split; eauto|right; auto].
Qed.
Lemma table_row_cases e rnd i : (forall k v, In (k, v) (st_attrs e) -> In k rnd -> is_table v) ->
  (exists row, table_row e rnd i = Ok row /\ length row = length (st_attrs e) /\ table_sample_of (st_attrs e) rnd i (combine (map fst (st_attrs e)) row))
  \/ table_row e rnd i = Err IndexError.
Proof.
  unfold table_row, table_sample_of. induction (st_attrs e) as [|[k v] l IH]; intros H; cbn [mapM]; [left; exists []; repeat split; constructor|].
  specialize (IH (fun k' v' I => H k' v' (or_intror I))). cbn [fst snd].
  destruct (str_in k rnd) eqn:E.
  - assert (J : In k rnd) by (apply str_in_iff; auto). destruct (H k v (or_introl eq_refl) J) as [rows ->].
    destruct (column_get_table rows i) as [(x & -> & C)| ->]; cbn [bind]; [|right; reflexivity].
    destruct IH as [(row & -> & L & S)| ->]; cbn [bind]; [|right; reflexivity]. left. exists (x :: row). split; auto. split; [simpl; auto|]. simpl. constructor; auto.
    cbn [fst snd]. split; auto. split; [auto|tauto].
  - assert (J : ~ In k rnd) by (rewrite <- str_in_iff; congruence). cbn [bind].
    destruct IH as [(row & -> & L & S)| ->]; cbn [bind]; [|right; reflexivity]. left. exists (v :: row). split; auto. split; [simpl; auto|]. simpl. constructor; auto.
    cbn [fst snd]. split; auto. split; [tauto|auto].
Qed.
Lemma collect_cases (f : nat -> res (list sv)) (P : nat -> list sv -> Prop) : (forall i, (exists r, f i = Ok r /\ P i r) \/ f i = Err IndexError) -> forall l,
  (exists rows, collect_rows f l = (rows, None) /\ Forall2 P l rows) \/ snd (collect_rows f l) = Some IndexError.
Proof.
  intros H. induction l as [|i l IH]; simpl; [left; exists []; auto|]. destruct (H i) as [(r & -> & Q)| ->]; [|right; auto].
  destruct IH as [(rows & -> & F)|E]; [left; exists (r :: rows); auto|]. destruct (collect_rows f l). right. auto.
Qed.
Lemma bearing_tables e els k rest more : st_random e = Some (k :: rest) -> c_sig bearing_class = map fst (st_attrs e) ++ more ->
  (forall j v, In (j, v) (st_attrs e) -> In j (k :: rest) -> is_table v) -> NoDup (map fst (st_attrs e)) -> st_bearing_list e = Ok els ->
  exists row0 rows, dget (st_attrs e) k = Some (SList (map SList (row0 :: rows))) /\ length els = length row0 /\
    forall i x, nth_error els i = Some x -> exists kw, table_sample_of (st_attrs e) (k :: rest) i kw /\ call_by_keyword bearing_class kw = Ok x.
Proof.
  intros R S T ND H. unfold st_bearing_list in H. ob H. unfold bearing_rows in E. ob E. destruct a0 as [rnd v]. apply first_random_ok in E0 as (k' & rest' & -> & R' & G).
  rewrite R in R'. injection R' as <- <-.
  assert (I : In (k, v) (st_attrs e)).
  { clear -G. induction (st_attrs e) as [|[k1 v1] l IH]; simpl in *; [discriminate|]. destruct (String.eqb k k1) eqn:Q; [apply String.eqb_eq in Q; left; congruence|auto]. }
  destruct (T k v I (or_introl eq_refl)) as [rows ->]. destruct rows as [|row0 rows]; [discriminate|]. exists row0, rows. split; auto.
  cbn [map sv_get nth_error bind sv_len] in E.
  destruct (collect_cases (table_row e (k :: rest)) _ (fun i => table_row_cases e (k :: rest) i T) (seq 0 (length row0))) as [(rs & C & F)|C].
  - rewrite C in E. injection E as <-. apply mapM_F2 in H. apply F2_seq in F as (L & F). split; [rewrite <- (F2_len _ _ _ H); auto|].
    intros i x Hx. destruct (F2_nth' _ _ _ H i x Hx) as (row & Hr & Hc). destruct (F i row Hr) as (Lr & Sr). eexists. split; [exact Sr|].
    rewrite <- Hc. unfold call, call_by_keyword. rewrite S, app_length, map_length, Lr. replace (_ <? _)%nat with false by (symmetry; apply Nat.ltb_ge; lia).
    rewrite combine_prefix; auto. rewrite map_length. auto.
  - destruct (collect_rows (table_row e (k :: rest)) (seq 0 (length row0))) as [rs o]. simpl in C. subst o. discriminate.
Qed.

(** ** rotors *)
Definition expanded {A} (x y : rarg A) : Prop :=
  match x with RFixed a => y = RFixed a | RStoch it => exists l, it = Ok l /\ y = RSamples l | RSamples _ => False end.
Lemma expand_F2 {A} (l l' : list (rarg A)) : no_lists l -> expand l = Ok l' -> Forall2 expanded l l'.
Proof.
  intros N H. unfold expand in H. apply mapM_F2 in H. induction H as [|x y l l' Hy Hl IH]; constructor.
  - specialize (N x (or_introl eq_refl)). destruct x as [a|it|s]; simpl in *; [congruence| |tauto]. ob Hy. injection Hy as <-. subst. eauto.
  - apply IH. intros z Hz. apply N. right; auto.
Qed.
Lemma expand_ok {A} n (l : list (rarg A)) : (forall x, In x l -> has_samples n x) -> exists l', expand l = Ok l' /\ Forall2 expanded l l'.
Proof.
  unfold expand. induction l as [|x l IH]; intros H; simpl; [eexists; split; [reflexivity|constructor]|].
  destruct IH as (l' & E & F); [intros y Hy; apply H; right; auto|]. specialize (H x (or_introl eq_refl)).
  destruct x as [a|it|s]; simpl in *; [|destruct H as (s & -> & L)|tauto]; simpl; rewrite E; simpl; eexists; split; try reflexivity; constructor; simpl; eauto.
Qed.
Lemma pick_chosen {A} i (l l' : list (rarg A)) : Forall2 expanded l l' -> forall xs, pick_class i l' = Ok xs <-> Forall2 (chosen i) l xs.
Proof.
  intros H. unfold pick_class. induction H as [|x y l l' Hy Hl IH]; intros xs; simpl.
  - split; intros H; [injection H as <-; constructor|inversion H; auto].
  - split; intros H.
    + ob H. ob H. injection H as <-. constructor; [|apply IH; auto]. destruct x as [b|it|s]; simpl in *; [subst; congruence| |tauto].
      destruct Hy as (s & -> & ->). exists s. split; auto. destruct (nth_error s i); congruence.
    + inversion H as [|? b ? xs' Hb Hx]; subst. apply IH in Hx. rewrite Hx.
      destruct x as [b'|it|s]; simpl in *; [subst; reflexivity| |tauto]. destruct Hy as (s & -> & ->). destruct Hb as (s' & Q & N). injection Q as <-. rewrite N. reflexivity.
Qed.
Lemma plain_chosen {A} i (l l' : list (rarg A)) : Forall2 expanded l l' -> its l = [] -> forall xs, plain_class l' = Ok xs <-> Forall2 (chosen i) l xs.
Proof.
  intros H. unfold plain_class. induction H as [|x y l l' Hy Hl IH]; intros T xs; simpl.
  - split; intros H; [injection H as <-; constructor|inversion H; auto].
  - destruct x as [b|it|s]; simpl in *; try discriminate; [|tauto]. subst y. specialize (IH T). simpl. split; intros H.
    + ob H. injection H as <-. constructor; [reflexivity|apply IH; auto].
    + inversion H as [|? b' ? xs' Hb Hx]; subst. apply IH in Hx. rewrite Hx. simpl in Hb. subst. reflexivity.
Qed.
Lemma flat_chosen {A} i (l l' : list (rarg A)) : Forall2 expanded l l' -> its l = [] -> forall xs, flat_class l' = Ok xs <-> Forall2 (chosen i) l xs.
Proof.
  intros H. unfold flat_class. induction H as [|x y l l' Hy Hl IH]; intros T xs; simpl.
  - split; intros H; [injection H as <-; constructor|inversion H; auto].
  - destruct x as [b|it|s]; simpl in *; try discriminate; [|tauto]. subst y. specialize (IH T). simpl. split; intros H.
    + ob H. ob E. injection E as <-. simpl in H. injection H as <-. constructor; [reflexivity|apply IH; rewrite E0; auto].
    + inversion H as [|? b' ? xs' Hb Hx]; subst. apply IH in Hx. ob Hx. rewrite E. simpl. simpl in Hb. subst. injection Hx as <-. reflexivity.
Qed.

Lemma all_len_true {A} n (l : list (res (list A))) : all_len n l = Ok true <-> forall it, In it l -> exists x, it = Ok x /\ length x = n.
Proof.
  induction l as [|it l IH]; simpl; [split; [tauto|auto]|]. split.
  - intros H. ob H. destruct (Nat.eqb_spec (length a) n); [|discriminate]. intros it' [<-|I]; [eauto|]. apply IH; auto.
  - intros H. destruct (H it (or_introl eq_refl)) as (x & -> & L). simpl. rewrite L, Nat.eqb_refl. apply IH. auto.
Qed.
Lemma all_len_false {A} n (l : list (res (list A))) : (forall it, In it l -> is_ok it) -> (exists x, In (Ok x) l /\ length x <> n) -> all_len n l = Ok false.
Proof.
  induction l as [|it l IH]; intros O (x & I & N); [destruct I|]. simpl. destruct (O it (or_introl eq_refl)) as [s ->]. simpl.
  destruct (Nat.eqb_spec (length s) n) as [E|E]; auto. apply IH; [intros; apply O; right; auto|]. destruct I as [I|I]; [injection I as ->; tauto|eauto].
Qed.
Lemma all_len_total {A} n (l : list (res (list A))) : (forall it, In it l -> is_ok it) -> is_ok (all_len n l).
Proof.
  induction l as [|it l IH]; intros O; simpl; [eexists; reflexivity|]. destruct (O it (or_introl eq_refl)) as [s ->]. simpl.
  destruct (Nat.eqb (length s) n); [apply IH; intros; apply O; right; auto|eexists; reflexivity].
Qed.
Lemma in_its {A} it (l : list (rarg A)) : In it (its l) <-> In (RStoch it) l.
Proof.
  induction l as [|[a|it'|s] l IH]; simpl; [tauto| | |].
  - split; [tauto|]. intros [E|I]; [discriminate|tauto].
  - split; [intros [->|I]; tauto|]. intros [E|I]; [injection E as ->; auto|tauto].
  - split; [tauto|]. intros [E|I]; [discriminate|tauto].
Qed.
Lemma its_nil {A} (l : list (rarg A)) : its l = [] <-> ~ exists x, In x l /\ random_arg x.
Proof.
  split.
  - intros H (x & I & R). destruct x as [a|it|s]; simpl in R; try tauto. apply in_its in I. rewrite H in I. destruct I.
  - intros H. destruct (its l) as [|it r] eqn:E; auto. exfalso. apply H. exists (RStoch it). split; [|simpl; auto]. apply in_its. rewrite E. left; auto.
Qed.
Lemma class_size_none {A} (l : list (rarg A)) : class_size l = Ok None <-> its l = [].
Proof.
  unfold class_size. destruct (its l) as [|it r]; split; auto; try discriminate. intros H. ob H. ob H. destruct a0; discriminate.
Qed.
Lemma class_size_some {A} n (l : list (rarg A)) : class_size l = Ok (Some n) <-> its l <> [] /\ forall it, In it (its l) -> exists x, it = Ok x /\ length x = n.
Proof.
  unfold class_size. destruct (its l) as [|it r]; split; try discriminate; try tauto.
  - intros H. ob H. ob H. destruct a0; [|discriminate]. injection H as <-. split; [discriminate|]. intros it' [<-|I]; [eauto|]. rewrite all_len_true in E0. auto.
  - intros (_ & H). destruct (H it (or_introl eq_refl)) as (x & -> & L). simpl. assert (Q : all_len (length x) r = Ok true).
    { apply all_len_true. intros it' I. rewrite L. apply H. right; auto. } rewrite Q. simpl. congruence.
Qed.
Lemma has_samples_its {A} n (l : list (rarg A)) : no_lists l -> (forall it, In it (its l) -> exists x, it = Ok x /\ length x = n) <-> forall x, In x l -> has_samples n x.
Proof.
  intros N. split.
  - intros H x I. specialize (N x I). destruct x as [a|it|s]; simpl in *; auto. apply H. apply in_its. auto.
  - intros H it I. apply in_its in I. apply (H _ I).
Qed.

Lemma first_list_exp {A} n (l l' : list (rarg A)) : Forall2 expanded l l' -> its l <> [] -> (forall x, In x l -> has_samples n x) -> first_list l' = Some n.
Proof.
  induction 1 as [|x y l l' Hy Hl IH]; simpl; [tauto|]. intros T H. pose proof (H x (or_introl eq_refl)) as Hx. destruct x as [a|it|s]; simpl in *; [|destruct Hx as (s & -> & L)|tauto].
  - subst y. apply IH; auto.
  - destruct Hy as (s' & Q & ->). injection Q as <-. congruence.
Qed.
Lemma its_exp {A} (l l' : list (rarg A)) : Forall2 expanded l l' -> its l' = [].
Proof. induction 1 as [|x y l l' Hy Hl IH]; simpl; auto. destruct x as [a|it|s]; simpl in Hy; [subst; auto|destruct Hy as (? & _ & ->); auto|tauto]. Qed.

(** what a stochastic rotor knows about the lists it was built from *)
Record rotor_inv (a : elem_args) (s : st_rotor) : Prop := {
  ri_sh : Forall2 expanded (ea_sh a) (ea_sh (sr_args s)); ri_dk : Forall2 expanded (ea_dk a) (ea_dk (sr_args s));
  ri_br : Forall2 expanded (ea_br a) (ea_br (sr_args s)); ri_pm : Forall2 expanded (ea_pm a) (ea_pm (sr_args s));
  ri_fs : sr_sh s = false <-> its (ea_sh a) = []; ri_fd : sr_dk s = false <-> its (ea_dk a) = [];
  ri_fb : sr_br s = false <-> its (ea_br a) = []; ri_fp : sr_pm s = false <-> its (ea_pm a) = [];
  ri_any : sr_sh s || sr_dk s || sr_br s || sr_pm s = true;
  ri_size : all_samples (sr_size s) a }.

Lemma class_chosen {A} (b : bool) (l l' : list (rarg A)) i asis : (asis = flat_class \/ asis = plain_class) -> Forall2 expanded l l' -> (b = false <-> its l = []) ->
  forall xs, class_args b asis i l' = Ok xs <-> Forall2 (chosen i) l xs.
Proof.
  intros D F Q xs. unfold class_args. destruct b; [apply pick_chosen; auto|]. destruct D as [->| ->]; [apply flat_chosen|apply plain_chosen]; auto; apply Q; auto.
Qed.
Lemma args_chosen a s i x : rotor_inv a s ->
  args_of (sr_args s) (sr_sh s, sr_dk s, sr_br s, sr_pm s) i = Ok x <->
  (let '(sh, dk, br, pm) := x in Forall2 (chosen i) (ea_sh a) sh /\ Forall2 (chosen i) (ea_dk a) dk /\ Forall2 (chosen i) (ea_br a) br /\ Forall2 (chosen i) (ea_pm a) pm).
Proof.
  intros V. destruct x as [[[sh dk] br] pm]. unfold args_of.
  pose proof (class_chosen (sr_sh s) _ _ i flat_class (or_introl eq_refl) (ri_sh a s V) (ri_fs a s V)) as Cs.
  pose proof (class_chosen (sr_dk s) _ _ i plain_class (or_intror eq_refl) (ri_dk a s V) (ri_fd a s V)) as Cd.
  pose proof (class_chosen (sr_br s) _ _ i plain_class (or_intror eq_refl) (ri_br a s V) (ri_fb a s V)) as Cb.
  pose proof (class_chosen (sr_pm s) _ _ i plain_class (or_intror eq_refl) (ri_pm a s V) (ri_fp a s V)) as Cp.
  split.
  - intros H. ob H. ob H. ob H. ob H. injection H as <- <- <- <-. rewrite <- Cs, <- Cd, <- Cb, <- Cp. auto.
  - rewrite <- Cs, <- Cd, <- Cb, <- Cp. intros (-> & -> & -> & ->). reflexivity.
Qed.
Lemma rotor_sample_iff a s i r : rotor_inv a s ->
  (exists x, args_of (sr_args s) (sr_sh s, sr_dk s, sr_br s, sr_pm s) i = Ok x /\ make_rotor x = Ok r) <-> rotor_of_sample a i r.
Proof.
  intros V. split.
  - intros (x & E & M). apply (args_chosen a s i x V) in E. destruct x as [[[sh dk] br] pm]. exists sh, dk, br, pm. tauto.
  - intros (sh & dk & br & pm & H1 & H2 & H3 & H4 & M). exists (sh, dk, br, pm). split; [|exact M]. apply (args_chosen a s i _ V). auto.
Qed.
Lemma iter_size_inv a s : rotor_inv a s -> iter_size s = Ok (sr_size s).
Proof.
  intros V. unfold iter_size, size_of. destruct (ri_size a s V) as (S1 & S2 & S3 & S4). pose proof (ri_any a s V) as Q.
  destruct (sr_sh s) eqn:B1.
  { rewrite (first_list_exp (sr_size s) _ _ (ri_sh a s V)); auto. intros T. apply (ri_fs a s V) in T. congruence. }
  destruct (sr_dk s) eqn:B2.
  { rewrite (first_list_exp (sr_size s) _ _ (ri_dk a s V)); auto. intros T. apply (ri_fd a s V) in T. congruence. }
  destruct (sr_br s) eqn:B3.
  { rewrite (first_list_exp (sr_size s) _ _ (ri_br a s V)); auto. intros T. apply (ri_fb a s V) in T. congruence. }
  destruct (sr_pm s) eqn:B4; [|discriminate].
  rewrite (first_list_exp (sr_size s) _ _ (ri_pm a s V)); auto. intros T. apply (ri_fp a s V) in T. congruence.
Qed.
Lemma all_args_inv a s xs : rotor_inv a s -> all_args s = Ok xs -> length xs = sr_size s /\
  forall i x, nth_error xs i = Some x -> args_of (sr_args s) (sr_sh s, sr_dk s, sr_br s, sr_pm s) i = Ok x.
Proof.
  intros V H. unfold all_args in H. rewrite (iter_size_inv a s V) in H. simpl in H. apply mapM_F2 in H. apply F2_seq in H. exact H.
Qed.
Lemma chosen_ok {A} i n (l : list (rarg A)) : (i < n)%nat -> (forall x, In x l -> has_samples n x) -> exists xs, Forall2 (chosen i) l xs.
Proof.
  intros L. induction l as [|x l IH]; intros H; [exists []; constructor|]. destruct IH as [xs F]; [intros; apply H; right; auto|].
  specialize (H x (or_introl eq_refl)). destruct x as [a|it|s]; simpl in H; [exists (a :: xs)|destruct H as (s & -> & Ls)|tauto]; [constructor; simpl; auto|].
  destruct (nth_error s i) as [y|] eqn:E; [|apply nth_error_None in E; lia]. exists (y :: xs). constructor; simpl; eauto.
Qed.
Lemma all_args_ok a s : rotor_inv a s -> is_ok (all_args s).
Proof.
  intros V. unfold all_args. rewrite (iter_size_inv a s V). simpl. pose proof (ri_size a s V) as (S1 & S2 & S3 & S4).
  assert (G : forall i, (i < sr_size s)%nat -> exists x, args_of (sr_args s) (sr_sh s, sr_dk s, sr_br s, sr_pm s) i = Ok x).
  { intros i L. destruct (chosen_ok i _ _ L S1) as [sh H1]. destruct (chosen_ok i _ _ L S2) as [dk H2]. destruct (chosen_ok i _ _ L S3) as [br H3]. destruct (chosen_ok i _ _ L S4) as [pm H4].
    exists (sh, dk, br, pm). apply (args_chosen a s i _ V). auto. }
  assert (W : forall l, (forall i, In i l -> (i < sr_size s)%nat) -> is_ok (mapM (args_of (sr_args s) (sr_sh s, sr_dk s, sr_br s, sr_pm s)) l)).
  { induction l as [|i l IH]; intros H; cbn [mapM]; [eexists; reflexivity|]. destruct (G i (H i (or_introl eq_refl))) as [x E]. rewrite E. cbn [bind]. destruct IH as [xs ->]; [intros; apply H; right; auto|]. cbn [bind].
    eexists; reflexivity. }
  apply W. intros i I. apply in_seq in I. lia.
Qed.

Lemma for_rotors_iff {B} a s (f : rotor -> res B) out : rotor_inv a s ->
  for_rotors s f = Ok out <-> length out = sr_size s /\ forall i y, nth_error out i = Some y -> exists r, rotor_of_sample a i r /\ f r = Ok y.
Proof.
  intros V. unfold for_rotors. destruct (all_args_ok a s V) as [xs X]. rewrite X. simpl. destruct (all_args_inv a s xs V X) as (L & P). rewrite mapM_F2. split.
  - intros H. split; [rewrite <- (F2_len _ _ _ H); auto|]. intros i y Hy. destruct (F2_nth' _ _ _ H i y Hy) as (x & Hx & Q). ob Q. exists a0. split; auto.
    apply (rotor_sample_iff a s i a0 V). exists x. split; auto.
  - intros (Lo & H).
    assert (W : forall m (ys : list rotor_args) (out : list B), (forall i x, nth_error ys i = Some x -> args_of (sr_args s) (sr_sh s, sr_dk s, sr_br s, sr_pm s) (m + i) = Ok x) ->
      (forall i y, nth_error out i = Some y -> exists r, rotor_of_sample a (m + i) r /\ f r = Ok y) -> length ys = length out -> Forall2 (fun x y => bind (make_rotor x) f = Ok y) ys out).
    { clear -V. intros m ys. revert m. induction ys as [|x ys IH]; intros m [|y out] P H L; simpl in L; try discriminate; constructor.
      - destruct (H 0%nat y eq_refl) as (r & Sr & Fr). apply (rotor_sample_iff a s _ r V) in Sr as (x' & E & M). rewrite (P 0%nat x eq_refl) in E. injection E as <-. rewrite M. exact Fr.
      - apply (IH (S m)); [| |lia].
        + intros i z Hz. replace (S m + i)%nat with (m + S i)%nat by lia. apply P. exact Hz.
        + intros i z Hz. replace (S m + i)%nat with (m + S i)%nat by lia. apply H. exact Hz. }
    apply (W 0%nat xs out P H). congruence.
Qed.
Lemma zip_sound {Y B} a s (ys : list Y) (f : rotor -> Y -> res B) out : rotor_inv a s -> for_rotors_zip s ys f = Ok out ->
  length out = Nat.min (sr_size s) (length ys) /\
  forall i b, nth_error out i = Some b -> exists r y, rotor_of_sample a i r /\ nth_error ys i = Some y /\ f r y = Ok b.
Proof.
  intros V H. unfold for_rotors_zip in H. ob H. destruct (all_args_inv a s a0 V E) as (L & P). rewrite <- L. clear L E.
  assert (W : forall m xs (ys : list Y) (out : list B), (forall i x, nth_error xs i = Some x -> args_of (sr_args s) (sr_sh s, sr_dk s, sr_br s, sr_pm s) (m + i) = Ok x) ->
    zip_loop xs ys f = Ok out -> length out = Nat.min (length xs) (length ys) /\
    forall i b, nth_error out i = Some b -> exists r y, rotor_of_sample a (m + i) r /\ nth_error ys i = Some y /\ f r y = Ok b).
  { clear -V. intros m xs. revert m. induction xs as [|x xs IH]; intros m ys out P H; simpl in H.
    - injection H as <-. split; auto. intros [|i] b; discriminate.
    - ob H. destruct ys as [|y ys]; [injection H as <-; split; auto; intros [|i] b; discriminate|]. ob H. ob H. injection H as <-.
      destruct (IH (S m) ys a2) as (L & Q); auto. { intros i z Hz. replace (S m + i)%nat with (m + S i)%nat by lia. apply P. exact Hz. }
      split; [simpl; auto|]. intros [|i] b Hb; simpl in Hb.
      + injection Hb as <-. exists a0, y. split; [|auto]. apply (rotor_sample_iff a s _ a0 V). exists x. split; auto.
      + destruct (Q i b Hb) as (r & y' & S1 & S2 & S3). exists r, y'. replace (m + S i)%nat with (S m + i)%nat by lia. auto. }
  apply (W 0%nat a0 ys out P H).
Qed.
Lemma zip_complete {Y B} a s (ys : list Y) (f : rotor -> Y -> res B) out : rotor_inv a s -> length ys = sr_size s -> length out = sr_size s ->
  (forall i b, nth_error out i = Some b -> exists r y, rotor_of_sample a i r /\ nth_error ys i = Some y /\ f r y = Ok b) -> for_rotors_zip s ys f = Ok out.
Proof.
  intros V Ly Lo H. unfold for_rotors_zip. destruct (all_args_ok a s V) as [xs X]. rewrite X. simpl. destruct (all_args_inv a s xs V X) as (L & P).
  assert (W : forall m xs (ys : list Y) (out : list B), (forall i x, nth_error xs i = Some x -> args_of (sr_args s) (sr_sh s, sr_dk s, sr_br s, sr_pm s) (m + i) = Ok x) ->
    length xs = length out -> length ys = length out ->
    (forall i b, nth_error out i = Some b -> exists r y, rotor_of_sample a (m + i) r /\ nth_error ys i = Some y /\ f r y = Ok b) -> zip_loop xs ys f = Ok out).
  { clear -V. intros m xs. revert m. induction xs as [|x xs IH]; intros m ys out P L1 L2 H; destruct out as [|b out], ys as [|y ys]; cbn [List.length zip_loop] in *; try discriminate; auto.
    destruct (H 0%nat b eq_refl) as (r & y' & Sr & E & Fr). simpl in E. injection E as <-. apply (rotor_sample_iff a s _ r V) in Sr as (x' & E & M).
    rewrite (P 0%nat x eq_refl) in E. injection E as <-. rewrite M. simpl. rewrite Fr. simpl. rewrite (IH (S m) ys out); auto.
    - intros i z Hz. replace (S m + i)%nat with (m + S i)%nat by lia. apply P. exact Hz.
    - intros i z Hz. replace (S m + i)%nat with (m + S i)%nat by lia. apply H. exact Hz. }
  apply (W 0%nat xs ys out P); auto; congruence.
Qed.

Lemma forallb_eqb n l : forallb (Nat.eqb n) l = true <-> forall m, In m l -> m = n.
Proof. rewrite forallb_forall. split; intros H m I; specialize (H m I); [apply Nat.eqb_eq in H; auto|subst; apply Nat.eqb_refl]. Qed.
Lemma flag_false {A} (o : option nat) (l : list (rarg A)) : class_size l = Ok o -> (is_some o = false <-> its l = []).
Proof.
  intros H. destruct o as [n|]; simpl; split; auto; try discriminate.
  - intros T. apply class_size_none in T. congruence.
  - intros _. apply class_size_none. auto.
Qed.
Lemma size_samples {A} (o : option nat) n (l : list (rarg A)) : no_lists l -> class_size l = Ok o -> (forall m, o = Some m -> m = n) -> forall x, In x l -> has_samples n x.
Proof.
  intros N H Q. apply has_samples_its; auto. destruct o as [m|].
  - rewrite <- (Q m eq_refl). apply class_size_some in H. tauto.
  - apply class_size_none in H. rewrite H. intros it [].
Qed.
Lemma in_somes m l : In m (somes l) <-> In (Some m) l.
Proof.
  unfold somes. rewrite in_flat_map. split.
  - intros ([k|] & I & J); simpl in J; [|tauto]. destruct J as [<-|[]]. auto.
  - intros I. exists (Some m). split; auto. simpl. auto.
Qed.
Lemma init_inv a s : elements_only a -> st_rotor_init a = Ok s -> rotor_inv a s /\ rotor_of_sample a 0 (sr_first s).
Proof.
  intros (N1 & N2 & N3 & N4) H. unfold st_rotor_init in H. ob H. ob H. ob H. ob H. rename a0 into s1, a1 into s2, a2 into s3, a3 into s4.
  destruct (somes [s1; s2; s3; s4]) as [|n rest] eqn:SM; [discriminate|]. destruct (forallb (Nat.eqb n) rest) eqn:FB; [|discriminate].
  ob H. ob H. ob H. ob H. ob H. injection H as <-.
  assert (Z : forall o m, In o [s1; s2; s3; s4] -> o = Some m -> m = n).
  { intros o m I ->. apply in_somes in I. rewrite SM in I. destruct I as [<-|I]; auto. rewrite forallb_eqb in FB. auto. }
  assert (V : rotor_inv a {| sr_args := mkEA a0 a1 a2 a3; sr_sh := is_some s1; sr_dk := is_some s2; sr_br := is_some s3; sr_pm := is_some s4; sr_size := n; sr_first := a4 |}).
  { constructor; simpl; try (apply expand_F2; auto); try (eapply flag_false; eauto).
    - destruct s1; auto. destruct s2; auto. destruct s3; auto. destruct s4; auto. discriminate.
    - repeat split; simpl; eapply size_samples; eauto; intros m Q; eapply Z; eauto; simpl; auto. }
  split; auto. simpl. eapply rotor_sample_iff; [exact V|]. simpl. ob E7. eauto.
Qed.
