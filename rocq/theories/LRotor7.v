(** What an accepted rotor is guaranteed to satisfy; rejected and wrongly accepted input. *)
From Coq Require Import Reals String List Arith Bool Lia Lra Permutation Sorted Psatz.
From Verif Require Import PyBase MatBase SpecMat LMat MShaft SpecShaft MDisk MBearing MRotor SpecRotor LAssembly LRotor LRotor2 LRotorPos LRotor3 LRotor4 LRotor5 LRotorInit LRotorInit2 LRotor6.
Import ListNotations.
Open Scope list_scope.
Open Scope R_scope.

Lemma mapi_has {A B} (f : nat -> A -> B) l x i : In x l -> exists j, In (f j x) (mapi f i l).
Proof.
  revert i. induction l as [|y l IH]; intros i; simpl; [tauto|]. intros [->|H]; [eauto|]. destruct (IH (S i) H) as [j Hj]. eauto.
Qed.
Lemma mapi_length {A B} (f : nat -> A -> B) l i : length (mapi f i l) = length l.
Proof. revert i. induction l; intros; simpl; auto. Qed.
Lemma mapi_nth {A B} (f : nat -> A -> B) l i k x : nth_error l k = Some x -> nth_error (mapi f i l) k = Some (f (i + k)%nat x).
Proof.
  revert i k. induction l as [|y l IH]; intros i [|k]; simpl; try discriminate.
  - intros [= ->]. rewrite Nat.add_0_r. reflexivity.
  - intros H. rewrite (IH (S i) k H). do 2 f_equal. lia.
Qed.

(** explicit tags are the tags of the elements, in the same places *)
Lemma nth_app_cases {A B} (l1 l1' : list A) (l2 l2' : list B) (P : A -> B -> Prop) :
  (forall k x, nth_error l1 k = Some x -> exists y, nth_error l2 k = Some y /\ P x y) -> length l1 = length l2 ->
  (forall k x, nth_error l1' k = Some x -> exists y, nth_error l2' k = Some y /\ P x y) ->
  forall k x, nth_error (l1 ++ l1') k = Some x -> exists y, nth_error (l2 ++ l2') k = Some y /\ P x y.
Proof.
  intros H1 E H2 k x Hk. destruct (Nat.lt_ge_cases k (length l1)) as [Hl|Hl].
  - rewrite nth_error_app1 in Hk by auto. rewrite nth_error_app1 by lia. auto.
  - rewrite nth_error_app2 in Hk by auto. rewrite nth_error_app2 by lia. rewrite <- E. auto.
Qed.
Lemma given_tags_elem shafts disks brgs pms k o : nth_error (given_tags shafts disks brgs pms) k = Some o ->
  exists t, nth_error (map el_tag (mapi mk_shaft 0 shafts ++ mapi mk_disk 0 disks ++ mapi mk_brg 0 brgs ++ mapi mk_pm 0 pms)) k = Some t /\
    (forall u, o = Some u -> t = u).
Proof.
  unfold given_tags. rewrite !map_app. revert k o.
  assert (X : forall A (f : nat -> A -> elem) (g : A -> option string) l,
    (forall i x u, g x = Some u -> el_tag (f i x) = u) ->
    forall k o, nth_error (map g l) k = Some o -> exists t, nth_error (map el_tag (mapi f 0 l)) k = Some t /\ forall u, o = Some u -> t = u).
  { intros A f g l Hg k o Hk. rewrite nth_error_map in Hk. destruct (nth_error l k) as [x|] eqn:Ex; [|discriminate]. injection Hk as <-.
    exists (el_tag (f (0 + k)%nat x)). split; [|intros; eapply Hg; eauto]. rewrite nth_error_map, (mapi_nth f l 0 k x Ex). reflexivity. }
  apply nth_app_cases; [apply X; intros i x u E; simpl; unfold default_tag; rewrite E; reflexivity|rewrite !map_length, mapi_length; reflexivity|].
  apply nth_app_cases; [apply X; intros i x u E; simpl; unfold default_tag; rewrite E; reflexivity|rewrite !map_length, mapi_length; reflexivity|].
  apply nth_app_cases; [apply X; intros i x u E; simpl; unfold default_tag; rewrite E; reflexivity|rewrite !map_length, mapi_length; reflexivity|].
  apply X; intros i x u E; simpl; unfold default_tag; rewrite E; reflexivity.
Qed.

Lemma tags_inj shafts disks brgs pms : 
  tags_unique (map el_tag (sort_n (mapi mk_shaft 0 shafts) ++ mapi mk_disk 0 disks ++ sort_n (mapi mk_brg 0 brgs) ++ mapi mk_pm 0 pms)) = true ->
  forall i j t, nth_error (given_tags shafts disks brgs pms) i = Some (Some t) ->
                nth_error (given_tags shafts disks brgs pms) j = Some (Some t) -> i = j.
Proof.
  intros H i j t Hi Hj. apply tags_unique_iff in H.
  assert (H' : NoDup (map el_tag (mapi mk_shaft 0 shafts ++ mapi mk_disk 0 disks ++ mapi mk_brg 0 brgs ++ mapi mk_pm 0 pms))).
  { eapply Permutation_NoDup; [|exact H]. apply Permutation_map. repeat apply Permutation_app; auto; apply sort_n_perm. }
  destruct (given_tags_elem _ _ _ _ _ _ Hi) as (t1 & H1 & E1). destruct (given_tags_elem _ _ _ _ _ _ Hj) as (t2 & H2 & E2).
  rewrite (E1 t eq_refl) in H1. rewrite (E2 t eq_refl) in H2.
  apply (proj1 (NoDup_nth_error _) H'); [apply nth_error_Some; congruence|congruence].
Qed.

Lemma duplicate_tags_err shafts disks brgs pms i j t : i <> j -> 
  nth_error (given_tags shafts disks brgs pms) i = Some (Some t) -> nth_error (given_tags shafts disks brgs pms) j = Some (Some t) ->
  rotor_init shafts disks brgs pms = Err ValueError.
Proof.
  intros Hij Hi Hj. unfold rotor_init. destruct (tags_unique _) eqn:E; [|reflexivity].
  exfalso. apply Hij. eapply tags_inj; eauto.
Qed.

(** length of the list of node positions *)
Lemma group_max_length' (l : list (nat * R)) b : StronglySorted (fun p q => (fst p <= fst q)%nat) l -> (forall p, In p l -> (fst p <= b)%nat) ->
  forall n p l', l = (n, p) :: l' -> (length (group_max l) + n <= S b)%nat.
Proof.
  induction l as [|[n p] l IH]; intros Hs Hb n0 p0 l0 E; [discriminate|]. injection E as <- <- <-.
  destruct l as [|[n' p'] l].
  - simpl. specialize (Hb (n, p) (or_introl eq_refl)). simpl in Hb. lia.
  - rewrite group_max_cons2. cbv zeta.
    apply StronglySorted_inv in Hs as [Hs Hf].
    assert (Hn : (n <= n')%nat) by (rewrite Forall_forall in Hf; apply (Hf (n', p')); left; reflexivity).
    specialize (IH Hs (fun q Hq => Hb q (or_intror Hq)) n' p' l eq_refl).
    destruct (Nat.eqb_spec n n') as [->|Hne].
    + destruct (group_max ((n', p') :: l)) as [|q g] eqn:Eg; cbn [length] in *.
      * specialize (Hb (n', p) (or_introl eq_refl)). simpl in Hb. lia.
      * lia.
    + cbn [length]. lia.
Qed.

Lemma combine_in_fst {A B} (l : list A) (l' : list B) p : In p (combine l l') -> In (fst p) l.
Proof. destruct p as [a b]. apply in_combine_l. Qed.
Lemma sorted_combine (l : list nat) (l' : list R) : StronglySorted le l -> StronglySorted (fun p q => (fst p <= fst q)%nat) (combine l l').
Proof.
  revert l'. induction l as [|a l IH]; intros [|b l'] Hs; simpl; try constructor.
  - apply IH. inversion Hs; auto.
  - apply StronglySorted_inv in Hs as [_ Hf]. apply Forall_forall. intros [c d] Hin. apply in_combine_l in Hin. rewrite Forall_forall in Hf. apply Hf; auto.
Qed.
Lemma sorted_map_n l : StronglySorted le_n l -> StronglySorted le (map el_n l).
Proof.
  induction 1 as [|e l Hs IH Hf]; simpl; constructor; auto. apply Forall_forall. intros m Hm. apply in_map_iff in Hm as (e' & <- & He').
  rewrite Forall_forall in Hf. apply (Hf e' He').
Qed.
Lemma pos_length r : rfacts r -> (length (r_nodes_pos r) <= r_n_last r + 2)%nat.
Proof.
  intros F. rewrite (rf_pos _ F). unfold nodes_pos. rewrite app_length. cbn [length].
  destruct (combine (map el_n (r_shaft r)) (map fst (MRotor.shaft_pos (r_shaft r)))) as [|[n p] l] eqn:E; [simpl; lia|].
  assert (H : (length (group_max ((n, p) :: l)) + n <= S (r_n_last r))%nat); [|lia].
  rewrite <- E. eapply group_max_length'; [| |exact E].
  - apply sorted_combine, sorted_map_n, rf_sorted; auto.
  - intros q Hq. apply combine_in_fst in Hq. rewrite (rf_last _ F). apply max_list_ge; auto.
Qed.
Lemma disk_pos_bound pos dk l e : disk_positions pos dk = Ok l -> In e dk -> (el_n e < length pos)%nat.
Proof.
  revert l. induction dk as [|d dk IH]; intros l; simpl; [tauto|]. destruct (nth_error pos (el_n d)) as [p|] eqn:En; [|discriminate].
  destruct (disk_positions pos dk) as [l'|] eqn:Ed; [|discriminate]. intros _ [<-|Hin]; [|eauto]. apply nth_error_Some. congruence.
Qed.

(** connectedness: rows with a position belong to connected nodes *)
Section Conn.
Variable r : rotor.
Definition good_row (w : row) : Prop :=
  (w_pl w <> None -> (forall n, w_nl w = Some n -> connected r n) /\ (forall n m, w_nl w = Some n -> w_link w = Some m -> connected r n -> connected r m)) /\
  (w_pr w <> None -> forall n, w_nr w = Some n -> connected r n) /\ (w_link w <> None -> w_nl w <> None).
Definition same_frame (w : row) (b : elem) : Prop := w_tag w = el_tag b -> w_nl w = Some (el_n b) /\ w_nr w = Some (el_n b) /\ w_link w = el_link b.

Lemma onat_true o n : onat_is o n = true -> o = Some n.
Proof. destruct o as [m|]; simpl; [|discriminate]. intros H. apply Nat.eqb_eq in H. congruence. Qed.
Lemma first_in {A B} (f : A -> B) (p : A -> bool) l y l' : map f (filter p l) = y :: l' -> exists x, In x l /\ p x = true /\ f x = y.
Proof.
  intros H. assert (Hin : In y (map f (filter p l))) by (rewrite H; left; reflexivity). apply in_map_iff in Hin as (x & E & Hx).
  apply filter_In in Hx as [Hx Hp]. eauto.
Qed.
Lemma locate_one_good df b df' : In b (r_brg r) -> Forall good_row df -> Forall (fun w => same_frame w b) df -> locate_one df b = Ok df' ->
  Forall good_row df'.
Proof.
  intros Hb Hg Hf. unfold locate_one.
  set (other := filter (fun w => negb (String.eqb (w_tag w) (el_tag b))) df).
  assert (Ho : forall w, In w other -> In w df) by (intros w Hw; apply filter_In in Hw; tauto).
  assert (K : forall p, (p <> None -> connected r (el_n b)) -> Forall good_row (set_pos (el_tag b) p df)).
  { intros p Hp. unfold set_pos. apply Forall_forall. intros w Hw. apply in_map_iff in Hw as (w0 & <- & Hw0).
    rewrite Forall_forall in Hg, Hf. destruct (String.eqb_spec (w_tag w0) (el_tag b)) as [E|E]; [|apply Hg; auto].
    destruct (Hf w0 Hw0 E) as (E1 & E2 & E3). unfold good_row. cbn [w_pl w_pr w_nl w_nr w_link]. rewrite E1, E2, E3. split; [|split].
    - intros Hne. split; [intros n [= <-]; auto|]. intros n m [= <-] Hm Hc. eapply conn_link; eauto.
    - intros Hne n [= <-]; auto.
    - congruence. }
  destruct (map w_pl (filter (fun w => onat_is (w_nl w) (el_n b)) other)) as [|p ps] eqn:El.
  - destruct (map w_pr (filter (fun w => onat_is (w_nr w) (el_n b)) other)) as [|p ps] eqn:Er.
    + destruct (map w_pl (filter (fun w => onat_is (w_link w) (el_n b)) other)) as [|p ps] eqn:Ek; [discriminate|].
      intros [= <-]. apply K. intros Hp. apply first_in in Ek as (w & Hw & E & <-). apply onat_true in E.
      rewrite Forall_forall in Hg. destruct (Hg w (Ho w Hw)) as (G1 & G2 & G3). destruct (G1 Hp) as [G4 G5].
      destruct (w_nl w) as [n|] eqn:En; [|exfalso; apply G3; congruence]. eapply G5; eauto.
    + intros [= <-]. apply K. intros Hp. apply first_in in Er as (w & Hw & E & <-). apply onat_true in E.
      rewrite Forall_forall in Hg. destruct (Hg w (Ho w Hw)) as (G1 & G2 & G3). eauto.
  - intros [= <-]. apply K. intros Hp. apply first_in in El as (w & Hw & E & <-). apply onat_true in E.
    rewrite Forall_forall in Hg. destruct (Hg w (Ho w Hw)) as (G1 & G2 & G3). apply G1; auto.
Qed.
Lemma set_pos_frame t p df b : Forall (fun w => same_frame w b) df -> Forall (fun w => same_frame w b) (set_pos t p df).
Proof.
  intros H. apply Forall_forall. intros w Hw. unfold set_pos in Hw. apply in_map_iff in Hw as (w0 & <- & Hw0). rewrite Forall_forall in H.
  specialize (H w0 Hw0). destruct (String.eqb _ _); auto.
Qed.
Lemma locate_one_frame df b df' c : locate_one df b = Ok df' -> Forall (fun w => same_frame w c) df -> Forall (fun w => same_frame w c) df'.
Proof.
  unfold locate_one. intros H Hf. destruct (map w_pl _) as [|p ps]; [destruct (map w_pr _) as [|p ps]; [destruct (map w_pl _) as [|p ps]; [discriminate|]|]|];
  injection H as <-; apply set_pos_frame; auto.
Qed.
Lemma locate_all_good br df df' : (forall b, In b br -> In b (r_brg r)) -> Forall good_row df ->
  (forall b, In b (r_brg r) -> Forall (fun w => same_frame w b) df) -> locate_all df br = Ok df' ->
  Forall good_row df' /\ forall b, In b (r_brg r) -> Forall (fun w => same_frame w b) df'.
Proof.
  revert df. induction br as [|b br IH]; intros df Hb Hg Hf; simpl; [intros [= <-]; auto|].
  destruct (locate_one df b) as [df1|] eqn:E; [|discriminate]. cbn [bind]. intros H.
  assert (Hbr : forall c, In c br -> In c (r_brg r)) by (intros; apply Hb; right; auto).
  refine (IH df1 Hbr _ _ H).
  - eapply locate_one_good; eauto; [apply Hb; left; auto|apply Hf, Hb; left; auto].
  - intros c Hc. eapply locate_one_frame; eauto.
Qed.
End Conn.

Lemma heights_ok_pos sh br df todo b : heights_ok sh br df todo = Ok tt -> In b todo -> row_pos df (el_tag b) <> None.
Proof.
  induction todo as [|c todo IH]; simpl; [tauto|]. destruct (height_ok _ _ _) as [u|] eqn:E; [|discriminate]. cbn [bind]. intros H [->|Hin]; [|auto].
  unfold height_ok in E. destruct (row_pos df (el_tag b)); [discriminate|discriminate].
Qed.

Lemma sort_rows_in l w : In w (sort_rows l) -> In w l.
Proof. intros H. eapply Permutation_in; [apply sort_rows_perm|exact H]. Qed.

Lemma rotor_accepted shafts disks brgs pms r : rotor_init shafts disks brgs pms = Ok r -> accepted shafts disks brgs pms r.
Proof.
  intros H. pose proof (rotor_facts _ _ _ _ _ H) as F. destruct (rotor_init_lists _ _ _ _ _ H) as (Es & Ed & Eb & Ep).
  assert (Is : forall s, In s shafts -> exists i, In (mk_shaft i s) (r_shaft r)).
  { intros s Hs. destruct (mapi_has mk_shaft shafts s 0 Hs) as [i Hi]. exists i. rewrite Es. apply sort_n_in; auto. }
  assert (Id : forall s, In s disks -> exists i, In (mk_disk i s) (r_disk r)).
  { intros s Hs. destruct (mapi_has mk_disk disks s 0 Hs) as [i Hi]. exists i. rewrite Ed. auto. }
  assert (Ib : forall s, In s brgs -> exists i, In (mk_brg i s) (r_brg r)).
  { intros s Hs. destruct (mapi_has mk_brg brgs s 0 Hs) as [i Hi]. exists i. rewrite Eb. apply sort_n_in; auto. }
  assert (Ip : forall s, In s pms -> exists i, In (mk_pm i s) (r_pm r)).
  { intros s Hs. destruct (mapi_has mk_pm pms s 0 Hs) as [i Hi]. exists i. rewrite Ep. auto. }
  constructor.
  - intros ->. apply (rf_nonempty _ F). rewrite Es. reflexivity.
  - exists (Nat.eqb (r_nd r) 6). pose proof (rf_nd _ F) as Hnd. repeat split.
    + intros s Hs. destruct (Is s Hs) as [i Hi]. apply in_shaft_elements in Hi. apply (rf_fam _ F) in Hi. unfold mk_shaft in Hi. simpl in Hi. unfold fam in Hi.
      rewrite Hi. destruct (rs_six s); reflexivity.
    + intros s Hs. destruct (Id s Hs) as [i Hi]. assert (Hi' : In (mk_disk i s) (r_elements r)) by (unfold r_elements; rewrite !in_app_iff; auto).
      apply (rf_fam _ F) in Hi'. unfold mk_disk in Hi'. simpl in Hi'. unfold fam in Hi'. rewrite Hi'. destruct (rd_six s); reflexivity.
    + intros s Hs. destruct (Ib s Hs) as [i Hi]. assert (Hi' : In (mk_brg i s) (r_elements r)) by (unfold r_elements; rewrite !in_app_iff; auto).
      apply (rf_fam _ F) in Hi'. unfold mk_brg in Hi'. destruct s; simpl in Hi'; unfold fam in Hi'; rewrite Hi'; reflexivity.
  - apply tags_inj. rewrite <- Es, <- Ed, <- Eb, <- Ep. exact (rf_tags _ F).
  - intros d Hd. destruct (Id d Hd) as [i Hi]. destruct (rf_dpos _ F) as (dpos & Hdp & _). pose proof (disk_pos_bound _ _ _ _ Hdp Hi) as Hlt.
    rewrite <- (rf_pos _ F) in Hlt. pose proof (pos_length r F). simpl in Hlt. lia.
  - intros b Hb. destruct (Ib b Hb) as [i Hi].
    revert H. unfold rotor_init. rewrite <- Es, <- Ed, <- Eb, <- Ep.
    destruct (tags_unique _); [|discriminate]. cbn [negb].
    destruct (check_number_dof _ _ _) as [nd|]; [|discriminate]. cbn [bind].
    destruct (location_ok _ _ _ _); [|discriminate]. cbn [negb].
    destruct (disk_positions _ _) as [dpos|] eqn:Hdp; [|discriminate]. cbn [bind]. cbv zeta.
    destruct (locate_all _ _) as [df|] eqn:Hloc; [|discriminate]. cbn [bind].
    destruct (heights_ok _ _ _ _) as [[]|] eqn:Hh; [|discriminate]. intros _.
    assert (Hrows : forall w, In w (sort_rows (
      map (fun p => elem_row (fst p) (Some (fst (snd p))) (Some (snd (snd p)))) (combine (r_shaft r) (MRotor.shaft_pos (r_shaft r)))
      ++ map (fun p => elem_row (fst p) (Some (snd p)) (Some (snd p))) (combine (r_disk r) dpos)
      ++ map (fun b => elem_row b None None) (filter (fun b => match b with EBrg _ (RB4 true _) => false | _ => true end) (r_brg r))
      ++ map (fun b => elem_row b None None) (r_pm r)
      ++ map (fun b => elem_row b None None) (filter (fun b => match b with EBrg _ (RB4 true _) => true | _ => false end) (r_brg r)))) ->
      exists e p q, In e (r_elements r) /\ w = elem_row e p q /\ (In e (r_brg r) \/ In e (r_pm r) -> p = None /\ q = None)).
    { assert (Ndtag : forall e e', In e (r_shaft r ++ r_disk r) -> In e' (r_brg r ++ r_pm r) -> e <> e').
      { intros e e' He He' <-. apply in_app_or in He as [He|He]; apply in_app_or in He' as [He'|He'];
        [destruct (rf_shaft _ F _ He) as (? & ? & ? & ? & ->); destruct (rf_brg _ F _ He') as (? & ? & ?)
        |destruct (rf_shaft _ F _ He) as (? & ? & ? & ? & ->); destruct (rf_pm _ F _ He') as (? & ? & ? & ?)
        |destruct (rf_disk _ F _ He) as (? & ? & ? & ->); destruct (rf_brg _ F _ He') as (? & ? & ?)
        |destruct (rf_disk _ F _ He) as (? & ? & ? & ->); destruct (rf_pm _ F _ He') as (? & ? & ? & ?)]; discriminate. }
      intros w Hw. apply sort_rows_in in Hw. rewrite !in_app_iff in Hw. destruct Hw as [Hw|[Hw|[Hw|[Hw|Hw]]]].
      - apply in_map_iff in Hw as ([e [p q]] & <- & Hin). apply in_combine_l in Hin. exists e, (Some p), (Some q). repeat split; auto.
        + apply in_shaft_elements; auto.
        + destruct H as [H|H]; exfalso; apply (Ndtag e e); auto; apply in_or_app; auto.
        + destruct H as [H|H]; exfalso; apply (Ndtag e e); auto; apply in_or_app; auto.
      - apply in_map_iff in Hw as ([e p] & <- & Hin). apply in_combine_l in Hin. exists e, (Some p), (Some p). repeat split; auto.
        + unfold r_elements; rewrite !in_app_iff; auto.
        + destruct H as [H|H]; exfalso; apply (Ndtag e e); auto; apply in_or_app; auto.
        + destruct H as [H|H]; exfalso; apply (Ndtag e e); auto; apply in_or_app; auto.
      - apply in_map_iff in Hw as (e & <- & Hin). apply filter_In in Hin as [Hin _]. exists e, None, None. repeat split; auto. unfold r_elements; rewrite !in_app_iff; auto.
      - apply in_map_iff in Hw as (e & <- & Hin). exists e, None, None. repeat split; auto. unfold r_elements; rewrite !in_app_iff; auto.
      - apply in_map_iff in Hw as (e & <- & Hin). apply filter_In in Hin as [Hin _]. exists e, None, None. repeat split; auto. unfold r_elements; rewrite !in_app_iff; auto. }
    assert (Htag : forall e e', In e (r_elements r) -> In e' (r_elements r) -> el_tag e = el_tag e' -> e = e').
    { intros e e'. apply tag_inj. apply tags_unique_iff. exact (rf_tags _ F). }
    match type of Hloc with locate_all ?l _ = _ => remember l as rows0 eqn:Erows end. clear Erows.
    assert (Hg0 : Forall (good_row r) rows0).
    { apply Forall_forall. intros w Hw. destruct (Hrows w Hw) as (e & p & q & He & -> & Hpq).
      unfold r_elements in He. rewrite !in_app_iff in He. destruct He as [He|[He|[He|He]]].
      * destruct (rf_shaft _ F _ He) as (six & n & t & s & ->). unfold good_row, elem_row. cbn [w_pl w_pr w_nl w_nr w_link]. split; [|split].
        -- intros _. split; [intros n' [= <-]; apply (conn_left r _ He)|intros; discriminate].
        -- intros _ n' [= <-]. apply (conn_right r _ He).
        -- congruence.
      * destruct (rf_disk _ F _ He) as (six & t & d & ->). unfold good_row, elem_row. cbn [w_pl w_pr w_nl w_nr w_link]. split; [|split].
        -- intros _. split; [intros n' [= <-]; apply (conn_disk r _ He)|intros; discriminate].
        -- intros _ n' [= <-]. apply (conn_disk r _ He).
        -- congruence.
      * destruct Hpq as [-> ->]; [auto|]. destruct (rf_brg _ F _ He) as (t & b' & ->). unfold good_row, elem_row. cbn [w_pl w_pr w_nl w_nr w_link]. split; [|split]; congruence.
      * destruct Hpq as [-> ->]; [auto|]. destruct (rf_pm _ F _ He) as (six & t & b' & ->). unfold good_row, elem_row. cbn [w_pl w_pr w_nl w_nr w_link]. split; [|split]; congruence. }
    assert (Hf0 : forall c, In c (r_brg r) -> Forall (fun w => same_frame w c) rows0).
    { intros c Hc. apply Forall_forall. intros w Hw. destruct (Hrows w Hw) as (e & p & q & He & -> & _). intros Et.
      assert (el_tag e = el_tag c) by (destruct e; simpl in Et; auto).
      assert (e = c) by (apply Htag; auto; unfold r_elements; rewrite !in_app_iff; auto). subst e.
      destruct (rf_brg _ F _ Hc) as (t & b' & ->). repeat split. }
    destruct (locate_all_good r (r_brg r) rows0 df (fun b Hb => Hb) Hg0 Hf0 Hloc) as [Hg Hfr].
    { pose proof (heights_ok_pos _ _ _ _ _ Hh Hi) as Hp. unfold row_pos in Hp. destruct (find _ df) as [w|] eqn:Ef; [|congruence].
      apply find_some in Ef as [Hw Et]. apply String.eqb_eq in Et. specialize (Hfr _ Hi). rewrite Forall_forall in Hg, Hfr.
      destruct (Hfr w Hw Et) as (E1 & _ & _). destruct (Hg w Hw) as (G1 & _ & _). destruct (G1 Hp) as [G2 _]. apply (G2 _ E1). }
  - intros p Hp. destruct (Ip p Hp) as [i Hi]. pose proof (rf_pmok _ F) as Hok. unfold pm_ok in Hok. rewrite forallb_forall in Hok.
    specialize (Hok _ Hi). apply existsb_exists in Hok as (b & Hb & E). apply Nat.eqb_eq in E. rewrite Eb in Hb. apply sort_n_in, mapi_in in Hb as (j & s & Hs & ->).
    exists s. split; auto.
Qed.
