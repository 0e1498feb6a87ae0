From Coq Require Import Reals String List Bool Arith Lia Lra Permutation Sorted Psatz.
From Verif Require Import PyBase MatBase MBearing MRotor MStatic MSummary SpecSummary LRotor LRotor6 SpecRotor LAssembly LRotor2 LRotorPos LRotor5 LRotorInit LRotorInit2 LRotor7 MShaft MDisk SpecMat.
Import ListNotations.
Open Scope string_scope.
Open Scope list_scope.
Open Scope R_scope.

(** ** the frames of successive calls *)
Definition good (f : frame) : Prop := ~ In "nodes_pos_l" (labels f) /\ ~ In "nodes_pos_l_x" (labels f) /\ ~ In "nodes_pos_l_y" (labels f).
Lemma good_elements attrs l : plain attrs -> good (elements_frame attrs l).
Proof.
  intros P. unfold elements_frame. destruct l as [|e l]; [repeat split; intros [H|[]]; discriminate|]. unfold good, labels. rewrite map_app, map_map. cbn [map fst]. rewrite map_id.
  repeat split; rewrite in_app_iff; intros [H|[H|[H|[]]]]; try discriminate; apply P in H; apply H; simpl; auto.
Qed.
Lemma column_app_l l f g c : column l f = Ok c -> column l (f ++ g) = Ok c.
Proof. induction f as [|[k d] f IH]; [discriminate|]. cbn. destruct (String.eqb k l); auto. Qed.
Lemma column_none l f : ~ In l (labels f) -> column l f = Err KeyError.
Proof. induction f as [|[k d] f IH]; [reflexivity|]. cbn. intros H. destruct (String.eqb_spec k l); [exfalso; apply H; auto|]. apply IH. tauto. Qed.
Lemma column_app_r l f g : ~ In l (labels f) -> column l (f ++ g) = column l g.
Proof. induction f as [|[k d] f IH]; [reflexivity|]. cbn. intros H. destruct (String.eqb_spec k l); [exfalso; apply H; auto|]. apply IH. tauto. Qed.
Lemma existsb_in l k : existsb (String.eqb k) l = true <-> In k l.
Proof. rewrite existsb_exists. split; [intros (x & H & E); apply String.eqb_eq in E; subst; exact H|intros H; exists k; split; [exact H|apply String.eqb_refl]]. Qed.
Lemma existsb_not l k : existsb (String.eqb k) l = false <-> ~ In k l.
Proof. rewrite <- existsb_in. destruct (existsb _ l); split; congruence. Qed.
Lemma labels_app f g : labels (f ++ g) = labels f ++ labels g.
Proof. apply map_app. Qed.
Lemma rename_id f : ~ In "nodes_pos_l" (labels f) -> rename_left f = f.
Proof.
  induction f as [|[k d] f IH]; [reflexivity|]. unfold rename_left. cbn [map fst snd labels In]. intros H. destruct (String.eqb_spec k "nodes_pos_l"); [exfalso; apply H; left; assumption|].
  f_equal. apply IH. intros I. apply H. right. exact I.
Qed.
Lemma rename_app f g : rename_left (f ++ g) = rename_left f ++ rename_left g.
Proof. apply map_app. Qed.
Lemma dup_app l : forall seen m, duplicated seen (l ++ m) = duplicated seen l ++ duplicated (rev l ++ seen) m.
Proof. induction l as [|x l IH]; intros seen m; [reflexivity|]. cbn. rewrite IH, <- app_assoc. reflexivity. Qed.
Lemma dup_length l : forall seen, List.length (duplicated seen l) = List.length l.
Proof. induction l; intros; cbn; auto. Qed.
Lemma combine_app {A B} (a a' : list A) (b b' : list B) : List.length a = List.length b -> combine (a ++ a') (b ++ b') = combine a b ++ combine a' b'.
Proof. revert b. induction a as [|x a IH]; intros [|y b] H; try discriminate; [reflexivity|]. cbn. rewrite IH; [reflexivity|]. injection H; auto. Qed.
Lemma clash_same l : existsb (fun p => (negb (fst p) && snd p)%bool) (combine l l) = false.
Proof. induction l as [|[] l IH]; cbn; auto. Qed.
(** adding one label at the end *)
Lemma clash_last l x y : suffix_clash (l ++ [x]) (l ++ [y]) = (negb (existsb (String.eqb x) l) && existsb (String.eqb y) l)%bool.
Proof.
  unfold suffix_clash. rewrite !dup_app, app_nil_r, combine_app by reflexivity. rewrite existsb_app, clash_same. cbn. rewrite orb_false_r.
  assert (E : forall k, existsb (String.eqb k) (rev l) = existsb (String.eqb k) l).
  { intros k. apply eq_true_iff_eq. rewrite !existsb_in, <- in_rev. reflexivity. }
  rewrite !E. reflexivity.
Qed.

Section Merge.
Variables (df : list row) (f0 : frame) (tags : list cell).
Hypothesis G : good f0.
Hypothesis T : column "tag" f0 = Ok tags.
Let new := map (fun c => match c with CTag t => CPos (row_pos df t) | _ => CPos None end) tags.
Let xy : frame := [("nodes_pos_l_x", new); ("nodes_pos_l_y", new)].
Fixpoint twice (j : nat) : frame := match j with O => f0 | S j => twice j ++ xy end.
Lemma twice_tag j : column "tag" (twice j) = Ok tags.
Proof. induction j; [exact T|]. cbn. apply column_app_l, IHj. Qed.
Lemma twice_no j : ~ In "nodes_pos_l" (labels (twice j)).
Proof. induction j; [apply G|]. cbn [twice]. unfold labels. rewrite map_app, in_app_iff. intros [H|[H|[H|[]]]]; [exact (IHj H)|discriminate|discriminate]. Qed.
Lemma twice_x j : In "nodes_pos_l_x" (labels (twice (S j))).
Proof. cbn [twice]. unfold labels. rewrite map_app, in_app_iff. right. left. reflexivity. Qed.
Definition odd_frame (j : nat) : frame := twice j ++ [("nodes_pos_l", new)].
Lemma merge_even strict j : merge_pos strict df (twice j) = Ok (odd_frame j).
Proof. unfold merge_pos. rewrite twice_tag. cbn [bind]. rewrite (proj2 (existsb_not _ _) (twice_no j)). reflexivity. Qed.
Lemma merge_odd strict j : merge_pos strict df (odd_frame j) = if (strict && negb (Nat.eqb j 0))%bool then Err ValueError else Ok (twice (S j)).
Proof.
  unfold merge_pos, odd_frame. rewrite (column_app_l _ _ _ _ (twice_tag j)). cbn [bind].
  assert (I1 : In "nodes_pos_l" (labels (twice j ++ [("nodes_pos_l", new)]))) by (unfold labels; rewrite map_app, in_app_iff; right; left; reflexivity).
  rewrite (proj2 (existsb_in _ _) I1). rewrite rename_app, (rename_id _ (twice_no j)). cbn [rename_left map fst snd String.eqb Ascii.eqb Bool.eqb].
  assert (C : suffix_clash (labels (twice j ++ [("nodes_pos_l", new)])) (labels (twice j ++ [("nodes_pos_l_x", new)])) = negb (Nat.eqb j 0)).
  { rewrite !labels_app. cbn [labels map fst]. rewrite clash_last. rewrite (proj2 (existsb_not _ _) (twice_no j)). cbn [negb andb]. destruct j.
    - cbn [twice Nat.eqb negb]. apply existsb_not. apply G.
    - cbn [Nat.eqb negb]. apply existsb_in. apply twice_x. }
  rewrite C. destruct (strict && _)%bool; [reflexivity|]. cbn [twice]. unfold xy. rewrite <- app_assoc. reflexivity.
Qed.
Lemma odd_column j : column "tag" (odd_frame j) = Ok tags /\ column "nodes_pos_l" (odd_frame j) = Ok new.
Proof. unfold odd_frame. split; [apply column_app_l, twice_tag|]. rewrite column_app_r by apply twice_no. reflexivity. Qed.
Lemma even_column j : column "nodes_pos_l" (twice j) = Err KeyError.
Proof. apply column_none, twice_no. Qed.
End Merge.

(** ** positions *)
Lemma init_df shafts disks brgs pms r : rotor_init shafts disks brgs pms = Ok r -> exists df dpos, rotor_df r = Ok df /\
  heights_ok (r_shaft r) (r_brg r) df (r_brg r) = Ok tt /\ disk_positions (r_nodes_pos r) (r_disk r) = Ok dpos.
Proof.
  unfold rotor_init. destruct (tags_unique _); [|discriminate]. cbn [negb].
  destruct (check_number_dof _ _ _) as [nd|]; [|discriminate]. cbn [bind].
  destruct (location_ok _ _ _ _); [|discriminate]. cbn [negb].
  destruct (disk_positions _ _) as [dpos|] eqn:D; [|discriminate]. cbn [bind]. cbv zeta.
  destruct (locate_all _ _) as [df|] eqn:L; [|discriminate]. cbn [bind].
  destruct (heights_ok _ _ _ _) as [[]|] eqn:H; [|discriminate]. cbn [bind].
  destruct (pm_ok _ _); [|discriminate]. cbn [negb]. intros [= <-]. exists df, dpos. unfold rotor_df. cbn [r_nodes_pos r_disk r_shaft r_shaft_pos r_brg r_pm]. rewrite D. cbn [bind]. auto.
Qed.
(** every row of the tag has this position, and there is one *)
Definition pos_is (df : list row) (t : string) (p : option R) : Prop := (exists w, In w df /\ w_tag w = t) /\ forall w, In w df -> w_tag w = t -> w_pl w = p.
Lemma pos_is_row df t p : pos_is df t p -> row_pos df t = p.
Proof.
  intros ((w & Hw & Ht) & H). unfold row_pos. destruct (find _ df) as [v|] eqn:E.
  - apply find_some in E as (Hv & E). apply String.eqb_eq in E. exact (H _ Hv E).
  - exfalso. apply (find_none _ _ E) in Hw. rewrite Ht, String.eqb_refl in Hw. discriminate.
Qed.
Lemma set_pos_other df t p t' q : t <> t' -> pos_is df t p -> pos_is (set_pos t' q df) t p.
Proof.
  intros N ((w & Hw & Ht) & H). unfold set_pos. split.
  - exists w. split; [|exact Ht]. apply in_map_iff. exists w. split; [|exact Hw]. rewrite Ht. destruct (String.eqb_spec t t'); [contradiction|reflexivity].
  - intros v Hv Ev. apply in_map_iff in Hv as (u & <- & Hu). destruct (String.eqb_spec (w_tag u) t') as [E|E]; [cbn in Ev; congruence|]. apply H; assumption.
Qed.
Lemma locate_other br : forall df df' t p, (forall b, In b br -> el_tag b <> t) -> locate_all df br = Ok df' -> pos_is df t p -> pos_is df' t p.
Proof.
  induction br as [|b br IH]; intros df df' t p N; cbn [locate_all]; [intros [= <-]; auto|]. destruct (locate_one df b) as [df1|] eqn:E; [|discriminate]. cbn [bind]. intros L P.
  apply (IH df1 df' t p); [intros b' Hb'; apply N; right; exact Hb'|exact L|]. assert (Nt : t <> el_tag b) by (intros ->; apply (N b); [left; reflexivity|reflexivity]).
  revert E. unfold locate_one. destruct (map w_pl _) as [|p1 l1]; [destruct (map w_pr _) as [|p2 l2]; [destruct (map w_pl _) as [|p3 l3]; [discriminate|]|]|]; intros [= <-]; apply set_pos_other; assumption.
Qed.
Lemma disk_positions_nth pos dk dpos : disk_positions pos dk = Ok dpos -> List.length dpos = List.length dk /\ forall e p, In (e, p) (combine dk dpos) -> nth_error pos (el_n e) = Some p.
Proof.
  revert dpos. induction dk as [|d dk IH]; intros dpos; cbn [disk_positions]; [intros [= <-]; split; [reflexivity|intros e p []]|].
  destruct (nth_error pos (el_n d)) as [p|] eqn:E; [|discriminate]. destruct (disk_positions pos dk) as [l|]; [|discriminate]. intros [= <-]. destruct (IH l eq_refl) as (L & H).
  split; [cbn; congruence|]. intros e q [[= <- <-]|Hin]; [exact E|exact (H _ _ Hin)].
Qed.
Lemma elem_row_tag e p q : w_tag (elem_row e p q) = el_tag e.
Proof. destruct e; reflexivity. Qed.
Lemma disk_pos shafts disks brgs pms r df e : rotor_init shafts disks brgs pms = Ok r -> rotor_df r = Ok df -> In e (r_disk r) -> row_pos df (el_tag e) = nth_error (r_nodes_pos r) (el_n e).
Proof.
  intros E D He. pose proof (rotor_facts _ _ _ _ _ E) as F. destruct (init_df _ _ _ _ _ E) as (df' & dpos & _ & _ & Hd).
  unfold rotor_df in D. rewrite Hd in D. cbn [bind] in D. destruct (disk_positions_nth _ _ _ Hd) as (Ld & Hp).
  assert (Tag : forall e e', In e (r_elements r) -> In e' (r_elements r) -> el_tag e = el_tag e' -> e = e') by (intros a b; apply tag_inj, tags_unique_iff; exact (rf_tags _ F)).
  assert (InD : forall x, In x (r_disk r) -> In x (r_elements r)) by (intros x Hx; unfold r_elements; rewrite !in_app_iff; auto).
  assert (InB : forall x, In x (r_brg r) -> In x (r_elements r)) by (intros x Hx; unfold r_elements; rewrite !in_app_iff; auto).
  assert (Ex : exists p, In (e, p) (combine (r_disk r) dpos)).
  { apply In_nth_error in He as (i & Hi). assert (Li : (i < List.length dpos)%nat) by (rewrite Ld; apply nth_error_Some; congruence). apply nth_error_Some in Li. destruct (nth_error dpos i) as [p|] eqn:Ep; [|congruence].
    exists p. clear - Hi Ep. revert dpos i Hi Ep. induction (r_disk r) as [|d l IH]; intros dpos [|i] Hi Ep; destruct dpos as [|q dpos]; try discriminate; cbn in *; [left; congruence|right; eapply IH; eauto]. }
  destruct Ex as (p & Hep). rewrite (Hp _ _ Hep). apply pos_is_row. eapply locate_other; [|exact D|].
  - intros b Hb Eb. assert (b = e) by (apply Tag; auto). subst b. destruct (rf_disk _ F _ He) as (? & ? & ? & ->). destruct (rf_brg _ F _ Hb) as (? & ? & [=]).
  - split.
    + exists (elem_row e (Some p) (Some p)). split; [|apply elem_row_tag]. eapply Permutation_in; [symmetry; apply sort_rows_perm|]. rewrite !in_app_iff. right; left. apply in_map_iff. exists (e, p). auto.
    + intros w Hw Et. apply (Permutation_in _ (sort_rows_perm _)) in Hw. rewrite !in_app_iff in Hw. destruct Hw as [Hw|[Hw|[Hw|[Hw|Hw]]]]; apply in_map_iff in Hw as (x & <- & Hx); rewrite elem_row_tag in Et.
      * destruct x as [x pq]. apply in_combine_l in Hx. cbn [fst] in Et. assert (x = e) by (apply Tag; auto; unfold r_elements; rewrite !in_app_iff; auto). subst x.
        destruct (rf_disk _ F _ He) as (? & ? & ? & ->). destruct (rf_shaft _ F _ Hx) as (? & ? & ? & ? & [=]).
      * destruct x as [x q]. cbn [fst snd] in *. assert (x = e) by (apply Tag; auto; apply InD; eapply in_combine_l; exact Hx). subst x. pose proof (Hp _ _ Hx) as E1. rewrite (Hp _ _ Hep) in E1. injection E1 as <-. destruct e; reflexivity.
      * apply filter_In in Hx as (Hx & _). assert (x = e) by (apply Tag; auto). subst x. destruct (rf_disk _ F _ He) as (? & ? & ? & ->). destruct (rf_brg _ F _ Hx) as (? & ? & [=]).
      * assert (x = e) by (apply Tag; auto; unfold r_elements; rewrite !in_app_iff; auto). subst x. destruct (rf_disk _ F _ He) as (? & ? & ? & ->). destruct (rf_pm _ F _ Hx) as (? & ? & ? & [=]).
      * apply filter_In in Hx as (Hx & _). assert (x = e) by (apply Tag; auto). subst x. destruct (rf_disk _ F _ He) as (? & ? & ? & ->). destruct (rf_brg _ F _ Hx) as (? & ? & [=]).
Qed.

(** ** where the bearings stand *)
Lemma brg_pos shafts disks brgs pms last ro df : well_formed shafts disks brgs pms last -> rotor_init shafts disks brgs pms = Ok ro -> rotor_df ro = Ok df ->
  forall b, In b (r_brg ro) -> exists z, row_pos df (el_tag b) = Some z /\ stands_at ro (el_n b) z.
Proof.
  intros W E0 D. pose proof (rotor_facts _ _ _ _ _ E0) as F0. destruct (rotor_init_lists _ _ _ _ _ E0) as (Es & Ed & Eb & Ep).
  pose proof (rf_pos _ F0) as Enp. pose proof (rf_spos _ F0) as Esp. revert D. unfold rotor_df. rewrite Enp, Esp, Es, Ed, Eb, Ep. rewrite Es in Enp.
  set (sh := sort_n (mapi mk_shaft 0 shafts)). set (dk := mapi mk_disk 0 disks).
  set (br := sort_n (mapi mk_brg 0 brgs)). set (pm := mapi mk_pm 0 pms).
  assert (Xs : forall e, In e sh -> exists i s, In s shafts /\ e = mk_shaft i s).
  { intros e He. apply sort_n_in, mapi_in in He as (j & x & Hx & ->). eauto. }
  assert (Xd : forall e, In e dk -> exists i s, In s disks /\ e = mk_disk i s).
  { intros e He. apply mapi_in in He as (j & x & Hx & ->). eauto. }
  assert (Xb : forall e, In e br -> exists i s, In s brgs /\ e = mk_brg i s).
  { intros e He. apply sort_n_in, mapi_in in He as (j & x & Hx & ->). eauto. }
  assert (Xp : forall e, In e pm -> exists i s, In s pms /\ e = mk_pm i s).
  { intros e He. apply mapi_in in He as (j & x & Hx & ->). eauto. }
  assert (Ys : forall s, In s shafts -> exists i, In (mk_shaft i s) sh).
  { intros s Hs. destruct (mapi_map_in mk_shaft _ 0 s Hs) as (j & Hj). exists j. apply sort_n_in. exact Hj. }
  assert (Yb : forall s, In s brgs -> exists i, In (mk_brg i s) br).
  { intros s Hs. destruct (mapi_map_in mk_brg _ 0 s Hs) as (j & Hj). exists j. apply sort_n_in. exact Hj. }
  assert (Yp : forall s, In s pms -> exists i, In (mk_pm i s) pm).
  { intros s Hs. destruct (mapi_map_in mk_pm _ 0 s Hs) as (j & Hj). exists j. exact Hj. }
  assert (Hs : forall e, In e sh -> exists six n t s, e = EShaft six n t s) by (intros e He; destruct (Xs e He) as (? & ? & _ & ->); repeat eexists).
  assert (Hd : forall e, In e dk -> exists six t d, e = EDisk six t d) by (intros e He; destruct (Xd e He) as (? & ? & _ & ->); repeat eexists).
  assert (Hb : forall e, In e br -> exists t b, e = EBrg t b) by (intros e He; destruct (Xb e He) as (? & ? & _ & ->); repeat eexists).
  assert (Hp : forall e, In e pm -> exists six t p, e = EPm six t p) by (intros e He; destruct (Xp e He) as (? & ? & _ & ->); repeat eexists).
  pose proof (sort_n_sorted (mapi mk_shaft 0 shafts)) as Hsort. fold sh in Hsort.
  pose proof (sort_n_sorted (mapi mk_brg 0 brgs)) as Hbsort. fold br in Hbsort.
  (* tags *)
  assert (Ht : NoDup (map el_tag (sh ++ dk ++ br ++ pm))).
  { destruct (wf_tags _ _ _ _ _ W) as (ts & Ets & Hnd). unfold given_tags in Ets.
    apply map_some_app in Ets as (t1 & ts' & -> & E1 & Ets). apply map_some_app in Ets as (t2 & ts'' & -> & E2 & Ets).
    apply map_some_app in Ets as (t3 & t4 & -> & E3 & E4).
    apply (Permutation_NoDup (l := t1 ++ t2 ++ t3 ++ t4)); [|exact Hnd].
    rewrite !map_app. repeat apply Permutation_app.
    - rewrite <- (mapi_explicit mk_shaft (fun s => s_tag (rs_s s)) 0 shafts t1); [apply Permutation_map, Permutation_sym, sort_n_perm| |exact E1].
      intros i x t E. simpl. rewrite E. reflexivity.
    - rewrite <- (mapi_explicit mk_disk (fun s => d_tag (rd_d s)) 0 disks t2); [reflexivity| |exact E2].
      intros i x t E. simpl. rewrite E. reflexivity.
    - rewrite <- (mapi_explicit mk_brg (fun s => b_tag (brg_base s)) 0 brgs t3); [apply Permutation_map, Permutation_sym, sort_n_perm| |exact E3].
      intros i x t E. simpl. rewrite E. reflexivity.
    - rewrite <- (mapi_explicit mk_pm (fun s => p_tag (rp_p s)) 0 pms t4); [reflexivity| |exact E4].
      intros i x t E. simpl. rewrite E. reflexivity. }
  assert (Hcover : forall k, (k <= last)%nat -> exists e, In e sh /\ el_n e = k).
  { intros k Hk. destruct (wf_cover _ _ _ _ _ W k Hk) as (s & Hin & E). destruct (Ys s Hin) as (i & Hi). exists (mk_shaft i s). split; [exact Hi|]. simpl. rewrite E. reflexivity. }
  assert (Hn : forall e, In e sh -> (el_n e <= last)%nat).
  { intros e He. destruct (Xs e He) as (i & s & Hin & ->). destruct (wf_nodes _ _ _ _ _ W s Hin) as (n & E & Hle). simpl. rewrite E. exact Hle. }
  assert (Hmax : max_list (map el_n sh) = last).
  { apply max_list_of; [destruct (Hcover last ltac:(lia)) as (e & He & <-); apply in_map; auto|].
    intros x Hx. apply in_map_iff in Hx as (e & <- & He). auto. }
  assert (Hdn : forall e, In e dk -> (el_n e <= last + 1)%nat).
  { intros e He. destruct (Xd e He) as (i & d & Hin & ->). simpl. apply (wf_disk _ _ _ _ _ W); auto. }
  assert (Hbb : forall e, In e br -> (el_n e <= last + 1)%nat \/ (exists p, In p pm /\ el_n p = el_n e) /\ exists b', In b' br /\ el_link b' = Some (el_n e)).
  { intros e He. destruct (Xb e He) as (i & b & Hin & ->). destruct (wf_brg _ _ _ _ _ W b Hin) as [|((p & Hp1 & Hp2) & (b' & Hb1 & Hb2))]; [left; auto|right].
    destruct (Yp p Hp1) as (j & Hj). destruct (Yb b' Hb1) as (j' & Hj'). split; [exists (mk_pm j p); auto|exists (mk_brg j' b'); auto]. }
  assert (Hne : sh <> []) by (intros E; destruct (Hcover 0%nat ltac:(lia)) as (e & He & _); rewrite E in He; destruct He).
  assert (Hlay : forall e e', In e sh -> In e' sh -> el_n e = el_n e' -> sh_L e = sh_L e').
  { intros e e' He He' E. destruct (Xs e He) as (i & s & Hin & ->). destruct (Xs e' He') as (i' & s' & Hin' & ->). simpl in *.
    destruct (wf_nodes _ _ _ _ _ W s Hin) as (n & E1 & _). destruct (wf_nodes _ _ _ _ _ W s' Hin') as (n' & E2 & _). rewrite E1, E2 in E.
    apply (wf_length _ _ _ _ _ W); auto. congruence. }
  set (lam := fun n => match find (fun e => Nat.eqb (el_n e) n) sh with Some e => sh_L e | None => 0 end).
  assert (HL : forall e, In e sh -> sh_L e = lam (el_n e)).
  { intros e He. unfold lam. destruct (find _ sh) as [e'|] eqn:E.
    - apply find_some in E as [Hin E]. apply Nat.eqb_eq in E. apply Hlay; auto.
    - apply (find_none _ _ E) in He. rewrite Nat.eqb_refl in He. discriminate. }
  destruct (nodes_pos_spec lam sh last Hne Hsort (eq_sym Hmax) Hcover HL) as [Epos Espos].
  assert (Hlen : length (nodes_pos sh) = (last + 2)%nat) by (rewrite Epos, map_length, seq_length; reflexivity).
  rewrite (disk_positions_ok (nodes_pos sh) dk) by (intros e He; specialize (Hdn e He); lia). cbn [bind].
  assert (HnP : forall n, (n <= last + 1)%nat -> nth n (nodes_pos sh) 0 = sumn n lam).
  { intros n Hle. rewrite Epos. apply nth_error_nth. apply (map_nth_error (fun n => sumn n lam)). rewrite (nth_error_nth' _ 0%nat) by (rewrite seq_length; lia). rewrite seq_nth by lia. reflexivity. }
  assert (Hbnd : NoDup (map el_n br)).
  { apply (Permutation_NoDup (l := map brg_n brgs)); [|apply (wf_brg_nodes _ _ _ _ _ W)].
    rewrite <- (mapi_map mk_brg el_n brg_n brgs ltac:(reflexivity) 0). apply Permutation_map, Permutation_sym, sort_n_perm. }
  assert (Hblk : forall e m, In e br -> el_link e = Some m -> (el_n e < m)%nat \/ (m <= last + 1)%nat).
  { intros e m He E. destruct (Xb e He) as (i & b & Hin & ->). apply (wf_link _ _ _ _ _ W b m Hin E). }
  match goal with |- context [sort_rows ?l] => set (rows0 := l) end.
  assert (HI : Inv sh dk br pm last (fun n => sumn n lam) [] (sort_rows rows0)).
  { assert (Hin : forall r, In r (sort_rows rows0) <-> In r rows0).
    { intros r. split; apply Permutation_in; [apply sort_rows_perm|apply Permutation_sym, sort_rows_perm]. }
    split.
    - intros e He. rewrite !in_app_iff in He.
      destruct He as [He|[He|[He|He]]].
      + exists (elem_row e (Some (sumn (el_n e) lam)) (Some (sumn (S (el_n e)) lam))). split; [|apply elem_row_for]. apply Hin. unfold rows0. apply in_app_iff. left.
        rewrite Espos, combine_map_r, map_map. apply in_map_iff. exists e. auto.
      + exists (elem_row e (Some (nth (el_n e) (nodes_pos sh) 0)) (Some (nth (el_n e) (nodes_pos sh) 0))). split; [|apply elem_row_for]. apply Hin. unfold rows0. apply in_app_iff. right. apply in_app_iff. left.
        rewrite combine_map_r, map_map. apply in_map_iff. exists e. auto.
      + exists (elem_row e None None). split; [|apply elem_row_for]. apply Hin. unfold rows0. rewrite !in_app_iff. right. right.
        destruct (match e with EBrg _ (RB4 true _) => true | _ => false end) eqn:E.
        * right. right. apply in_map_iff. exists e. split; [reflexivity|]. apply filter_In. auto.
        * left. apply in_map_iff. exists e. split; [reflexivity|]. apply filter_In. split; [auto|]. destruct e as [| |? [[] ?|?]|]; auto; discriminate.
      + exists (elem_row e None None). split; [|apply elem_row_for]. apply Hin. unfold rows0. rewrite !in_app_iff. right. right. right. left. apply in_map_iff. exists e. auto.
    - intros r Hr. apply Hin in Hr. unfold rows0 in Hr. rewrite !in_app_iff in Hr.
      assert (Hbcase : forall f, In r (map (fun b => elem_row b None None) (filter f br)) -> exists e, In e (sh ++ dk ++ br ++ pm) /\ row_for e r /\ placed br last (fun n => sumn n lam) [] e r).
      { intros f H. apply in_map_iff in H as (e & <- & He). apply filter_In in He as [He _]. exists e. split; [rewrite !in_app_iff; auto|]. split; [apply elem_row_for|].
        destruct (Hb e He) as (t & b & ->). intros []. }
      destruct Hr as [Hr|[Hr|[Hr|[Hr|Hr]]]]; [| |eapply Hbcase; eauto| |eapply Hbcase; eauto].
      + rewrite Espos, combine_map_r, map_map in Hr. apply in_map_iff in Hr as (e & <- & He). exists e. split; [rewrite !in_app_iff; auto|]. split; [apply elem_row_for|].
        destruct (Hs e He) as (? & ? & ? & ? & ->). split; reflexivity.
      + rewrite combine_map_r, map_map in Hr. apply in_map_iff in Hr as (e & <- & He). exists e. split; [rewrite !in_app_iff; auto|]. split; [apply elem_row_for|].
        specialize (Hdn e He). destruct (Hd e He) as (? & ? & ? & ->). simpl in *. rewrite HnP by auto. split; reflexivity.
      + apply in_map_iff in Hr as (e & <- & He). exists e. split; [rewrite !in_app_iff; auto|]. split; [apply elem_row_for|]. destruct (Hp e He) as (? & ? & ? & ->). exact Logic.I. }
  assert (Hbb2 : forall e, In e br -> (el_n e <= last + 1)%nat \/ exists b', In b' br /\ el_link b' = Some (el_n e)).
  { intros e He. destruct (Hbb e He) as [|[_ ?]]; auto. }
  destruct (locate_ok sh dk br pm last (fun n => sumn n lam) Hs Hd Hb Hp Ht Hn Hcover Hdn Hbnd Hbb2 Hblk Hbsort br [] _ eq_refl HI) as (df1 & Edf & Idf).
  rewrite Edf. intros [= <-] b Hbin. destruct (row_pos_loc sh dk br pm last (fun n => sumn n lam) Hb Ht df1 b Idf Hbin) as (z & Ez & Hz). exists z. split; [exact Ez|]. clear Ez Hbin.
  induction Hz as [n Hn1|b' n z Hb' Hl' Hg' Hz IH].
  - apply stands_shaft. rewrite Enp. fold sh. rewrite (nth_error_nth' _ 0) by lia. rewrite HnP by lia. reflexivity.
  - apply (stands_linked ro b'); [rewrite Eb; exact Hb'|exact Hl'| |exact IH]. apply nth_error_None. rewrite Enp. fold sh. lia.
Qed.

(** ** tables *)
Lemma elements_tag attrs l : plain attrs -> l <> [] -> column "tag" (elements_frame attrs l) = Ok (map (fun e => CTag (el_tag e)) l).
Proof.
  intros P N. destruct l as [|e l]; [contradiction|]. unfold elements_frame. rewrite column_app_r; [reflexivity|].
  unfold labels. rewrite map_map. cbn [fst]. rewrite map_id. intros H. apply P in H. apply H. left. reflexivity.
Qed.
Lemma combine_maps {A B C} (f : A -> B) (g : A -> C) l : combine (map f l) (map g l) = map (fun x => (f x, g x)) l.
Proof. induction l; cbn; congruence. Qed.
Lemma new_tags df l : map (fun c => match c with CTag t => CPos (row_pos df t) | _ => CPos None end) (map (fun e => CTag (el_tag e)) l) = map (fun e => CPos (row_pos df (el_tag e))) l.
Proof. rewrite map_map. reflexivity. Qed.

Section Calls.
Variables (df : list row) (da ba : list string) (dk bk : list elem) (F : list (string * R)).
Hypothesis Pd : plain da.
Hypothesis Pb : plain ba.
Hypothesis Nd : dk <> [].
Hypothesis Nb : bk <> [].
Let fd := elements_frame da dk.
Let fb := elements_frame ba bk.
Let td := map (fun e => CTag (el_tag e)) dk.
Let tb := map (fun e => CTag (el_tag e)) bk.
Let st0 := mkFrames fd fb.
Definition rows_at (l : list elem) : list (cell * cell) := map (fun e => (CTag (el_tag e), CPos (row_pos df (el_tag e)))) l.
Definition st_odd (j : nat) : frames := mkFrames (odd_frame df fd td j) (odd_frame df fb tb j).
Definition st_even (j : nat) : frames := mkFrames (twice df fd td j) (twice df fb tb j).
Lemma call_even strict static j : rotor_summary strict df static (st_even j) = (bind static (fun f => Ok (mkSummary (fr_disks (st_odd j)) (fr_brgs (st_odd j)) f)), st_odd j).
Proof.
  unfold rotor_summary, st_even, st_odd. cbn [fr_disks fr_brgs].
  rewrite (merge_even df fd td (good_elements _ _ Pd) (elements_tag _ _ Pd Nd)), (merge_even df fb tb (good_elements _ _ Pb) (elements_tag _ _ Pb Nb)). reflexivity.
Qed.
Lemma call_odd strict static j : rotor_summary strict df static (st_odd j) =
  if (strict && negb (Nat.eqb j 0))%bool then (Err ValueError, st_odd j)
  else (bind static (fun f => Ok (mkSummary (fr_disks (st_even (S j))) (fr_brgs (st_even (S j))) f)), st_even (S j)).
Proof.
  unfold rotor_summary, st_even, st_odd. cbn [fr_disks fr_brgs].
  rewrite (merge_odd df fd td (good_elements _ _ Pd) (elements_tag _ _ Pd Nd)), (merge_odd df fb tb (good_elements _ _ Pb) (elements_tag _ _ Pb Nb)).
  destruct (strict && _)%bool; reflexivity.
Qed.
Lemma tables_odd j f : summary_tables (mkSummary (fr_disks (st_odd j)) (fr_brgs (st_odd j)) f) = Ok (rows_at dk, rows_at bk, map snd f).
Proof.
  unfold summary_tables, st_odd. cbn [su_disks su_brgs su_forces fr_disks fr_brgs].
  destruct (odd_column df fd td (good_elements _ _ Pd) (elements_tag _ _ Pd Nd) j) as (-> & ->). destruct (odd_column df fb tb (good_elements _ _ Pb) (elements_tag _ _ Pb Nb) j) as (-> & ->).
  cbn [bind]. unfold td, tb. rewrite !new_tags, !combine_maps. reflexivity.
Qed.
Lemma tables_even j f : summary_tables (mkSummary (fr_disks (st_even j)) (fr_brgs (st_even j)) f) = Err KeyError.
Proof.
  unfold summary_tables, st_even. cbn [su_disks su_brgs su_forces fr_disks fr_brgs]. rewrite (twice_tag df fd td (elements_tag _ _ Pd Nd)). cbn [bind].
  rewrite (even_column df fd td (good_elements _ _ Pd)). reflexivity.
Qed.
Lemma calls_old static j : nth_summary false df static st0 (2 * j) = (bind static (fun f => Ok (mkSummary (fr_disks (st_odd j)) (fr_brgs (st_odd j)) f)), st_odd j) /\
  nth_summary false df static st0 (S (2 * j)) = (bind static (fun f => Ok (mkSummary (fr_disks (st_even (S j))) (fr_brgs (st_even (S j))) f)), st_even (S j)).
Proof.
  induction j as [|j [_ IH]].
  - assert (H0 : nth_summary false df static st0 0 = (bind static (fun f => Ok (mkSummary (fr_disks (st_odd 0)) (fr_brgs (st_odd 0)) f)), st_odd 0)) by (apply (call_even false static 0)).
    split; [exact H0|]. change (2 * 0)%nat with 0%nat. cbn [nth_summary]. cbn [nth_summary] in H0. rewrite H0. cbn [snd]. rewrite call_odd. reflexivity.
  - replace (2 * S j)%nat with (S (S (2 * j))) by lia.
    assert (H1 : nth_summary false df static st0 (S (S (2 * j))) = (bind static (fun f => Ok (mkSummary (fr_disks (st_odd (S j))) (fr_brgs (st_odd (S j))) f)), st_odd (S j))).
    { change (nth_summary false df static st0 (S (S (2 * j)))) with (rotor_summary false df static (snd (nth_summary false df static st0 (S (2 * j))))). rewrite IH. cbn [snd]. apply call_even. }
    split; [exact H1|]. change (nth_summary false df static st0 (S (S (S (2 * j))))) with (rotor_summary false df static (snd (nth_summary false df static st0 (S (S (2 * j)))))).
    rewrite H1. cbn [snd]. rewrite call_odd. reflexivity.
Qed.
Lemma calls_new static : 
  nth_summary true df static st0 0 = (bind static (fun f => Ok (mkSummary (fr_disks (st_odd 0)) (fr_brgs (st_odd 0)) f)), st_odd 0) /\
  nth_summary true df static st0 1 = (bind static (fun f => Ok (mkSummary (fr_disks (st_even 1)) (fr_brgs (st_even 1)) f)), st_even 1) /\
  nth_summary true df static st0 2 = (bind static (fun f => Ok (mkSummary (fr_disks (st_odd 1)) (fr_brgs (st_odd 1)) f)), st_odd 1) /\
  forall k, nth_summary true df static st0 (3 + k) = (Err ValueError, st_odd 1).
Proof.
  assert (H0 : nth_summary true df static st0 0 = (bind static (fun f => Ok (mkSummary (fr_disks (st_odd 0)) (fr_brgs (st_odd 0)) f)), st_odd 0)) by (apply (call_even true static 0)).
  assert (H1 : nth_summary true df static st0 1 = (bind static (fun f => Ok (mkSummary (fr_disks (st_even 1)) (fr_brgs (st_even 1)) f)), st_even 1)).
  { change (nth_summary true df static st0 1) with (rotor_summary true df static (snd (nth_summary true df static st0 0))). rewrite H0. cbn [snd]. rewrite call_odd. reflexivity. }
  assert (H2 : nth_summary true df static st0 2 = (bind static (fun f => Ok (mkSummary (fr_disks (st_odd 1)) (fr_brgs (st_odd 1)) f)), st_odd 1)).
  { change (nth_summary true df static st0 2) with (rotor_summary true df static (snd (nth_summary true df static st0 1))). rewrite H1. cbn [snd]. apply call_even. }
  repeat split; auto. induction k as [|k IH].
  - change (nth_summary true df static st0 (3 + 0)) with (rotor_summary true df static (snd (nth_summary true df static st0 2))). rewrite H2. cbn [snd]. rewrite call_odd. reflexivity.
  - change (nth_summary true df static st0 (3 + S k)) with (rotor_summary true df static (snd (nth_summary true df static st0 (3 + k)))). rewrite IH. cbn [snd]. rewrite call_odd. reflexivity.
Qed.
End Calls.
