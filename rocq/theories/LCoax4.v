(** Default numbering of a co-axial rotor and the positions it leads to. *)
From Coq Require Import Reals String List Bool Arith ZArith Lia Lra Permutation Sorted.
From Verif Require Import PyBase MatBase SpecMat LMat MMaterial MShaft MDisk MBearing MRotor MShare SpecRotor LAssembly LRotor LRotor2 MCoax SpecCoax LCoax LCoax2 LCoax3.
Import ListNotations.
Open Scope list_scope.
Open Scope R_scope.

Fixpoint all_nodes {A} (shafts : list (list A)) (off : nat) : list nat :=
  match shafts with [] => [] | s :: shafts => seq off (length s) ++ all_nodes shafts (off + length s + 1) end.
Lemma map_nth_seq {A} (f : A -> nat) l off : (forall k x, nth_error l k = Some x -> f x = (off + k)%nat) -> map f l = seq off (length l).
Proof.
  revert off. induction l as [|x l IH]; intros off H; [reflexivity|]. cbn. f_equal; [rewrite (H 0%nat x eq_refl); lia|].
  apply IH. intros k y E. rewrite (H (S k) y E). lia.
Qed.
Lemma map_nodes {A} (f : A -> nat) shafts : forall off,
  (forall j k s x, nth_error shafts j = Some s -> nth_error s k = Some x -> f x = (off + first_node shafts j + k)%nat) ->
  map f (concat shafts) = all_nodes shafts off.
Proof.
  induction shafts as [|s shafts IH]; intros off H; [reflexivity|]. cbn [concat all_nodes]. rewrite map_app. f_equal.
  - apply map_nth_seq. intros k x E. rewrite (H 0%nat k s x eq_refl E). cbn. lia.
  - apply IH. intros j k s' x E1 E2. rewrite (H (S j) k s' x E1 E2). cbn [first_node]. lia.
Qed.
Lemma seq_ss n : forall off, StronglySorted lt (seq off n).
Proof. induction n as [|n IH]; intros off; cbn; constructor; [apply IH|]. apply Forall_forall. intros x H. apply in_seq in H. lia. Qed.
Lemma ss_app {A} (Rel : A -> A -> Prop) l1 l2 : StronglySorted Rel l1 -> StronglySorted Rel l2 -> (forall x y, In x l1 -> In y l2 -> Rel x y) ->
  StronglySorted Rel (l1 ++ l2).
Proof.
  intros H1 H2 H. induction H1 as [|x l1 H1 IH F]; cbn; [exact H2|]. constructor; [apply IH; intros; apply H; [right|]; assumption|].
  apply Forall_app. split; [exact F|]. apply Forall_forall. intros y Hy. apply H; [left; reflexivity|exact Hy].
Qed.
Lemma all_nodes_ge {A} (shafts : list (list A)) : forall off n, In n (all_nodes shafts off) -> (off <= n)%nat.
Proof.
  induction shafts as [|s shafts IH]; intros off n H; [destruct H|]. cbn in H. apply in_app_or in H as [H|H]; [apply in_seq in H; lia|].
  apply IH in H. lia.
Qed.
Lemma all_nodes_ss {A} (shafts : list (list A)) : forall off, StronglySorted lt (all_nodes shafts off).
Proof.
  induction shafts as [|s shafts IH]; intros off; cbn; [constructor|]. apply ss_app; [apply seq_ss|apply IH|].
  intros x y Hx Hy. apply in_seq in Hx. apply all_nodes_ge in Hy. lia.
Qed.
Lemma all_nodes_in {A} (shafts : list (list A)) : forall off n, In n (all_nodes shafts off) ->
  exists j s k, nth_error shafts j = Some s /\ (k < length s)%nat /\ n = (off + first_node shafts j + k)%nat.
Proof.
  induction shafts as [|s shafts IH]; intros off n H; [destruct H|]. cbn in H. apply in_app_or in H as [H|H].
  - apply in_seq in H. exists 0%nat, s, (n - off)%nat. cbn. split; [reflexivity|lia].
  - apply IH in H as (j & s' & k & H1 & H2 & H3). exists (S j), s', k. cbn. split; [exact H1|]. split; [exact H2|lia].
Qed.
Lemma sort_n_id l : StronglySorted le_n l -> sort_n l = l.
Proof.
  intros H. unfold sort_n. induction H as [|x l H IH F]; [reflexivity|]. cbn [fold_right]. rewrite IH. destruct l as [|y l]; [reflexivity|]. cbn.
  inversion F as [|? ? F1 F2]; subst. unfold le_n in F1. destruct (Nat.leb_spec (el_n x) (el_n y)); [reflexivity|lia].
Qed.
Lemma sort_objs_id l : StronglySorted le_n (map snd l) -> sort_objs l = l.
Proof.
  unfold sort_objs. induction l as [|x l IH]; intros H; [reflexivity|]. cbn [fold_right map] in *. inversion H as [|? ? H1 F]; subst.
  rewrite IH by exact H1. destruct l as [|y l]; [reflexivity|]. cbn.
  inversion F as [|? ? F1 F2]; subst. unfold le_n in F1. destruct (Nat.leb_spec (el_n (snd x)) (el_n (snd y))); [reflexivity|lia].
Qed.
Lemma ss_map_le l : StronglySorted lt (map el_n l) -> StronglySorted le_n l.
Proof.
  induction l as [|x l IH]; intros H; [constructor|]. cbn in H. inversion H as [|? ? H1 F]; subst. constructor; [apply IH; exact H1|].
  apply Forall_forall. intros y Hy. rewrite Forall_forall in F. unfold le_n. apply Nat.lt_le_incl, F, in_map, Hy.
Qed.
Lemma ss_nodup l : StronglySorted lt l -> NoDup l.
Proof. induction 1 as [|x l H IH F]; constructor; [|exact IH]. intros K. rewrite Forall_forall in F. specialize (F x K). lia. Qed.

(** ** group_max of strictly increasing nodes *)
Lemma group_max_id ns : forall ps, StronglySorted lt ns -> length ps = length ns -> group_max (combine ns ps) = ps.
Proof.
  induction ns as [|n ns IH]; intros [|p ps] H E; try discriminate; [reflexivity|]. cbn [combine]. inversion H as [|? ? H1 F]; subst.
  destruct ns as [|n' ns], ps as [|p' ps]; try discriminate; [reflexivity|].
  change (combine (n' :: ns) (p' :: ps)) with ((n', p') :: combine ns ps). rewrite group_max_cons2.
  inversion F as [|? ? F1 F2]; subst. destruct (Nat.eqb_spec n n'); [lia|].
  change ((n', p') :: combine ns ps) with (combine (n' :: ns) (p' :: ps)). rewrite IH; [reflexivity|exact H1|cbn in *; lia].
Qed.

Section Numbered.
Variables (st : ref -> rshaft) (ax : ref -> R) (shafts : list (list ref)) (disks : list rdisk) (brgs : list rbrg) (pms : list rpmass).
Variables (tag : option string) (c : coax) (nm : names) (z : zpos) (dpos : list R).
Hypothesis F : cfacts st ax shafts disks brgs pms tag c nm z dpos.
Hypothesis P : proper shafts.
Hypothesis U : unnumbered st shafts.
Let N := length (concat shafts).
Let All := lengths st (concat shafts).

Lemma num_n j k s x : nth_error shafts j = Some s -> nth_error s k = Some x -> fst (nm x) = Some (first_node shafts j + k)%nat.
Proof.
  intros E1 E2. pose proof (cf_names _ _ _ _ _ _ _ _ _ _ _ F) as H. unfold coax_names in H.
  destruct (name_shafts_n st shafts 0 0 0 (given_names st) P U) as [_ G]. specialize (G j k s x E1 E2). rewrite H in G. exact G.
Qed.
Lemma num_nodes : map el_n (map (cx_elem st nm) (concat shafts)) = all_nodes shafts 0.
Proof.
  rewrite map_map. apply map_nodes. intros j k s x E1 E2. cbn. rewrite (num_n _ _ _ _ E1 E2). reflexivity.
Qed.
Lemma num_sh : r_shaft (cx_rot c) = map (cx_elem st nm) (concat shafts).
Proof. rewrite (cf_sh _ _ _ _ _ _ _ _ _ _ _ F). apply sort_n_id, ss_map_le. rewrite num_nodes. apply all_nodes_ss. Qed.
Lemma num_ns : map el_n (r_shaft (cx_rot c)) = all_nodes shafts 0.
Proof. rewrite num_sh. apply num_nodes. Qed.
Lemma num_L : map sh_L (r_shaft (cx_rot c)) = All.
Proof. rewrite num_sh, map_map. reflexivity. Qed.
Lemma num_len : length (all_nodes shafts 0) = N.
Proof. rewrite <- num_nodes, !map_length. reflexivity. Qed.
Lemma num_table : sort_objs (concat (objs_of st nm shafts)) = map (fun x => (x, cx_elem st nm x)) (concat shafts).
Proof.
  rewrite sort_objs_id.
  - unfold objs_of. rewrite <- concat_map. reflexivity.
  - rewrite objs_elems. apply ss_map_le. rewrite num_nodes. apply all_nodes_ss.
Qed.
Lemma num_step t : (0 < t < N)%nat -> nth t (all_nodes shafts 0) 0%nat <> nth (t - 1) (all_nodes shafts 0) 0%nat.
Proof.
  intros Ht E. pose proof (ss_nodup _ (all_nodes_ss shafts 0)) as D. rewrite NoDup_nth in D. pose proof num_len.
  apply (D t (t - 1)%nat) in E; lia.
Qed.
Lemma all_len : length All = N. Proof. unfold All, lengths. apply map_length. Qed.
End Numbered.

(** ** links *)
Lemma linked_none br n : (forall e m, In e br -> el_link e = Some m -> m <> n) -> linked br n = None.
Proof.
  intros H. unfold linked. destruct (find _ br) as [b|] eqn:E; [|reflexivity]. apply find_some in E as [E1 E2]. unfold onat_is in E2.
  destruct (el_link b) as [m|] eqn:El; [|discriminate]. apply Nat.eqb_eq in E2. exfalso. exact (H b m E1 El E2).
Qed.
Lemma linked_some br n a : (exists e, In e br /\ el_link e = Some n) -> (forall e, In e br -> el_link e = Some n -> el_n e = a) -> linked br n = Some a.
Proof.
  intros (e & E1 & E2) H. unfold linked. destruct (find _ br) as [b|] eqn:E.
  - apply find_some in E as [F1 F2]. unfold onat_is in F2. destruct (el_link b) as [m|] eqn:El; [|discriminate]. apply Nat.eqb_eq in F2. subst m.
    f_equal. apply H; assumption.
  - exfalso. pose proof (find_none _ _ E e E1) as Q. cbv beta in Q. rewrite E2 in Q. cbn in Q. rewrite Nat.eqb_refl in Q. discriminate.
Qed.
Lemma mapi_surj {A B} (f : nat -> A -> B) l : forall i x, In x l -> exists j, In (f j x) (mapi f i l).
Proof.
  induction l as [|y l IH]; intros i x H; [destruct H|]. destruct H as [->|H]; [exists i; left; reflexivity|].
  destruct (IH (S i) x H) as [j Hj]. exists j. right. exact Hj.
Qed.
Lemma brg_back brgs e : In e (sort_n (mapi mk_brg 0 brgs)) -> exists t b, In b brgs /\ e = EBrg t b.
Proof. intros H. apply sort_n_in, mapi_in in H as (j & b & Hb & ->). unfold mk_brg. eauto. Qed.

(** a shaft list with nodes 0 .. last *)
Lemma no_link_target N brgs e last : no_link brgs last -> (el_n e <= last)%nat ->
  target N (filter (fun b => negb (is_seal b)) (sort_n (mapi mk_brg 0 brgs))) e = None.
Proof.
  intros H Hn. unfold target.
  assert (G : forall n, (n <= S last)%nat -> linked (filter (fun b => negb (is_seal b)) (sort_n (mapi mk_brg 0 brgs))) n = None).
  { intros n Hn'. apply linked_none. intros e' m He El. apply filter_In in He as [He _]. destruct (brg_back _ _ He) as (t & b & Hb & ->).
    specialize (H b m Hb El). lia. }
  rewrite G, G by lia. reflexivity.
Qed.
Lemma one_link_linked brgs p q a b : one_link brgs p q a b -> forall n, (n <= p + q + 1)%nat ->
  linked (filter (fun b => negb (is_seal b)) (sort_n (mapi mk_brg 0 brgs))) n = if Nat.eqb n (p + 1 + b) then Some a else None.
Proof.
  intros (Ha & Hb & (s & S1 & S2 & S3) & H) n Hn. destruct (Nat.eqb_spec n (p + 1 + b)) as [->|Q].
  - apply linked_some.
    + destruct (mapi_surj mk_brg brgs 0 _ S1) as [j Hj]. exists (mk_brg j (RB4 false s)). split; [|exact S3].
      apply filter_In. split; [apply sort_n_in; exact Hj|reflexivity].
    + intros e He El. apply filter_In in He as [He _]. destruct (brg_back _ _ He) as (t & x & Hx & ->).
      exact (proj1 (H x _ Hx El ltac:(lia))).
  - apply linked_none. intros e m He El ->. apply filter_In in He as [He _]. destruct (brg_back _ _ He) as (t & x & Hx & ->).
    apply Q. exact (proj2 (H x _ Hx El Hn)).
Qed.

(** ** Without links the shafts are laid end to end *)
Section Unlinked.
Variables (N : nat) (ns : list nat) (All : list R) (brgs : list elem).
Hypothesis N2 : (2 <= N)%nat.
Hypothesis EN : length All = N.
Hypothesis Hns : forall t, (0 < t < N)%nat -> nth t ns 0%nat <> nth (t - 1) ns 0%nat.

Lemma along_skip i : forall L t, along L (t + i) = along L i + along (skipn i L) t.
Proof.
  induction i as [|i IH]; intros L t; [rewrite Nat.add_0_r, along_0; cbn [skipn]; ring|].
  destruct L as [|x L]; [unfold along; cbn [skipn]; rewrite !firstn_nil; unfold suml; cbn; ring|].
  rewrite Nat.add_succ_r. unfold along in *. cbn [firstn skipn]. unfold suml in *. cbn [fold_right]. rewrite IH. ring.
Qed.
Lemma nth_skip (L : list R) i : forall t, nth t (skipn i L) 0 = nth (t + i) L 0.
Proof.
  revert L. induction i as [|i IH]; intros L t; [rewrite Nat.add_0_r; reflexivity|]. destruct L as [|x L]; cbn [skipn].
  - destruct t; reflexivity.
  - rewrite IH, Nat.add_succ_r. reflexivity.
Qed.

Lemma unlinked_run : forall objs i z, (i + length (concat objs) <= N)%nat -> NoDup (map fst (concat objs)) ->
  (forall s, In s objs -> s <> []) ->
  (forall x e, In (x, e) (concat objs) -> target N brgs e = None) ->
  (forall t, (t < i)%nat -> z_l z t = along All t /\ z_r z t = along All (S t)) ->
  (i = 0%nat -> z_r z (N - 1)%nat = 0) ->
  exists z', place_shafts N ns All brgs i objs z = Ok z' /\
    (forall t, (t < i + length (concat objs))%nat -> z_l z' t = along All t /\ z_r z' t = along All (S t)) /\
    (forall t x e, nth_error (concat objs) t = Some (x, e) -> z_ax z' x = sh_cg e + along All (t + i)) /\
    (forall y, ~ In y (map fst (concat objs)) -> z_ax z' y = z_ax z y).
Proof.
  induction objs as [|s objs IH]; intros i z Hi ND Hne Hno I0 Z.
  - exists z. cbn. rewrite Nat.add_0_r. split; [reflexivity|]. split; [exact I0|]. split; [intros [|t]; discriminate|auto].
  - cbn [place_shafts concat] in *. rewrite map_app in ND. rewrite app_length in Hi.
    assert (S0 : (0 < length s)%nat) by (specialize (Hne s (or_introl eq_refl)); destruct s; [congruence|cbn; lia]).
    destruct (first_run N i (along All i) (along All) (fun t => along All (S t)) (z_ax z) ns All (skipn i All) brgs s N2 (nodup_app_l _ _ ND)
                ltac:(lia)) with (l2 := s) (l1 := @nil (ref * elem)) (z := z) as (z1 & Hz1 & J0 & J1 & J2 & J3).
    + intros t Ht. apply Hns. lia.
    + intros t Ht. rewrite nth_skip. reflexivity.
    + intros x e He. apply (Hno x e). apply in_or_app. left. exact He.
    + reflexivity.
    + split; [exact I0|]. split; [intros t Ht; cbn in Ht; lia|]. split; [intros t ? ? Ht; cbn in Ht; lia|auto].
    + intros _. destruct i as [|i]; [cbn [before]; rewrite Z, along_0 by reflexivity; reflexivity|]. cbn [before]. apply I0. lia.
    + change (length (@nil (ref * elem))) with 0%nat in Hz1. rewrite Hz1. cbn [bind].
      destruct (IH (i + length s)%nat z1) as (z2 & Hz2 & K1 & K2 & K3).
      * lia.
      * exact (nodup_app_r _ _ ND).
      * intros t Ht. apply Hne. right. exact Ht.
      * intros x e He. apply (Hno x e). apply in_or_app. right. exact He.
      * intros t Ht. destruct (Nat.lt_ge_cases t i) as [Q|Q]; [apply J0; exact Q|].
        replace t with ((t - i) + i)%nat by lia. destruct (J1 (t - i)%nat ltac:(lia)) as [-> ->].
        rewrite <- along_skip. split; [reflexivity|]. change (S (t - i + i)) with (S (t - i) + i)%nat. rewrite along_skip. reflexivity.
      * lia.
      * exists z2. split; [exact Hz2|]. rewrite app_length. split; [intros t Ht; apply K1; lia|]. split.
        -- intros t x e E. destruct (Nat.lt_ge_cases t (length s)) as [Q|Q].
           ++ rewrite nth_error_app1 in E by exact Q. rewrite K3.
              ** rewrite (J2 t x e Q E), along_skip. reflexivity.
              ** apply (nodup_app_disj _ _ _ ND). apply in_map_iff. exists (x, e). split; [reflexivity|eapply nth_error_In; eauto].
           ++ rewrite nth_error_app2 in E by exact Q. rewrite (K2 _ _ _ E). f_equal. f_equal. lia.
        -- intros y Hy. rewrite map_app, in_app_iff in Hy. rewrite K3 by tauto. apply J3. tauto.
Qed.
End Unlinked.
