(** Lemmas about the construction of a rotor. *)
From Coq Require Import Reals String List Arith Lia Lra Bool Permutation Sorted.
From Verif Require Import PyBase MatBase SpecMat MShaft MDisk MBearing MRotor SpecRotor LMat LAssembly.
Import ListNotations.
Open Scope list_scope.
Open Scope R_scope.

Lemma mapi_in {A B} (f : nat -> A -> B) l i y : In y (mapi f i l) -> exists j x, In x l /\ y = f j x.
Proof.
  revert i. induction l as [|x l IH]; intros i; simpl; [tauto|]. intros [<-|H].
  - exists i, x. auto.
  - destruct (IH _ H) as (j & x' & Hx & ->). exists j, x'. auto.
Qed.
Lemma mapi_length {A B} (f : nat -> A -> B) l i : length (mapi f i l) = length l.
Proof. revert i. induction l; intros i; simpl; [reflexivity|]. rewrite IHl. reflexivity. Qed.

Lemma insert_n_perm x l : Permutation (insert_n x l) (x :: l).
Proof.
  induction l as [|y l IH]; simpl; [auto|]. destruct (el_n x <=? el_n y)%nat; [auto|].
  rewrite IH. apply perm_swap.
Qed.
Lemma sort_n_perm l : Permutation (sort_n l) l.
Proof. induction l; simpl; [auto|]. rewrite insert_n_perm, IHl. auto. Qed.
Lemma sort_n_in l e : In e (sort_n l) <-> In e l.
Proof. split; apply Permutation_in; [|symmetry]; apply sort_n_perm. Qed.

Definition le_n (a b : elem) : Prop := (el_n a <= el_n b)%nat.
Lemma insert_n_sorted x l : StronglySorted le_n l -> StronglySorted le_n (insert_n x l).
Proof.
  induction l as [|y l IH]; simpl; intros H; [repeat constructor|].
  inversion H as [|? ? H1 H2]; subst. destruct (Nat.leb_spec (el_n x) (el_n y)).
  - constructor; [exact H|]. constructor; [exact H0|]. eapply Forall_impl; [|exact H2]. unfold le_n; intros; lia.
  - constructor; [auto|]. apply Forall_forall. intros z Hz.
    apply (Permutation_in _ (insert_n_perm x l)) in Hz. destruct Hz as [<-|Hz]; [unfold le_n; lia|].
    rewrite Forall_forall in H2. auto.
Qed.
Lemma sort_n_sorted l : StronglySorted le_n (sort_n l).
Proof. induction l; simpl; [constructor|apply insert_n_sorted; auto]. Qed.

Lemma max_list_ge l x : In x l -> (x <= max_list l)%nat.
Proof. unfold max_list. induction l; simpl; [tauto|]. intros [->|H]; [lia|]. specialize (IHl H). lia. Qed.
Lemma max_list_in l : l <> [] -> In (max_list l) l.
Proof.
  unfold max_list. induction l as [|a l IH]; [congruence|]. intros _. simpl. destruct l as [|b l].
  - left. simpl. lia.
  - destruct (Nat.max_spec a (fold_right Nat.max 0%nat (b :: l))) as [[_ ->]|[_ ->]]; [right; apply IH; discriminate|auto].
Qed.
Lemma max_list_le l b : (forall x, In x l -> (x <= b)%nat) -> (max_list l <= b)%nat.
Proof. unfold max_list. induction l; simpl; intros H; [lia|]. specialize (IHl (fun x h => H x (or_intror h))). specialize (H a (or_introl eq_refl)). lia. Qed.
Lemma max_list_perm l l' : Permutation l l' -> max_list l = max_list l'.
Proof. unfold max_list. induction 1; simpl; lia. Qed.

Lemma sorted_last sh e l : StronglySorted le_n sh -> rev sh = e :: l -> el_n e = max_list (map el_n sh).
Proof.
  intros Hs Hr. assert (Hin : In e sh) by (apply in_rev; rewrite Hr; left; reflexivity).
  apply Nat.le_antisymm.
  - apply max_list_ge. apply in_map. exact Hin.
  - apply max_list_le. intros x Hx. apply in_map_iff in Hx as (e' & <- & He').
    assert (E : sh = rev l ++ [e]) by (rewrite <- (rev_involutive sh), Hr; reflexivity).
    clear Hr Hin. subst sh. induction (rev l) as [|z zs IH]; simpl in *.
    + destruct He' as [->|[]]. auto.
    + inversion Hs as [|? ? H1 H2]; subst. destruct He' as [<-|He']; [|auto].
      rewrite Forall_forall in H2. apply H2. apply in_or_app. right. left. reflexivity.
Qed.

(** ** What a successful construction guarantees *)
Definition fam (nd : nat) (six : bool) : Prop := nd = (if six then 6 else 4)%nat.
Definition el_fam (nd : nat) (e : elem) : Prop :=
  match e with
  | EShaft six _ _ _ | EDisk six _ _ => fam nd six
  | EBrg _ (RB4 _ _) => fam nd false
  | EBrg _ (RB6 _) => fam nd true
  | EPm _ _ _ => True
  end.

Record rfacts (r : rotor) : Prop := {
  rf_shaft : forall e, In e (r_shaft r) -> exists six n t s, e = EShaft six n t s;
  rf_disk : forall e, In e (r_disk r) -> exists six t d, e = EDisk six t d;
  rf_brg : forall e, In e (r_brg r) -> exists t b, e = EBrg t b;
  rf_pm : forall e, In e (r_pm r) -> exists six t p, e = EPm six t p;
  rf_fam : forall e, In e (r_elements r) -> el_fam (r_nd r) e;
  rf_nd : r_nd r = 4%nat \/ r_nd r = 6%nat;
  rf_nonempty : r_shaft r <> [];
  rf_sorted : StronglySorted le_n (r_shaft r);
  rf_last : r_n_last r = max_list (map el_n (r_shaft r));
  rf_ndof : r_ndof r = (r_nd r * (r_n_last r + 2) + r_nd r / 2 * length (r_pm r))%nat;
  rf_tags : tags_unique (map el_tag (r_elements r)) = true;
  rf_loc : location_ok (r_shaft r) (r_disk r) (r_brg r) (r_pm r) = true;
  rf_pos : r_nodes_pos r = nodes_pos (r_shaft r);
  rf_spos : r_shaft_pos r = shaft_pos (r_shaft r);
  rf_dpos : exists dpos, disk_positions (nodes_pos (r_shaft r)) (r_disk r) = Ok dpos /\
     r_CG r = suml (map (fun p => sh_m (fst p) * snd p / r_m r) (combine (r_shaft r)
                   (map (fun p => sh_cg (fst p) + fst (snd p)) (combine (r_shaft r) (shaft_pos (r_shaft r))))))
            + suml (map (fun p => dk_m (fst p) * snd p / r_m r) (combine (r_disk r) dpos));
  rf_mass : r_m r = suml (map dk_m (r_disk r)) + suml (map sh_m (r_shaft r));
  rf_mdisks : r_m_disks r = suml (map dk_m (r_disk r));
  rf_mshaft : r_m_shaft r = suml (map sh_m (r_shaft r));
  rf_Ip : r_Ip r = suml (map sh_Im (r_shaft r)) + suml (map dk_Ip (r_disk r));
  rf_pmok : pm_ok (r_brg r) (r_pm r) = true }.

Lemma existsb_false_in {A} (f : A -> bool) l x : existsb f l = false -> In x l -> f x = false.
Proof.
  intros H Hx. destruct (f x) eqn:E; [|reflexivity].
  assert (existsb f l = true) by (apply existsb_exists; eauto). congruence.
Qed.

Lemma shaft_len six n t s : length (dof_mapping (EShaft six n t s)) = (if six then 12 else 8)%nat.
Proof. destruct six; reflexivity. Qed.
Lemma disk_len six t d : length (dof_mapping (EDisk six t d)) = (if six then 6 else 4)%nat.
Proof. destruct six; reflexivity. Qed.

Lemma check_number_dof_ok sh dk br nd :
  (forall e, In e sh -> exists six n t s, e = EShaft six n t s) ->
  (forall e, In e dk -> exists six t d, e = EDisk six t d) ->
  (forall e, In e br -> exists t b, e = EBrg t b) ->
  check_number_dof sh dk br = Ok nd ->
  sh <> [] /\ (nd = 4 \/ nd = 6)%nat /\ forall e, In e (sh ++ dk ++ br) -> el_fam nd e.
Proof.
  intros Hs Hd Hb. unfold check_number_dof. destruct sh as [|s0 sh]; [discriminate|].
  destruct (Hs s0 (or_introl eq_refl)) as (six & n0 & t0 & s & ->).
  rewrite shaft_len.
  destruct (existsb _ (EShaft six n0 t0 s :: sh)) eqn:E1; [discriminate|].
  destruct (existsb _ dk) eqn:E2; [discriminate|].
  destruct (existsb _ br) eqn:E3; [discriminate|].
  intros [= <-]. split; [discriminate|]. split; [destruct six; auto|].
  intros e He. apply in_app_or in He as [He|He]; [|apply in_app_or in He as [He|He]].
  - destruct (Hs e He) as (six' & n & t & s' & ->). pose proof (existsb_false_in _ _ _ E1 He) as H.
    cbv beta in H. apply negb_false_iff, Nat.eqb_eq in H. rewrite shaft_len in H.
    simpl. unfold fam. destruct six, six'; simpl; try reflexivity; discriminate.
  - destruct (Hd e He) as (six' & t & s' & ->). pose proof (existsb_false_in _ _ _ E2 He) as H.
    cbv beta in H. apply negb_false_iff, Nat.eqb_eq in H. rewrite disk_len in H.
    simpl. unfold fam. destruct six, six'; simpl in *; try reflexivity; discriminate.
  - destruct (Hb e He) as (t & b & ->). pose proof (existsb_false_in _ _ _ E3 He) as H.
    cbv beta in H. apply negb_false_iff, Nat.eqb_eq in H.
    destruct six, b; simpl in *; try reflexivity; discriminate.
Qed.

Lemma div2_2 nd : Nat.div2 nd = (nd / 2)%nat.
Proof. apply Nat.div2_div. Qed.

Lemma rotor_facts shafts disks brgs pms r : rotor_init shafts disks brgs pms = Ok r -> rfacts r.
Proof.
  unfold rotor_init.
  set (sh := sort_n (mapi mk_shaft 0 shafts)). set (dk := mapi mk_disk 0 disks).
  set (br := sort_n (mapi mk_brg 0 brgs)). set (pm := mapi mk_pm 0 pms).
  assert (Hs : forall e, In e sh -> exists six n t s, e = EShaft six n t s).
  { intros e He. apply sort_n_in, mapi_in in He as (j & x & _ & ->). repeat eexists. }
  assert (Hd : forall e, In e dk -> exists six t d, e = EDisk six t d).
  { intros e He. apply mapi_in in He as (j & x & _ & ->). repeat eexists. }
  assert (Hb : forall e, In e br -> exists t b, e = EBrg t b).
  { intros e He. apply sort_n_in, mapi_in in He as (j & x & _ & ->). repeat eexists. }
  assert (Hp : forall e, In e pm -> exists six t p, e = EPm six t p).
  { intros e He. apply mapi_in in He as (j & x & _ & ->). repeat eexists. }
  pose proof (sort_n_sorted (mapi mk_shaft 0 shafts)) as Hsort. fold sh in Hsort.
  clearbody sh dk br pm.
  destruct (tags_unique _) eqn:Ht; [|discriminate]. cbn [negb].
  destruct (check_number_dof sh dk br) as [nd|] eqn:Hc; [|discriminate]. cbn [bind].
  destruct (location_ok sh dk br pm) eqn:Hl; [|discriminate]. cbn [negb].
  destruct (disk_positions (nodes_pos sh) dk) as [dpos|] eqn:Hdp; [|discriminate]. cbn [bind].
  cbv zeta.
  destruct (locate_all _ br) as [df|]; [|discriminate]. cbn [bind].
  destruct (heights_ok sh br df br) as [[]|]; [|discriminate]. cbn [bind].
  destruct (pm_ok br pm) eqn:Hpm; [|discriminate]. cbn [negb].
  intros [= <-].
  destruct (check_number_dof_ok sh dk br nd Hs Hd Hb Hc) as (Hne & Hnd & Hf).
  assert (Hlast : match rev sh with e :: _ => el_n e | [] => 0%nat end = max_list (map el_n sh)).
  { destruct (rev sh) as [|e l] eqn:Er.
    - exfalso. apply Hne. rewrite <- (rev_involutive sh), Er. reflexivity.
    - eapply sorted_last; eauto. }
  constructor; cbn [r_shaft r_disk r_brg r_pm r_nd r_n_last r_ndof r_nodes_pos r_shaft_pos r_m r_m_disks r_m_shaft r_CG r_Ip]; auto.
  - intros e He. unfold r_elements in He. cbn in He.
    apply in_app_or in He as [He|He]; [apply Hf; apply in_or_app; auto|].
    apply in_app_or in He as [He|He]; [apply Hf; apply in_or_app; right; apply in_or_app; auto|].
    apply in_app_or in He as [He|He]; [apply Hf; apply in_or_app; right; apply in_or_app; auto|].
    destruct (Hp e He) as (? & ? & ? & ->). simpl. exact I.
  - rewrite Hlast, div2_2. reflexivity.
  - exists dpos. split; [exact Hdp|reflexivity].
Qed.

(** ** Numbering *)
Lemma gidx_start nd last n v : (nd = 4 \/ nd = 6)%nat -> gidx nd last n v = (node_start nd last n + v)%nat.
Proof.
  intros H. unfold gidx, node_start. rewrite div2_2.
  destruct (Nat.leb_spec n (last + 1)); [lia|].
  destruct H as [-> | ->]; change (4 / 2)%nat with 2%nat; change (6 / 2)%nat with 3%nat; lia.
Qed.
Lemma node_start_next nd last n m : (nd = 4 \/ nd = 6)%nat -> (n < m)%nat ->
  (node_start nd last n + node_dofs nd last n <= node_start nd last m)%nat.
Proof.
  intros H Hlt. unfold node_start, node_dofs.
  destruct H as [-> | ->]; change (4 / 2)%nat with 2%nat; change (6 / 2)%nat with 3%nat;
  destruct (Nat.leb_spec n (last + 1)); destruct (Nat.leb_spec m (last + 1)); nia.
Qed.
Lemma node_inj nd last n v n' v' : (nd = 4 \/ nd = 6)%nat -> (v < node_dofs nd last n)%nat -> (v' < node_dofs nd last n')%nat ->
  (node_start nd last n + v = node_start nd last n' + v')%nat -> n = n' /\ v = v'.
Proof.
  intros H Hv Hv' E.
  destruct (Nat.lt_trichotomy n n') as [Hl|[->|Hl]].
  - pose proof (node_start_next nd last _ _ H Hl). lia.
  - split; [reflexivity|lia].
  - pose proof (node_start_next nd last _ _ H Hl). lia.
Qed.
Lemma half_dofs nd last n : (nd = 4 \/ nd = 6)%nat -> (nd / 2 <= node_dofs nd last n)%nat.
Proof. intros H. unfold node_dofs. destruct H as [-> | ->]; simpl; destruct (n <=? last + 1)%nat; simpl; lia. Qed.

(** total number of dofs of the first [last+2+p] nodes *)
Lemma node_start_total nd last p : (nd = 4 \/ nd = 6)%nat ->
  (node_start nd last (last + 2 + p) = nd * (last + 2) + nd / 2 * p)%nat.
Proof.
  intros H. unfold node_start. destruct (Nat.leb_spec (last + 2 + p) (last + 1)); [lia|].
  replace (last + 2 + p - (last + 2))%nat with p by lia. reflexivity.
Qed.
Lemma node_below nd last p n v : (nd = 4 \/ nd = 6)%nat -> (n < last + 2 + p)%nat -> (v < node_dofs nd last n)%nat ->
  (node_start nd last n + v < nd * (last + 2) + nd / 2 * p)%nat.
Proof.
  intros H Hn Hv. rewrite <- node_start_total by auto. pose proof (node_start_next nd last _ _ H Hn). lia.
Qed.
Lemma node_cover nd last N i : (nd = 4 \/ nd = 6)%nat -> (i < node_start nd last N)%nat ->
  exists n v, (n < N)%nat /\ (v < node_dofs nd last n)%nat /\ (node_start nd last n + v = i)%nat.
Proof.
  intros H. induction N; intros Hi.
  - unfold node_start in Hi. simpl in Hi. lia.
  - destruct (Nat.lt_ge_cases i (node_start nd last N)) as [Hl|Hl].
    + destruct (IHN Hl) as (n & v & A & B & C). exists n, v. auto.
    + exists N, (i - node_start nd last N)%nat. split; [lia|]. split; [|lia].
      assert (E : node_start nd last (S N) = (node_start nd last N + node_dofs nd last N)%nat); [|lia].
      unfold node_start, node_dofs. destruct (Nat.leb_spec (S N) (last + 1)) as [A|A]; destruct (Nat.leb_spec N (last + 1)) as [B|B].
      * nia.
      * lia.
      * assert (E : N = (last + 1)%nat) by lia. rewrite E. replace (S (last + 1) - (last + 2))%nat with 0%nat by lia. ring.
      * replace (S N - (last + 2))%nat with (S (N - (last + 2)))%nat by lia. ring.
Qed.

(** place of a letter among the dofs of a node *)
Definition lpos (nd : nat) (l : letter) : nat :=
  match l with Lx => 0 | Ly => 1 | Lz => 2
  | La => (if Nat.eqb nd 6 then 3 else 2) | Lb => (if Nat.eqb nd 6 then 4 else 3) | Lt => 5 end%nat.
Definition letter_ok (nd : nat) (l : letter) : Prop := match l with Lz | Lt => nd = 6%nat | _ => True end.
Lemma lpos_inj nd l l' : (nd = 4 \/ nd = 6)%nat -> letter_ok nd l -> letter_ok nd l' -> lpos nd l = lpos nd l' -> l = l'.
Proof. intros [-> | ->] H H'; destruct l, l'; simpl in *; intros; try reflexivity; try discriminate. Qed.

Lemma kset_in d k v p : In p (kset d k v) -> p = (k, v) \/ In p d.
Proof.
  induction d as [|[k' v'] d IH]; simpl; [intros [<-|[]]; auto|].
  destruct (dkey_eqb k k').
  - intros [<-|H]; auto.
  - intros [<-|H]; [auto|]. destruct (IH H); auto.
Qed.

Definition pm_fam (nd : nat) (e : elem) : Prop := match e with EPm six _ _ => fam nd six | _ => True end.
Lemma gidx_shaft nd last n v : (n <= last)%nat -> gidx nd last n v = (nd * n + v)%nat.
Proof. intros H. unfold gidx. destruct (Nat.leb_spec n (last + 1)); lia. Qed.
Lemma start_shaft nd last n : (n <= last + 1)%nat -> node_start nd last n = (nd * n)%nat.
Proof. intros H. unfold node_start. destruct (Nat.leb_spec n (last + 1)); lia. Qed.
Lemma dofs_shaft nd last n : (n <= last + 1)%nat -> node_dofs nd last n = nd.
Proof. intros H. unfold node_dofs. destruct (Nat.leb_spec n (last + 1)); lia. Qed.

(** every entry of a dof dictionary is (letter, node) |-> first dof of the node + place of the letter *)
Definition entry_ok (nd last : nat) (e : elem) (p : dkey * nat) : Prop :=
  snd p = (node_start nd last (snd (fst p)) + lpos nd (fst (fst p)))%nat /\
  letter_ok nd (fst (fst p)) /\
  (match e with EDisk _ _ _ => True | _ => (lpos nd (fst (fst p)) < node_dofs nd last (snd (fst p)))%nat end).
Lemma dof_index_entry nd last e p : (nd = 4 \/ nd = 6)%nat -> el_fam nd e -> pm_fam nd e ->
  (match e with EShaft _ n _ _ => (n <= last)%nat | _ => True end) ->
  In p (dof_index nd last e) -> entry_ok nd last e p.
Proof.
  intros Hnd Hf Hpf Hn Hin.
  assert (Hh := fun n => half_dofs nd last n Hnd).
  destruct e as [six n t s|six t d|t b|six t q].
  - unfold dof_index in Hin. cbn [el_link el_n] in Hin.
    pose proof (start_shaft nd last n ltac:(lia)). pose proof (start_shaft nd last (S n) ltac:(lia)).
    pose proof (dofs_shaft nd last n ltac:(lia)). pose proof (dofs_shaft nd last (S n) ltac:(lia)).
    destruct six; simpl in Hf; unfold fam in Hf; subst nd; cbn in Hin;
    repeat (destruct Hin as [<-|Hin]; [unfold entry_ok; cbn [fst snd Nat.add]; rewrite (gidx_shaft _ last n) by exact Hn;
       first [rewrite H|rewrite H0]; first [rewrite H1|rewrite H2]; simpl lpos; simpl letter_ok; repeat split; lia|]); destruct Hin.
  - unfold dof_index in Hin. cbn [el_link el_n] in Hin.
    destruct six; simpl in Hf; unfold fam in Hf; subst nd; cbn in Hin;
    repeat (destruct Hin as [<-|Hin]; [unfold entry_ok; cbn [fst snd Nat.add]; rewrite gidx_start by auto; simpl lpos; simpl letter_ok; auto|]); destruct Hin.
  - unfold dof_index in Hin. cbn [el_link el_n] in Hin.
    assert (Hlink : forall m, (nd = 4%nat -> nd / 2 = 2)%nat -> entry_ok nd last (EBrg t b) ((Lx, m), gidx nd last m 0) /\
       entry_ok nd last (EBrg t b) ((Ly, m), gidx nd last m 1) /\
       (nd = 6%nat -> entry_ok nd last (EBrg t b) ((Lz, m), gidx nd last m 2))).
    { intros m _. specialize (Hh m). unfold entry_ok. cbn [fst snd]. rewrite !gidx_start by auto.
      destruct Hnd as [-> | ->]; simpl lpos; simpl letter_ok; simpl Nat.div in Hh; repeat split; try lia. }
    assert (Hbase : forall p, In p (map (fun p => ((fst (fst p), (snd (fst p) + b_n (brg_base b))%nat), gidx nd last (b_n (brg_base b)) (snd p))) (dof_mapping (EBrg t b))) -> entry_ok nd last (EBrg t b) p).
    { intros p' Hp'. destruct (Hlink (b_n (brg_base b)) ltac:(intros ->; reflexivity)) as (L1 & L2 & L3).
      destruct b; simpl in Hf; unfold fam in Hf; cbn in Hp';
      repeat (destruct Hp' as [<-|Hp']; [first [exact L1|exact L2|exact (L3 Hf)]|]); destruct Hp'. }
    destruct (b_n_link (brg_base b)) as [m|]; [|auto].
    destruct (Hlink m ltac:(intros ->; reflexivity)) as (L1 & L2 & L3).
    destruct (Nat.eqb_spec nd 6) as [E6|].
    + apply kset_in in Hin as [->|Hin]; [auto|]. apply kset_in in Hin as [->|Hin]; [auto|]. apply kset_in in Hin as [->|Hin]; auto.
    + apply kset_in in Hin as [->|Hin]; [auto|]. apply kset_in in Hin as [->|Hin]; auto.
  - unfold dof_index in Hin. cbn [el_link el_n] in Hin. specialize (Hh (p_n q)).
    destruct six; simpl in Hpf; unfold fam in Hpf; subst nd; cbn in Hin; simpl Nat.div in Hh;
    repeat (destruct Hin as [<-|Hin]; [unfold entry_ok; cbn [fst snd Nat.add]; rewrite gidx_start by auto; simpl lpos; simpl letter_ok; repeat split; lia|]); destruct Hin.
Qed.

(** ** The dofs of an element *)
Lemma dkey_eqb_neq l m n : m <> n -> forall l', dkey_eqb (l, m) (l', n) = false.
Proof. intros H l'. unfold dkey_eqb. simpl. destruct (Nat.eqb_spec m n); [congruence|]. apply andb_false_r. Qed.

Ltac cons_lia := repeat (match goal with |- _ :: _ = _ :: _ => apply f_equal2; [lia|] end); reflexivity.
Lemma el_dofs_acts nd last e : (nd = 4 \/ nd = 6)%nat -> el_fam nd e -> pm_fam nd e ->
  (match e with EShaft _ n _ _ => (n <= last)%nat | _ => True end) -> el_link e <> Some (el_n e) ->
  el_dofs nd last e = acts_on nd last e.
Proof.
  intros Hnd Hf Hpf Hn Hl. unfold el_dofs.
  destruct e as [six n t s|six t d|t b|six t q]; unfold dof_index, acts_on; cbn [el_link el_n] in *.
  - rewrite (start_shaft nd last n), (start_shaft nd last (S n)) by lia.
    destruct six; simpl in Hf; unfold fam in Hf; subst nd; cbn [seq app].
    + cbn -[Nat.mul Nat.add]. rewrite !gidx_shaft by auto.
      cons_lia.
    + cbn -[Nat.mul Nat.add]. rewrite !gidx_shaft by auto.
      cons_lia.
  - destruct six; simpl in Hf; unfold fam in Hf; subst nd; cbn -[Nat.mul Nat.add node_start gidx]; rewrite !gidx_start by auto;
      cbn [seq]; cons_lia.
  - destruct b as [sl b|b]; simpl in Hf; unfold fam in Hf; subst nd; cbn [brg_base] in *; change (4 / 2)%nat with 2%nat; change (6 / 2)%nat with 3%nat.
    + destruct (b_n_link b) as [m|].
      * assert (Hne : m <> b_n b) by congruence.
        cbn -[gidx node_start dkey_eqb]. rewrite !dkey_eqb_neq by auto. cbn -[gidx node_start dkey_eqb].
        rewrite !dkey_eqb_neq by auto. cbn -[gidx node_start dkey_eqb].
        replace (dkey_eqb (Ly, m) (Lx, m)) with false by reflexivity.
        cbn -[gidx node_start dkey_eqb]. rewrite !gidx_start by auto. cons_lia.
      * cbn -[gidx node_start]. rewrite !gidx_start by auto. cons_lia.
    + destruct (b_n_link (b6 b)) as [m|].
      * assert (Hne : m <> b_n (b6 b)) by congruence.
        cbn -[gidx node_start dkey_eqb]. rewrite !dkey_eqb_neq by auto. cbn -[gidx node_start dkey_eqb].
        rewrite !dkey_eqb_neq by auto. cbn -[gidx node_start dkey_eqb].
        replace (dkey_eqb (Ly, m) (Lx, m)) with false by reflexivity.
        cbn -[gidx node_start dkey_eqb]. rewrite !dkey_eqb_neq by auto. cbn -[gidx node_start dkey_eqb].
        replace (dkey_eqb (Lz, m) (Lx, m)) with false by reflexivity.
        cbn -[gidx node_start dkey_eqb].
        replace (dkey_eqb (Lz, m) (Ly, m)) with false by reflexivity.
        cbn -[gidx node_start dkey_eqb].
        rewrite !gidx_start by auto. cons_lia.
      * cbn -[gidx node_start]. rewrite !gidx_start by auto. cons_lia.
  - destruct six; simpl in Hpf; unfold fam in Hpf; subst nd; cbn -[Nat.mul Nat.add node_start gidx]; rewrite !gidx_start by auto;
      cons_lia.
Qed.

Lemma nodup_two a k b l : ((a + k <= b) \/ (b + l <= a))%nat -> NoDup (seq a k ++ seq b l).
Proof.
  intros H. apply NoDup_app_iff || idtac.
  induction k in a, H |- *; simpl; [apply seq_NoDup|].
  constructor.
  - rewrite in_app_iff, !in_seq. lia.
  - apply IHk. lia.
Qed.
Lemma acts_on_nodup nd last e : (nd = 4 \/ nd = 6)%nat ->
  (match e with EShaft _ n _ _ => (n <= last)%nat | _ => True end) -> el_link e <> Some (el_n e) ->
  NoDup (acts_on nd last e).
Proof.
  intros Hnd Hn Hl. assert (Hh := fun n => half_dofs nd last n Hnd).
  destruct e as [six n t s|six t d|t b|six t q]; cbn [acts_on el_link el_n] in *; try apply seq_NoDup.
  - apply nodup_two. rewrite !start_shaft by lia. left. lia.
  - destruct (b_n_link (brg_base b)) as [m|]; [|rewrite app_nil_r; apply seq_NoDup].
    apply nodup_two. assert (m <> b_n (brg_base b)) by congruence.
    specialize (Hh m) as H1. specialize (Hh (b_n (brg_base b))) as H2.
    destruct (Nat.lt_trichotomy m (b_n (brg_base b))) as [A|[A|A]]; [|congruence|];
      pose proof (node_start_next nd last _ _ Hnd A); lia.
Qed.
(** a bearing linked to its own node has fewer dofs than its matrix has rows *)
Lemma letter_eqb_eq a b : letter_eqb a b = true <-> a = b.
Proof. destruct a, b; simpl; split; intros; try reflexivity; discriminate. Qed.
Lemma dkey_eqb_eq a b : dkey_eqb a b = true <-> a = b.
Proof.
  destruct a as [l n], b as [l' n']. unfold dkey_eqb. simpl. rewrite andb_true_iff, letter_eqb_eq, Nat.eqb_eq.
  split; [intros [-> ->]; reflexivity|intros [= -> ->]; auto].
Qed.
Lemma kset_keys d k v : In k (map fst d) -> map fst (kset d k v) = map fst d.
Proof.
  induction d as [|[k' v'] d IH]; simpl; [tauto|]. intros H. destruct (dkey_eqb k k') eqn:E.
  - apply dkey_eqb_eq in E as ->. reflexivity.
  - simpl. f_equal. apply IH. destruct H as [->|H]; [|exact H].
    assert (dkey_eqb k k = true) by (apply dkey_eqb_eq; reflexivity). congruence.
Qed.
Lemma self_link_short nd last t b : el_link (EBrg t b) = Some (el_n (EBrg t b)) -> el_fam nd (EBrg t b) ->
  length (el_dofs nd last (EBrg t b)) <> brg_size b.
Proof.
  intros Hl Hf. unfold el_dofs. rewrite map_length, <- (map_length (@fst dkey nat)). unfold dof_index. rewrite Hl.
  match goal with |- context [map ?f (dof_mapping ?e)] => set (base := map f (dof_mapping e)) end.
  assert (Hb : @map (dkey * nat) dkey (@fst dkey nat) base = map (fun k : dkey => (fst k, (snd k + el_n (EBrg t b))%nat)) (local_keys (EBrg t b)))
    by (unfold base; destruct b; reflexivity).
  clearbody base. unfold brg_size. cbn [el_link el_n] in Hl. rewrite Hl.
  destruct b as [sl b|b]; simpl in Hf; unfold fam in Hf; subst nd; cbn [brg_base el_n local_keys map fst snd Nat.add] in *; cbn [Nat.eqb].
  - assert (K : forall k v w, In k (@map (dkey * nat) dkey (@fst dkey nat) base) -> In w (@map (dkey * nat) dkey (@fst dkey nat) base) -> forall u, map fst (kset (kset base k v) w u) = @map (dkey * nat) dkey (@fst dkey nat) base).
    { intros. rewrite kset_keys; rewrite kset_keys; auto. }
    rewrite K, Hb by (rewrite Hb; simpl; auto). simpl. discriminate.
  - assert (K : forall k v w x, In k (@map (dkey * nat) dkey (@fst dkey nat) base) -> In w (@map (dkey * nat) dkey (@fst dkey nat) base) -> In x (@map (dkey * nat) dkey (@fst dkey nat) base) -> forall u y,
        map fst (kset (kset (kset base k v) w u) x y) = @map (dkey * nat) dkey (@fst dkey nat) base).
    { intros. rewrite kset_keys; rewrite kset_keys; rewrite ?kset_keys; auto. }
    rewrite K, Hb by (rewrite Hb; simpl; auto). simpl. discriminate.
Qed.
