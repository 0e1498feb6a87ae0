(** Lemmas about elements shared between rotors. *)
From Coq Require Import Reals String List Arith Bool Lia Lra Permutation Sorted.
From Verif Require Import PyBase MatBase SpecMat MMaterial MShaft MDisk MBearing MRotor SpecRotor MShare SpecShare LAssembly LRotor LRotor2 LRotorPos LRotor5 LRotor6 LRotor7 LRotorInit LRotorInit2 LRotorInit3.
Import ListNotations.
Open Scope list_scope.
Open Scope R_scope.

(** ** the tag written inside the element *)
Definition norm (e : elem) : elem :=
  match e with
  | EShaft _ _ _ _ => e
  | EDisk six t d => EDisk six t (rd_d (set_dtag t (mkRDisk six d)))
  | EBrg t b => EBrg t (set_btag t b)
  | EPm six t p => EPm six t (rp_p (set_ptag t (mkRPmass six p)))
  end.
Lemma norm_n e : el_n (norm e) = el_n e. Proof. destruct e as [| |? []|]; reflexivity. Qed.
Lemma norm_tag e : el_tag (norm e) = el_tag e. Proof. destruct e as [| |? []|]; reflexivity. Qed.
Lemma norm_link e : el_link (norm e) = el_link e. Proof. destruct e as [| |? []|]; reflexivity. Qed.
Lemma norm_map e : dof_mapping (norm e) = dof_mapping e. Proof. destruct e as [| |? []|]; reflexivity. Qed.
Lemma norm_m e : dk_m (norm e) = dk_m e. Proof. destruct e as [| |? []|]; reflexivity. Qed.
Lemma norm_Ip e : dk_Ip (norm e) = dk_Ip e. Proof. destruct e as [| |? []|]; reflexivity. Qed.
Lemma norm_row e a b : elem_row (norm e) a b = elem_row e a b. Proof. destruct e as [| |? []|]; reflexivity. Qed.
Lemma norm_index nd n_last e : dof_index nd n_last (norm e) = dof_index nd n_last e.
Proof. unfold dof_index. rewrite norm_map, norm_n, norm_link. reflexivity. Qed.
Lemma norm_dofs nd n_last e : el_dofs nd n_last (norm e) = el_dofs nd n_last e.
Proof. unfold el_dofs. rewrite norm_index. reflexivity. Qed.
Lemma norm_M spl w e : el_M spl w (norm e) = el_M spl w e. Proof. destruct e as [| |? []|]; reflexivity. Qed.
Lemma norm_K spl w e : el_K spl w (norm e) = el_K spl w e. Proof. destruct e as [| |? []|]; reflexivity. Qed.
Lemma norm_C spl w e : el_C spl w (norm e) = el_C spl w e. Proof. destruct e as [| |? []|]; reflexivity. Qed.
Lemma norm_G spl e : el_G spl (norm e) = el_G spl e. Proof. destruct e as [| |? []|]; reflexivity. Qed.
Lemma norm_Ms spl w e : el_M_sync spl w (norm e) = el_M_sync spl w e.
Proof. unfold el_M_sync. rewrite norm_M, norm_G. destruct e; reflexivity. Qed.

Lemma map_norm_eq {B} (g : elem -> B) l : (forall e, g (norm e) = g e) -> map g (map norm l) = map g l.
Proof. intros H. rewrite map_map. apply map_ext. auto. Qed.
Lemma insert_norm x l : insert_n (norm x) (map norm l) = map norm (insert_n x l).
Proof. induction l as [|y l IH]; simpl; [reflexivity|]. rewrite !norm_n. destruct (_ <=? _)%nat; simpl; [reflexivity|]. rewrite IH. reflexivity. Qed.
Lemma sort_norm l : sort_n (map norm l) = map norm (sort_n l).
Proof. induction l as [|x l IH]; simpl; [reflexivity|]. rewrite IH, insert_norm. reflexivity. Qed.
Lemma existsb_norm (f : elem -> bool) l : (forall e, f (norm e) = f e) -> existsb f (map norm l) = existsb f l.
Proof. intros H. induction l as [|e l IH]; simpl; [reflexivity|]. rewrite H, IH. reflexivity. Qed.
Lemma filter_norm (f : elem -> bool) l : (forall e, f (norm e) = f e) -> filter f (map norm l) = map norm (filter f l).
Proof. intros H. induction l as [|e l IH]; simpl; [reflexivity|]. rewrite H, IH. destruct (f e); reflexivity. Qed.
Lemma combine_norm {B C} (g : elem * B -> C) l (l' : list B) : (forall e b, g (norm e, b) = g (e, b)) -> map g (combine (map norm l) l') = map g (combine l l').
Proof. intros H. revert l'. induction l as [|e l IH]; intros [|b l']; simpl; auto. rewrite H, IH. reflexivity. Qed.
Lemma disk_positions_norm pos l : disk_positions pos (map norm l) = disk_positions pos l.
Proof. induction l as [|e l IH]; simpl; [reflexivity|]. rewrite norm_n, IH. reflexivity. Qed.
Lemma locate_all_norm l : forall df, locate_all df (map norm l) = locate_all df l.
Proof.
  induction l as [|e l IH]; intros df; simpl; [reflexivity|].
  assert (E : locate_one df (norm e) = locate_one df e) by (unfold locate_one; rewrite norm_n, norm_tag; reflexivity). rewrite E.
  destruct (locate_one df e); simpl; auto.
Qed.
Lemma heights_ok_norm sh br df l : heights_ok sh (map norm br) df (map norm l) = heights_ok sh br df l.
Proof.
  induction l as [|e l IH]; simpl; [reflexivity|]. rewrite norm_tag, IH.
  rewrite filter_norm by (intros; rewrite norm_tag; reflexivity). rewrite (map_norm_eq el_n) by apply norm_n. reflexivity.
Qed.
Lemma pm_ok_norm br pm : pm_ok (map norm br) (map norm pm) = pm_ok br pm.
Proof. unfold pm_ok. induction pm as [|p pm IH]; simpl; [reflexivity|]. rewrite IH, norm_n. f_equal. apply existsb_norm. intros. rewrite norm_n. reflexivity. Qed.
Lemma check_norm sh dk br : check_number_dof sh (map norm dk) (map norm br) = check_number_dof sh dk br.
Proof. unfold check_number_dof. destruct sh; [reflexivity|]. rewrite !existsb_norm by (intros; rewrite norm_map; reflexivity). reflexivity. Qed.
Lemma location_norm sh dk br pm : location_ok sh (map norm dk) (map norm br) (map norm pm) = location_ok sh dk br pm.
Proof. unfold location_ok. rewrite !map_app, !(map_norm_eq el_n) by apply norm_n. reflexivity. Qed.
Lemma tags_norm sh dk br pm : map el_tag (sh ++ map norm dk ++ map norm br ++ map norm pm) = map el_tag (sh ++ dk ++ br ++ pm).
Proof. rewrite !map_app, !(map_norm_eq el_tag) by apply norm_tag. reflexivity. Qed.

Definition norm_rotor (r : rotor) : rotor :=
  mkRotor (r_shaft r) (map norm (r_disk r)) (map norm (r_brg r)) (map norm (r_pm r)) (r_nd r) (r_n_last r) (r_ndof r) (r_nodes_pos r) (r_shaft_pos r)
    (r_m_disks r) (r_m_shaft r) (r_m r) (r_CG r) (r_Ip r).
Definition res_map {A B} (f : A -> B) (x : res A) : res B := match x with Ok a => Ok (f a) | Err e => Err e end.

Lemma init_norm shafts d1 b1 p1 d2 b2 p2 : mapi mk_disk 0 d2 = map norm (mapi mk_disk 0 d1) -> mapi mk_brg 0 b2 = map norm (mapi mk_brg 0 b1) ->
  mapi mk_pm 0 p2 = map norm (mapi mk_pm 0 p1) ->
  rotor_init shafts d2 b2 p2 = res_map norm_rotor (rotor_init shafts d1 b1 p1) /\ reached shafts d2 b2 p2 = reached shafts d1 b1 p1.
Proof.
  intros Hd Hb Hp. unfold rotor_init, reached. rewrite Hd, Hb, Hp. rewrite !sort_norm.
  set (sh := sort_n (mapi mk_shaft 0 shafts)). set (dk := mapi mk_disk 0 d1). set (br := sort_n (mapi mk_brg 0 b1)). set (pm := mapi mk_pm 0 p1).
  rewrite tags_norm. destruct (tags_unique _); [|split; reflexivity]. cbn [negb]. rewrite check_norm. destruct (check_number_dof sh dk br) as [nd|]; [|split; reflexivity]. cbn [bind].
  rewrite location_norm. destruct (location_ok sh dk br pm); [|split; reflexivity]. cbn [negb]. rewrite disk_positions_norm. destruct (disk_positions _ dk) as [dpos|]; [|split; reflexivity]. cbn [bind]. cbv zeta.
  split; [|reflexivity].
  rewrite !combine_norm by (intros; cbn [fst snd]; rewrite ?norm_m, ?norm_row; reflexivity).
  rewrite !(map_norm_eq dk_m) by apply norm_m. rewrite !(map_norm_eq dk_Ip) by apply norm_Ip.
  rewrite !filter_norm by (intros [| |? []|]; reflexivity). rewrite !(map_norm_eq (fun b => elem_row b None None)) by (intros; apply norm_row).
  rewrite locate_all_norm. destruct (locate_all _ br) as [df|]; [|reflexivity]. cbn [bind]. rewrite heights_ok_norm. destruct (heights_ok _ _ _ _); [|reflexivity]. cbn [bind].
  rewrite pm_ok_norm. destruct (pm_ok br pm); [|reflexivity]. cbn [negb res_map]. rewrite map_length. reflexivity.
Qed.

(** ** kinds *)
Record kind_ok {A} (k : kind A) : Prop := {
  ko_set : forall t v, k_tag k (k_set k t v) = Some t;
  ko_some : forall i j v, k_tag k v <> None -> k_elem k i v = k_elem k j v;
  ko_norm_some : forall i v, k_tag k v <> None -> norm (k_elem k i v) = k_elem k i v;
  ko_norm_none : forall i j v, k_tag k v = None -> k_elem k j (k_set k (k_prefix k v ++ str i) v) = norm (k_elem k i v);
  ko_tag : forall i v t, k_tag k v = Some t -> el_tag (k_elem k i v) = t }.
Arguments ko_set {A k}. Arguments ko_some {A k}. Arguments ko_norm_some {A k}. Arguments ko_norm_none {A k}. Arguments ko_tag {A k}.
Lemma disks_ok : kind_ok disks_kind.
Proof.
  constructor.
  - reflexivity.
  - intros i j [six [n m a b [t|]]] H; [reflexivity|destruct (H eq_refl)].
  - intros i [six [n m a b [t|]]] H; [reflexivity|destruct (H eq_refl)].
  - intros i j [six [n m a b [t|]]] H; [discriminate|reflexivity].
  - intros i [six [n m a b [t|]]] u H; [|discriminate]. injection H as <-. reflexivity.
Qed.
Lemma brgs_ok : kind_ok brgs_kind.
Proof.
  constructor.
  - intros t [s b|b]; reflexivity.
  - intros i j [s [n l [t|] c f g h]|[[n l [t|] c f g h] x y z]] H; try reflexivity; destruct (H eq_refl).
  - intros i [s [n l [t|] c f g h]|[[n l [t|] c f g h] x y z]] H; try reflexivity; destruct (H eq_refl).
  - intros i j [s [n l [t|] c f g h]|[[n l [t|] c f g h] x y z]] H; try discriminate; try (destruct s; reflexivity); reflexivity.
  - intros i [s [n l [t|] c f g h]|[[n l [t|] c f g h] x y z]] u H; try discriminate; injection H as <-; reflexivity.
Qed.
Lemma pms_ok : kind_ok pms_kind.
Proof.
  constructor.
  - reflexivity.
  - intros i j [six [n m a b [t|]]] H; [reflexivity|destruct (H eq_refl)].
  - intros i [six [n m a b [t|]]] H; [reflexivity|destruct (H eq_refl)].
  - intros i j [six [n m a b [t|]]] H; [discriminate|reflexivity].
  - intros i [six [n m a b [t|]]] u H; [|discriminate]. injection H as <-. reflexivity.
Qed.

Lemma upd_same {A} (st : ref -> A) x v : upd st x v x = v. Proof. unfold upd. rewrite Nat.eqb_refl. reflexivity. Qed.
Lemma upd_other {A} (st : ref -> A) x v y : y <> x -> upd st x v y = st y. Proof. unfold upd. intros H. apply Nat.eqb_neq in H. rewrite H. reflexivity. Qed.

Section Kind.
Context {A : Type} (k : kind A) (K : kind_ok k).
Definition tagged (i : nat) (v : A) : A := match k_tag k v with None => k_set k (k_prefix k v ++ str i) v | Some _ => v end.
Lemma tagged_some i v : k_tag k (tagged i v) <> None.
Proof. unfold tagged. destruct (k_tag k v) eqn:E; [congruence|]. rewrite (ko_set K). discriminate. Qed.
Lemma tagged_elem i j v : k_elem k j (tagged i v) = norm (k_elem k i v).
Proof.
  unfold tagged. destruct (k_tag k v) eqn:E; [|apply (ko_norm_none K); auto].
  rewrite (ko_norm_some K) by congruence. apply (ko_some K). congruence.
Qed.
Lemma tag_cons i x l st : tag_from k i (x :: l) st = tag_from k (S i) l (upd st x (tagged i (fst (st x)), snd (st x))) \/ tag_from k i (x :: l) st = tag_from k (S i) l st /\ k_tag k (fst (st x)) <> None.
Proof. cbn [tag_from]. unfold tagged. destruct (k_tag k (fst (st x))) eqn:E; [right; split; [reflexivity|congruence]|left; reflexivity]. Qed.
Lemma tag_dofs : forall l i st y, snd (tag_from k i l st y) = snd (st y).
Proof.
  induction l as [|x l IH]; intros i st y; [reflexivity|]. cbn [tag_from]. rewrite IH. destruct (k_tag k (fst (st x))); [reflexivity|].
  unfold upd. destruct (Nat.eqb_spec y x); [subst; reflexivity|reflexivity].
Qed.
Lemma tag_out : forall l i st y, ~ In y l -> tag_from k i l st y = st y.
Proof.
  induction l as [|x l IH]; intros i st y H; [reflexivity|]. cbn [tag_from]. rewrite IH by (intros Q; apply H; right; auto). destruct (k_tag k (fst (st x))); [reflexivity|].
  apply upd_other. intros ->. apply H. left; auto.
Qed.
Lemma tag_keeps : forall l i st y, k_tag k (fst (st y)) <> None -> tag_from k i l st y = st y.
Proof.
  induction l as [|x l IH]; intros i st y H; [reflexivity|]. cbn [tag_from]. destruct (k_tag k (fst (st x))) eqn:E; [apply IH; auto|].
  assert (y <> x) by congruence. rewrite IH; rewrite upd_other; auto.
Qed.
Lemma tag_first : forall l1 i st x l2, ~ In x l1 -> fst (tag_from k i (l1 ++ x :: l2) st x) = tagged (i + length l1) (fst (st x)).
Proof.
  induction l1 as [|y l1 IH]; intros i st x l2 H.
  - cbn [app length tag_from]. rewrite Nat.add_0_r. unfold tagged. destruct (k_tag k (fst (st x))) eqn:E.
    + rewrite tag_keeps by congruence. reflexivity.
    + rewrite tag_keeps; rewrite upd_same; cbn [fst]; [reflexivity|]. rewrite (ko_set K). discriminate.
  - cbn [app length tag_from]. rewrite IH by (intros Q; apply H; right; auto). assert (x <> y) by (intros ->; apply H; left; auto).
    replace (i + S (length l1))%nat with (S i + length l1)%nat by lia. destruct (k_tag k (fst (st y))); [reflexivity|]. rewrite upd_other; auto.
Qed.
Lemma tag_in l i st x : In x l -> k_tag k (fst (tag_from k i l st x)) <> None.
Proof.
  intros H. assert (D : exists l1 l2, l = l1 ++ x :: l2 /\ ~ In x l1).
  { induction l as [|y l IH]; [destruct H|]. destruct (Nat.eq_dec x y) as [->|N]; [exists [], l; split; [reflexivity|intros []]|].
    destruct H as [->|H]; [congruence|]. destruct (IH H) as (l1 & l2 & -> & Q). exists (y :: l1), l2. split; [reflexivity|]. intros [E|E]; [congruence|auto]. }
  destruct D as (l1 & l2 & -> & D). rewrite tag_first by auto. apply tagged_some.
Qed.
Lemma tag_vals : forall l i st, NoDup l -> vals (tag_from k i l st) l = mapi tagged i (vals st l).
Proof.
  induction l as [|x l IH]; intros i st H; [reflexivity|]. apply NoDup_cons_iff in H as [H1 H2]. cbn [vals map mapi]. f_equal.
  - change (x :: l) with ([] ++ x :: l). rewrite tag_first by (intros []). cbn [length]. rewrite Nat.add_0_r. reflexivity.
  - cbn [tag_from]. fold (vals (tag_from k (S i) l (match k_tag k (fst (st x)) with None => upd st x (k_set k (k_prefix k (fst (st x)) ++ str i) (fst (st x)), snd (st x)) | Some _ => st end)) l).
    rewrite IH by auto. f_equal. apply map_ext_in. intros y Hy. destruct (k_tag k (fst (st x))); [reflexivity|]. rewrite upd_other; [reflexivity|]. intros ->. auto.
Qed.
Lemma tagged_elems l : forall i, mapi (k_elem k) i (mapi tagged i l) = map norm (mapi (k_elem k) i l).
Proof. induction l as [|v l IH]; intros i; [reflexivity|]. cbn [mapi map]. rewrite tagged_elem, IH. reflexivity. Qed.

(** the objects of a list that have tags: position does not matter *)
Lemma mapi_tagged l : (forall v, In v l -> k_tag k v <> None) -> forall i, mapi (k_elem k) i l = map (k_elem k 0) l.
Proof.
  intros H. induction l as [|v l IH]; intros i; [reflexivity|]. cbn [mapi map]. rewrite (ko_some K i 0%nat v) by (apply H; left; auto). f_equal. apply IH. intros; apply H; right; auto.
Qed.

(** ** numbering *)
Lemma number_spec nd n_last : forall l st y, fst (number_all k nd n_last l st y) = fst (st y) /\
  snd (number_all k nd n_last l st y) = if existsb (Nat.eqb y) l then Some (el_dofs nd n_last (k_elem k 0 (fst (st y)))) else snd (st y).
Proof.
  induction l as [|x l IH]; intros st y; [split; reflexivity|].
  change (number_all k nd n_last (x :: l) st) with (number_all k nd n_last l (upd st x (fst (st x), Some (el_dofs nd n_last (k_elem k 0 (fst (st x))))))).
  match goal with |- context [number_all k nd n_last l ?s y] => destruct (IH s y) as [H1 H2] end. rewrite H1, H2. cbn [existsb].
  unfold upd. destruct (Nat.eqb_spec y x); [subst y|]; cbn [fst snd orb]; split; auto. destruct (existsb _ _); reflexivity.
Qed.
End Kind.
Lemma tagged_vals {A} (k : kind A) (K : kind_ok k) l st : forall v, In v (vals (tag_from k 0 l st) l) -> k_tag k v <> None.
Proof. intros v H. apply in_map_iff in H as (x & <- & H). apply tag_in; auto. Qed.

Lemma existsb_eqb y l : existsb (Nat.eqb y) l = true <-> In y l.
Proof. rewrite existsb_exists. split; [intros (x & H & E); apply Nat.eqb_eq in E; congruence|intros H; exists y; split; [auto|apply Nat.eqb_refl]]. Qed.

(** ** sorting references *)
Lemma insert_refs_elem (st : ref -> rbrg * dofs) x l : map (fun x => mk_brg 0 (fst (st x))) (insert_ref st x l) = insert_n (mk_brg 0 (fst (st x))) (map (fun x => mk_brg 0 (fst (st x))) l).
Proof. induction l as [|y l IH]; [reflexivity|]. cbn [insert_ref insert_n map el_n mk_brg]. destruct (_ <=? _)%nat; [reflexivity|]. cbn [map]. rewrite IH. reflexivity. Qed.
Lemma sort_refs_elem (st : ref -> rbrg * dofs) l : map (fun x => mk_brg 0 (fst (st x))) (sort_refs st l) = sort_n (map (fun x => mk_brg 0 (fst (st x))) l).
Proof. induction l as [|x l IH]; [reflexivity|]. cbn [sort_refs fold_right map sort_n]. fold (sort_refs st l). rewrite insert_refs_elem, IH. reflexivity. Qed.
Lemma insert_refs_in st x l y : In y (insert_ref st x l) <-> y = x \/ In y l.
Proof. induction l as [|z l IH]; cbn [insert_ref]; [simpl; intuition|]. destruct (_ <=? _)%nat; [simpl; intuition|]. cbn [In]. rewrite IH. simpl. intuition. Qed.
Lemma sort_refs_in st l y : In y (sort_refs st l) <-> In y l.
Proof. induction l as [|x l IH]; [reflexivity|]. cbn [sort_refs fold_right]. fold (sort_refs st l). rewrite insert_refs_in, IH. simpl. intuition. Qed.
Lemma sort_refs_ext (st st' : ref -> rbrg * dofs) l : (forall x, In x l -> fst (st x) = fst (st' x)) -> sort_refs st l = sort_refs st' l.
Proof.
  induction l as [|x l IH]; intros H; [reflexivity|]. cbn [sort_refs fold_right]. fold (sort_refs st l) (sort_refs st' l). rewrite IH by (intros; apply H; right; auto).
  assert (G : forall m, (forall y, In y m -> In y l) -> insert_ref st x m = insert_ref st' x m).
  { induction m as [|y m IHm]; intros Hm; [reflexivity|]. cbn [insert_ref]. rewrite (H x), (H y) by (simpl; auto using or_introl; right; apply Hm; left; auto). destruct (_ <=? _)%nat; [reflexivity|]. f_equal. apply IHm. intros; apply Hm; right; auto. }
  apply G. intros y. apply sort_refs_in.
Qed.
