(** Lemmas for C58: files, keys, and the rotor round trip. *)
From Coq Require Import Reals String Ascii List Bool Arith Lia Lra Sorted Permutation.
From Verif Require Import PyBase PyDict MatBase MMaterial MShaft MDisk MBearing MRotor MSave SpecSave LRotor LRotorInit LRotor7 LShare LSave LSave2 LSave3.
Import ListNotations.
Open Scope list_scope.
Open Scope R_scope.

(** ** files *)
Definition no_none (s : section) : Prop := forall a v, In (a, v) s -> v <> TNone.
Lemma dump_id s : no_none s -> dump_section s = s.
Proof.
  unfold dump_section. induction s as [|[a v] s IH]; simpl; intros H; [reflexivity|].
  assert (v <> TNone) by (apply (H a); simpl; auto). rewrite IH by (intros a' v' Hi; apply (H a'); simpl; auto). destruct v; try reflexivity. congruence.
Qed.
Lemma dump_no_none s : no_none (dump_section s).
Proof. intros a v H. unfold dump_section in H. apply filter_In in H. destruct H as [_ H]. intros ->. discriminate H. Qed.
Lemma map_dump (d : dict section) : (forall k s, In (k, s) d -> no_none s) -> map (fun p => (fst p, dump_section (snd p))) d = d.
Proof.
  induction d as [|[k s] d IH]; simpl; intros H; [reflexivity|]. rewrite IH by (intros; eapply H; eauto). rewrite dump_id by (apply (H k); auto). reflexivity.
Qed.
Lemma map_dset_dump (d : dict section) k s : (forall k s, In (k, s) d -> no_none s) -> map (fun p => (fst p, dump_section (snd p))) (dset d k s) = dset d k (dump_section s).
Proof.
  induction d as [|[k' s'] d IH]; cbn [dset]; intros H; [reflexivity|]. assert (H' : forall k s, In (k, s) d -> no_none s) by (intros; eapply H; simpl; eauto).
  destruct (String.eqb k k'); cbn [map fst snd].
  - rewrite map_dump by exact H'. reflexivity.
  - rewrite IH by exact H'. rewrite dump_id by (apply (H k'); simpl; auto). reflexivity.
Qed.
Lemma clean_no f : clean f <-> forall k s, In (k, s) (read_file f) -> no_none s.
Proof. unfold clean, no_none. split; intros H; eauto. Qed.
Lemma in_dset {A} (d : dict A) k v p : In p (dset d k v) -> p = (k, v) \/ In p d.
Proof. induction d as [|[k' v'] d IH]; cbn [dset]; simpl; [intuition|]. destruct (String.eqb k k') eqn:E; simpl; intuition. Qed.
Lemma save_file f o s : clean f -> section_of o = Ok s -> obj_save f o = Ok (Some (dset (read_file f) (obj_key o) (dump_section s))).
Proof. intros H E. unfold obj_save. rewrite E. cbn [bind]. rewrite map_dset_dump by (apply clean_no; exact H). reflexivity. Qed.
Lemma save_clean f o f' : clean f -> obj_save f o = Ok f' -> clean f'.
Proof.
  intros H E. unfold obj_save in E. destruct (section_of o) as [s|] eqn:S; [|discriminate]. pose proof (save_file f o s H S) as E'. unfold obj_save in E'. rewrite S in E'.
  rewrite E in E'. injection E' as ->. apply clean_no. cbn [read_file]. intros k s' Hi. apply in_dset in Hi. destruct Hi as [Hi|Hi].
  - injection Hi as _ ->. apply dump_no_none.
  - exact (proj1 (clean_no f) H _ _ Hi).
Qed.
Lemma dset_new {A} (d : dict A) k v : ~ In k (dkeys d) -> dset d k v = d ++ [(k, v)].
Proof.
  induction d as [|[k' v'] d IH]; cbn [dset]; intros H; [reflexivity|]. destruct (String.eqb_spec k k') as [->|N]; [destruct H; simpl; auto|].
  rewrite IH by (intros Hi; apply H; simpl; auto). reflexivity.
Qed.

Definition sec_of (o : obj) : string * section := (obj_key o, match section_of o with Ok s => dump_section s | Err _ => [] end).
Lemma save_all_ok l : forall d, clean (Some d) -> (forall o, In o l -> saveable o) -> NoDup (dkeys d ++ map obj_key l) ->
  forall l', save_all (Some d) (l ++ l') = save_all (Some (d ++ map sec_of l)) l' /\ clean (Some (d ++ map sec_of l)).
Proof.
  induction l as [|o l IH]; intros d C SV ND l'; [rewrite app_nil_r; auto|]. cbn [app save_all map].
  destruct (proj1 (section_ok o)) as (s & E); [apply SV; simpl; auto|]. rewrite (save_file _ _ _ C E). cbn [read_file].
  assert (N : ~ In (obj_key o) (dkeys d)) by (cbn [map] in ND; apply NoDup_remove_2 in ND; intros Hi; apply ND; apply in_or_app; auto).
  assert (C' : clean (Some (dset d (obj_key o) (dump_section s)))) by (exact (save_clean _ _ _ C (save_file _ _ _ C E))).
  rewrite dset_new in C' |- * by exact N. assert (E2 : [(obj_key o, dump_section s)] = [sec_of o]) by (unfold sec_of; rewrite E; reflexivity). rewrite E2 in C' |- *.
  destruct (IH (d ++ [sec_of o])) with (l' := l') as [I1 I2]; auto.
  - intros; apply SV; simpl; auto.
  - unfold dkeys. rewrite map_app, <- app_assoc. exact ND.
  - rewrite <- app_assoc in I1, I2. auto.
Qed.

(** ** keys *)
Lemma class_underscore c t : upto_underscore (class_name c ++ "_" ++ t) = class_name c.
Proof. destruct c as [| | | |[]| |]; reflexivity. Qed.
Lemma app_inj_l (a b c : string) : (a ++ b = a ++ c)%string -> b = c.
Proof. induction a; simpl; intros H; [exact H|]. injection H; auto. Qed.
Lemma key_tag o o' : obj_key o = obj_key o' -> obj_class o = obj_class o' /\ tag_str (obj_tag o) = tag_str (obj_tag o').
Proof.
  unfold obj_key. intros H. assert (E : class_name (obj_class o) = class_name (obj_class o')).
  { rewrite <- (class_underscore (obj_class o) (tag_str (obj_tag o))), H. apply class_underscore. }
  split.
  - destruct (obj_class o) as [| | | |[]| |], (obj_class o') as [| | | |[]| |]; first [reflexivity|discriminate E].
  - rewrite E in H. apply app_inj_l in H. injection H. auto.
Qed.
Lemma key_not_parameters o : obj_key o <> "parameters"%string.
Proof. unfold obj_key. intros H. apply (f_equal upto_underscore) in H. rewrite class_underscore in H. destruct (obj_class o) as [| | | |[]| |]; discriminate H. Qed.
Lemma find_global o : loadable o -> saveable o -> find_class (class_name (obj_class o)) = Some (obj_class o).
Proof.
  destruct o as [s|d|b|p]; cbn [obj_class loadable saveable].
  - destruct (os_six s); reflexivity.
  - destruct (od_six d); reflexivity.
  - destruct b as [| | | | |[]]; cbn [brg_class]; intros; try contradiction; reflexivity.
  - destruct (op_six p); reflexivity.
Qed.
Lemma load_all_back l : (forall o, In o l -> built o /\ saveable o /\ loadable o) -> load_all (map sec_of l) = Ok (map back l).
Proof.
  induction l as [|o l IH]; intros H; [reflexivity|]. destruct (H o) as (B & SV & LD); [simpl; auto|].
  cbn [map]. unfold sec_of at 1. cbn [load_all]. destruct (String.eqb_spec (obj_key o) "parameters") as [E|_]; [destruct (key_not_parameters o E)|].
  unfold obj_key. rewrite class_underscore, find_global by assumption. destruct (proj1 (section_ok o) SV) as (s & E). rewrite E.
  rewrite (read_back _ _ B SV LD E). cbn [bind]. rewrite IH by (intros; apply H; simpl; auto). reflexivity.
Qed.

(** ** sorting by a key *)
Section SortBy.
Context {A : Type} (key : A -> nat).
Lemma insert_by_perm x l : Permutation (insert_by key x l) (x :: l).
Proof. induction l as [|y l IH]; simpl; [auto|]. destruct (key x <=? key y)%nat; [auto|]. rewrite IH. apply perm_swap. Qed.
Lemma sort_by_perm l : Permutation (sort_by key l) l.
Proof. unfold sort_by. induction l; simpl; [auto|]. rewrite insert_by_perm, IHl. auto. Qed.
Lemma sort_by_in l x : In x (sort_by key l) <-> In x l.
Proof. split; apply Permutation_in; [|symmetry]; apply sort_by_perm. Qed.
Definition le_key (a b : A) : Prop := (key a <= key b)%nat.
Lemma insert_by_sorted x l : StronglySorted le_key l -> StronglySorted le_key (insert_by key x l).
Proof.
  induction l as [|y l IH]; simpl; intros H; [repeat constructor|]. inversion H as [|? ? H1 H2]; subst. destruct (Nat.leb_spec (key x) (key y)).
  - constructor; [exact H|]. constructor; [exact H0|]. eapply Forall_impl; [|exact H2]. unfold le_key; intros; lia.
  - constructor; [auto|]. apply Forall_forall. intros z Hz. apply (Permutation_in _ (insert_by_perm x l)) in Hz. destruct Hz as [<-|Hz]; [unfold le_key; lia|].
    rewrite Forall_forall in H2. auto.
Qed.
Lemma sort_by_sorted l : StronglySorted le_key (sort_by key l).
Proof. unfold sort_by. induction l; simpl; [constructor|apply insert_by_sorted; auto]. Qed.
Lemma sort_by_id l : StronglySorted le_key l -> sort_by key l = l.
Proof.
  unfold sort_by. induction l as [|x l IH]; intros H; [reflexivity|]. inversion H as [|? ? H1 H2]; subst. cbn [fold_right]. rewrite IH by exact H1.
  destruct l as [|y l]; [reflexivity|]. cbn [insert_by]. inversion H2 as [|? ? H3 H4]; subst. unfold le_key in H3. destruct (Nat.leb_spec (key x) (key y)); [reflexivity|lia].
Qed.
Lemma sort_n_map (f : A -> elem) l : (forall x, In x l -> el_n (f x) = key x) -> sort_n (map f l) = map f (sort_by key l).
Proof.
  unfold sort_by. induction l as [|x l IH]; intros H; [reflexivity|]. cbn [map sort_n fold_right]. change (fold_right insert_n [] (map f l)) with (sort_n (map f l)).
  rewrite IH by (intros; apply H; simpl; auto). assert (K : forall y, In y (fold_right (insert_by key) [] l) -> el_n (f y) = key y).
  { intros y Hy. apply H. right. exact (proj1 (sort_by_in l y) Hy). }
  assert (Kx : el_n (f x) = key x) by (apply H; simpl; auto). clear IH H. induction (fold_right (insert_by key) [] l) as [|y m IHm]; [reflexivity|].
  cbn [map insert_n insert_by]. rewrite Kx, (K y) by (simpl; auto). destruct (key x <=? key y)%nat; [reflexivity|]. cbn [map]. rewrite IHm by (intros; apply K; simpl; auto). reflexivity.
Qed.
End SortBy.
Lemma sort_by_map {A} (key : A -> nat) (f : A -> A) l : (forall x, key (f x) = key x) -> sort_by key (map f l) = map f (sort_by key l).
Proof.
  intros H. unfold sort_by. induction l as [|x l IH]; [reflexivity|]. cbn [map fold_right]. rewrite IH. clear IH.
  induction (fold_right (insert_by key) [] l) as [|y m IHm]; [reflexivity|]. cbn [map insert_by]. rewrite !H. destruct (_ <=? _)%nat; [reflexivity|]. cbn [map]. rewrite IHm. reflexivity.
Qed.

(** ** naming *)
Lemma mapi_same {A B} (f : nat -> A -> B) (g : A -> B) l : (forall i x, In x l -> f i x = g x) -> forall i, mapi f i l = map g l.
Proof. intros H. induction l as [|x l IH]; intros i; [reflexivity|]. cbn [mapi map]. rewrite H by (simpl; auto). rewrite IH by (intros; apply H; simpl; auto). reflexivity. Qed.
Lemma mapi_comp {A B C} (f : nat -> A -> B) (g : B -> C) l : forall i, map g (mapi f i l) = mapi (fun i x => g (f i x)) i l.
Proof. induction l as [|x l IH]; intros i; [reflexivity|]. cbn [mapi map]. rewrite IH. reflexivity. Qed.
Lemma mapi_pre {A B C} (f : A -> B) (g : nat -> B -> C) l : forall i, mapi g i (map f l) = mapi (fun i x => g i (f x)) i l.
Proof. induction l as [|x l IH]; intros i; [reflexivity|]. cbn [mapi map]. rewrite IH. reflexivity. Qed.
Lemma mapi_ext {A B} (f g : nat -> A -> B) l : (forall i x, f i x = g i x) -> forall i, mapi f i l = mapi g i l.
Proof. intros H. induction l as [|x l IH]; intros i; [reflexivity|]. cbn [mapi]. rewrite H, IH. reflexivity. Qed.

Lemma shaft_named j i o : mk_shaft j (to_rshaft (name_shaft i o)) = Fb (mk_shaft i (to_rshaft o)).
Proof. reflexivity. Qed.
Lemma disk_named j i o : mk_disk j (to_rdisk (name_disk i o)) = Fb (mk_disk i (to_rdisk o)).
Proof. reflexivity. Qed.
Lemma pm_named j i o : mk_pm j (to_rpm (name_pm i o)) = Fb (mk_pm i (to_rpm o)).
Proof. reflexivity. Qed.
Lemma brg_named j i o : mk_brg j (to_rbrg (back_brg (name_brg i o))) = Fb (mk_brg i (to_rbrg o)).
Proof. destruct o; reflexivity. Qed.

Definition named_shaft (o : oshaft) : Prop := s_n (os_s o) <> None /\ s_tag (os_s o) <> None.
Lemma named_name i o : named_shaft (name_shaft i o).
Proof. split; discriminate. Qed.
Lemma name_again_shaft j i o : name_shaft j (name_shaft i o) = name_shaft i o.
Proof. reflexivity. Qed.
Lemma name_again_disk j i o : name_disk j (name_disk i o) = name_disk i o.
Proof. reflexivity. Qed.
Lemma name_again_pm j i o : name_pm j (name_pm i o) = name_pm i o.
Proof. reflexivity. Qed.
Lemma name_again_brg j i o : name_brg j (back_brg (name_brg i o)) = back_brg (name_brg i o).
Proof. destruct o; reflexivity. Qed.

Lemma mapi_named {A B} (nm : nat -> A -> A) (mk : nat -> A -> B) (P : list A -> list A) (g : A -> A) l : (forall j i o, mk j (g (nm i o)) = mk 0%nat (g (nm i o))) ->
  (forall x, In x (P (mapi nm 0 l)) -> In x (mapi nm 0 l)) -> forall i, mapi mk i (map g (P (mapi nm 0 l))) = map (fun x => mk 0%nat (g x)) (P (mapi nm 0 l)).
Proof.
  intros H HP i. rewrite mapi_pre. apply mapi_same. intros j x Hx. apply HP in Hx. apply mapi_in in Hx as (k & o & _ & ->). apply H.
Qed.

(** ** the objects a rotor holds are still constructor-made *)
Lemma built_name_shaft i o : built (IShaft o) -> built (IShaft (name_shaft i o)).
Proof.
  intros (M & a & s & A & I & n & t & E). split; [exact M|]. exists a, s. repeat split; auto. cbn [name_shaft os_s].
  exists (Some (match s_n (os_s o) with Some n => n | None => i end)), (Some (default_tag "ShaftElement " i (s_tag (os_s o)))). rewrite E. reflexivity.
Qed.
Lemma built_name_brg i o : built (IBrg o) -> built (IBrg (name_brg i o)).
Proof.
  assert (K : forall b0 b t, same_but_tag b0 b -> same_but_tag b0 (bearing_with b t)) by (intros b0 b t (t' & ->); exists (Some t); reflexivity).
  destruct o; cbn [built built_brg name_brg map_brg brg_of sl_bearing sl_leakage b6 b6_kzz b6_czz b6_mzz].
  - intros (a & b0 & I & E). exists a, b0. auto.
  - intros (a & lk & s0 & I & E & L). exists a, lk, s0. auto.
  - intros (a & k & c & m & b0 & I & E & H). exists a, k, c, m, b0. auto.
  - intros (n & t & l & sc & b0 & I & E). exists n, t, l, sc, b0. auto.
  - intros (a & b0 & I & E). exists a, b0. auto.
  - intros (a & b0 & I & E). exists a, b0. auto.
Qed.
Lemma built_name_pm i o : built (IPm o) -> built (IPm (name_pm i o)).
Proof. intros (n & m & mx & my & mz & t & p & I & M & t' & E). exists n, m, mx, my, mz, t, p. repeat split; auto. cbn [name_pm op_p]. rewrite E. eexists. reflexivity. Qed.

Lemma robj_built sh dk br pm mn mx rt tag r : robj_init sh dk br pm mn mx rt tag = Ok r -> (forall o, In o (map IShaft sh ++ map IDisk dk ++ map IBrg br ++ map IPm pm) -> built o) ->
  forall o, In o (ro_elements r) -> built o.
Proof.
  unfold robj_init. destruct (rotor_init _ _ _ _) as [v|]; [|discriminate]. cbn [bind]. injection 1 as <-. unfold ro_elements. cbn [ro_sh ro_dk ro_br ro_pm]. intros B o Ho.
  assert (B1 : forall x, In x sh -> built (IShaft x)) by (intros; apply B; rewrite !in_app_iff, !in_map_iff; eauto).
  assert (B3 : forall x, In x br -> built (IBrg x)) by (intros; apply B; rewrite !in_app_iff, !in_map_iff; eauto 6).
  assert (B4 : forall x, In x pm -> built (IPm x)) by (intros; apply B; rewrite !in_app_iff, !in_map_iff; eauto 7).
  rewrite !in_app_iff, !in_map_iff in Ho. destruct Ho as [(x & <- & Hx)|[(x & <- & Hx)|[(x & <- & Hx)|(x & <- & Hx)]]].
  - apply (proj1 (sort_by_in _ _ _)) in Hx. apply mapi_in in Hx as (i & y & Hy & ->). apply built_name_shaft; auto.
  - exact I.
  - apply (proj1 (sort_by_in _ _ _)) in Hx. apply mapi_in in Hx as (i & y & Hy & ->). apply built_name_brg; auto.
  - apply mapi_in in Hx as (i & y & Hy & ->). apply built_name_pm; auto.
Qed.

(** ** building again from what came back *)
Definition again (r : robj) : robj :=
  mkRobj (ro_sh r) (ro_dk r) (map back_brg (ro_br r)) (ro_pm r) (f_rotor Fb (ro_val r)) (ro_min r) (ro_max r) (ro_rated r) "Rotor 0".
Lemma init_again sh dk br pm mn mx rt tag r : robj_init sh dk br pm mn mx rt tag = Ok r ->
  robj_init (ro_sh r) (ro_dk r) (map back_brg (ro_br r)) (ro_pm r) (ro_min r) (ro_max r) (ro_rated r) None = Ok (again r).
Proof.
  unfold robj_init. destruct (rotor_init _ _ _ _) as [v|] eqn:Ev; [|discriminate]. cbn [bind]. injection 1 as <-. cbn [ro_sh ro_dk ro_br ro_pm ro_min ro_max ro_rated].
  set (S1 := sort_by os_n (mapi name_shaft 0 sh)). set (B1 := sort_by ob_n (mapi name_brg 0 br)). set (D1 := mapi name_disk 0 dk). set (P1 := mapi name_pm 0 pm).
  assert (HS : sort_n (mapi mk_shaft 0 (map to_rshaft S1)) = map Fb (sort_n (mapi mk_shaft 0 (map to_rshaft sh)))).
  { rewrite <- (sort_f Fb Fb_keeps). rewrite (mapi_pre to_rshaft mk_shaft sh), mapi_comp.
    rewrite (mapi_ext (fun i x => Fb (mk_shaft i (to_rshaft x))) (fun i x => (fun y => mk_shaft 0 (to_rshaft y)) (name_shaft i x))) by reflexivity.
    rewrite <- (mapi_comp name_shaft (fun y => mk_shaft 0 (to_rshaft y))).
    assert (K : forall x, In x (mapi name_shaft 0 sh) -> el_n (mk_shaft 0 (to_rshaft x)) = os_n x) by (intros x Hx; apply mapi_in in Hx as (i & y & _ & ->); reflexivity).
    rewrite (sort_n_map os_n _ _ K). fold S1. rewrite (mapi_pre to_rshaft). rewrite (mapi_same _ (fun y => mk_shaft 0 (to_rshaft y))).
    - rewrite (sort_n_map os_n). + rewrite sort_by_id by apply sort_by_sorted. reflexivity. + intros x Hx. apply K. apply (proj1 (sort_by_in _ _ _)) in Hx. exact Hx.
    - intros i x Hx. apply (proj1 (sort_by_in _ _ _)) in Hx. apply mapi_in in Hx as (k & y & _ & ->). reflexivity. }
  assert (HD : mapi mk_disk 0 (map to_rdisk D1) = map Fb (mapi mk_disk 0 (map to_rdisk dk))).
  { rewrite !mapi_pre, mapi_comp. unfold D1. generalize 0%nat. clear. induction dk as [|o dk IH]; intros i; [reflexivity|]. cbn [mapi]. rewrite IH. reflexivity. }
  assert (HP : mapi mk_pm 0 (map to_rpm P1) = map Fb (mapi mk_pm 0 (map to_rpm pm))).
  { rewrite !mapi_pre, mapi_comp. unfold P1. generalize 0%nat. clear. induction pm as [|o pm IH]; intros i; [reflexivity|]. cbn [mapi]. rewrite IH. reflexivity. }
  assert (HB : sort_n (mapi mk_brg 0 (map to_rbrg (map back_brg B1))) = map Fb (sort_n (mapi mk_brg 0 (map to_rbrg br)))).
  { set (e := fun y => mk_brg 0 (to_rbrg (back_brg y))).
    rewrite <- (sort_f Fb Fb_keeps). rewrite (mapi_pre to_rbrg mk_brg br), mapi_comp.
    rewrite (mapi_ext (fun i x => Fb (mk_brg i (to_rbrg x))) (fun i x => e (name_brg i x))) by (intros i x; symmetry; apply brg_named).
    rewrite <- (mapi_comp name_brg e).
    assert (K : forall x, el_n (e x) = ob_n x) by (intros []; reflexivity).
    rewrite (sort_n_map ob_n e) by auto. fold B1. rewrite (map_map back_brg to_rbrg), (mapi_pre (fun x => to_rbrg (back_brg x))). rewrite (mapi_same _ e).
    - rewrite (sort_n_map ob_n e) by auto. rewrite sort_by_id by apply sort_by_sorted. reflexivity.
    - intros i x Hx. apply (proj1 (sort_by_in _ _ _)) in Hx. apply mapi_in in Hx as (k & y & _ & ->). unfold e. rewrite !brg_named. reflexivity. }
  rewrite (init_f Fb Fb_keeps _ _ _ _ _ _ _ _ HS HD HB HP), Ev. cbn [res_map bind]. f_equal. unfold again. cbn [ro_sh ro_dk ro_br ro_pm ro_val ro_min ro_max ro_rated default].
  f_equal.
  - rewrite (mapi_same _ (fun x => x)) by (intros i x Hx; apply (proj1 (sort_by_in _ _ _)) in Hx; apply mapi_in in Hx as (k & y & _ & ->); reflexivity). rewrite map_id. apply sort_by_id, sort_by_sorted.
  - rewrite (mapi_same _ (fun x => x)) by (intros i x Hx; apply mapi_in in Hx as (k & y & _ & ->); reflexivity). apply map_id.
  - rewrite mapi_pre. rewrite (mapi_same _ back_brg) by (intros i x Hx; apply (proj1 (sort_by_in _ _ _)) in Hx; apply mapi_in in Hx as (k & y & _ & ->); apply name_again_brg).
    rewrite sort_by_map by (intros []; reflexivity). rewrite sort_by_id by apply sort_by_sorted. reflexivity.
  - rewrite (mapi_same _ (fun x => x)) by (intros i x Hx; apply mapi_in in Hx as (k & y & _ & ->); reflexivity). apply map_id.
Qed.

(** ** tags of the elements of a rotor *)
Lemma elem_tags sh dk br pm mn mx rt tag r : robj_init sh dk br pm mn mx rt tag = Ok r ->
  map (fun o => tag_str (obj_tag o)) (ro_elements r) = map el_tag (r_elements (ro_val r)).
Proof.
  unfold robj_init. destruct (rotor_init _ _ _ _) as [v|] eqn:Ev; [|discriminate]. cbn [bind]. injection 1 as <-. unfold ro_elements, r_elements. cbn [ro_sh ro_dk ro_br ro_pm ro_val].
  assert (L : r_shaft v = sort_n (mapi mk_shaft 0 (map to_rshaft sh)) /\ r_disk v = mapi mk_disk 0 (map to_rdisk dk) /\ r_brg v = sort_n (mapi mk_brg 0 (map to_rbrg br)) /\ r_pm v = mapi mk_pm 0 (map to_rpm pm)).
  { revert Ev. clear. unfold rotor_init. destruct (tags_unique _); [|discriminate]. cbn [negb]. destruct (check_number_dof _ _ _); [|discriminate]. cbn [bind]. destruct (location_ok _ _ _ _); [|discriminate].
    cbn [negb]. cbv zeta. destruct (disk_positions _ _); [|discriminate]. cbn [bind]. destruct (locate_all _ _); [|discriminate]. cbn [bind]. destruct (heights_ok _ _ _ _); [|discriminate]. cbn [bind].
    destruct (pm_ok _ _); [|discriminate]. cbn [negb]. injection 1 as <-. auto. }
  destruct L as (-> & -> & -> & ->). rewrite !map_app, !map_map. f_equal; [|f_equal; [|f_equal]].
  - rewrite (mapi_pre to_rshaft).
    assert (E : forall l i, map Fb (mapi (fun i x => mk_shaft i (to_rshaft x)) i l) = map (fun x => mk_shaft 0 (to_rshaft x)) (mapi name_shaft i l)) by (clear; induction l as [|o l IH]; intros i; [reflexivity|]; cbn [mapi map]; rewrite IH; reflexivity).
    rewrite <- (map_f Fb el_tag) by apply Fb_keeps. rewrite <- (sort_f Fb Fb_keeps), E.
    rewrite (sort_n_map os_n) by (intros x Hx; apply mapi_in in Hx as (i & y & _ & ->); reflexivity).
    rewrite map_map. apply map_ext_in. intros x Hx. apply (proj1 (sort_by_in _ _ _)) in Hx. apply mapi_in in Hx as (i & y & _ & ->). reflexivity.
  - rewrite mapi_pre, !mapi_comp. apply mapi_ext. reflexivity.
  - rewrite (mapi_pre to_rbrg).
    assert (E : forall l i, map Fb (mapi (fun i x => mk_brg i (to_rbrg x)) i l) = map (fun x => mk_brg 0 (to_rbrg (back_brg x))) (mapi name_brg i l))
      by (clear; induction l as [|o l IH]; intros i; [reflexivity|]; cbn [mapi map]; rewrite IH, brg_named; reflexivity).
    rewrite <- (map_f Fb el_tag) by apply Fb_keeps. rewrite <- (sort_f Fb Fb_keeps), E.
    rewrite (sort_n_map ob_n) by (intros []; reflexivity).
    rewrite map_map. apply map_ext_in. intros x Hx. apply (proj1 (sort_by_in _ _ _)) in Hx. apply mapi_in in Hx as (i & y & _ & ->). rewrite brg_named. destruct y; reflexivity.
  - rewrite mapi_pre, !mapi_comp. apply mapi_ext. reflexivity.
Qed.
Lemma robj_val sh dk br pm mn mx rt tag r : robj_init sh dk br pm mn mx rt tag = Ok r ->
  rotor_init (map to_rshaft sh) (map to_rdisk dk) (map to_rbrg br) (map to_rpm pm) = Ok (ro_val r).
Proof. unfold robj_init. destruct (rotor_init _ _ _ _) as [v|]; [|discriminate]. cbn [bind]. injection 1 as <-. reflexivity. Qed.
Lemma keys_nodup sh dk br pm mn mx rt tag r : robj_init sh dk br pm mn mx rt tag = Ok r -> NoDup ("parameters"%string :: map obj_key (ro_elements r)).
Proof.
  intros I. constructor.
  - intros H. apply in_map_iff in H as (o & H & _). exact (key_not_parameters o H).
  - pose proof (rf_tags _ (rotor_facts _ _ _ _ _ (robj_val _ _ _ _ _ _ _ _ _ I))) as T. apply tags_unique_iff in T. rewrite <- (elem_tags _ _ _ _ _ _ _ _ _ I) in T.
    revert T. generalize (ro_elements r). clear. induction l as [|o l IH]; cbn [map]; intros T; [constructor|]. inversion T as [|? ? T1 T2]; subst. constructor; [|auto].
    intros H. apply T1. apply in_map_iff in H as (o' & E & Hi). apply in_map_iff. exists o'. split; [apply key_tag; exact E|exact Hi].
Qed.

(** ** the rotor round trip *)
Definition rotor_file (r : robj) (l : list obj) : file := Some (("parameters"%string, dump_section (params_section r)) :: map sec_of l).
Lemma clean_params r : clean (Some [("parameters"%string, dump_section (params_section r))]).
Proof. apply clean_no. cbn [read_file]. intros k s [H|[]]. assert (E : s = dump_section (params_section r)) by congruence. rewrite E. apply dump_no_none. Qed.
Lemma rotor_saved sh dk br pm mn mx rt tag r f : robj_init sh dk br pm mn mx rt tag = Ok r -> (forall o, In o (ro_elements r) -> saveable o) ->
  rotor_save f r = (rotor_file r (ro_elements r), Ok tt).
Proof.
  intros I SV. unfold rotor_save.
  pose proof (proj1 (save_all_ok (ro_elements r) _ (clean_params r) SV (keys_nodup _ _ _ _ _ _ _ _ _ I) [])) as P. rewrite app_nil_r in P. etransitivity; [exact P|reflexivity].
Qed.
Lemma rotor_stops sh dk br pm mn mx rt tag r f l1 o l2 : robj_init sh dk br pm mn mx rt tag = Ok r -> ro_elements r = l1 ++ o :: l2 -> (forall o, In o l1 -> saveable o) -> ~ saveable o ->
  rotor_save f r = (rotor_file r l1, Err (match o with IBrg _ => KeyError | _ => AttributeError end)).
Proof.
  intros I E SV N. unfold rotor_save. pose proof (keys_nodup _ _ _ _ _ _ _ _ _ I) as ND. rewrite E in ND |- *. rewrite map_app, app_comm_cons in ND.
  assert (ND' : NoDup ("parameters"%string :: map obj_key l1)) by (clear - ND; revert ND; generalize ("parameters"%string :: map obj_key l1) (map obj_key (o :: l2)); clear; induction l as [|x l IH]; intros m H; [constructor|]; inversion H; subst; constructor; [rewrite in_app_iff in *; tauto|eauto]).
  etransitivity; [exact (proj1 (save_all_ok l1 _ (clean_params r) SV ND' (o :: l2)))|]. cbn [save_all]. unfold obj_save. rewrite (section_err _ N). reflexivity.
Qed.
Lemma pick_app {A} (f : obj -> option A) l l' : pick f (l ++ l') = pick f l ++ pick f l'.
Proof. unfold pick. apply flat_map_app. Qed.
Lemma pick_all {A B} (f : obj -> option A) (g : B -> obj) (h : B -> A) l : (forall x, f (g x) = Some (h x)) -> pick f (map g l) = map h l.
Proof. intros H. unfold pick. induction l as [|x l IH]; [reflexivity|]. cbn [map flat_map]. rewrite H, IH. reflexivity. Qed.
Lemma pick_none {A B} (f : obj -> option A) (g : B -> obj) l : (forall x, f (g x) = None) -> pick f (map g l) = [].
Proof. intros H. unfold pick. induction l as [|x l IH]; [reflexivity|]. cbn [map flat_map]. rewrite H, IH. reflexivity. Qed.
Lemma rotor_loaded sh dk br pm mn mx rt tag r : robj_init sh dk br pm mn mx rt tag = Ok r -> (forall o, In o (ro_elements r) -> built o /\ saveable o /\ loadable o) ->
  rotor_load (rotor_file r (ro_elements r)) = Ok (again r).
Proof.
  intros I H. unfold rotor_load, rotor_file. cbn [dget load_all]. rewrite String.eqb_refl. rewrite (load_all_back _ H). cbn [bind].
  assert (P : map back (ro_elements r) = map IShaft (ro_sh r) ++ map IDisk (ro_dk r) ++ map (fun b => IBrg (back_brg b)) (ro_br r) ++ map IPm (ro_pm r)).
  { unfold ro_elements. rewrite !map_app, !map_map. reflexivity. }
  rewrite P, !pick_app.
  rewrite (pick_all is_shaft IShaft (fun x => x)), (pick_none is_shaft IDisk), (pick_none is_shaft (fun b => IBrg (back_brg b))), (pick_none is_shaft IPm) by reflexivity.
  rewrite (pick_none is_disk IShaft), (pick_all is_disk IDisk (fun x => x)), (pick_none is_disk (fun b => IBrg (back_brg b))), (pick_none is_disk IPm) by reflexivity.
  rewrite (pick_none is_brg IShaft), (pick_none is_brg IDisk), (pick_all is_brg (fun b => IBrg (back_brg b)) back_brg), (pick_none is_brg IPm) by reflexivity.
  rewrite (pick_none is_pm IShaft), (pick_none is_pm IDisk), (pick_none is_pm (fun b => IBrg (back_brg b))), (pick_all is_pm IPm (fun x => x)) by reflexivity.
  rewrite !map_id, !app_nil_r. cbn [app].
  pose proof (init_again _ _ _ _ _ _ _ _ _ I) as A. unfold params_section. destruct (ro_min r), (ro_max r), (ro_rated r); exact A.
Qed.
