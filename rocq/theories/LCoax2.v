(** What a successful construction of a co-axial rotor guarantees; its matrices. *)
From Coq Require Import Reals String List Bool Arith ZArith Lia Lra Permutation Sorted.
From Verif Require Import PyBase MatBase SpecMat LMat MMaterial MShaft MDisk MBearing MRotor MShare SpecRotor LAssembly LRotor LRotor2 MCoax SpecCoax LCoax.
Import ListNotations.
Open Scope list_scope.
Open Scope R_scope.

Lemma insert_obj_perm x l : Permutation (insert_obj x l) (x :: l).
Proof. induction l as [|y l IH]; cbn; [apply Permutation_refl|]. destruct (_ <=? _)%nat; [apply Permutation_refl|]. rewrite IH. apply perm_swap. Qed.
Lemma sort_objs_perm l : Permutation (sort_objs l) l.
Proof. unfold sort_objs. induction l as [|x l IH]; cbn; [constructor|]. rewrite insert_obj_perm, IH. apply Permutation_refl. Qed.
Lemma insert_obj_map x l : map snd (insert_obj x l) = insert_n (snd x) (map snd l).
Proof. induction l as [|y l IH]; cbn; [reflexivity|]. destruct (_ <=? _)%nat; cbn; [reflexivity|]. rewrite IH. reflexivity. Qed.
Lemma sort_objs_map l : map snd (sort_objs l) = sort_n (map snd l).
Proof. unfold sort_objs, sort_n. induction l as [|x l IH]; cbn; [reflexivity|]. rewrite insert_obj_map, IH. reflexivity. Qed.

Definition objs_of (st : ref -> rshaft) (nm : names) (shafts : list (list ref)) : list (list (ref * elem)) :=
  map (map (fun x => (x, cx_elem st nm x))) shafts.
Definition ends_of (objs : list (list (ref * elem))) : list nat :=
  map (fun shaft => match rev shaft with (_, e) :: _ => S (el_n e) | [] => 0%nat end) objs.

Lemma objs_elems st nm shafts : map snd (concat (objs_of st nm shafts)) = map (cx_elem st nm) (concat shafts).
Proof.
  unfold objs_of. induction shafts as [|s shafts IH]; cbn; [reflexivity|]. rewrite !map_app, IH, map_map. reflexivity.
Qed.

Record cfacts (st : ref -> rshaft) (ax : ref -> R) (shafts : list (list ref)) (disks : list rdisk) (brgs : list rbrg) (pms : list rpmass)
  (tag : option string) (c : coax) (nm : names) (z : zpos) (dpos : list R) : Prop := {
  cf_names : coax_names st shafts = (nm, Ok tt);
  cf_sh : r_shaft (cx_rot c) = sort_n (map (cx_elem st nm) (concat shafts));
  cf_dk : r_disk (cx_rot c) = mapi mk_disk 0 disks;
  cf_br : r_brg (cx_rot c) = sort_n (mapi mk_brg 0 brgs);
  cf_pm : r_pm (cx_rot c) = mapi mk_pm 0 pms;
  cf_nd : r_nd (cx_rot c) = 4%nat;
  cf_fam : forall e, In e (r_elements (cx_rot c)) -> el_fam 4 e;
  cf_pmfam : forall e, In e (r_elements (cx_rot c)) -> pm_fam 4 e;
  cf_ne : r_shaft (cx_rot c) <> [];
  cf_last : r_n_last (cx_rot c) = max_list (map el_n (r_shaft (cx_rot c)));
  cf_ndof : r_ndof (cx_rot c) = (4 * (r_n_last (cx_rot c) + 2) + 2 * length (r_pm (cx_rot c)))%nat;
  cf_place : place_shafts (length (concat shafts)) (map el_n (r_shaft (cx_rot c))) (map sh_L (r_shaft (cx_rot c)))
               (filter (fun b => negb (is_seal b)) (r_brg (cx_rot c))) 0 (objs_of st nm shafts) (z_zero ax) = Ok z;
  cf_brne : filter (fun b => negb (is_seal b)) (r_brg (cx_rot c)) <> [];
  cf_loc : location_ok (r_shaft (cx_rot c)) (r_disk (cx_rot c)) (r_brg (cx_rot c)) (r_pm (cx_rot c)) = true;
  cf_ends : insert_ends (length (concat shafts)) (z_r z) (ends_of (objs_of st nm shafts))
     (group_max (combine (map el_n (r_shaft (cx_rot c))) (map (z_l z) (seq 0 (length (concat shafts)))))) = Ok (r_nodes_pos (cx_rot c));
  cf_dpos : disk_positions (r_nodes_pos (cx_rot c)) (r_disk (cx_rot c)) = Ok dpos;
  cf_l : cx_l c = map (z_l z) (seq 0 (length (concat shafts)));
  cf_r : cx_r c = map (z_r z) (seq 0 (length (concat shafts)));
  cf_cgpos : cx_cgpos c = map (z_cg z) (seq 0 (length (concat shafts)));
  cf_spos : r_shaft_pos (cx_rot c) = map (fun i => (z_l z i, z_r z i)) (seq 0 (length (concat shafts)));
  cf_mass : r_m (cx_rot c) = suml (map dk_m (r_disk (cx_rot c))) + suml (map sh_m (r_shaft (cx_rot c)));
  cf_mdisks : r_m_disks (cx_rot c) = suml (map dk_m (r_disk (cx_rot c)));
  cf_mshaft : r_m_shaft (cx_rot c) = suml (map sh_m (r_shaft (cx_rot c)));
  cf_Ip : r_Ip (cx_rot c) = suml (map sh_Im (r_shaft (cx_rot c))) + suml (map dk_Ip (r_disk (cx_rot c)));
  cf_CG : r_CG (cx_rot c) = suml (map (fun p => sh_m (snd p) * z_ax z (fst p) / r_m (cx_rot c)) (sort_objs (concat (objs_of st nm shafts))))
            + suml (map (fun p => dk_m (fst p) * snd p / r_m (cx_rot c)) (combine (r_disk (cx_rot c)) dpos));
  cf_tag : cx_tag c = match tag with None => Some "Rotor 0"%string | Some _ => None end;
  cf_found : forall e, In e (r_disk (cx_rot c) ++ r_brg (cx_rot c) ++ r_pm (cx_rot c)) -> ~ In (el_tag e) (map el_tag (r_shaft (cx_rot c))) ->
    exists e', In e' (r_elements (cx_rot c)) /\ el_tag e' <> el_tag e /\
      (el_link e' = Some (el_n e) \/ match e' with EPm _ _ _ => False | EShaft _ n _ _ => n = el_n e \/ S n = el_n e | _ => el_n e' = el_n e end);
  cf_pmok : pm_ok (filter (fun b => negb (is_seal b)) (r_brg (cx_rot c))) (r_pm (cx_rot c)) = true }.

Lemma coax_inv st ax shafts disks brgs pms tag c : coax_init st ax shafts disks brgs pms tag = Returns (Ok c) ->
  exists nm z dpos, cfacts st ax shafts disks brgs pms tag c nm z dpos.
Proof.
  unfold coax_init. destruct (coax_names st shafts) as [nm ok] eqn:Enm. destruct ok as [[]|]; [|discriminate].
  fold (objs_of st nm shafts).
  assert (Esh : map snd (sort_objs (concat (objs_of st nm shafts))) = sort_n (map (cx_elem st nm) (concat shafts))).
  { rewrite sort_objs_map, objs_elems. reflexivity. }
  cbv zeta. rewrite Esh.
  remember (sort_n (map (cx_elem st nm) (concat shafts))) as sh eqn:Hsh.
  remember (mapi mk_disk 0 disks) as dk eqn:Hdk. remember (sort_n (mapi mk_brg 0 brgs)) as br eqn:Hbr. remember (mapi mk_pm 0 pms) as pm eqn:Hpm.
  assert (Hs : forall e, In e sh -> exists six n t s, e = EShaft six n t s).
  { rewrite Hsh. intros e He. apply sort_n_in, in_map_iff in He as (x & <- & _). unfold cx_elem. repeat eexists. }
  assert (Hd : forall e, In e dk -> exists six t d, e = EDisk six t d).
  { rewrite Hdk. intros e He. apply mapi_in in He as (j & x & _ & ->). repeat eexists. }
  assert (Hb : forall e, In e br -> exists t b, e = EBrg t b).
  { rewrite Hbr. intros e He. apply sort_n_in, mapi_in in He as (j & x & _ & ->). repeat eexists. }
  assert (Hp : forall e, In e pm -> exists six t p, e = EPm six t p).
  { rewrite Hpm. intros e He. apply mapi_in in He as (j & x & _ & ->). repeat eexists. }
  assert (Hsort : StronglySorted le_n sh) by (rewrite Hsh; apply sort_n_sorted).
  assert (Hlen : length sh = length (concat shafts)).
  { rewrite Hsh, (Permutation_length (sort_n_perm _)), map_length. reflexivity. }
  destruct (check_number_dof sh dk br) as [nd|] eqn:Hc; [|discriminate].
  destruct (check_number_dof_ok sh dk br nd Hs Hd Hb Hc) as (Hne & Hnd & Hf).
  destruct (filter (fun b => negb (is_seal b)) br) as [|b0 plain] eqn:Epl; [discriminate|]. rewrite <- Epl, Hlen in *.
  destruct (place_shafts _ _ _ _ _ _ _) as [z|] eqn:Hz; [|discriminate].
  destruct (location_ok sh dk br pm) eqn:Hl; [|discriminate]. cbn [negb]. fold (ends_of (objs_of st nm shafts)).
  destruct (insert_ends _ _ _ _) as [pos|] eqn:Hends; [|discriminate].
  destruct (disk_positions pos dk) as [dpos|] eqn:Hdp; [|discriminate].
  destruct (existsb _ (dk ++ br ++ pm)) eqn:Hloop in |- *; [discriminate|].
  destruct (existsb el_six (dk ++ br ++ pm)) eqn:Hsix; [discriminate|].
  destruct (pm_ok _ pm) eqn:Hpmok; [|discriminate]. cbn [negb]. intros [= <-].
  assert (N4 : nd = 4%nat).
  { assert (In b0 br). { apply (proj1 (filter_In (fun b => negb (is_seal b)) b0 br)). rewrite Epl. left. reflexivity. }
    pose proof (existsb_false_in _ _ b0 Hsix) as Q. rewrite !in_app_iff in Q. specialize (Q ltac:(auto)).
    assert (K : In b0 (sh ++ dk ++ br)) by (rewrite !in_app_iff; auto). apply Hf in K.
    destruct (Hb b0 H) as (t & b & ->). destruct b; cbn in *; [exact K|discriminate]. }
  assert (Hlast : match rev sh with e :: _ => el_n e | [] => 0%nat end = max_list (map el_n sh)).
  { destruct (rev sh) as [|e l] eqn:Er.
    - exfalso. apply Hne. rewrite <- (rev_involutive sh), Er. reflexivity.
    - eapply sorted_last; eauto. }
  exists nm, z, dpos.
  constructor; cbn [cx_rot r_elements r_shaft r_disk r_brg r_pm r_nd r_n_last r_ndof r_nodes_pos r_shaft_pos r_m r_m_disks r_m_shaft r_CG r_Ip cx_l cx_r cx_cgpos cx_tag]; auto.
  - intros e He. rewrite <- N4. unfold r_elements in He. cbn [r_shaft r_disk r_brg r_pm] in He. rewrite app_assoc, app_assoc, in_app_iff in He. destruct He as [He|He].
    + apply Hf. rewrite app_assoc. exact He.
    + destruct (Hp e He) as (? & ? & ? & ->). exact I.
  - intros e He. unfold r_elements in He. cbn [r_shaft r_disk r_brg r_pm] in He. rewrite app_assoc, app_assoc, in_app_iff in He. destruct He as [He|He].
    + destruct e; cbn; auto. rewrite !in_app_iff in He. exfalso. destruct He as [[He|He]|He];
        [destruct (Hs _ He) as (? & ? & ? & ? & ?)|destruct (Hd _ He) as (? & ? & ? & ?)|destruct (Hb _ He) as (? & ? & ?)]; discriminate.
    + destruct (Hp e He) as (six & ? & ? & ->). cbn [pm_fam]. pose proof (existsb_false_in el_six _ _ Hsix (in_or_app _ _ _ (or_intror (in_or_app _ _ _ (or_intror He))))) as Q.
      cbn [el_six] in Q. rewrite Q. reflexivity.
  - rewrite Hlast. lia.
  - rewrite Epl. discriminate.
  - intros e He Ht. pose proof (existsb_false_in _ _ e Hloop He) as Q. cbv beta in Q. apply andb_false_iff in Q as [Q|Q].
    + exfalso. apply Ht. apply negb_false_iff, existsb_exists in Q as (t & T1 & T2). apply String.eqb_eq in T2. subst t. exact T1.
    + apply negb_false_iff in Q. unfold findable in Q. apply existsb_exists in Q as (r & R1 & R2). apply in_map_iff in R1 as (e' & <- & E1).
      apply andb_true_iff in R2 as [R2 R3]. exists e'. split; [exact E1|]. split.
      * apply negb_true_iff, String.eqb_neq in R2. destruct e'; cbn in *; congruence.
      * rewrite !orb_true_iff in R3. unfold onat_is in R3.
        destruct e' as [? n ? ?|? ? d|? b|? ? p]; cbn [elem_row w_nl w_nr w_link el_n el_link] in *.
        -- destruct R3 as [[R3|R3]|R3]; [apply Nat.eqb_eq in R3|apply Nat.eqb_eq in R3|discriminate]; auto.
        -- destruct R3 as [[R3|R3]|R3]; [apply Nat.eqb_eq in R3|apply Nat.eqb_eq in R3|discriminate]; auto.
        -- destruct R3 as [[R3|R3]|R3]; [apply Nat.eqb_eq in R3; auto|apply Nat.eqb_eq in R3; auto|].
           destruct (b_n_link (brg_base b)) as [m|]; [apply Nat.eqb_eq in R3; subst; auto|discriminate].
        -- destruct R3 as [[R3|R3]|R3]; discriminate.
Qed.

(** ** Matrices *)
Section Facts.
Variables (st : ref -> rshaft) (ax : ref -> R) (shafts : list (list ref)) (disks : list rdisk) (brgs : list rbrg) (pms : list rpmass).
Variables (tag : option string) (c : coax) (nm : names) (z : zpos) (dpos : list R).
Hypothesis F : cfacts st ax shafts disks brgs pms tag c nm z dpos.

Lemma cf_shaft_n e : In e (r_elements (cx_rot c)) -> match e with EShaft _ n _ _ => (n <= r_n_last (cx_rot c))%nat | _ => True end.
Proof.
  intros He. destruct e as [six n t s| | |]; auto. rewrite (cf_last _ _ _ _ _ _ _ _ _ _ _ F). apply max_list_ge.
  apply in_map_iff. exists (EShaft six n t s). split; [reflexivity|]. unfold r_elements in He. rewrite !in_app_iff in He.
  destruct He as [He|[He|[He|He]]]; [exact He| | |]; exfalso.
  - rewrite (cf_dk _ _ _ _ _ _ _ _ _ _ _ F) in He. apply mapi_in in He as (? & ? & _ & ?). discriminate.
  - rewrite (cf_br _ _ _ _ _ _ _ _ _ _ _ F) in He. apply sort_n_in, mapi_in in He as (? & ? & _ & ?). discriminate.
  - rewrite (cf_pm _ _ _ _ _ _ _ _ _ _ _ F) in He. apply mapi_in in He as (? & ? & _ & ?). discriminate.
Qed.

Lemma cx_dofs_r : cx_dofs c = r_dofs (cx_rot c).
Proof. unfold cx_dofs, r_dofs. rewrite (cf_nd _ _ _ _ _ _ _ _ _ _ _ F). reflexivity. Qed.

Lemma cx_acts spl w f l acc A : mkind spl w f -> incl l (r_elements (cx_rot c)) ->
  assemble (r_ndof (cx_rot c)) (cx_dofs c) f l acc = Ok A ->
  forall e, In e l -> cx_dofs c e = acts_on 4 (r_n_last (cx_rot c)) e /\ NoDup (cx_dofs c e).
Proof.
  intros Hk Hi HA e He. destruct (assemble_ok _ _ _ _ _ _ HA) as [H1 _]. destruct (H1 e He) as (k & M & Hf & Hl & _).
  assert (Hin := Hi e He). pose proof (cf_fam _ _ _ _ _ _ _ _ _ _ _ F e Hin) as Fa. pose proof (cf_pmfam _ _ _ _ _ _ _ _ _ _ _ F e Hin) as Fp.
  pose proof (cf_shaft_n e Hin) as Hn.
  assert (Q : el_link e <> Some (el_n e)).
  { destruct e as [| |t b|]; try discriminate. intros E. refine (self_link_short 4 (r_n_last (cx_rot c)) _ _ E Fa _).
    unfold cx_dofs in Hl. rewrite Hl. exact (el_size_nat _ _ _ _ _ _ Hk Hf). }
  assert (E : cx_dofs c e = acts_on 4 (r_n_last (cx_rot c)) e) by (apply el_dofs_acts; auto).
  split; [exact E|]. rewrite E. apply acts_on_nodup; auto.
Qed.

Lemma cx_entries spl w f l A : mkind spl w f -> incl l (r_elements (cx_rot c)) ->
  assemble (r_ndof (cx_rot c)) (cx_dofs c) f l mzero = Ok A ->
  forall i j, A i j = suml (map (fun e => contribution (acts_on 4 (r_n_last (cx_rot c)) e) (el_size f e) (el_mat f e) i j) l).
Proof.
  intros Hk Hi HA i j. destruct (assemble_ok _ _ _ _ _ _ HA) as [_ H2].
  rewrite H2 by (intros e He; apply (cx_acts _ _ _ _ _ _ Hk Hi HA e He)). unfold mzero. rewrite Rplus_0_l.
  apply suml_map_ext. intros e He. rewrite (proj1 (cx_acts _ _ _ _ _ _ Hk Hi HA e He)). reflexivity.
Qed.
End Facts.

(** an element only couples dofs it acts on *)
Lemma contribution_out dofs k M i j : (k <= length dofs)%nat -> ~ (In i dofs /\ In j dofs) -> contribution dofs k M i j = 0.
Proof.
  intros Hk H. unfold contribution. apply sumn_0. intros a Ha. apply sumn_0. intros b Hb.
  destruct (Nat.eqb_spec (nth a dofs 0%nat) i) as [E|]; [|reflexivity]. destruct (Nat.eqb_spec (nth b dofs 0%nat) j) as [E'|]; [|reflexivity].
  exfalso. apply H. split; [rewrite <- E|rewrite <- E']; apply nth_In; lia.
Qed.
