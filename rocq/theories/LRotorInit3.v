(** Element lists whose default nodes and tags have been filled in are accepted when they make sense. *)
From Coq Require Import Reals String List Arith Bool Lia Lra Permutation Sorted Psatz DecimalString DecimalNat.
From Verif Require Import PyBase MatBase SpecMat MShaft MDisk MBearing MRotor SpecRotor LAssembly LRotor LRotor2 LRotorPos LRotor5 LRotorInit LRotorInit2.
Import ListNotations.
Open Scope list_scope.
Open Scope R_scope.

(** the element lists, numbered and tagged, describe a rotor with the shaft nodes 0 .. last+1 *)
Record final_ok (shafts : list rshaft) (disks : list rdisk) (brgs : list rbrg) (pms : list rpmass) (last : nat) : Prop := {
  fo_tags : NoDup (map el_tag (mapi mk_shaft 0 shafts ++ mapi mk_disk 0 disks ++ mapi mk_brg 0 brgs ++ mapi mk_pm 0 pms));
  fo_six : exists six, (forall s, In s shafts -> rs_six s = six) /\ (forall d, In d disks -> rd_six d = six) /\
                       (forall b, In b brgs -> brg_six b = six);
  fo_nodes : forall e, In e (mapi mk_shaft 0 shafts) -> (el_n e <= last)%nat;
  fo_cover : forall k, (k <= last)%nat -> exists e, In e (mapi mk_shaft 0 shafts) /\ el_n e = k;
  fo_length : forall e e', In e (mapi mk_shaft 0 shafts) -> In e' (mapi mk_shaft 0 shafts) -> el_n e = el_n e' -> sh_L e = sh_L e';
  fo_positive : forall s, In s shafts -> 0 < s_L (rs_s s);
  fo_disk : forall d, In d disks -> (d_n (rd_d d) <= last + 1)%nat;
  fo_brg_nodes : NoDup (map brg_n brgs);
  fo_brg : forall b, In b brgs -> (brg_n b <= last + 1)%nat \/
     (exists p, In p pms /\ p_n (rp_p p) = brg_n b) /\ exists b', In b' brgs /\ brg_link b' = Some (brg_n b);
  fo_link : forall b m, In b brgs -> brg_link b = Some m -> (brg_n b < m)%nat \/ (m <= last + 1)%nat;
  fo_pm : forall p, In p pms -> exists b, In b brgs /\ brg_n b = p_n (rp_p p) }.

Lemma str_inj i j : str i = str j -> i = j.
Proof.
  unfold str. intros H. apply DecimalNat.Unsigned.to_uint_inj.
  assert (E : Some (Nat.to_uint i) = Some (Nat.to_uint j)); [|congruence].
  rewrite <- !NilEmpty.usu. congruence.
Qed.
Lemma prefix_inj p a b : (p ++ a = p ++ b)%string -> a = b.
Proof. induction p; simpl; intros H; [auto|]. injection H. auto. Qed.

Theorem init_final shafts disks brgs pms last : final_ok shafts disks brgs pms last ->
  exists r, rotor_init shafts disks brgs pms = Ok r /\ r_n_last r = last /\ layers_match r /\
    (forall k, (k <= r_n_last r)%nat -> exists e, In e (r_shaft r) /\ el_n e = k) /\
    map el_n (r_pm r) = map (fun p => p_n (rp_p p)) pms /\
    (forall e, In e (r_shaft r) -> exists i s, In s shafts /\ e = mk_shaft i s) /\
    (forall e, In e (r_disk r) -> exists i s, In s disks /\ e = mk_disk i s) /\
    (forall e, In e (r_brg r) -> exists i s, In s brgs /\ e = mk_brg i s) /\
    (forall e, In e (r_pm r) -> exists i s, In s pms /\ e = mk_pm i s) /\
    (forall s, In s brgs -> exists i, In (mk_brg i s) (r_brg r)).
Proof.
  intros W. unfold rotor_init.
  set (sh := sort_n (mapi mk_shaft 0 shafts)). set (dk := mapi mk_disk 0 disks).
  set (br := sort_n (mapi mk_brg 0 brgs)). set (pm := mapi mk_pm 0 pms).
  assert (Xs : forall e, In e sh -> exists i s, In s shafts /\ e = mk_shaft i s).
  { intros e He. apply sort_n_in, mapi_in in He as (j & x & Hx & ->). eauto. }
  assert (Xd : forall e, In e dk -> exists i s, In s disks /\ e = mk_disk i s).
  { intros e He. apply mapi_in in He as (j & x & Hx & ->). eauto. }
  assert (Xb : forall e, In e br -> exists i s, In s brgs /\ e = mk_brg i s).
  { intros e He. apply sort_n_in, mapi_in in He as (j & x & Hx & ->). eauto. }
  assert (Xp : forall e, In e pm -> exists i s, In s pms /\ e = mk_pm i s).
  { intros e He. apply mapi_in in He as (j & x & Hx & ->). eauto. }
  assert (Ys : forall s, In s shafts -> exists i, In (mk_shaft i s) sh).
  { intros s Hs. destruct (mapi_map_in mk_shaft _ 0 s Hs) as (j & Hj). exists j. apply sort_n_in. exact Hj. }
  assert (Yb : forall s, In s brgs -> exists i, In (mk_brg i s) br).
  { intros s Hs. destruct (mapi_map_in mk_brg _ 0 s Hs) as (j & Hj). exists j. apply sort_n_in. exact Hj. }
  assert (Yp : forall s, In s pms -> exists i, In (mk_pm i s) pm).
  { intros s Hs. destruct (mapi_map_in mk_pm _ 0 s Hs) as (j & Hj). exists j. exact Hj. }
  assert (Hs : forall e, In e sh -> exists six n t s, e = EShaft six n t s) by (intros e He; destruct (Xs e He) as (? & ? & _ & ->); repeat eexists).
  assert (Hd : forall e, In e dk -> exists six t d, e = EDisk six t d) by (intros e He; destruct (Xd e He) as (? & ? & _ & ->); repeat eexists).
  assert (Hb : forall e, In e br -> exists t b, e = EBrg t b) by (intros e He; destruct (Xb e He) as (? & ? & _ & ->); repeat eexists).
  assert (Hp : forall e, In e pm -> exists six t p, e = EPm six t p) by (intros e He; destruct (Xp e He) as (? & ? & _ & ->); repeat eexists).
  pose proof (sort_n_sorted (mapi mk_shaft 0 shafts)) as Hsort. fold sh in Hsort.
  pose proof (sort_n_sorted (mapi mk_brg 0 brgs)) as Hbsort. fold br in Hbsort.
  (* tags *)
  assert (Ht : NoDup (map el_tag (sh ++ dk ++ br ++ pm))).
  { eapply Permutation_NoDup; [|apply (fo_tags _ _ _ _ _ W)]. apply Permutation_map. repeat apply Permutation_app; try reflexivity; apply Permutation_sym, sort_n_perm. }
  rewrite (proj2 (tags_unique_iff _) Ht). cbn [negb].
  assert (Hcover : forall k, (k <= last)%nat -> exists e, In e sh /\ el_n e = k).
  { intros k Hk. destruct (fo_cover _ _ _ _ _ W k Hk) as (e & He & E). exists e. split; [apply sort_n_in; exact He|exact E]. }
  assert (Hn : forall e, In e sh -> (el_n e <= last)%nat).
  { intros e He. unfold sh in He. rewrite sort_n_in in He. exact (fo_nodes _ _ _ _ _ W e He). }
  (* dofs *)
  destruct (fo_six _ _ _ _ _ W) as (six & W1 & W2 & W3).
  assert (Hc : check_number_dof sh dk br = Ok (if six then 6 else 4)%nat).
  { unfold check_number_dof. destruct sh as [|s0 sh'] eqn:Esh.
    - destruct (Hcover 0%nat ltac:(lia)) as (e & [] & _).
    - assert (L : forall e, In e (s0 :: sh') -> length (dof_mapping e) = (if six then 12 else 8)%nat).
      { intros e He. destruct (Xs e He) as (i & s & Hin & ->). unfold mk_shaft. rewrite shaft_len, (W1 s Hin). reflexivity. }
      rewrite (L s0 (or_introl eq_refl)).
      replace (existsb _ (s0 :: sh')) with false.
      2:{ symmetry. apply not_true_is_false. intros E. apply existsb_exists in E as (e & He & E). rewrite (L e He), Nat.eqb_refl in E. discriminate. }
      replace (existsb _ dk) with false.
      2:{ symmetry. apply not_true_is_false. intros E. apply existsb_exists in E as (e & He & E). destruct (Xd e He) as (i & d & Hin & ->).
          unfold mk_disk in E. rewrite disk_len, (W2 d Hin) in E. destruct six; discriminate. }
      replace (existsb _ br) with false.
      2:{ symmetry. apply not_true_is_false. intros E. apply existsb_exists in E as (e & He & E). destruct (Xb e He) as (i & b & Hin & ->).
          specialize (W3 b Hin). unfold mk_brg in E. destruct b; simpl in W3; subst six; discriminate. }
      destruct six; reflexivity. }
  rewrite Hc. cbn [bind].
  (* nodes *)
  assert (Hmax : max_list (map el_n sh) = last).
  { apply max_list_of; [destruct (Hcover last ltac:(lia)) as (e & He & <-); apply in_map; auto|].
    intros x Hx. apply in_map_iff in Hx as (e & <- & He). auto. }
  assert (Hdn : forall e, In e dk -> (el_n e <= last + 1)%nat).
  { intros e He. destruct (Xd e He) as (i & d & Hin & ->). simpl. apply (fo_disk _ _ _ _ _ W); auto. }
  assert (Hbb : forall e, In e br -> (el_n e <= last + 1)%nat \/ (exists p, In p pm /\ el_n p = el_n e) /\ exists b', In b' br /\ el_link b' = Some (el_n e)).
  { intros e He. destruct (Xb e He) as (i & b & Hin & ->). destruct (fo_brg _ _ _ _ _ W b Hin) as [|((p & Hp1 & Hp2) & (b' & Hb1 & Hb2))]; [left; auto|right].
    destruct (Yp p Hp1) as (j & Hj). destruct (Yb b' Hb1) as (j' & Hj'). split; [exists (mk_pm j p); auto|exists (mk_brg j' b'); auto]. }
  assert (Hloc : location_ok sh dk br pm = true).
  { unfold location_ok. apply Nat.leb_le. apply max_list_le. intros x Hx. apply in_map_iff in Hx as (e & <- & He).
    assert (HS : (last + 1 <= max_list (map (fun e => S (el_n e)) sh))%nat).
    { destruct (Hcover last ltac:(lia)) as (e' & He' & E'). rewrite Nat.add_1_r, <- E'. apply max_list_ge. apply (in_map (fun e => S (el_n e))). exact He'. }
    rewrite !in_app_iff in He. destruct He as [He|[He|He]].
    - specialize (Hn e He). lia.
    - specialize (Hdn e He). lia.
    - destruct (Hbb e He) as [|((p & Hp1 & Hp2) & _)]; [lia|]. assert (el_n p <= max_list (map el_n pm))%nat by (apply max_list_ge, in_map; auto). lia. }
  rewrite Hloc. cbn [negb]. cbv zeta.
  (* positions *)
  assert (Hne : sh <> []) by (intros E; destruct (Hcover 0%nat ltac:(lia)) as (e & He & _); rewrite E in He; destruct He).
  assert (Hlay : forall e e', In e sh -> In e' sh -> el_n e = el_n e' -> sh_L e = sh_L e').
  { intros e e' He He'. unfold sh in He, He'. rewrite sort_n_in in He, He'. apply (fo_length _ _ _ _ _ W); auto. }
  set (lam := fun n => match find (fun e => Nat.eqb (el_n e) n) sh with Some e => sh_L e | None => 0 end).
  assert (HL : forall e, In e sh -> sh_L e = lam (el_n e)).
  { intros e He. unfold lam. destruct (find _ sh) as [e'|] eqn:E.
    - apply find_some in E as [Hin E]. apply Nat.eqb_eq in E. apply Hlay; auto.
    - apply (find_none _ _ E) in He. rewrite Nat.eqb_refl in He. discriminate. }
  destruct (nodes_pos_spec lam sh last Hne Hsort (eq_sym Hmax) Hcover HL) as [Epos Espos].
  assert (Hlen : length (nodes_pos sh) = (last + 2)%nat) by (rewrite Epos, map_length, seq_length; reflexivity).
  rewrite (disk_positions_ok (nodes_pos sh) dk) by (intros e He; specialize (Hdn e He); lia). cbn [bind].
  assert (HnP : forall n, (n <= last + 1)%nat -> nth n (nodes_pos sh) 0 = sumn n lam).
  { intros n Hle. rewrite Epos. apply nth_error_nth. apply (map_nth_error (fun n => sumn n lam)). rewrite (nth_error_nth' _ 0%nat) by (rewrite seq_length; lia). rewrite seq_nth by lia. reflexivity. }
  assert (HP : forall n m, (n < m <= last + 1)%nat -> sumn n lam < sumn m lam).
  { intros n m Hnm. apply (sumn_increasing lam n m (last + 1)); [|lia|lia]. intros k Hk. destruct (Hcover k ltac:(lia)) as (e & He & <-).
    rewrite <- (HL e He). destruct (Xs e He) as (i & s & Hin & ->). simpl. apply (fo_positive _ _ _ _ _ W); auto. }
  assert (Hbnd : NoDup (map el_n br)).
  { apply (Permutation_NoDup (l := map brg_n brgs)); [|apply (fo_brg_nodes _ _ _ _ _ W)].
    rewrite <- (mapi_map mk_brg el_n brg_n brgs ltac:(reflexivity) 0). apply Permutation_map, Permutation_sym, sort_n_perm. }
  assert (Hblk : forall e m, In e br -> el_link e = Some m -> (el_n e < m)%nat \/ (m <= last + 1)%nat).
  { intros e m He E. destruct (Xb e He) as (i & b & Hin & ->). apply (fo_link _ _ _ _ _ W b m Hin E). }
  match goal with |- context [sort_rows ?l] => set (rows0 := l) end.
  assert (HI : Inv sh dk br pm last (fun n => sumn n lam) [] (sort_rows rows0)).
  { assert (Hin : forall r, In r (sort_rows rows0) <-> In r rows0).
    { intros r. split; apply Permutation_in; [apply sort_rows_perm|apply Permutation_sym, sort_rows_perm]. }
    split.
    - intros e He. rewrite !in_app_iff in He.
      destruct He as [He|[He|[He|He]]].
      + exists (elem_row e (Some (sumn (el_n e) lam)) (Some (sumn (S (el_n e)) lam))). split; [|apply elem_row_for]. apply Hin. unfold rows0. apply in_app_iff. left.
        rewrite Espos, combine_map_r, map_map. apply in_map_iff. exists e. auto.
      + exists (elem_row e (Some (nth (el_n e) (nodes_pos sh) 0)) (Some (nth (el_n e) (nodes_pos sh) 0))). split; [|apply elem_row_for]. apply Hin. unfold rows0. apply in_app_iff. right. apply in_app_iff. left.
        rewrite combine_map_r, map_map. apply in_map_iff. exists e. auto.
      + exists (elem_row e None None). split; [|apply elem_row_for]. apply Hin. unfold rows0. rewrite !in_app_iff. right. right.
        destruct (match e with EBrg _ (RB4 true _) => true | _ => false end) eqn:E.
        * right. right. apply in_map_iff. exists e. split; [reflexivity|]. apply filter_In. auto.
        * left. apply in_map_iff. exists e. split; [reflexivity|]. apply filter_In. split; [auto|]. destruct e as [| |? [[] ?|?]|]; auto; discriminate.
      + exists (elem_row e None None). split; [|apply elem_row_for]. apply Hin. unfold rows0. rewrite !in_app_iff. right. right. right. left. apply in_map_iff. exists e. auto.
    - intros r Hr. apply Hin in Hr. unfold rows0 in Hr. rewrite !in_app_iff in Hr.
      assert (Hbcase : forall f, In r (map (fun b => elem_row b None None) (filter f br)) -> exists e, In e (sh ++ dk ++ br ++ pm) /\ row_for e r /\ placed br last (fun n => sumn n lam) [] e r).
      { intros f H. apply in_map_iff in H as (e & <- & He). apply filter_In in He as [He _]. exists e. split; [rewrite !in_app_iff; auto|]. split; [apply elem_row_for|].
        destruct (Hb e He) as (t & b & ->). intros []. }
      destruct Hr as [Hr|[Hr|[Hr|[Hr|Hr]]]]; [| |eapply Hbcase; eauto| |eapply Hbcase; eauto].
      + rewrite Espos, combine_map_r, map_map in Hr. apply in_map_iff in Hr as (e & <- & He). exists e. split; [rewrite !in_app_iff; auto|]. split; [apply elem_row_for|].
        destruct (Hs e He) as (? & ? & ? & ? & ->). split; reflexivity.
      + rewrite combine_map_r, map_map in Hr. apply in_map_iff in Hr as (e & <- & He). exists e. split; [rewrite !in_app_iff; auto|]. split; [apply elem_row_for|].
        specialize (Hdn e He). destruct (Hd e He) as (? & ? & ? & ->). simpl in *. rewrite HnP by auto. split; reflexivity.
      + apply in_map_iff in Hr as (e & <- & He). exists e. split; [rewrite !in_app_iff; auto|]. split; [apply elem_row_for|]. destruct (Hp e He) as (? & ? & ? & ->). exact I. }
  assert (Hbb2 : forall e, In e br -> (el_n e <= last + 1)%nat \/ exists b', In b' br /\ el_link b' = Some (el_n e)).
  { intros e He. destruct (Hbb e He) as [|[_ ?]]; auto. }
  destruct (locate_ok sh dk br pm last (fun n => sumn n lam) Hs Hd Hb Hp Ht Hn Hcover Hdn Hbnd Hbb2 Hblk Hbsort br [] _ eq_refl HI) as (df & Edf & Idf).
  rewrite Edf. cbn [bind].
  assert (Hf : match MRotor.shaft_pos sh with p :: _ => fst p | [] => 0 end = sumn 0 lam).
  { destruct sh as [|e sh']; [congruence|]. reflexivity. }
  assert (Hl : List.last (map snd (MRotor.shaft_pos sh)) 0 = sumn (last + 1) lam).
  { assert (E := HnP (last + 1)%nat ltac:(lia)). rewrite <- E. unfold nodes_pos.
    assert (El : length (group_max (combine (map el_n sh) (map fst (MRotor.shaft_pos sh)))) = (last + 1)%nat).
    { unfold nodes_pos in Hlen. rewrite app_length in Hlen. simpl in Hlen. lia. }
    rewrite app_nth2 by lia. rewrite El, Nat.sub_diag. reflexivity. }
  rewrite (heights_fine sh dk br pm last (fun n => sumn n lam) Hb Ht Hcover HP Hf Hl df Idf br (incl_refl _)). cbn [bind].
  assert (Hpo : pm_ok br pm = true).
  { unfold pm_ok. apply forallb_forall. intros p Hpin. destruct (Xp p Hpin) as (i & q & Hin & ->). destruct (fo_pm _ _ _ _ _ W q Hin) as (b & Hb1 & Hb2).
    destruct (Yb b Hb1) as (j & Hj). apply existsb_exists. exists (mk_brg j b). split; [exact Hj|]. simpl. apply Nat.eqb_eq. exact Hb2. }
  rewrite Hpo. cbn [negb].
  eexists. split; [reflexivity|]. cbn [r_n_last r_shaft r_pm r_disk r_brg].
  assert (Elast : match rev sh with e :: _ => el_n e | [] => 0%nat end = last).
  { rewrite <- Hmax. destruct (rev sh) as [|e l] eqn:Er.
    - exfalso. apply Hne. rewrite <- (rev_involutive sh), Er. reflexivity.
    - eapply sorted_last; eauto. }
  rewrite Elast. split; [reflexivity|]. split; [exact Hlay|]. split; [exact Hcover|].
  split; [apply (mapi_map mk_pm el_n (fun p => p_n (rp_p p))); reflexivity|].
  repeat split; auto.
Qed.
