(** Lemmas about cutting a shaft into elements (6): the rotor from_section builds, examples. *)
From Coq Require Import Reals String List Arith Bool Lia Lra Permutation Sorted.
From Verif Require Import PyBase MatBase SpecMat LMat MMaterial MShaft SpecShaft LShaftEx MDisk MBearing MRotor SpecRotor LAssembly LRotor LRotor2 LRotorPos LRotor5 LRotorInit LRotorInit2 LRotorInit3 LRotor6 LRotorEx MSection SpecSection LSection LSection2 LSection3 LSection4 LSection5.
Import ListNotations.
Open Scope list_scope.
Open Scope R_scope.

Lemma mapi_length {A B} (f : nat -> A -> B) i l : length (mapi f i l) = length l.
Proof. revert i. induction l; intros i; simpl; auto. Qed.
Lemma mapi_nth {A B} (f : nat -> A -> B) l : forall i k x, nth_error l k = Some x -> nth_error (mapi f i l) k = Some (f (i + k)%nat x).
Proof. induction l as [|a l IH]; intros i [|k] x H; simpl in *; try discriminate; [injection H as ->; f_equal; f_equal; lia|]. rewrite (IH (S i) k x H). f_equal. f_equal. lia. Qed.
Lemma mapi_in_inv {A B} (f : nat -> A -> B) l : forall i x, In x l -> exists k, In (f k x) (mapi f i l).
Proof. induction l as [|a l IH]; intros i x H; [destruct H|]. destruct H as [->|H]; simpl; [eauto|]. destruct (IH (S i) x H) as [k Hk]. eauto. Qed.
Lemma section_start_all (lens : list R) : section_start lens (length lens) = suml lens.
Proof. unfold section_start. rewrite firstn_all. reflexivity. Qed.

Lemma from_section_built lens il ol ir or mt disks brgs nel r : from_section lens il ol ir or (Some mt) (Some disks) (Some brgs) nel = Ok r ->
  built_from lens il ol (right_ends il ir) (right_ends ol or) mt disks brgs nel r.
Proof.
  intros H. destruct (from_section_inv _ _ _ _ _ _ _ _ _ _ H) as (mt' & dk' & br' & ps & E1 & E2 & E3 & Hil & Hol & Hps & Hk & Hpl & Hi).
  injection E1 as <-. injection E2 as <-. injection E3 as <-.
  assert (Hnone : forall s, In s (concat ps) -> s_n s = None) by (intros s Hs; apply (Hpl s Hs)).
  pose proof (chain_facts _ _ _ _ _ Hnone Hi) as Cr. pose proof (rotor_facts _ _ _ _ _ Hi) as F. destruct (rotor_init_lists _ _ _ _ _ Hi) as (Es & Ed & Eb & Ep).
  assert (Hlen0 : (0 < length lens)%nat).
  { destruct lens; [|simpl; lia]. destruct ps; [|discriminate]. exfalso. apply (rf_nonempty _ F). rewrite (cr_shaft _ _ Cr). reflexivity. }
  assert (Hn : (0 < nel)%nat) by (destruct (Hk 0%nat Hlen0) as (m & _ & H0 & _); exact H0).
  assert (HN : INR nel <> 0) by (apply lt_INR in Hn; simpl in Hn; lra).
  assert (Hpiece : forall k, (k < length lens)%nat -> exists m, section_material mt k = Some m /\
       piece (nth k lens 0) nel (nth k il 0) (nth k ol 0) (nth k (right_ends il ir) 0) (nth k (right_ends ol or) 0) m (nth k ps [])).
  { intros k Hlt. destruct (Hk k Hlt) as (m & Hm & _ & _ & _ & _ & P). eauto. }
  assert (Hplen : forall k, (k < length ps)%nat -> length (nth k ps []) = nel).
  { intros k Hlt. rewrite Hps in Hlt. destruct (Hpiece k Hlt) as (m & _ & P). apply (pc_len _ _ _ _ _ _ _ _ P). }
  assert (Hcl : length (concat ps) = (nel * length lens)%nat) by (rewrite (concat_len ps nel), Hps by auto; reflexivity).
  assert (Hpos : forall k j, (k < length lens)%nat -> (j <= nel)%nat -> nth (nel * k + j) (r_nodes_pos r) 0 = section_start lens k + INR j * (nth k lens 0 / INR nel)).
  { intros k j Hlt Hj. destruct (concat ps) as [|s0 cs] eqn:E; [simpl in Hcl; nia|]. rewrite <- E in *.
    rewrite (cr_pos _ _ Cr (nel * k + j)%nat s0) by nia. rewrite (pieces_positions ps lens nel s0 k j); auto.
    intros k' Hk'. destruct (Hpiece k' Hk') as (m & _ & P). split; [apply (pc_len _ _ _ _ _ _ _ _ P)|]. intros j' d Hj'.
    destruct (pc_part _ _ _ _ _ _ _ _ P j' d Hj') as (-> & _). field. auto. }
  assert (Hends : forall k, (k <= length lens)%nat -> nth (nel * k) (r_nodes_pos r) 0 = section_start lens k).
  { intros k Hle. destruct (Nat.eq_dec k (length lens)) as [->|Hne].
    - replace (nel * length lens)%nat with (nel * (length lens - 1) + nel)%nat by nia. rewrite Hpos by lia.
      replace (length lens) with (S (length lens - 1)) at 3 by lia. rewrite section_start_S by lia. f_equal. field. auto.
    - rewrite <- (Nat.add_0_r (nel * k)). rewrite Hpos by lia. simpl. ring. }
  constructor; auto.
  - rewrite (cr_plen _ _ Cr), Hcl. reflexivity.
  - rewrite (cr_shaft _ _ Cr), chain_length. exact Hcl.
  - intros k j Hlt Hj. destruct (Hpiece k Hlt) as (m & Hm & P). destruct (concat ps) as [|s0 cs] eqn:E; [simpl in Hcl; nia|]. rewrite <- E in *.
    eexists. exists (nth (nel * k + j) (concat ps) s0), m. split; [rewrite (cr_shaft _ _ Cr); apply (chain_nth 0 (concat ps) (nel * k + j) s0); [auto|rewrite Hcl; nia]|].
    split; [exact Hm|]. split; [rewrite (concat_nth ps nel) by (auto; lia); apply (pc_part _ _ _ _ _ _ _ _ P j s0 Hj)|].
    destruct (Hpl (nth (nel * k + j) (concat ps) s0)) as [(G1 & G2 & G3 & G4 & G5 & G6) (G7 & G8 & G9)]; [apply nth_In; rewrite Hcl; nia|]. repeat split; auto.
  - rewrite Ed, mapi_length, map_length. reflexivity.
  - intros i d Hd.
    assert (Hd' : nth_error (r_disk r) i = Some (mk_disk i (scale_disk nel d))) by (rewrite Ed; apply (mapi_nth mk_disk (map (scale_disk nel) disks) 0 i); rewrite nth_error_map, Hd; reflexivity).
    unfold mk_disk in Hd'. do 2 eexists. split; [exact Hd'|]. simpl. split; [reflexivity|]. split; [|auto]. apply Hends.
    destruct (rf_dpos _ F) as (dpos & Hdp & _). rewrite <- (rf_pos _ F) in Hdp. apply nth_error_In in Hd'.
    assert (Hlt : (el_n (EDisk (rd_six (scale_disk nel d)) (default_tag "Disk " i (d_tag (rd_d (scale_disk nel d)))) (rd_d (scale_disk nel d))) < length (r_nodes_pos r))%nat).
    { clear -Hdp Hd'. revert dpos Hdp. induction (r_disk r) as [|x dk IH]; intros dpos Hdp; [destruct Hd'|]. simpl in Hdp.
      destruct (nth_error (r_nodes_pos r) (el_n x)) as [p|] eqn:E; [|discriminate]. destruct (disk_positions _ dk) as [l'|]; [|discriminate].
      destruct Hd' as [<-|He]; [apply nth_error_Some; congruence|]. apply (IH He l' eq_refl). }
    simpl in Hlt. rewrite (cr_plen _ _ Cr), Hcl in Hlt. nia.
  - rewrite Eb, (Permutation_length (sort_n_perm _)), mapi_length, map_length. reflexivity.
  - intros b Hb. destruct (mapi_in_inv mk_brg (map (scale_brg nel) brgs) 0 (scale_brg nel b) (in_map _ _ _ Hb)) as (k & Hin). rewrite <- sort_n_in, <- Eb in Hin.
    eexists. split; [exact Hin|]. assert (En : el_n (mk_brg k (scale_brg nel b)) = (nel * brg_n b)%nat) by (destruct b; reflexivity). rewrite En.
    split; [reflexivity|]. split; [destruct b; reflexivity|]. split; [intros Hle; apply Hends; exact Hle|].
    intros t spl w. destruct b as [s b|b]; repeat split; reflexivity.
Qed.

Lemma from_section_mesh lens il ol ir or mt disks brgs n1 n2 r1 r2 :
  from_section lens il ol ir or (Some mt) (Some disks) (Some brgs) n1 = Ok r1 -> from_section lens il ol ir or (Some mt) (Some disks) (Some brgs) n2 = Ok r2 ->
  good_sections lens il ol (right_ends il ir) (right_ends ol or) ->
  r_m r1 = r_m r2 /\ r_Ip r1 = r_Ip r2 /\ (r_m r1 <> 0 -> r_CG r1 = r_CG r2).
Proof.
  intros H1 H2 G. pose proof (from_section_built _ _ _ _ _ _ _ _ _ _ H1) as B1. pose proof (from_section_built _ _ _ _ _ _ _ _ _ _ H2) as B2.
  destruct (from_section_inv _ _ _ _ _ _ _ _ _ _ H1) as (mt1 & dk1 & br1 & ps & X1 & X2 & X3 & _ & _ & Hps & Hk & Hpl & Hi). injection X1 as <-. injection X2 as <-. injection X3 as <-.
  destruct (from_section_inv _ _ _ _ _ _ _ _ _ _ H2) as (mt2 & dk2 & br2 & qs & Y1 & Y2 & Y3 & _ & _ & Hqs & Hk' & Hpl' & Hi'). injection Y1 as <-. injection Y2 as <-. injection Y3 as <-.
  assert (S : same_piece (concat ps) (concat qs)).
  { apply same_pieces. assert (Hs : forall k, (k < length lens)%nat -> same_piece (nth k ps []) (nth k qs [])).
    { intros k Hlt. destruct (Hk k Hlt) as (m & Hm & _ & _ & _ & _ & P). destruct (Hk' k Hlt) as (m' & Hm' & _ & _ & _ & _ & Q). rewrite Hm in Hm'. injection Hm' as <-.
      specialize (G k Hlt). unfold same_piece.
      rewrite (pc_L _ _ _ _ _ _ _ _ P), (pc_L _ _ _ _ _ _ _ _ Q), (pc_mass _ _ _ _ _ _ _ _ P G), (pc_mass _ _ _ _ _ _ _ _ Q G), (pc_polar _ _ _ _ _ _ _ _ P G), (pc_polar _ _ _ _ _ _ _ _ Q G), (pc_moment _ _ _ _ _ _ _ _ P G), (pc_moment _ _ _ _ _ _ _ _ Q G). auto. }
    clear -Hs Hps Hqs. rewrite <- Hps in Hs, Hqs. clear Hps. revert qs Hqs Hs. induction ps as [|p ps IH]; intros [|q qs] Hl Hs; try discriminate; constructor.
    - apply (Hs 0%nat). simpl. lia.
    - apply IH; [simpl in Hl; lia|]. intros k Hlt. apply (Hs (S k)). simpl. lia. }
  destruct S as (_ & S2 & S3 & S4).
  assert (N1 : forall s, In s (concat ps) -> s_n s = None) by (intros s Hs; apply (Hpl s Hs)).
  assert (N2 : forall s, In s (concat qs) -> s_n s = None) by (intros s Hs; apply (Hpl' s Hs)).
  pose proof (chain_facts _ _ _ _ _ N1 Hi) as C1. pose proof (chain_facts _ _ _ _ _ N2 Hi') as C2.
  pose proof (rotor_facts _ _ _ _ _ Hi) as F1. pose proof (rotor_facts _ _ _ _ _ Hi') as F2.
  assert (Hd : forall g h, (forall t d e, nth_error disks t = Some d -> nth_error (r_disk r1) t = Some e -> g e = h d) -> suml (map g (r_disk r1)) = suml (map h disks)).
  { intros g h Hg. f_equal. apply (nth_ext _ _ 0 0); rewrite !map_length; [apply (bf_ndisk _ _ _ _ _ _ _ _ _ _ B1)|]. intros i Hlt.
    destruct (nth_error disks i) as [d|] eqn:Ed; [|apply nth_error_None in Ed; rewrite (bf_ndisk _ _ _ _ _ _ _ _ _ _ B1) in Hlt; lia].
    destruct (nth_error (r_disk r1) i) as [e|] eqn:Ee; [|apply nth_error_None in Ee; lia].
    rewrite (nth_error_nth (map g (r_disk r1)) i 0 (x := g e)) by (rewrite nth_error_map, Ee; reflexivity).
    rewrite (nth_error_nth (map h disks) i 0 (x := h d)) by (rewrite nth_error_map, Ed; reflexivity). eauto. }
  assert (Hd' : forall g h, (forall t d e, nth_error disks t = Some d -> nth_error (r_disk r2) t = Some e -> g e = h d) -> suml (map g (r_disk r2)) = suml (map h disks)).
  { intros g h Hg. f_equal. apply (nth_ext _ _ 0 0); rewrite !map_length; [apply (bf_ndisk _ _ _ _ _ _ _ _ _ _ B2)|]. intros i Hlt.
    destruct (nth_error disks i) as [d|] eqn:Ed; [|apply nth_error_None in Ed; rewrite (bf_ndisk _ _ _ _ _ _ _ _ _ _ B2) in Hlt; lia].
    destruct (nth_error (r_disk r2) i) as [e|] eqn:Ee; [|apply nth_error_None in Ee; lia].
    rewrite (nth_error_nth (map g (r_disk r2)) i 0 (x := g e)) by (rewrite nth_error_map, Ee; reflexivity).
    rewrite (nth_error_nth (map h disks) i 0 (x := h d)) by (rewrite nth_error_map, Ed; reflexivity). eauto. }
  assert (Em : r_m r1 = r_m r2).
  { rewrite (rf_mass _ F1), (rf_mass _ F2), (cr_shaft _ _ C1), (cr_shaft _ _ C2), !(chain_map sh_m s_m) by reflexivity. rewrite S2. f_equal.
    rewrite (Hd dk_m (fun d => d_m (rd_d d))), (Hd' dk_m (fun d => d_m (rd_d d))); [reflexivity| |].
    - intros t d e Ht He. destruct (bf_disk _ _ _ _ _ _ _ _ _ _ B2 t d Ht) as (t' & d' & E & _ & _ & Q & _). rewrite He in E. injection E as ->. exact Q.
    - intros t d e Ht He. destruct (bf_disk _ _ _ _ _ _ _ _ _ _ B1 t d Ht) as (t' & d' & E & _ & _ & Q & _). rewrite He in E. injection E as ->. exact Q. }
  split; [exact Em|]. split.
  - rewrite (rf_Ip _ F1), (rf_Ip _ F2), (cr_shaft _ _ C1), (cr_shaft _ _ C2), !(chain_map sh_Im s_Im) by reflexivity. rewrite S3. f_equal.
    rewrite (Hd dk_Ip (fun d => d_Ip (rd_d d))), (Hd' dk_Ip (fun d => d_Ip (rd_d d))); [reflexivity| |].
    + intros t d e Ht He. destruct (bf_disk _ _ _ _ _ _ _ _ _ _ B2 t d Ht) as (t' & d' & E & _ & _ & _ & _ & Q). rewrite He in E. injection E as ->. exact Q.
    + intros t d e Ht He. destruct (bf_disk _ _ _ _ _ _ _ _ _ _ B1 t d Ht) as (t' & d' & E & _ & _ & _ & _ & Q). rewrite He in E. injection E as ->. exact Q.
  - intros Hm. apply Rmult_eq_reg_l with (r_m r1); [|exact Hm]. rewrite (cr_cg _ _ C1 Hm). rewrite Em, (cr_cg _ _ C2) by congruence. rewrite S4. f_equal.
    set (h := fun d => d_m (rd_d d) * section_start lens (d_n (rd_d d))).
    rewrite (Hd (fun e => dk_m e * nth (el_n e) (r_nodes_pos r1) 0) h), (Hd' (fun e => dk_m e * nth (el_n e) (r_nodes_pos r2) 0) h); [reflexivity| |].
    + intros t d e Ht He. destruct (bf_disk _ _ _ _ _ _ _ _ _ _ B2 t d Ht) as (t' & d' & E & _ & Q' & Q & _). rewrite He in E. injection E as ->. unfold h. simpl. rewrite Q, Q'. reflexivity.
    + intros t d e Ht He. destruct (bf_disk _ _ _ _ _ _ _ _ _ _ B1 t d Ht) as (t' & d' & E & _ & Q' & Q & _). rewrite He in E. injection E as ->. unfold h. simpl. rewrite Q, Q'. reflexivity.
Qed.

(** a rotor without disks and bearings can always be refined *)
Lemma refine_shaft_args nel s a : In a (refine_shaft nel s) -> a_L a = s_L s / INR nel /\ a_material a = Some (s_material s) /\ a_n a = None /\ a_tag a = None /\
  a_method a = Cowper /\ a_axial_force a = 0 /\ a_torque a = 0 /\ a_alpha a = 0 /\ a_beta a = 0.
Proof.
  unfold refine_shaft. generalize (seq 0 nel), (s_odl s), (s_odr s), (s_idl s), (s_idr s). intros js. induction js as [|j js IH]; intros o o' i i' Ha; [destruct Ha|].
  cbn [refine_loop] in Ha. cbv zeta in Ha. destruct Ha as [<-|Ha]; [repeat split; reflexivity|]. eapply IH; exact Ha.
Qed.
Lemma refine_shaft_length nel s : length (refine_shaft nel s) = nel.
Proof.
  unfold refine_shaft. transitivity (length (seq 0 nel)); [|apply seq_length].
  generalize (seq 0 nel), (s_odl s), (s_odr s), (s_idl s), (s_idr s). intros js. induction js as [|j js IH]; intros; [reflexivity|].
  cbn [refine_loop]. cbv zeta. simpl. f_equal. apply IH.
Qed.
Lemma init_of_refine_args a : a_material a <> None -> a_method a = Cowper -> exists s, shaft_init a = Ok s.
Proof.
  intros Hm Hs. unfold shaft_init. cbv zeta. destruct (a_material a); [|congruence]. destruct (a_shear_effects a); [|eauto].
  rewrite Hs. unfold shear_kappa. eauto.
Qed.
Lemma init_fields a s : shaft_init a = Ok s -> s_L s = a_L a /\ a_material a = Some (s_material s) /\ s_n s = a_n a /\ s_tag s = a_tag a /\
  s_axial_force s = a_axial_force a /\ s_torque s = a_torque a /\ s_alpha s = a_alpha a /\ s_beta s = a_beta a.
Proof.
  unfold shaft_init. cbv zeta. destruct (a_material a) as [m|]; [|discriminate].
  destruct (a_shear_effects a); [destruct (shear_kappa _ _ _ _ _ _); [|discriminate]|]; intros [= <-]; repeat split; reflexivity.
Qed.
Lemma init_diams a s : shaft_init a = Ok s -> s_idl s = a_idl a /\ s_odl s = a_odl a /\ s_idr s = right_id a /\ s_odr s = right_od a.
Proof.
  unfold shaft_init. cbv zeta. destruct (a_material a) as [m|]; [|discriminate].
  destruct (a_shear_effects a); [destruct (shear_kappa _ _ _ _ _ _); [|discriminate]|]; intros [= <-]; repeat split; reflexivity.
Qed.
Lemma refine_bare nel r : rfacts r -> (0 < nel)%nat -> (forall s, In s (shafts_of r) -> 0 < s_L s) -> r_disk r = [] -> r_brg r = [] ->
  exists shafts r', refine nel r = Ok r' /\ Forall2 (fun a x => shaft_init a = Ok x) (flat_map (refine_shaft nel) (shafts_of r)) shafts /\ chain_rotor shafts r' /\
    rfacts r' /\ r_disk r' = [].
Proof.
  intros F Hn HL Hd Hb. unfold refine. change (flat_map el_shaft (r_shaft r)) with (shafts_of r). rewrite Hd, Hb. cbn [flat_map map].
  destruct (collect_ok shaft_init (flat_map (refine_shaft nel) (shafts_of r))) as [shafts E].
  { intros a Ha. apply in_flat_map in Ha as (s & _ & Ha). destruct (refine_shaft_args _ _ _ Ha) as (_ & Q & _ & _ & Q' & _). apply init_of_refine_args; [congruence|exact Q']. }
  rewrite E. cbn [bind]. apply collect_all in E. exists shafts.
  assert (HN : 0 < INR nel) by (apply lt_INR in Hn; exact Hn).
  assert (Hin : forall s, In s shafts -> plain s /\ 0 < s_L s).
  { intros x Hx. assert (exists a, In a (flat_map (refine_shaft nel) (shafts_of r)) /\ shaft_init a = Ok x) as (a & Ha & Hax).
    { clear -E Hx. induction E as [|a y l l' Hay _ IH]; [destruct Hx|]. destruct Hx as [->|Hx]; [exists a; simpl; auto|]. destruct (IH Hx) as (b & ? & ?). exists b; simpl; auto. }
    apply in_flat_map in Ha as (s & Hs & Ha). destruct (refine_shaft_args _ _ _ Ha) as (Q1 & Q2 & Q3 & Q4 & Q5 & Q6 & Q7 & Q8 & Q9). destruct (init_fields _ _ Hax) as (P1 & P2 & P3 & P4 & P5 & P6 & P7 & P8).
    split; [unfold plain; repeat split; congruence|]. rewrite P1, Q1. apply Rdiv_lt_0_compat; auto. }
  destruct (chain_accept shafts [] []) as [r' Hr']; auto.
  - rewrite <- (proj1 (forall2_nth _ _ _ E)). destruct (shafts_of r) as [|s l] eqn:Es.
    + exfalso. destruct (flat_one _ (rf_shaft _ F)) as [Q _]. change (flat_map el_shaft (r_shaft r)) with (shafts_of r) in Q. rewrite Es in Q. simpl in Q. pose proof (rf_nonempty _ F). destruct (r_shaft r); [congruence|discriminate].
    + simpl. rewrite app_length, refine_shaft_length. lia.
  - intros d [].
  - intros b [].
  - constructor.
  - exists []. repeat split; [constructor|]. intros t k [].
  - exists r'. split; [exact Hr'|]. split; [exact E|]. split; [eapply chain_facts; [|exact Hr']; intros s Hs; apply (Hin s Hs)|]. split; [eapply rotor_facts; exact Hr'|].
    destruct (rotor_init_lists _ _ _ _ _ Hr') as (_ & Q & _). exact Q.
Qed.
