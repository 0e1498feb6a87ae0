(** Lemmas about cutting a shaft into elements (5): a refined rotor, the convergence loop. *)
From Coq Require Import Reals String List Arith Bool Lia Lra Permutation Sorted.
From Verif Require Import PyBase MatBase SpecMat LMat MMaterial MShaft SpecShaft MDisk MBearing MRotor SpecRotor LAssembly LRotor LRotor2 LRotorPos LRotor5 LRotorInit LRotorInit2 LRotorInit3 LRotor6 MSection SpecSection LSection LSection2 LSection3 LSection4.
Import ListNotations.
Open Scope list_scope.
Open Scope R_scope.

Lemma forall2_nth {A B} (P : A -> B -> Prop) l l' : Forall2 P l l' -> length l = length l' /\ forall k d d', (k < length l)%nat -> P (nth k l d) (nth k l' d').
Proof.
  induction 1 as [|a b l l' Hab _ [IH1 IH2]]; [split; [reflexivity|simpl; intros; lia]|]. simpl. split; [lia|]. intros [|k] d d' Hk; [exact Hab|apply IH2; lia].
Qed.
Lemma disks_map l : (forall e, In e l -> exists six t d, e = EDisk six t d) -> forall nel i,
  mapi mk_disk i (map (scale_disk nel) (flat_map el_disk l)) =
  map (fun e => match e with EDisk six t d => EDisk six t (mkDisk (nel * d_n d) (d_m d) (d_Id d) (d_Ip d) (Some t)) | _ => e end) l.
Proof.
  induction l as [|e l IH]; intros H nel i; [reflexivity|]. destruct (H e (or_introl eq_refl)) as (six & t & d & ->). simpl.
  rewrite IH by (intros x Hx; apply H; right; auto). reflexivity.
Qed.
Lemma brgs_map l : (forall e, In e l -> exists t b, e = EBrg t b) -> forall nel i,
  mapi mk_brg i (map (scale_brg nel) (flat_map el_brg l)) =
  map (fun e => match e with EBrg t (RB4 s b) => EBrg t (RB4 s (scale_bearing nel (tag_bearing t b)))
                | EBrg t (RB6 b) => EBrg t (RB6 (mkBearing6 (scale_bearing nel (tag_bearing t (b6 b))) (b6_kzz b) (b6_czz b) (b6_mzz b))) | _ => e end) l.
Proof.
  induction l as [|e l IH]; intros H nel i; [reflexivity|]. destruct (H e (or_introl eq_refl)) as (t & [s b|b] & ->); simpl;
  rewrite IH by (intros x Hx; apply H; right; auto); reflexivity.
Qed.

Lemma good_cyl_facts s : good_cyl s -> s_L s <> 0 /\ s_odr s = s_odl s /\ s_idr s = s_idl s /\ good_geometry (s_L s) (s_idl s) (s_odl s) (s_idl s) (s_odl s) /\
  s_m s = mass_f (mrho (s_material s)) (s_L s) (s_idl s) (s_odl s) (s_idl s) (s_odl s) /\
  s_Im s = polar_f (mrho (s_material s)) (s_L s) (s_idl s) (s_odl s) (s_idl s) (s_odl s) /\
  s_m s * s_beam_cg s = moment_f (mrho (s_material s)) (s_L s) (s_idl s) (s_odl s) (s_idl s) (s_odl s).
Proof.
  intros ((a & Ha & Hg) & E1 & E2). destruct Hg as [Hg Hm]. pose proof (elem_mass a s Ha Hg) as H.
  assert (F : s_L s = a_L a /\ s_idl s = a_idl a /\ s_odl s = a_odl a /\ s_idr s = right_id a /\ s_odr s = right_od a).
  { unfold shaft_init in Ha. cbv zeta in Ha. destruct (a_material a); [|discriminate].
    destruct (a_shear_effects a); [destruct (shear_kappa _ _ _ _ _ _); [|discriminate]|]; injection Ha as <-; repeat split; reflexivity. }
  destruct F as (F1 & F2 & F3 & F4 & F5). rewrite <- F1, <- F2, <- F3, <- F4, <- F5 in Hg.
  rewrite <- E1, <- E2 in H. rewrite <- E1, <- E2 in Hg. destruct Hg as (G1 & G2 & G3).
  split; [lra|]. split; [auto|]. split; [auto|]. split; [split; auto|]. exact H.
Qed.

Lemma node_pos_scaled nel r r' ps k : (0 < nel)%nat -> line_rotor (shafts_of r) r -> chain_rotor (concat ps) r' ->
  length ps = length (shafts_of r) -> (forall k j s, nth_error (shafts_of r) k = Some s -> (j <= nel)%nat ->
    nth (nel * k + j) (r_nodes_pos r') 0 = nth k (r_nodes_pos r) 0 + INR j * (s_L s / INR nel)) ->
  (k <= length (shafts_of r))%nat -> nth (nel * k) (r_nodes_pos r') 0 = nth k (r_nodes_pos r) 0.
Proof.
  intros Hn Lr Cr Hl Hp Hk. destruct k as [|k].
  - rewrite Nat.mul_0_r. destruct (shafts_of r) as [|s0 l] eqn:E.
    + exfalso. pose proof (lr_last _ _ Lr) as H. rewrite ?E in H. simpl in H. lia.
    + rewrite (lr_pos _ _ Lr 0%nat s0) by lia. rewrite (cr_pos _ _ Cr 0%nat s0) by lia. reflexivity.
  - destruct (nth_error (shafts_of r) k) as [s|] eqn:E; [|apply nth_error_None in E; lia].
    replace (nel * S k)%nat with (nel * k + nel)%nat by lia. rewrite (Hp k nel s E) by lia.
    rewrite (lr_pos _ _ Lr (S k) s), (lr_pos _ _ Lr k s) by lia. cbn [sumn]. rewrite (nth_error_nth _ _ s E). f_equal.
    apply lt_INR in Hn. simpl in Hn. field. lra.
Qed.

Lemma refine_refinement nel r r' : rfacts r -> (0 < nel)%nat -> refinable r -> refine nel r = Ok r' -> refinement nel r r'.
Proof.
  intros F Hn [U Hc] H. assert (HN : INR nel <> 0) by (apply lt_INR in Hn; simpl in Hn; lra).
  destruct (refine_inv nel r r' H Hn) as (ps & Hps & Cr & Hi).
  { intros s Hs. destruct (good_cyl_facts s (Hc s Hs)) as (? & ? & ? & _). auto. }
  pose proof (unlayered_facts r F U) as Lr. change (flat_map el_shaft (r_shaft r)) with (shafts_of r) in Lr.
  pose proof (rotor_facts _ _ _ _ _ Hi) as F'.
  assert (Hsl : length (shafts_of r) = length (r_shaft r)) by apply (flat_one _ (rf_shaft _ F)).
  destruct (forall2_nth _ _ _ Hps) as [Hpl Hpn].
  assert (Hpl' : forall k, (k < length ps)%nat -> length (nth k ps []) = nel).
  { intros k Hk. destruct (shafts_of r) as [|s0 l] eqn:E; [simpl in Hpl; lia|]. rewrite <- E in *. specialize (Hpn k s0 [] ltac:(lia)). apply (pc_len _ _ _ _ _ _ _ _ (rf_piece _ _ _ Hpn)). }
  assert (Hcl : length (concat ps) = (nel * length (shafts_of r))%nat) by (rewrite (concat_len ps nel), Hpl by auto; reflexivity).
  assert (Hps0 : forall s, In s (concat ps) -> s_n s = None).
  { intros s Hin. apply in_concat in Hin as (p & Hp & Hin). apply (In_nth _ _ []) in Hp as (k & Hlt & <-).
    destruct (shafts_of r) as [|s0 l] eqn:E; [simpl in Hpl; lia|]. rewrite <- E in *. specialize (Hpn k s0 [] ltac:(lia)). apply (rf_plain _ _ _ Hpn s Hin). }
  assert (Hpart : forall k j s d, nth_error (shafts_of r) k = Some s -> (j < nel)%nat -> let s' := nth (nel * k + j) (concat ps) d in
     s_L s' = s_L s / INR nel /\ s_material s' = s_material s /\
      s_idl s' = s_idl s /\ s_odl s' = s_odl s /\ s_idr s' = s_idr s /\ s_odr s' = s_odr s /\
      s_shear_effects s' = s_shear_effects s /\ s_rotary_inertia s' = s_rotary_inertia s /\ s_gyroscopic s' = s_gyroscopic s).
  { intros k j s d Ek Hj s'. assert (Hk : (k < length (shafts_of r))%nat) by (apply nth_error_Some; congruence).
    pose proof (Hpn k s [] Hk) as Hr. rewrite (nth_error_nth _ _ s Ek) in Hr. unfold s'. rewrite (concat_nth ps nel) by (auto; lia).
    destruct (pc_part _ _ _ _ _ _ _ _ (rf_piece _ _ _ Hr) j d Hj) as (E1 & E2 & E3 & E4 & E5 & E6).
    destruct (rf_flags _ _ _ Hr (nth j (nth k ps []) d)) as (G1 & G2 & G3); [apply nth_In; rewrite Hpl'; lia|].
    destruct (good_cyl_facts s (Hc s (nth_error_In _ _ Ek))) as (C1 & C2 & C3 & _).
    rewrite E1, E2, E3, E4, E5, E6, G1, G2, G3, C2, C3. unfold along. repeat split; try ring; field; auto. }
  assert (Hpos : forall k j s, nth_error (shafts_of r) k = Some s -> (j <= nel)%nat ->
    nth (nel * k + j) (r_nodes_pos r') 0 = nth k (r_nodes_pos r) 0 + INR j * (s_L s / INR nel)).
  { intros k j s Ek Hj. assert (Hk : (k < length (shafts_of r))%nat) by (apply nth_error_Some; congruence).
    rewrite (cr_pos _ _ Cr (nel * k + j)%nat s) by nia. rewrite (lr_pos _ _ Lr k s) by lia.
    rewrite (pieces_positions ps (map s_L (shafts_of r)) nel s k j); rewrite ?map_length; auto; try lia.
    - assert (Enk : nth k (map s_L (shafts_of r)) 0 = s_L s) by (apply nth_error_nth; rewrite nth_error_map, Ek; reflexivity).
      rewrite Enk. f_equal. unfold section_start. clear -Hk. revert k Hk. induction (shafts_of r) as [|x l IH] using rev_ind; intros k Hk; [simpl in Hk; lia|].
      rewrite app_length in Hk. simpl in Hk. rewrite map_app, firstn_app, map_length. destruct (Nat.eq_dec k (length l)) as [->|Hne].
      + rewrite Nat.sub_diag. simpl firstn at 2. rewrite app_nil_r, firstn_all2 by (rewrite map_length; lia).
        rewrite (suml_nth s_L l s). apply sumn_ext. intros i Hi. rewrite app_nth1 by lia. reflexivity.
      + replace (k - length l)%nat with 0%nat by lia. rewrite firstn_O, app_nil_r, IH by lia. apply sumn_ext. intros i Hi. rewrite app_nth1 by lia. reflexivity.
    - intros k' Hk'. split; [apply Hpl'; lia|]. intros j' d Hj'. destruct (nth_error (shafts_of r) k') as [s''|] eqn:Es; [|apply nth_error_None in Es; lia].
      pose proof (Hpart k' j' s'' d Es Hj') as (E1 & _). cbv zeta in E1. rewrite (concat_nth ps nel) in E1 by (auto; lia). rewrite E1. f_equal.
      symmetry. apply nth_error_nth. rewrite nth_error_map, Es. reflexivity. }
  destruct (rotor_init_lists _ _ _ _ _ Hi) as (Es & Ed & Eb & Ep).
  rewrite disks_map in Ed by apply (rf_disk _ F). rewrite brgs_map in Eb by apply (rf_brg _ F).
  (* nodes of disks *)
  assert (Hdn : forall e, In e (r_disk r) -> (el_n e <= length (shafts_of r))%nat).
  { intros e He. destruct (rf_dpos _ F) as (dpos & Hd & _). rewrite <- (rf_pos _ F) in Hd. assert (Hlt : (el_n e < length (r_nodes_pos r))%nat).
    { clear -Hd He. revert dpos Hd. induction (r_disk r) as [|d dk IH]; intros dpos Hd; [destruct He|]. simpl in Hd.
      destruct (nth_error (r_nodes_pos r) (el_n d)) as [p|] eqn:E; [|discriminate]. destruct (disk_positions _ dk) as [l'|]; [|discriminate].
      destruct He as [<-|He]; [apply nth_error_Some; congruence|]. apply (IH He l' eq_refl). }
    rewrite (lr_plen _ _ Lr) in Hlt. lia. }
  assert (Hsame : same_piece (concat ps) (shafts_of r)).
  { assert (E : shafts_of r = concat (map (fun s => [s]) (shafts_of r))) by (clear; induction (shafts_of r) as [|x l IH]; [reflexivity|simpl; rewrite <- IH; reflexivity]).
    rewrite E. apply same_pieces. clear -Hps Hc. induction Hps as [|s p ss ps Hp _ IH]; constructor; [|apply IH; intros; apply Hc; right; auto].
    destruct (good_cyl_facts s (Hc s (or_introl eq_refl))) as (_ & _ & _ & G & M1 & M2 & M3). pose proof (rf_piece _ _ _ Hp) as P.
    unfold same_piece. simpl. rewrite (pc_L _ _ _ _ _ _ _ _ P), (pc_mass _ _ _ _ _ _ _ _ P G), (pc_polar _ _ _ _ _ _ _ _ P G), (pc_moment _ _ _ _ _ _ _ _ P G), <- M1, <- M2, <- M3.
    repeat split; ring. }
  destruct Hsame as (S1 & S2 & S3 & S4).
  assert (Hdm : map dk_m (r_disk r') = map dk_m (r_disk r)).
  { rewrite Ed, map_map. apply map_ext_in. intros e He. destruct (rf_disk _ F e He) as (six & t & d & ->). reflexivity. }
  assert (Hdi : map dk_Ip (r_disk r') = map dk_Ip (r_disk r)).
  { rewrite Ed, map_map. apply map_ext_in. intros e He. destruct (rf_disk _ F e He) as (six & t & d & ->). reflexivity. }
  assert (Hnp : forall k, (k <= length (shafts_of r))%nat -> nth (nel * k) (r_nodes_pos r') 0 = nth k (r_nodes_pos r) 0).
  { intros k Hk. eapply node_pos_scaled; eauto. }
  assert (Hm : r_m r' = r_m r).
  { rewrite (rf_mass _ F'), (rf_mass _ F), Hdm. f_equal. rewrite (cr_shaft _ _ Cr), (chain_map sh_m s_m) by reflexivity. rewrite S2.
    symmetry. apply flat_map_sum; [apply (rf_shaft _ F)|reflexivity]. }
  constructor.
  - rewrite (cr_shaft _ _ Cr), chain_length, Hcl, Hsl. reflexivity.
  - intros k j s Ek Hj. rewrite (cr_shaft _ _ Cr). assert (Hk : (k < length (shafts_of r))%nat) by (apply nth_error_Some; congruence).
    eexists. exists (nth (nel * k + j) (concat ps) s). split; [apply (chain_nth 0 (concat ps) (nel * k + j) s); [auto|rewrite Hcl; nia]|]. apply (Hpart k j s s Ek Hj).
  - rewrite (cr_plen _ _ Cr), Hcl, Hsl. reflexivity.
  - exact Hpos.
  - intros k e Ek. rewrite Ed, nth_error_map, Ek. simpl. eexists. split; [reflexivity|]. pose proof (nth_error_In _ _ Ek) as He. destruct (rf_disk _ F e He) as (six & t & d & ->).
    split; [reflexivity|]. split; [apply (Hnp (d_n d)); apply (Hdn _ He)|]. intros spl w. destruct six; split; reflexivity.
  - rewrite Ed, map_length. reflexivity.
  - intros e He. destruct (rf_brg _ F e He) as (t & b & ->).
    pose proof (in_map (fun e => match e with EBrg t (RB4 s b) => EBrg t (RB4 s (scale_bearing nel (tag_bearing t b)))
                | EBrg t (RB6 b) => EBrg t (RB6 (mkBearing6 (scale_bearing nel (tag_bearing t (b6 b))) (b6_kzz b) (b6_czz b) (b6_mzz b))) | _ => e end) _ _ He) as Hin.
    rewrite <- sort_n_in, <- Eb in Hin. destruct b as [s b|b]; (eexists; split; [exact Hin|]); repeat split; reflexivity.
  - rewrite Eb. rewrite (Permutation_length (sort_n_perm _)), map_length. reflexivity.
  - exact Hm.
  - rewrite (rf_Ip _ F'), (rf_Ip _ F), Hdi. f_equal. rewrite (cr_shaft _ _ Cr), (chain_map sh_Im s_Im) by reflexivity. rewrite S3.
    symmetry. apply flat_map_sum; [apply (rf_shaft _ F)|reflexivity].
  - intros Hm0. apply Rmult_eq_reg_l with (r_m r); [|exact Hm0]. rewrite <- Hm at 1. rewrite (cr_cg _ _ Cr) by congruence. rewrite (lr_cg _ _ Lr Hm0), S4. f_equal.
    rewrite Ed, map_map. apply suml_map_ext. intros e He. pose proof (Hdn e He) as Hle. destruct (rf_disk _ F e He) as (six & t & d & ->). simpl. f_equal. apply Hnp. exact Hle.
Qed.

(** a rotor without supports can be refined *)
Lemma refine_ok nel r : rfacts r -> (0 < nel)%nat -> refinable r -> r_nd r = 4%nat -> r_pm r = [] ->
  (forall e m, In e (r_brg r) -> el_link e = Some m -> (m <= length (r_shaft r))%nat) -> NoDup (map el_n (r_brg r)) ->
  (forall e k, In e (r_disk r ++ r_brg r) -> el_tag e <> default_tag "ShaftElement " k None) -> exists r', refine nel r = Ok r'.
Proof.
  intros F Hn [U Hc] Hnd Hpm Hlk Hnodup Htag. unfold refine.
  assert (HN : 0 < INR nel) by (apply lt_INR in Hn; exact Hn).
  match goal with |- context [collect (map ?f ?l)] => destruct (collect_ok f l) as [shafts Es] end.
  { intros a Ha. apply in_flat_map in Ha as (s & Hs & Ha). destruct (good_cyl_facts s (Hc s Hs)) as (C1 & C2 & C3 & _). unfold refine_shaft in Ha. rewrite C2, C3, refine_cyl_loop in Ha by auto.
    apply in_map_iff in Ha as (j & <- & _). apply cut_exists. }
  rewrite Es. cbn [bind]. apply collect_all, forall2_flat in Es as (ps & -> & Hps).
  assert (Hps' : Forall2 (refined nel) (shafts_of r) ps).
  { change (flat_map el_shaft (r_shaft r)) with (shafts_of r) in Hps. revert Hc. clear -Hps Hn. induction Hps as [|s p ss ps Hp _ IH]; intros Hc; constructor.
    - destruct (good_cyl_facts s (Hc s (or_introl eq_refl))) as (H1 & H2 & H3 & _). apply refine_cyl; auto.
    - apply IH. intros x Hx. apply Hc. right. exact Hx. }
  destruct (forall2_nth _ _ _ Hps') as [Hpl Hpn].
  assert (Hin : forall s, In s (concat ps) -> plain s /\ 0 < s_L s).
  { intros s Hin. apply in_concat in Hin as (p & Hp & Hin). apply (In_nth _ _ []) in Hp as (k & Hlt & <-).
    assert (Hk : (k < length (shafts_of r))%nat) by lia. specialize (Hpn k s [] Hk). split; [apply (rf_plain _ _ _ Hpn s Hin)|].
    apply (In_nth _ _ s) in Hin as (j & Hj & <-). rewrite (pc_len _ _ _ _ _ _ _ _ (rf_piece _ _ _ Hpn)) in Hj.
    destruct (pc_part _ _ _ _ _ _ _ _ (rf_piece _ _ _ Hpn) j s Hj) as (-> & _). set (s1 := nth k (shafts_of r) s) in *.
    assert (Hs1 : In s1 (shafts_of r)) by (apply nth_In; exact Hk). destruct (good_cyl_facts s1 (Hc s1 Hs1)) as (_ & _ & _ & (G & _) & _).
    replace ((INR j + 1) * (s_L s1 / INR nel) - INR j * (s_L s1 / INR nel)) with (s_L s1 / INR nel) by ring. apply Rdiv_lt_0_compat; auto. }
  assert (Hsl : length (shafts_of r) = length (r_shaft r)) by apply (flat_one _ (rf_shaft _ F)).
  assert (Hcl : length (concat ps) = (nel * length (r_shaft r))%nat).
  { rewrite (concat_len ps nel), <- Hpl, Hsl; [reflexivity|]. intros k Hk. destruct (shafts_of r) as [|s0 l] eqn:E; [simpl in Hpl; lia|]. rewrite <- E in *.
    specialize (Hpn k s0 [] ltac:(lia)). apply (pc_len _ _ _ _ _ _ _ _ (rf_piece _ _ _ Hpn)). }
  pose proof (unlayered_facts r F U) as Lr. change (flat_map el_shaft (r_shaft r)) with (shafts_of r) in Lr.
  assert (Hloc : forall e, In e (r_disk r ++ r_brg r) -> (el_n e <= length (r_shaft r))%nat).
  { intros e He. pose proof (rf_loc _ F) as Hl. unfold location_ok in Hl. apply Nat.leb_le in Hl. rewrite Hpm in Hl. simpl in Hl.
    assert (He' : (el_n e <= max_list (map el_n (r_shaft r ++ r_disk r ++ r_brg r)))%nat) by (apply max_list_ge, in_map, in_or_app; right; exact He).
    assert (Hmx : (max_list (map (fun e => S (el_n e)) (r_shaft r)) <= r_n_last r + 1)%nat).
    { apply max_list_le. intros x Hx. apply in_map_iff in Hx as (y & <- & Hy). rewrite (rf_last _ F). pose proof (max_list_ge (map el_n (r_shaft r)) (el_n y) ltac:(apply in_map; auto)). lia. }
    pose proof (lr_last _ _ Lr). lia. }
  assert (Hfam : forall e, In e (r_disk r) -> exists t d, e = EDisk false t d).
  { intros e He. destruct (rf_disk _ F e He) as (six & t & d & ->). assert (Hf : el_fam (r_nd r) (EDisk six t d)) by (apply (rf_fam _ F); unfold r_elements; rewrite !in_app_iff; auto).
    simpl in Hf. rewrite Hnd in Hf. destruct six; [discriminate|]. eauto. }
  assert (Hfamb : forall e, In e (r_brg r) -> exists t s b, e = EBrg t (RB4 s b)).
  { intros e He. destruct (rf_brg _ F e He) as (t & b & ->). assert (Hf : el_fam (r_nd r) (EBrg t b)) by (apply (rf_fam _ F); unfold r_elements; rewrite !in_app_iff; auto).
    simpl in Hf. rewrite Hnd in Hf. destruct b as [s b|b]; [eauto|discriminate]. }
  apply chain_accept; auto.
  - rewrite Hcl. pose proof (rf_nonempty _ F). destruct (r_shaft r); [congruence|simpl; nia].
  - intros d Hd. apply in_map_iff in Hd as (x & <- & Hx). apply in_flat_map in Hx as (e & He & Hx). destruct (Hfam e He) as (t & d & ->). destruct Hx as [<-|[]]. simpl. split; [reflexivity|].
    rewrite Hcl. assert (d_n d <= length (r_shaft r))%nat by (apply (Hloc (EDisk false t d)); apply in_or_app; auto). nia.
  - intros b Hb. apply in_map_iff in Hb as (x & <- & Hx). apply in_flat_map in Hx as (e & He & Hx). pose proof (fun m => Hlk e m He) as Hle. destruct (Hfamb e He) as (t & s & b & ->). destruct Hx as [<-|[]].
    simpl in *. repeat split; auto; rewrite Hcl; [|intros m Hm; specialize (Hle m Hm); nia]. assert (b_n b <= length (r_shaft r))%nat by (apply (Hloc (EBrg t (RB4 s b))); apply in_or_app; auto). unfold brg_n. simpl. nia.
  - rewrite map_map. rewrite (map_ext _ _ (scale_brg_n nel)). apply nodup_scale; [auto|].
    assert (E : map brg_n (flat_map el_brg (r_brg r)) = map el_n (r_brg r)); [|rewrite E; exact Hnodup].
    clear -Hfamb. induction (r_brg r) as [|e l IH]; [reflexivity|]. destruct (Hfamb e (or_introl eq_refl)) as (t & s & b & ->). simpl. f_equal. apply IH. intros; apply Hfamb; right; auto.
  - exists (map el_tag (r_disk r ++ r_brg r)). rewrite !map_map, (map_ext _ _ (scale_brg_tag nel)). split; [|split].
    + rewrite !map_app. f_equal.
      * clear -Hfam. induction (r_disk r) as [|e l IH]; [reflexivity|]. destruct (Hfam e (or_introl eq_refl)) as (t & d & ->). simpl. f_equal. apply IH. intros; apply Hfam; right; auto.
      * clear -Hfamb. induction (r_brg r) as [|e l IH]; [reflexivity|]. destruct (Hfamb e (or_introl eq_refl)) as (t & s & b & ->). simpl. f_equal. apply IH. intros; apply Hfamb; right; auto.
    + pose proof (rf_tags _ F) as Ht. apply tags_unique_iff in Ht. unfold r_elements in Ht. rewrite Hpm, app_nil_r, map_app in Ht.
      clear -Ht. induction (map el_tag (r_shaft r)) as [|x l IH]; [exact Ht|]. simpl in Ht. inversion Ht; auto.
    + intros t k Hin2. apply in_map_iff in Hin2 as (e & <- & He). apply Htag. exact He.
Qed.

(** ** the loop *)
Record conv_run (wn : rotor -> res R) (err_max : R) (r : rotor) (k : nat) (Rs : nat -> rotor) (ws : nat -> R) : Prop := {
  cn_ref : forall i, (1 <= i <= k)%nat -> refine (2 ^ i) r = Ok (Rs i);
  cn_wn : forall i, (1 <= i <= k)%nat -> wn (Rs i) = Ok (ws i);
  cn_go : forall i, (1 <= i < k)%nat -> above (rel_change (ws (i - 1)%nat) (ws i)) err_max = true }.
Lemma conv_loop_spec wn err_max r fuel : forall k Rs ws nums eigs errs out, conv_run wn err_max r k Rs ws ->
  (forall i, (1 <= i <= k)%nat -> above (rel_change (ws (i - 1)%nat) (ws i)) err_max = true) ->
  nums = map (fun i => length (r_shaft (Rs i))) (seq 1 k) -> eigs = map ws (seq 1 k) -> errs = map (fun i => rel_change (ws (i - 1)%nat) (ws i)) (seq 1 k) ->
  conv_loop fuel (2 ^ S k) wn err_max r (ws k) nums eigs errs = Some (Ok out) ->
  exists k' Rs' ws', (k < k')%nat /\ ws' 0%nat = ws 0%nat /\ conv_run wn err_max r k' Rs' ws' /\ above (rel_change (ws' (k' - 1)%nat) (ws' k')) err_max = false /\
    out = mkConv (Rs' k') (map (fun i => length (r_shaft (Rs' i))) (seq 1 k')) (map ws' (seq 1 k')) (map (fun i => rel_change (ws' (i - 1)%nat) (ws' i)) (seq 1 k')).
Proof.
  induction fuel as [|fuel IH]; intros k Rs ws nums eigs errs out Hr Hab -> -> -> H; [discriminate|]. cbn [conv_loop] in H.
  destruct (refine (2 ^ S k) r) as [r'|] eqn:Er; [|discriminate]. destruct (wn r') as [w|] eqn:Ew; [|discriminate]. cbv zeta in H.
  set (Rs' := fun i => if Nat.eqb i (S k) then r' else Rs i). set (ws' := fun i => if Nat.eqb i (S k) then w else ws i).
  assert (R1 : Rs' (S k) = r') by (unfold Rs'; rewrite Nat.eqb_refl; reflexivity).
  assert (W1 : ws' (S k) = w) by (unfold ws'; rewrite Nat.eqb_refl; reflexivity).
  assert (R0 : forall i, (i <= k)%nat -> Rs' i = Rs i) by (intros i Hi; unfold Rs'; destruct (Nat.eqb_spec i (S k)); [lia|reflexivity]).
  assert (W0 : forall i, (i <= k)%nat -> ws' i = ws i) by (intros i Hi; unfold ws'; destruct (Nat.eqb_spec i (S k)); [lia|reflexivity]).
  assert (Hrun : conv_run wn err_max r (S k) Rs' ws').
  { constructor.
    - intros i Hi. destruct (Nat.eq_dec i (S k)) as [->|]; [rewrite R1; exact Er|rewrite R0 by lia; apply (cn_ref _ _ _ _ _ _ Hr); lia].
    - intros i Hi. destruct (Nat.eq_dec i (S k)) as [->|]; [rewrite R1, W1; exact Ew|rewrite R0, W0 by lia; apply (cn_wn _ _ _ _ _ _ Hr); lia].
    - intros i Hi. rewrite !W0 by lia. apply Hab. lia. }
  assert (Ech : rel_change (ws k) w = rel_change (ws' (S k - 1)%nat) (ws' (S k))) by (rewrite W1, W0 by lia; replace (S k - 1)%nat with k by lia; reflexivity).
  assert (E1 : map (fun i => length (r_shaft (Rs i))) (seq 1 k) ++ [length (r_shaft r')] = map (fun i => length (r_shaft (Rs' i))) (seq 1 (S k))).
  { rewrite seq_S, map_app. simpl. rewrite R1. f_equal. apply map_ext_in. intros i Hi. apply in_seq in Hi. rewrite R0 by lia. reflexivity. }
  assert (E2 : map ws (seq 1 k) ++ [w] = map ws' (seq 1 (S k))).
  { rewrite seq_S, map_app. simpl. rewrite W1. f_equal. apply map_ext_in. intros i Hi. apply in_seq in Hi. rewrite W0 by lia. reflexivity. }
  assert (E3 : map (fun i => rel_change (ws (i - 1)%nat) (ws i)) (seq 1 k) ++ [rel_change (ws k) w] = map (fun i => rel_change (ws' (i - 1)%nat) (ws' i)) (seq 1 (S k))).
  { rewrite seq_S, map_app. cbn [map]. replace (1 + k)%nat with (S k) by lia. rewrite Ech. f_equal. apply map_ext_in. intros i Hi. apply in_seq in Hi. rewrite !W0 by lia. reflexivity. }
  rewrite E1, E2, E3 in H. destruct (above (rel_change (ws k) w) err_max) eqn:Ea.
  - replace (2 ^ S k * 2)%nat with (2 ^ S (S k))%nat in H by (simpl; lia). rewrite <- W1 in H.
    assert (Hab' : forall i, (1 <= i <= S k)%nat -> above (rel_change (ws' (i - 1)%nat) (ws' i)) err_max = true).
    { intros i Hi. destruct (Nat.eq_dec i (S k)) as [->|]; [rewrite <- Ech; exact Ea|apply (cn_go _ _ _ _ _ _ Hrun); lia]. }
    destruct (IH (S k) Rs' ws' _ _ _ out Hrun Hab' eq_refl eq_refl eq_refl H) as (k' & R' & w' & X).
    exists k', R', w'. destruct X as (X1 & X2 & X3). split; [lia|]. split; [rewrite X2; apply W0; lia|exact X3].
  - injection H as <-. exists (S k), Rs', ws'. split; [lia|]. split; [apply W0; lia|]. split; [exact Hrun|]. split; [rewrite <- Ech; exact Ea|]. rewrite R1. reflexivity.
Qed.
