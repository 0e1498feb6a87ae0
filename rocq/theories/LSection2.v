(** Lemmas about cutting a shaft into elements (2): a region, a chain of elements. *)
From Coq Require Import Reals String List Arith Bool Lia Lra Permutation Sorted.
From Verif Require Import PyBase MatBase SpecMat LMat MMaterial MShaft SpecShaft MDisk MBearing MRotor SpecRotor LAssembly LRotor LRotor2 LRotorPos LRotor5 LRotorInit LRotorInit2 LRotor6 MSection SpecSection LSection.
Import ListNotations.
Open Scope list_scope.
Open Scope R_scope.

Lemma cutp_0 d0 d1 ne : (0 < ne)%nat -> cutp d0 d1 ne 0 = d0.
Proof. intros H. unfold cutp. apply lt_INR in H. simpl in *. field. lra. Qed.
Lemma cutp_ne d0 d1 ne : (0 < ne)%nat -> cutp d0 d1 ne ne = d1.
Proof. intros H. unfold cutp. apply lt_INR in H. simpl in *. field. lra. Qed.
Lemma cutp_good il ol ir or ne i : (0 < ne)%nat -> (i <= ne)%nat -> 0 <= il < ol -> 0 <= ir < or -> 0 <= cutp il ir ne i < cutp ol or ne i.
Proof.
  intros Hn Hi H1 H2. unfold cutp. apply lt_INR in Hn. apply le_INR in Hi. simpl in Hn.
  set (t := INR i / INR ne). assert (Ht : 0 <= t <= 1).
  { unfold t. pose proof (pos_INR i). split; [apply Rmult_le_pos; [auto|left; apply Rinv_0_lt_compat; auto]|].
    apply Rmult_le_reg_r with (INR ne); auto. unfold Rdiv. rewrite Rmult_assoc, Rinv_l by lra. lra. }
  replace (il + (ir - il) * t) with ((1 - t) * il + t * ir) by ring. replace (ol + (or - ol) * t) with ((1 - t) * ol + t * or) by ring.
  destruct (Req_dec t 0) as [->|N]; [lra|]. assert (0 < t) by lra. assert (t * ir < t * or) by (apply Rmult_lt_compat_l; lra).
  assert ((1 - t) * il <= (1 - t) * ol) by (apply Rmult_le_compat_l; lra). assert (0 <= (1 - t) * il) by (apply Rmult_le_pos; lra).
  assert (0 <= t * ir) by (apply Rmult_le_pos; lra). lra.
Qed.

Lemma mass_moment_shift z l : mass_moment z l = z * suml (map s_m l) + mass_moment 0 l.
Proof.
  revert z. induction l as [|s l IH]; intros z; simpl; [ring|]. rewrite IH, (IH (0 + s_L s)). ring.
Qed.
Lemma mass_moment_app z l1 l2 : mass_moment z (l1 ++ l2) = mass_moment z l1 + mass_moment (z + suml (map s_L l1)) l2.
Proof.
  revert z. induction l1 as [|s l IH]; intros z; simpl; [rewrite Rplus_0_r, Rplus_0_l; reflexivity|]. rewrite IH.
  replace (z + s_L s + suml (map s_L l)) with (z + (s_L s + suml (map s_L l))) by ring. ring.
Qed.
Lemma joined_nth l : (forall i d, (S i < length l)%nat -> s_odr (nth i l d) = s_odl (nth (S i) l d) /\ s_idr (nth i l d) = s_idl (nth (S i) l d)) -> joined l.
Proof.
  induction l as [|s [|s' l] IH]; intros H; try exact I. change (s_odr s = s_odl s' /\ s_idr s = s_idl s' /\ joined (s' :: l)).
  destruct (H 0%nat s ltac:(simpl; lia)) as [H1 H2]. simpl in H1, H2. split; [exact H1|]. split; [exact H2|]. apply IH. intros i d Hi.
  apply (H (S i) d). simpl in *. lia.
Qed.
Lemma mass_moment_nth l d z : mass_moment z l = sumn (length l) (fun i => s_m (nth i l d) * (z + sumn i (fun k => s_L (nth k l d)) + s_beam_cg (nth i l d))).
Proof.
  induction l as [|x l IH] using rev_ind; [reflexivity|].
  rewrite mass_moment_app, app_length, Nat.add_1_r. cbn [sumn]. rewrite IH. simpl mass_moment. rewrite Rplus_0_r. f_equal.
  - apply sumn_ext. intros i Hi. rewrite app_nth1 by lia. do 2 f_equal. f_equal. apply sumn_ext. intros k Hk. rewrite app_nth1 by lia. reflexivity.
  - rewrite app_nth2, Nat.sub_diag by lia. simpl. do 2 f_equal. f_equal. rewrite (suml_nth s_L l d). apply sumn_ext. intros k Hk. rewrite app_nth1 by lia. reflexivity.
Qed.
Lemma sumn_const n c : sumn n (fun _ => c) = INR n * c.
Proof. induction n; [simpl; ring|]. cbn [sumn]. rewrite IHn, S_INR. ring. Qed.

(** what the elements of one piece satisfy *)
Record piece (L : R) (ne : nat) (il ol ir or : R) (mt : material) (els : list shaft) : Prop := {
  pc_len : length els = ne;
  pc_part : forall i d, (i < ne)%nat -> is_part L il ol ir or (INR i * (L / INR ne)) ((INR i + 1) * (L / INR ne)) mt (nth i els d);
  pc_L : suml (map s_L els) = L;
  pc_joined : joined els;
  pc_mass : good_geometry L il ol ir or -> suml (map s_m els) = mass_f (mrho mt) L il ol ir or;
  pc_polar : good_geometry L il ol ir or -> suml (map s_Im els) = polar_f (mrho mt) L il ol ir or;
  pc_moment : good_geometry L il ol ir or -> mass_moment 0 els = moment_f (mrho mt) L il ol ir or }.

Lemma cut_piece L ne il ol ir or mt n sh ro gy al be els : L <> 0 -> (0 < ne)%nat ->
  collect (map (fun i => shaft_init (cut_args L (L / INR ne) il ol ir or i (Some mt) n sh ro gy al be)) (seq 0 ne)) = Ok els ->
  piece L ne il ol ir or mt els /\
  forall s, In s els -> s_n s = n /\ s_tag s = None /\ s_axial_force s = 0 /\ s_torque s = 0 /\ s_alpha s = al /\ s_beta s = be /\
    s_shear_effects s = sh /\ s_rotary_inertia s = ro /\ s_gyroscopic s = gy.
Proof.
  intros HL Hn H. apply collect_all, forall2_seq in H as [Hlen Hi].
  assert (Hc : forall i d, (i < ne)%nat -> is_part L il ol ir or (INR i * (L / INR ne)) ((INR i + 1) * (L / INR ne)) mt (nth i els d)).
  { intros i d Hlt. specialize (Hi i d Hlt). simpl in Hi. apply (cut_part L ne) in Hi; auto. apply Hi. }
  split.
  2:{ intros s Hs. apply (In_nth _ _ s) in Hs as (i & Hlt & <-). rewrite Hlen in Hlt. specialize (Hi i s Hlt). simpl in Hi. apply (cut_part L ne) in Hi; auto. apply Hi. }
  assert (Hp : forall i d, (i < ne)%nat -> let s := nth i els d in s_L s = L / INR ne /\ s_material s = mt /\
     s_idl s = cutp il ir ne i /\ s_odl s = cutp ol or ne i /\ s_idr s = cutp il ir ne (S i) /\ s_odr s = cutp ol or ne (S i)).
  { intros i d Hlt s. destruct (Hc i d Hlt) as (E1 & E2 & E3 & E4 & E5 & E6). fold s in E1, E2, E3, E4, E5, E6.
    rewrite E1, E2, E3, E4, E5, E6. replace (INR i + 1) with (INR (S i)) by (rewrite S_INR; ring). rewrite !along_cutp by auto. rewrite S_INR. repeat split; ring. }
  assert (Hm : good_geometry L il ol ir or -> forall i d, (i < ne)%nat -> let s := nth i els d in
     s_m s = mass_f (mrho mt) (L / INR ne) (cutp il ir ne i) (cutp ol or ne i) (cutp il ir ne (S i)) (cutp ol or ne (S i)) /\
     s_Im s = polar_f (mrho mt) (L / INR ne) (cutp il ir ne i) (cutp ol or ne i) (cutp il ir ne (S i)) (cutp ol or ne (S i)) /\
     s_m s * s_beam_cg s = moment_f (mrho mt) (L / INR ne) (cutp il ir ne i) (cutp ol or ne i) (cutp il ir ne (S i)) (cutp ol or ne (S i))).
  { intros (G1 & G2 & G3) i d Hlt s. pose proof (Hi i d Hlt) as E. simpl in E. fold s in E.
    destruct (Hp i d Hlt) as (E1 & E2 & E3 & E4 & E5 & E6). fold s in E1, E2, E3, E4, E5, E6.
    rewrite <- E1, <- E2, <- E3, <- E4, <- E5, <- E6. apply (elem_mass _ s E). unfold cut_args, right_id, right_od. cbn [a_L a_idl a_odl a_idr a_odr].
    replace (INR i + 1) with (INR (S i)) by (rewrite S_INR; ring). rewrite !cut_along, !along_cutp by auto.
    split; [|split; apply cutp_good; auto; lia]. apply lt_INR in Hn. simpl in Hn. apply Rdiv_lt_0_compat; auto. }
  set (d0 := nth 0 els (mkShaft mt None None 0 0 true true true 0 0 0 0 0 0 0 0 0 0 0 0 0 0 0 0 0 0 0 0 0 0 0 0 0 0)).
  assert (HN : INR ne <> 0) by (apply lt_INR in Hn; simpl in Hn; lra).
  constructor; auto.
  - rewrite (suml_nth s_L els d0), Hlen, (sumn_ext ne _ (fun _ => L / INR ne)).
    + rewrite sumn_const. field. auto.
    + intros i Hlt. apply (Hp i d0 Hlt).
  - apply joined_nth. intros i d Hlt. rewrite Hlen in Hlt. destruct (Hp i d ltac:(lia)) as (_ & _ & _ & _ & E5 & E6). destruct (Hp (S i) d Hlt) as (_ & _ & E3 & E4 & _).
    rewrite E3, E4, E5, E6. auto.
  - intros G. rewrite (suml_nth s_m els d0), Hlen. rewrite <- (parts_mass (mrho mt) L il ol ir or ne Hn). apply sumn_ext. intros i Hlt. apply (Hm G i d0 Hlt).
  - intros G. rewrite (suml_nth s_Im els d0), Hlen. rewrite <- (parts_polar (mrho mt) L il ol ir or ne Hn). apply sumn_ext. intros i Hlt. apply (Hm G i d0 Hlt).
  - intros G. rewrite (mass_moment_nth els d0), Hlen. rewrite <- (parts_moment (mrho mt) L il ol ir or ne Hn). apply sumn_ext. intros i Hlt.
    destruct (Hm G i d0 Hlt) as (E1 & _ & E2). rewrite <- E2, <- E1. rewrite (sumn_ext i _ (fun _ => L / INR ne)) by (intros k Hk; apply (Hp k d0); lia).
    rewrite sumn_const. ring.
Qed.

(** ** a chain of elements numbered by their place in the list *)
Lemma insert_first x l : (forall y, In y l -> (el_n x <= el_n y)%nat) -> insert_n x l = x :: l.
Proof. destruct l as [|y l]; intros H; simpl; [reflexivity|]. rewrite (proj2 (Nat.leb_le _ _)) by (apply H; left; reflexivity). reflexivity. Qed.
Lemma sort_sorted l : StronglySorted le_n l -> sort_n l = l.
Proof.
  induction 1 as [|x l Hs IH Hf]; [reflexivity|]. simpl. rewrite IH. apply insert_first. rewrite Forall_forall in Hf. intros y Hy. exact (Hf y Hy).
Qed.
Definition chain (i : nat) (l : list shaft) : list elem := mapi mk_shaft i (map (mkRShaft false) l).
Lemma chain_nth i l k d : (forall s, In s l -> s_n s = None) -> (k < length l)%nat ->
  nth_error (chain i l) k = Some (EShaft false (i + k) (default_tag "ShaftElement " (i + k) (s_tag (nth k l d))) (nth k l d)).
Proof.
  revert i k. induction l as [|s l IH]; intros i k Hn Hk; simpl in Hk; [lia|].
  destruct k as [|k]; unfold chain; simpl.
  - unfold mk_shaft. simpl. rewrite (Hn s (or_introl eq_refl)), Nat.add_0_r. reflexivity.
  - rewrite Nat.add_succ_r. apply (IH (S i)); [intros; apply Hn; right; auto|lia].
Qed.
Lemma chain_length i l : length (chain i l) = length l.
Proof. unfold chain. rewrite mapi_length, map_length. reflexivity. Qed.
Lemma chain_in i l e : (forall s, In s l -> s_n s = None) -> In e (chain i l) ->
  exists k d, (k < length l)%nat /\ e = EShaft false (i + k) (default_tag "ShaftElement " (i + k) (s_tag (nth k l d))) (nth k l d) /\ In (nth k l d) l.
Proof.
  intros Hn He. apply In_nth_error in He as [k Hk]. assert (k < length (chain i l))%nat by (apply nth_error_Some; congruence). rewrite chain_length in H.
  destruct l as [|s0 l']; [simpl in H; lia|]. exists k, s0. split; [exact H|]. rewrite (chain_nth i _ k s0 Hn H) in Hk. injection Hk as <-. split; [reflexivity|]. apply nth_In. exact H.
Qed.
Lemma chain_sorted i l : (forall s, In s l -> s_n s = None) -> StronglySorted le_n (chain i l).
Proof.
  revert i. induction l as [|s l IH]; intros i Hn; [constructor|]. change (chain i (s :: l)) with (mk_shaft i (mkRShaft false s) :: chain (S i) l).
  constructor; [apply IH; intros; apply Hn; right; auto|]. apply Forall_forall. intros e He.
  apply chain_in in He as (k & d & Hk & -> & _); [|intros; apply Hn; right; auto]. unfold le_n, mk_shaft. simpl. rewrite (Hn s (or_introl eq_refl)). lia.
Qed.
Lemma chain_map {B} (f : elem -> B) (g : shaft -> B) i l : (forall six n t s, f (EShaft six n t s) = g s) -> map f (chain i l) = map g l.
Proof. intros H. revert i. induction l as [|s l IH]; intros i; [reflexivity|]. simpl. unfold mk_shaft at 1. rewrite H. f_equal. apply IH. Qed.

Record chain_rotor (shafts : list shaft) (r : rotor) : Prop := {
  cr_shaft : r_shaft r = chain 0 shafts;
  cr_last : (r_n_last r + 1)%nat = length shafts;
  cr_cover : forall k, (k <= r_n_last r)%nat -> exists e, In e (r_shaft r) /\ el_n e = k;
  cr_layers : layers_match r;
  cr_plen : length (r_nodes_pos r) = S (length shafts);
  cr_pos : forall k d, (k <= length shafts)%nat -> nth k (r_nodes_pos r) 0 = sumn k (fun i => s_L (nth i shafts d));
  cr_cg : r_m r <> 0 -> r_m r * r_CG r = mass_moment 0 shafts + suml (map (fun e => dk_m e * nth (el_n e) (r_nodes_pos r) 0) (r_disk r)) }.

Lemma chain_facts shafts disks brgs pms r : (forall s, In s shafts -> s_n s = None) ->
  rotor_init (map (mkRShaft false) shafts) disks brgs pms = Ok r -> chain_rotor shafts r.
Proof.
  intros Hn H. pose proof (rotor_facts _ _ _ _ _ H) as F. destruct (rotor_init_lists _ _ _ _ _ H) as (Es & _ & _ & _).
  change (mapi mk_shaft 0 (map (mkRShaft false) shafts)) with (chain 0 shafts) in Es. rewrite sort_sorted in Es by (apply chain_sorted; auto).
  assert (Hne : shafts <> []) by (intros ->; apply (rf_nonempty _ F); rewrite Es; reflexivity).
  assert (Hlen : (0 < length shafts)%nat) by (destruct shafts; [congruence|simpl; lia]).
  destruct shafts as [|s0 shafts'] eqn:E; [congruence|]. rewrite <- E in *.
  assert (Hlast : (r_n_last r + 1)%nat = length shafts).
  { rewrite (rf_last _ F), Es. rewrite (max_list_of _ (length shafts - 1)); [lia| |].
    - apply in_map_iff. eexists. split; [|eapply nth_error_In; apply (chain_nth 0 shafts (length shafts - 1) s0); [auto|lia]]. reflexivity.
    - intros x Hx. apply in_map_iff in Hx as (e & <- & He). apply chain_in in He as (k & d & Hk & -> & _); auto. simpl. lia. }
  assert (Hc : forall k, (k <= r_n_last r)%nat -> exists e, In e (r_shaft r) /\ el_n e = k).
  { intros k Hk. rewrite Es. eexists. split; [eapply nth_error_In; apply (chain_nth 0 shafts k s0); [auto|lia]|]. reflexivity. }
  assert (Hl : layers_match r).
  { intros e e' He He'. rewrite Es in He, He'. apply chain_in in He as (k & d & Hk & -> & _); auto. apply chain_in in He' as (k' & d' & Hk' & -> & _); auto.
    simpl. intros ->. rewrite (nth_indep _ _ d') by auto. reflexivity. }
  destruct (positions r F Hc Hl) as (P1 & P2 & P3 & P4).
  assert (Hpos : forall d k, (k <= length shafts)%nat -> nth k (r_nodes_pos r) 0 = sumn k (fun i => s_L (nth i shafts d))).
  { intros d. induction k as [|k IH]; intros Hk; [exact P2|]. cbn [sumn]. rewrite <- IH by lia.
    assert (He := chain_nth 0 shafts k d Hn ltac:(lia)). apply nth_error_In in He. rewrite <- Es in He. apply P3 in He. exact He. }
  constructor; auto; [lia|]. intros Hm. rewrite (cg_value r F Hc Hl Hm). f_equal. rewrite Es.
  rewrite (mass_moment_nth shafts s0). set (g := fun e => sh_m e * (nth (el_n e) (r_nodes_pos r) 0 + sh_cg e)).
  assert (G : forall l k, (forall s, In s l -> s_n s = None) -> suml (map g (chain k l)) = sumn (length l) (fun i => s_m (nth i l s0) * (nth (k + i) (r_nodes_pos r) 0 + s_beam_cg (nth i l s0)))).
  { clear -Hn. intros l k Hnl. rewrite (suml_nth g (chain k l) (EShaft false 0 "" s0)). rewrite chain_length. apply sumn_ext. intros i Hi.
    rewrite (nth_error_nth _ _ _ (chain_nth k l i s0 Hnl Hi)). reflexivity. }
  rewrite G by auto. apply sumn_ext. intros i Hi. simpl. rewrite (Hpos s0 i) by lia. ring.
Qed.
