(** A rotor on two bearings with a seal between them, for C74 and C75. *)
From Coq Require Import Reals String List Arith ZArith Bool Lia Lra Permutation Sorted.
From Coquelicot Require Import Complex.
From Verif Require Import PyBase MatBase SpecMat LMat CMat LCMat MMaterial MShaft SpecShaft LShaftEx MDisk MBearing MRotor SpecRotor LAssembly LRotor LRotor2 LRotor5 LRotor6 LRotorInit LRotorInit2 LRotorEx MDynamics SpecDynamics LDynEx PropDynamics MResults SpecResults LResults LResults4 MModal SpecModal LModal MSave SpecSave LSave3 LSave4 LResponse LStoch LSave LSave2 LShare PropSave MUcs SpecUcs LUcs.
Import ListNotations.
Open Scope list_scope.
Open Scope R_scope.

(** ** rotors on the shaft of PropSave *)
Definition on_shaft (l : list rbrg) : Prop := (forall b, In b l -> exists sl s, b = RB4 sl s /\ (b_n s <= 2)%nat /\ b_n_link s = None) /\ NoDup (map brg_n l).
Lemma on_shaft_wf l ts : on_shaft l -> map (fun b => b_tag (brg_base b)) l = map Some ts -> NoDup ("s0" :: "s1" :: "d0" :: ts)%string ->
  well_formed (map to_rshaft SH) (map to_rdisk DK) l (map to_rpm []) 1.
Proof.
  intros (H & N) T U. constructor.
  - exists ("s0" :: "s1" :: "d0" :: ts)%string. split; [|exact U]. unfold given_tags. cbn [map SH DK to_rshaft to_rdisk app]. rewrite app_nil_r, T. reflexivity.
  - exists false. repeat split; unfold SH, DK; intros x Hx; [ins; reflexivity|ins; reflexivity|]. destruct (H x Hx) as (sl & s & -> & _). reflexivity.
  - unfold SH. intros s Hs; ins; [exists 0%nat|exists 1%nat]; split; try reflexivity; lia.
  - unfold SH. intros [|[|k]] Hk; [exists (to_rshaft (osh 0 "s0"))|exists (to_rshaft (osh 1 "s1"))|lia]; split; simpl; auto.
  - unfold SH. intros s s' Hs Hs' _; ins; reflexivity.
  - unfold SH. intros s Hs; ins; cbn; lra.
  - unfold DK. intros s Hs; ins; simpl; lia.
  - exact N.
  - intros b Hb. left. destruct (H b Hb) as (sl & s & -> & B & _). exact B.
  - intros b m Hb. destruct (H b Hb) as (sl & s & -> & _ & L). destruct sl; unfold brg_link; cbn [brg_base]; rewrite L; discriminate.
  - intros p [].
Qed.
(** bearings without a tag get one *)
Definition tagged (i : nat) (b : rbrg) : rbrg :=
  match b with RB4 sl s => RB4 sl (bearing_with s (default_tag (if sl then "Seal " else "Bearing ")%string i (b_tag s))) | _ => b end.
Lemma mk_tagged i l : (forall b, In b l -> exists sl s, b = RB4 sl s) -> mapi mk_brg i (mapi tagged i l) = map Fn (mapi mk_brg i l).
Proof.
  revert i. induction l as [|b l IH]; intros i H; [reflexivity|]. cbn [mapi map]. rewrite IH by (intros; apply H; right; auto). f_equal.
  destruct (H b (or_introl eq_refl)) as (sl & s & ->). destruct sl; cbn [tagged mk_brg brg_base Fn b_tag bearing_with]; unfold default_tag at 1; reflexivity.
Qed.
Lemma plain_init l ts : on_shaft (map to_rbrg l) -> map (fun b => b_tag (brg_base b)) (mapi tagged 0 (map to_rbrg l)) = map Some ts -> NoDup ("s0" :: "s1" :: "d0" :: ts)%string ->
  forall mn mx rt tag, exists u, robj_init SH DK l [] mn mx rt tag = Ok u /\ r_n_last (ro_val u) = 1%nat /\ r_nd (ro_val u) = 4%nat /\ regular (ro_val u) /\ links_ok (ro_val u) /\
    r_pm (ro_val u) = [] /\ r_brg (ro_val u) = sort_n (mapi mk_brg 0 (map to_rbrg l)) /\
    r_shaft (ro_val u) = [EShaft false 0 "s0" (shaft0 0 "s0"); EShaft false 1 "s1" (shaft0 1 "s1")] /\ r_disk (ro_val u) = [EDisk false "d0" (od_d (odk 1 "d0"))].
Proof.
  intros (H & N) T U mn mx rt tag. set (l' := mapi tagged 0 (map to_rbrg l)) in *.
  assert (H' : on_shaft l').
  { split.
    - intros b Hb. unfold l' in Hb. apply mapi_in in Hb as (i & y & Hy & ->). destruct (H y Hy) as (sl & s & -> & B & L). exists sl. eexists. split; [reflexivity|]. split; [exact B|exact L].
    - unfold l'. rewrite mapi_comp. rewrite (mapi_same _ brg_n); [exact N|]. intros i x Hx. destruct (H x Hx) as (sl & s & -> & _). reflexivity. }
  destruct (init_ok _ _ _ _ _ (on_shaft_wf _ _ H' T U)) as (v & Hv & El & _).
  assert (E : rotor_init (map to_rshaft SH) (map to_rdisk DK) l' (map to_rpm []) = res_map (f_rotor Fn) (rotor_init (map to_rshaft SH) (map to_rdisk DK) (map to_rbrg l) (map to_rpm []))).
  { apply (init_f Fn Fn_keeps); try reflexivity. unfold l'. rewrite mk_tagged by (intros b Hb; destruct (H b Hb) as (sl & s & -> & _); eauto). apply (sort_f Fn Fn_keeps). }
  rewrite Hv in E. destruct (rotor_init (map to_rshaft SH) (map to_rdisk DK) (map to_rbrg l) (map to_rpm [])) as [u|] eqn:Hu; [|discriminate]. cbn [res_map] in E. injection E as Ev.
  eexists. split; [unfold robj_init; rewrite Hu; reflexivity|]. cbn [ro_val].
  pose proof (rotor_facts _ _ _ _ _ Hu) as F. destruct (rotor_init_lists _ _ _ _ _ Hu) as (Es & Ed & Eb & Ep).
  assert (Es' : r_shaft u = [EShaft false 0 "s0" (shaft0 0 "s0"); EShaft false 1 "s1" (shaft0 1 "s1")]) by (rewrite Es; reflexivity).
  assert (Hl : r_n_last u = 1%nat) by (rewrite Ev in El; exact El).
  split; [exact Hl|]. split; [eapply (el_fam_nd u false); [exact F|rewrite Es'; left; reflexivity]|].
  assert (Ep' : r_pm u = []) by (rewrite Ep; reflexivity).
  split; [constructor|]. 
  - rewrite Hl, Es'. intros [|[|k]] Hk; [eexists; split; [left; reflexivity|reflexivity]|eexists; split; [right; left; reflexivity|reflexivity]|lia].
  - rewrite Ep'. constructor.
  - intros six t p Hp. rewrite Ep' in Hp. destruct Hp.
  - split; [|split; [exact Ep'|]; split; [exact Eb|]; split; [exact Es'|rewrite Ed; reflexivity]].
    intros e m He Hm. exfalso. rewrite Eb in He. apply (Permutation_in _ (sort_n_perm _)) in He. apply mapi_in in He as (i & y & Hy & ->). destruct (H y Hy) as (sl & s & -> & _ & L). cbn in Hm. congruence.
Qed.

(** ** its modal analysis, with a solver that always answers i and the same vector *)
Definition pairC : C * cvec := ((0, 1), fun _ => RtoC 1).
Definition eigsC : eigs_t := fun _ _ _ _ => Converged (repeat pairC 24).
Lemma filter_repeat {A} (f : A -> bool) x n : f x = true -> filter f (repeat x n) = repeat x n.
Proof. intros H. induction n; cbn [repeat filter]; [reflexivity|]. rewrite H, IHn. reflexivity. Qed.
Lemma CmodI : Cmod (0, 1) = 1.
Proof. unfold Cmod. cbn [fst snd]. replace (0 ^ 2 + 1 ^ 2) with 1 by ring. apply sqrt_1. Qed.
Lemma scale_ones nd size : scale_of nd size (fun _ => RtoC 1) = RtoC 1.
Proof. unfold scale_of. destruct (Rlt_dec _ _); reflexivity. Qed.
Definition good_brg spl (e : elem) : Prop := forall w, is_ok (el_M spl w e) /\ is_ok (el_K spl w e) /\ is_ok (el_C spl w e) /\ good_inertia (el_M spl w) e.
Lemma plain_good spl t sl s n k a b : plain_brg t sl s n k a b -> good_brg spl (EBrg t (RB4 sl s)).
Proof.
  intros P w. rewrite (plain_M _ _ _ _ _ _ _ P), (plain_K _ _ _ _ _ _ _ P), (plain_C _ _ _ _ _ _ _ P). repeat (split; [eexists; reflexivity|]).
  cbn [good_inertia]. unfold el_size, el_mat. rewrite (plain_M _ _ _ _ _ _ _ P). intros x. cbn [fst snd]. unfold bform, sumn, lmat. cbn. lra.
Qed.
Lemma brg0_good spl t sl n tg : good_brg spl (EBrg t (RB4 sl (brg0 n None tg))).
Proof.
  intros w. repeat (split; [eexists; reflexivity|]). cbn [good_inertia]. intros x.
  match goal with |- 0 <= bform ?n ?A x x => change (0 <= bform 2 (lmat [[0; 0]; [0; 0]]) x x) end. unfold bform, sumn, lmat. cbn. lra.
Qed.
Lemma shaft0_good n t six m : good_shaft (EShaft six m t (shaft0 n t)).
Proof.
  exists (sargs0 n t). split; [apply shaft0_ok|]. split; [unfold good_geometry, right_id, right_od; simpl; lra|]. exists mat0. split; [reflexivity|]. unfold good_material; simpl; lra.
Qed.
Lemma modal_C l u mn mx rt tag eig2 spl w nm : (2 <= nm)%nat -> (nm <= 48)%nat -> robj_init SH DK l [] mn mx rt tag = Ok u -> regular (ro_val u) -> links_ok (ro_val u) -> r_pm (ro_val u) = [] ->
  r_shaft (ro_val u) = [EShaft false 0 "s0" (shaft0 0 "s0"); EShaft false 1 "s1" (shaft0 1 "s1")] -> r_disk (ro_val u) = [EDisk false "d0" (od_d (odk 1 "d0"))] ->
  (forall e, In e (r_brg (ro_val u)) -> good_brg spl e) ->
  exists m st, run_modal la0 eigsC eig2 spl (ro_val u) w nm true false None = (Ok m, st) /\ mo_wn m = repeat 1 (nm / 2) /\ mo_log_dec m = repeat 0 (nm / 2) /\
    (eig2_ok eig2 -> whirl_direction m = repeat Forward (nm / 2)).
Proof.
  intros Hnm Hnm' Hu Hr Hk Hp Hs Hd Hb. unfold robj_init in Hu. destruct (rotor_init _ _ _ _) as [r|] eqn:Hi; [|discriminate]. injection Hu as <-. cbn [ro_val] in *.
  destruct (C24_state_matrix_exists la0 spl _ _ _ _ r w None la0_ok Hi Hr Hk) as [A HA].
  { intros e He. destruct (Hb e He w) as (H1 & H2 & H3 & _). destruct (Hb e He 0) as (_ & H4 & _). auto. }
  { intros e He. unfold r_elements in He. rewrite Hs, Hd, Hp, app_nil_r in He. cbn [app] in He. destruct He as [<-|[<-|[<-|He]]]; [apply shaft0_good|apply shaft0_good|cbn; lra|]. apply (Hb e He). }
  assert (Ev : exists srt, sort_pairs (repeat pairC 24) = Ok srt) by (apply sort_pairs_even; rewrite repeat_length; reflexivity). destruct Ev as (srt & Hsrt).
  assert (Es : srt = repeat pairC 24).
  { destruct (sort_pairs_spec _ _ Hsrt) as (_ & Ps & _). apply Permutation_sym in Ps. assert (L : List.length srt = 24%nat) by (rewrite <- (Permutation_length Ps), repeat_length; reflexivity).
    assert (All : forall x, In x srt -> x = pairC) by (intros x Hx; apply (repeat_spec 24), (Permutation_in _ (Permutation_sym Ps)), Hx). rewrite <- L. clear -All. induction srt as [|x srt IH]; [reflexivity|].
    cbn [List.length repeat]. rewrite (All x) by (left; reflexivity). f_equal. apply IH. intros; apply All; right; auto. }
  subst srt.
  assert (E : eigen_full la0 eigsC spl r w nm None true false None = (Ok (repeat pairC 24), Some (next_v0 (repeat pairC 24)))).
  { unfold eigen_full. rewrite HA. unfold eigsC. rewrite filter_repeat, Hsrt; [reflexivity|]. apply not_rigid_spec. unfold pairC. cbn [fst]. rewrite CmodI. lra. }
  assert (Sh : exists sh, rotor_shape eig2 r (fun _ => RtoC 1) true = Ok sh /\ (eig2_ok eig2 -> mode_whirl sh = Forward)).
  { unfold rotor_shape, shape_init. cbv zeta. rewrite scale_ones, Cmod_R, Rabs_R1. destruct (Req_EM_T 1 0); [lra|]. cbn [andb]. eexists. split; [reflexivity|]. intros E2. unfold mode_whirl. cbn [sp_orbits]. apply modal_forward.
    intros x Hx. rewrite map_map in Hx. apply in_map_iff in Hx as (n0 & <- & _). rewrite (proj1 (kappa_zero eig2 E2 _ _ ltac:(unfold area, Cdiv, Cmult, Cinv, RtoC; cbn [fst snd]; field))). lra. }
  destruct Sh as (sh & Hsh & Wsh).
  assert (F24 : firstn (nm / 2) (repeat pairC 24) = repeat pairC (nm / 2)).
  { assert (nm / 2 <= 24)%nat by (apply Nat.div_le_upper_bound; lia). clear -H. revert H. generalize (nm / 2)%nat 24%nat. induction n as [|n IH]; intros [|q] H; try lia; try reflexivity. cbn [firstn repeat]. f_equal. apply IH. lia. }
  destruct (run_modal_numbers _ _ eig2 _ _ _ _ _ _ _ _ _ E) as (m & Hm).
  { rewrite F24. intros p Hp0. apply repeat_spec in Hp0. subst p. exists sh. exact Hsh. }
  exists m, (Some (next_v0 (repeat pairC 24))). split; [exact Hm|]. apply run_modal_ok in Hm as (H1 & _ & (W1 & _ & _ & W4) & H3). assert (Em : mo_pairs m = repeat pairC 24) by congruence. rewrite Em in W1, W4, H3.
  assert (Fm : firstn (nm / 2) (map fst (repeat pairC 24)) = repeat (0, 1) (nm / 2)).
  { rewrite firstn_map, F24. generalize (nm / 2)%nat. induction n as [|n IH]; [reflexivity|]. cbn [repeat map]. rewrite IH. reflexivity. }
  rewrite Fm in W1, W4. split.
  { rewrite W1. clear. generalize (nm / 2)%nat. induction n as [|n IH]; [reflexivity|]. cbn [repeat map]. rewrite IH. f_equal. apply CmodI. }
  split.
  { rewrite W4. clear. generalize (nm / 2)%nat. induction n as [|n IH]; [reflexivity|]. cbn [repeat map]. rewrite IH. f_equal. cbn. unfold Rdiv. lra. }
  intros E2. rewrite F24 in H3. unfold whirl_direction. clear -H3 Hsh Wsh E2. revert H3. generalize (mo_shapes m). generalize (nm / 2)%nat. induction n as [|n IH]; intros ss H3; cbn [repeat mapM] in *; [injection H3 as <-; reflexivity|].
  cbn [snd pairC] in H3. apply bind_ok in H3 as (x & Hx & H3). apply bind_ok in H3 as (y & Hy & H3). injection H3 as <-. cbn [map]. rewrite (IH _ Hy). f_equal. assert (x = sh) by congruence. subst x. exact (Wsh E2).
Qed.
