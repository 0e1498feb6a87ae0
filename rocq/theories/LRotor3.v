(** Energies of an assembled rotor. *)
From Coq Require Import Reals String List Arith Bool Lia Lra Permutation Sorted Psatz.
From Coquelicot Require Import Coquelicot.
From Verif Require Import PyBase MatBase SpecMat LMat SpecBeam MMaterial MShaft SpecShaft LShaft LShaftEnergy LShaftProps LShaft6 LShaftEx
  MDisk LDisk MBearing LBearing LBearing2 MRotor SpecRotor LAssembly LRotor LRotor2 LRotorPos.
Import ListNotations.
Open Scope list_scope.
Open Scope R_scope.

(** ** coordinates of an element *)
Lemma gather_shaft nd last six n t s x a : (n <= last)%nat -> (a < 2 * nd)%nat ->
  gather (acts_on nd last (EShaft six n t s)) x a = x (nd * n + a)%nat.
Proof.
  intros Hn Ha. unfold gather, acts_on. rewrite (start_shaft nd last n), (start_shaft nd last (S n)) by lia.
  replace (nd * S n)%nat with (nd * n + nd)%nat by lia. rewrite <- seq_app, seq_nth by lia. reflexivity.
Qed.
Lemma gather_disk nd last six t d x a : (d_n d <= last + 1)%nat -> (a < nd)%nat ->
  gather (acts_on nd last (EDisk six t d)) x a = x (nd * d_n d + a)%nat.
Proof. intros Hn Ha. unfold gather, acts_on. rewrite (start_shaft nd last (d_n d)) by lia. rewrite seq_nth by lia. reflexivity. Qed.
Lemma gather_pm nd last six t p x a : (a < nd / 2)%nat ->
  gather (acts_on nd last (EPm six t p)) x a = x (node_start nd last (p_n p) + a)%nat.
Proof. intros Ha. unfold gather, acts_on. rewrite seq_nth by lia. reflexivity. Qed.
Lemma gather_brg nd last t b x a : (a < nd / 2)%nat ->
  gather (acts_on nd last (EBrg t b)) x a = x (node_start nd last (b_n (brg_base b)) + a)%nat.
Proof. intros Ha. unfold gather, acts_on. rewrite app_nth1 by (rewrite seq_length; lia). rewrite seq_nth by lia. reflexivity. Qed.
Lemma gather_brg2 nd last t b x a m : b_n_link (brg_base b) = Some m -> (a < nd / 2)%nat ->
  gather (acts_on nd last (EBrg t b)) x (nd / 2 + a)%nat = x (node_start nd last m + a)%nat.
Proof.
  intros Hm Ha. unfold gather, acts_on. rewrite Hm. rewrite app_nth2 by (rewrite seq_length; lia).
  rewrite seq_length. replace (nd / 2 + a - nd / 2)%nat with a by lia. rewrite seq_nth by lia. reflexivity.
Qed.

Lemma gather_nonzero l k x y : (forall a, (a < k)%nat -> gather l x a = y a) -> forall A, bform k A (gather l x) (gather l x) = bform k A y y.
Proof. intros H A. unfold bform. apply sumn_ext. intros i Hi. rewrite (H i Hi). f_equal. apply sumn_ext. intros j Hj. rewrite (H j Hj). reflexivity. Qed.

(** ** positive definiteness of the mass matrix *)
Lemma el_M_psd spl w e : good_inertia (el_M spl w) e -> pos_semidef (el_size (el_M spl w) e) (el_mat (el_M spl w) e).
Proof.
  destruct e as [[] n t s|[] t d|t b|[] t p]; simpl; auto; unfold el_size, el_mat; simpl.
  - intros (a & Hi & Hg) x. destruct (classic_nonzero 12 x) as [Hx|Hx].
    + apply Rlt_le. eapply shaft6_M_pd; eauto.
    + apply Req_le. symmetry. unfold bform. apply sumn_0. intros i Hi'. rewrite (Hx i Hi'). ring.
  - intros (a & Hi & Hg) x. destruct (classic_nonzero 8 x) as [Hx|Hx].
    + apply Rlt_le. eapply shaft_M_pd; eauto.
    + apply Req_le. symmetry. unfold bform. apply sumn_0. intros i Hi'. rewrite (Hx i Hi'). ring.
  - intros (? & ? & ?). apply disk6_M_psd; auto.
  - intros (? & ? & ?). apply disk_M_psd; auto.
  - intros (? & ? & H) x. specialize (H eq_refl). rewrite pmass6_M_form. nra.
  - intros (? & ? & _) x. rewrite pmass_M_form. nra.
Qed.

Lemma rotor_M_pd spl freq r A : rfacts r -> regular r ->
  (forall e, In e (r_elements r) -> good_inertia (el_M spl (default 0 freq)) e) ->
  rotor_M spl r freq = Ok A -> pos_def (r_ndof r) A.
Proof.
  intros F G Hg HA x (i & Hi & Hx). unfold rotor_M in HA. set (w := default 0 freq) in *.
  rewrite (assembled_form spl w _ _ _ _ x x F (reg_pm_dof _ G) (is_M spl w) (incl_refl _) HA).
  pose proof (rf_nd _ F) as Hnd. rewrite (rf_ndof _ F), <- node_start_total in Hi by auto.
  destruct (node_cover _ _ _ _ Hnd Hi) as (n & v & Hn & Hv & E).
  assert (HH : forall y, In y (r_elements r) ->
    0 <= bform (el_size (el_M spl w) y) (el_mat (el_M spl w) y) (gather (acts_on (r_nd r) (r_n_last r) y) x) (gather (acts_on (r_nd r) (r_n_last r) y) x)).
  { intros y Hy. apply el_M_psd. auto. }
  destruct (Nat.le_gt_cases n (r_n_last r + 1)) as [Hs|Hs].
  - (* a shaft node *)
    assert (exists e k, In e (r_shaft r) /\ (k = n \/ S k = n) /\ el_n e = k) as (e & k & He & Hk & En).
    { destruct (Nat.eq_dec n (r_n_last r + 1)) as [->|Hne].
      - destruct (reg_shaft _ G (r_n_last r)) as (e & He & En); [lia|]. exists e, (r_n_last r). repeat split; auto; lia.
      - destruct (reg_shaft _ G n) as (e & He & En); [lia|]. exists e, n. auto. }
    assert (Hin : In e (r_elements r)) by (unfold r_elements; rewrite in_app_iff; auto).
    apply (suml_pos _ _ e Hin); [|exact HH].
    destruct (rf_shaft _ F _ He) as (six & n' & t & s & ->). simpl in En. subst n'.
    pose proof (rf_shaft_n _ _ _ _ _ F Hin) as Hkl.
    rewrite (dofs_shaft _ _ _ Hs) in Hv. rewrite (start_shaft _ _ _ Hs) in E.
    pose proof (rf_fam _ F _ Hin) as Hf. simpl in Hf. unfold fam in Hf.
    destruct (Hg _ Hin) as (a & Hi' & Hga).
    assert (Hnz : nonzero (2 * r_nd r) (gather (acts_on (r_nd r) (r_n_last r) (EShaft six k t s)) x)).
    { exists (i - r_nd r * k)%nat. destruct Hk as [-> | <-].
      - split; [lia|]. rewrite gather_shaft by lia. replace (r_nd r * n + (i - r_nd r * n))%nat with i by lia. exact Hx.
      - rewrite Nat.mul_succ_r in E. split; [lia|]. rewrite gather_shaft by lia. replace (r_nd r * k + (i - r_nd r * k))%nat with i by lia. exact Hx. }
    rewrite Hf in Hnz at 1. unfold el_size, el_mat.
    destruct six; [apply (shaft6_M_pd _ _ Hi' Hga _ Hnz)|apply (shaft_M_pd _ _ Hi' Hga _ Hnz)].
  - (* a support node *)
    assert (Hpn : In n (map el_n (r_pm r))).
    { eapply Permutation_in; [apply Permutation_sym, (reg_pm _ G)|]. apply in_seq. lia. }
    apply in_map_iff in Hpn as (e & En & He).
    assert (Hin : In e (r_elements r)) by (unfold r_elements; rewrite !in_app_iff; auto).
    apply (suml_pos _ _ e Hin); [|exact HH].
    destruct (rf_pm _ F _ He) as (six & t & p & ->). simpl in En. subst n.
    unfold node_dofs in Hv. destruct (Nat.leb_spec (p_n p) (r_n_last r + 1)); [lia|].
    pose proof (reg_pm_dof _ G _ _ _ He) as Hf. destruct (Hg _ Hin) as (P1 & P2 & P3).
    set (y := gather _ x). assert (Hy : y v <> 0).
    { unfold y. rewrite gather_pm by auto. rewrite E. exact Hx. }
    assert (Hvs : (v < if six then 3 else 2)%nat) by (rewrite Hf in Hv; destruct six; exact Hv).
    unfold el_size, el_mat. destruct six; simpl.
    + specialize (P3 eq_refl). rewrite pmass6_M_form.
      assert (Q : forall c k, 0 < c -> 0 <= c * (y k * y k)) by (intros; nra).
      assert (P : forall c, 0 < c -> 0 < c * (y v * y v)) by (intros; apply Rmult_lt_0_compat; nra).
      pose proof (P _ P1). pose proof (P _ P2). pose proof (P _ P3).
      pose proof (Q _ 0%nat P1). pose proof (Q _ 1%nat P2). pose proof (Q _ 2%nat P3).
      do 3 (destruct v as [|v]; [lra|]). lia.
    + rewrite pmass_M_form.
      assert (Q : forall c k, 0 < c -> 0 <= c * (y k * y k)) by (intros; nra).
      assert (P : forall c, 0 < c -> 0 < c * (y v * y v)) by (intros; apply Rmult_lt_0_compat; nra).
      pose proof (P _ P1). pose proof (P _ P2).
      pose proof (Q _ 0%nat P1). pose proof (Q _ 1%nat P2).
      do 2 (destruct v as [|v]; [lra|]). lia.
Qed.
