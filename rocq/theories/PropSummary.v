(** C91: what the summary of a rotor lists, and what happens when it is asked for again. *)
From Coq Require Import Reals String List Bool Arith Lia Lra.
From Verif Require Import PyBase MatBase MBearing MRotor MStatic MSummary SpecRotor SpecSummary LRotor LRotorInit2 LRotorEx LRotor7 LSummary.
Import ListNotations.
Open Scope string_scope.
Open Scope list_scope.
Open Scope R_scope.

Lemma init_frames da ba r : frames_init da ba r = mkFrames (elements_frame da (r_disk r)) (elements_frame ba (filter not_seal (r_brg r))).
Proof. unfold frames_init. f_equal. f_equal. apply filter_ext. intros [| |? [[] ?|?]|]; reflexivity. Qed.

(** The first call on a rotor with a disk and a bearing that is not a seal: the disks in order with the positions of their nodes, the bearings without the seals
    with a position each, and the forces of the static analysis. *)
Theorem C91_first shafts disks brgs pms r da ba strict F : rotor_init shafts disks brgs pms = Ok r -> plain da -> plain ba ->
  r_disk r <> [] -> filter not_seal (r_brg r) <> [] ->
  exists df s dt bt posb, rotor_df r = Ok df /\ fst (nth_summary strict df (Ok F) (frames_init da ba r) 0) = Ok s /\
    summary_tables s = Ok (dt, bt, map snd F) /\
    lists_elements (fun e => nth_error (r_nodes_pos r) (el_n e)) (r_disk r) dt /\ (forall e, In e (r_disk r) -> nth_error (r_nodes_pos r) (el_n e) <> None) /\
    lists_elements posb (filter not_seal (r_brg r)) bt /\ (forall e, In e (filter not_seal (r_brg r)) -> posb e <> None).
Proof.
  intros E Pd Pb Nd Nb. destruct (init_df _ _ _ _ _ E) as (df & dpos & D & H & Hd). rewrite init_frames.
  assert (C : nth_summary strict df (Ok F) (mkFrames (elements_frame da (r_disk r)) (elements_frame ba (filter not_seal (r_brg r)))) 0 = _) by (apply (call_even df da ba _ _ Pd Pb Nd Nb strict (Ok F) 0)).
  eexists df, _, _, _, (fun e => row_pos df (el_tag e)). split; [exact D|]. rewrite C. cbn [bind fst]. split; [reflexivity|]. rewrite tables_odd by assumption. split; [reflexivity|].
  assert (Ps : forall e, In e (r_disk r) -> row_pos df (el_tag e) = nth_error (r_nodes_pos r) (el_n e)) by (intros e He; eapply disk_pos; eauto).
  repeat split.
  - unfold lists_elements, rows_at. apply map_ext_in. intros e He. rewrite Ps by exact He. reflexivity.
  - intros e He. destruct (disk_positions_nth _ _ _ Hd) as (Ld & Hp). apply In_nth_error in He as (i & Hi).
    assert (Li : (i < List.length dpos)%nat) by (rewrite Ld; apply nth_error_Some; congruence). apply nth_error_Some in Li. destruct (nth_error dpos i) as [p|] eqn:Ep; [|congruence].
    rewrite (Hp e p); [discriminate|]. clear - Hi Ep. revert dpos i Hi Ep. induction (r_disk r) as [|d l IH]; intros dpos [|i] Hi Ep; destruct dpos as [|q dpos]; try discriminate; cbn in *; [left; congruence|right; eapply IH; eauto].
  - intros e He. apply filter_In in He as (He & _). exact (heights_ok_pos _ _ _ _ _ H He).
Qed.

(** For well-formed input every bearing is listed where it stands: at its node of the shaft, or where a bearing linked to its node stands. *)
Theorem C91_bearings shafts disks brgs pms last r df : well_formed shafts disks brgs pms last -> rotor_init shafts disks brgs pms = Ok r -> rotor_df r = Ok df ->
  forall da ba strict F s dt bt fs, plain da -> plain ba -> r_disk r <> [] -> filter not_seal (r_brg r) <> [] ->
  fst (nth_summary strict df (Ok F) (frames_init da ba r) 0) = Ok s -> summary_tables s = Ok (dt, bt, fs) ->
  Forall2 (fun b row => exists z, row = (CTag (el_tag b), CPos (Some z)) /\ stands_at r (el_n b) z) (filter not_seal (r_brg r)) bt.
Proof.
  intros W E D da ba strict F s dt bt fs Pd Pb Nd Nb. rewrite init_frames.
  assert (C : nth_summary strict df (Ok F) (mkFrames (elements_frame da (r_disk r)) (elements_frame ba (filter not_seal (r_brg r)))) 0 = _) by (apply (call_even df da ba _ _ Pd Pb Nd Nb strict (Ok F) 0)).
  rewrite C. cbn [bind fst]. intros H1. match type of H1 with Ok ?a = _ => assert (Es : s = a) by congruence end. subst s. rewrite tables_odd by assumption. intros H2.
  assert (bt = rows_at df (filter not_seal (r_brg r))) by congruence. subst bt. clear H1 H2 C Nb.
  assert (P : forall b, In b (filter not_seal (r_brg r)) -> exists z, row_pos df (el_tag b) = Some z /\ stands_at r (el_n b) z).
  { intros b Hb. apply filter_In in Hb as (Hb & _). exact (brg_pos _ _ _ _ _ _ _ W E D b Hb). }
  unfold rows_at. induction (filter not_seal (r_brg r)) as [|b l IH]; [constructor|]. cbn [map]. constructor.
  - destruct (P b (or_introl eq_refl)) as (z & -> & Hz). exists z. auto.
  - apply IH. intros c Hc. apply P. right. exact Hc.
Qed.

(** Asking again does not give the same: the tables of the second call cannot be shown. *)
Theorem C91_again_refuted shafts disks brgs pms r df da ba strict F : rotor_init shafts disks brgs pms = Ok r -> rotor_df r = Ok df -> plain da -> plain ba ->
  r_disk r <> [] -> filter not_seal (r_brg r) <> [] ->
  exists s, fst (nth_summary strict df (Ok F) (frames_init da ba r) 1) = Ok s /\ summary_tables s = Err KeyError.
Proof.
  intros E D Pd Pb Nd Nb. rewrite init_frames. destruct strict.
  - destruct (calls_new df da ba _ _ Pd Pb Nd Nb (Ok F)) as (_ & -> & _). eexists. split; [reflexivity|]. apply tables_even; assumption.
  - destruct (calls_old df da ba _ _ Pd Pb Nd Nb (Ok F) 0) as (_ & C). change (S (2 * 0)) with 1%nat in C. rewrite C. eexists. split; [reflexivity|]. apply tables_even; assumption.
Qed.

(** Before pandas 2.0: every call returns; the tables of the odd calls (counted from one) are those of the first, those of the even calls cannot be shown. *)
Theorem C91_calls_old shafts disks brgs pms r df da ba F s0 : rotor_init shafts disks brgs pms = Ok r -> rotor_df r = Ok df -> plain da -> plain ba ->
  r_disk r <> [] -> filter not_seal (r_brg r) <> [] -> fst (nth_summary false df (Ok F) (frames_init da ba r) 0) = Ok s0 ->
  forall k, exists s, fst (nth_summary false df (Ok F) (frames_init da ba r) k) = Ok s /\ summary_tables s = if Nat.even k then summary_tables s0 else Err KeyError.
Proof.
  intros E D Pd Pb Nd Nb. rewrite init_frames. intros H0 k.
  destruct (calls_old df da ba _ _ Pd Pb Nd Nb (Ok F) 0) as (C0 & _). change (2 * 0)%nat with 0%nat in C0. rewrite C0 in H0. cbn [bind fst] in H0. match type of H0 with Ok ?a = _ => assert (Es : s0 = a) by congruence end. subst s0. rewrite tables_odd by assumption.
  destruct (Nat.Even_or_Odd k) as [(j & ->)|(j & ->)].
  - destruct (calls_old df da ba _ _ Pd Pb Nd Nb (Ok F) j) as (-> & _). eexists. split; [reflexivity|]. rewrite Nat.even_mul. cbn [Nat.even orb]. apply tables_odd; assumption.
  - rewrite Nat.add_1_r. destruct (calls_old df da ba _ _ Pd Pb Nd Nb (Ok F) j) as (_ & ->). eexists. split; [reflexivity|]. rewrite Nat.even_succ, Nat.odd_mul. cbn [Nat.odd Nat.even negb andb]. apply tables_even; assumption.
Qed.

(** From pandas 2.0 on: the third call shows what the first showed, and from the fourth on every call raises ValueError. *)
Theorem C91_calls_new shafts disks brgs pms r df da ba F : rotor_init shafts disks brgs pms = Ok r -> rotor_df r = Ok df -> plain da -> plain ba ->
  r_disk r <> [] -> filter not_seal (r_brg r) <> [] ->
  (exists s0 s2, fst (nth_summary true df (Ok F) (frames_init da ba r) 0) = Ok s0 /\ fst (nth_summary true df (Ok F) (frames_init da ba r) 2) = Ok s2 /\ summary_tables s2 = summary_tables s0) /\
  forall k static, (3 <= k)%nat -> fst (nth_summary true df static (frames_init da ba r) k) = Err ValueError.
Proof.
  intros E D Pd Pb Nd Nb. rewrite init_frames. split.
  - destruct (calls_new df da ba _ _ Pd Pb Nd Nb (Ok F)) as (-> & _ & -> & _). eexists _, _. split; [reflexivity|]. split; [reflexivity|]. rewrite !tables_odd by assumption. reflexivity.
  - intros k static Hk. destruct (calls_new df da ba _ _ Pd Pb Nd Nb static) as (_ & _ & _ & C). replace k with (3 + (k - 3))%nat by lia. rewrite C. reflexivity.
Qed.

(** A failing static analysis reaches the caller, and it counts as a call: the tables of the next call that succeeds cannot be shown. *)
Theorem C91_static_fails shafts disks brgs pms r df da ba strict e F : rotor_init shafts disks brgs pms = Ok r -> rotor_df r = Ok df -> plain da -> plain ba ->
  r_disk r <> [] -> filter not_seal (r_brg r) <> [] ->
  fst (nth_summary strict df (Err e) (frames_init da ba r) 0) = Err e /\
  exists s, fst (rotor_summary strict df (Ok F) (snd (nth_summary strict df (Err e) (frames_init da ba r) 0))) = Ok s /\ summary_tables s = Err KeyError.
Proof.
  intros E D Pd Pb Nd Nb. rewrite init_frames.
  assert (C : nth_summary strict df (Err e) (mkFrames (elements_frame da (r_disk r)) (elements_frame ba (filter not_seal (r_brg r)))) 0 = _) by (apply (call_even df da ba _ _ Pd Pb Nd Nb strict (Err e) 0)).
  rewrite C. split; [reflexivity|]. cbn [snd]. rewrite call_odd by assumption. rewrite andb_false_r. cbn [bind fst]. eexists. split; [reflexivity|]. apply tables_even; assumption.
Qed.

(** Without disks, or without a bearing that is not a seal, every call raises KeyError... *)
Theorem C91_without shafts disks brgs pms r df da ba static : rotor_init shafts disks brgs pms = Ok r -> rotor_df r = Ok df -> plain da -> plain ba ->
  r_disk r = [] \/ filter not_seal (r_brg r) = [] ->
  fst (nth_summary false df static (frames_init da ba r) 0) = Err KeyError /\ fst (nth_summary true df static (frames_init da ba r) 0) = Err KeyError.
Proof.
  intros E D Pd Pb O. rewrite init_frames. cbn [nth_summary]. unfold rotor_summary. cbn [fr_disks fr_brgs]. destruct (r_disk r) as [|d l] eqn:Ed; [split; reflexivity|].
  destruct O as [O|O]; [discriminate|]. rewrite O.
  assert (M : forall strict, merge_pos strict df (elements_frame da (d :: l)) = Ok (odd_frame df (elements_frame da (d :: l)) (map (fun e => CTag (el_tag e)) (d :: l)) 0)).
  { intros strict. apply (merge_even df _ _ (good_elements _ _ Pd) (elements_tag da (d :: l) Pd ltac:(discriminate)) strict 0). }
  rewrite !M. split; reflexivity.
Qed.
(** ... and so does every later one without disks. *)
Theorem C91_without_disks shafts disks brgs pms r df da ba strict static k : rotor_init shafts disks brgs pms = Ok r -> rotor_df r = Ok df ->
  r_disk r = [] -> nth_summary strict df static (frames_init da ba r) k = (Err KeyError, frames_init da ba r).
Proof.
  intros E D N. rewrite init_frames, N. induction k as [|k IH]; [reflexivity|]. cbn [nth_summary]. rewrite IH. reflexivity.
Qed.

(** A rotor with two shaft elements, a disk, two bearings on the shaft and one on a support. *)
Example C91_instance : exists r df, rotor_init (exS false) (exD false) (exB false) (exP false) = Ok r /\ well_formed (exS false) (exD false) (exB false) (exP false) 1 /\
  rotor_df r = Ok df /\ r_disk r <> [] /\ List.length (filter not_seal (r_brg r)) = 3%nat /\ plain ["n"; "m"; "Id"; "Ip"].
Proof.
  destruct (ex_rotor false) as (r & E & X). destruct (init_df _ _ _ _ _ E) as (df & dpos & D & _). exists r, df. split; [exact E|]. split; [apply ex_wf|]. split; [exact D|].
  split; [rewrite (xf_disk _ _ X); discriminate|]. split; [rewrite (xf_brg _ _ X); reflexivity|].
  intros a Ha Hb. simpl in Ha, Hb. intuition congruence.
Qed.

Print Assumptions C91_first.
Print Assumptions C91_bearings.
Print Assumptions C91_calls_old.
Print Assumptions C91_calls_new.
Print Assumptions C91_static_fails.
Print Assumptions C91_without.
