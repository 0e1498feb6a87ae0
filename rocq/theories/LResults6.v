(** Mode shapes, bending moments and modal quantities: the facts behind C38, C65 and C66. *)
From Coq Require Import Reals String List Arith ZArith Bool Lia Lra Psatz Permutation.
From Coquelicot Require Import Complex.
From Verif Require Import PyBase MatBase LMat CMat MMaterial MShaft MDisk MBearing MRotor SpecRotor LAssembly LRotor LRotor2 LRotor3 LRotor4 LRotorInit LRotorInit2 LRotor6 LRotor7 LRotorEx
  MDynamics MFault MResults SpecResults LFault LResults LResults2 LResults3.
Import ListNotations.
Open Scope list_scope.
Open Scope R_scope.

(** ** normalization *)
Lemma slice_len_iff nd size st k : (0 < nd)%nat -> (k < slice_len nd size st <-> st + k * nd < size)%nat.
Proof.
  intros Hn. unfold slice_len. set (m := (size - st)%nat). assert (E : (st + k * nd < size <-> k * nd < m)%nat) by (unfold m; lia). rewrite E.
  pose proof (Nat.mul_div_le (m + nd - 1) nd ltac:(lia)). split; intros Hk.
  - nia.
  - apply (Nat.div_le_lower_bound _ _ (S k)); lia.
Qed.
(** the entries the scale is chosen from: index congruent to 0 or 1 modulo nd *)
Definition lateral_entry (nd size i : nat) : Prop := (i < size)%nat /\ (i mod nd = 0 \/ i mod nd = 1)%nat.
Lemma lateral_cases nd size i : (2 <= nd)%nat -> lateral_entry nd size i ->
  (exists k, i = k * nd /\ k < slice_len nd size 0)%nat \/ (exists k, i = 1 + k * nd /\ k < slice_len nd size 1)%nat.
Proof.
  intros Hn [Hi [E|E]]; [left|right]; exists (i / nd)%nat; pose proof (Nat.div_mod i nd ltac:(lia)) as D; rewrite E in D.
  - assert (Ei : (i = i / nd * nd)%nat) by lia. split; [exact Ei|]. apply slice_len_iff; lia.
  - assert (Ei : (i = 1 + i / nd * nd)%nat) by lia. split; [exact Ei|]. apply slice_len_iff; lia.
Qed.
Lemma scale_max nd size v : (2 <= nd)%nat -> forall i, lateral_entry nd size i -> Cmod (v i) <= Cmod (scale_of nd size v).
Proof.
  intros Hn i Hi. unfold scale_of.
  set (ix := argmax (fun k => Cmod (v (k * nd)%nat)) _). set (iy := argmax (fun k => Cmod (v (1 + k * nd)%nat)) _).
  assert (B : Cmod (v i) <= Rmax (Cmod (v (ix * nd)%nat)) (Cmod (v (1 + iy * nd)%nat))).
  { destruct (lateral_cases _ _ _ Hn Hi) as [(k & -> & Hk)|(k & -> & Hk)].
    - eapply Rle_trans; [|apply Rmax_l]. apply (proj2 (argmax_spec (fun k => Cmod (v (k * nd)%nat)) (slice_len nd size 0) ltac:(lia)) k Hk).
    - eapply Rle_trans; [|apply Rmax_r]. apply (proj2 (argmax_spec (fun k => Cmod (v (1 + k * nd)%nat)) (slice_len nd size 1) ltac:(lia)) k Hk). }
  destruct (Rlt_dec _ _) as [L|L]; [rewrite Rmax_right in B by lra|rewrite Rmax_left in B by lra]; exact B.
Qed.
Lemma scale_entry nd size v : (2 <= nd)%nat -> (2 <= size)%nat -> exists i, lateral_entry nd size i /\ scale_of nd size v = v i.
Proof.
  intros Hn Hs. unfold scale_of.
  set (ix := argmax (fun k => Cmod (v (k * nd)%nat)) _). set (iy := argmax (fun k => Cmod (v (1 + k * nd)%nat)) _).
  assert (Px : (0 < slice_len nd size 0)%nat) by (apply slice_len_iff; lia). assert (Py : (0 < slice_len nd size 1)%nat) by (apply slice_len_iff; lia).
  pose proof (proj1 (argmax_spec (fun k => Cmod (v (k * nd)%nat)) _ Px)) as Ix. pose proof (proj1 (argmax_spec (fun k => Cmod (v (1 + k * nd)%nat)) _ Py)) as Iy.
  fold ix in Ix. fold iy in Iy. apply slice_len_iff in Ix; [|lia]. apply slice_len_iff in Iy; [|lia].
  destruct (Rlt_dec _ _); eexists; (split; [|reflexivity]); split; try lia.
  - right. rewrite Nat.add_mod, Nat.mod_mul, Nat.add_0_r, Nat.mod_mod by lia. apply Nat.mod_small. lia.
  - left. apply Nat.mod_mul. lia.
Qed.
Lemma shaft_lateral r n c : rfacts r -> (n <= r_n_last r + 1)%nat -> (c < 2)%nat -> lateral_entry (r_nd r) (r_ndof r) (r_nd r * n + c).
Proof.
  intros F Hn Hc. rewrite (rf_ndof _ F). split.
  - destruct (rf_nd _ F) as [-> | ->]; nia.
  - rewrite Nat.mul_comm, Nat.add_comm, Nat.mod_add by (destruct (rf_nd _ F) as [-> | ->]; lia). rewrite Nat.mod_small by (destruct (rf_nd _ F) as [-> | ->]; lia). lia.
Qed.
Lemma shape_evec eig2 r v nz s : rotor_shape eig2 r v nz = Ok s ->
  sp_evec s = (if nz then fun i => (v i / scale_of (r_nd r) (r_ndof r) v)%C else v) /\ (nz = true -> scale_of (r_nd r) (r_ndof r) v <> RtoC 0) /\
  sp_orbits s = map (fun n => orbit_init eig2 (sp_evec s (r_nd r * n)%nat) (sp_evec s (r_nd r * n + 1)%nat)) (r_nodes r).
Proof.
  unfold rotor_shape, shape_init. destruct (nz && _)%bool eqn:E; [discriminate|]. intros [= <-]. cbn [sp_evec sp_orbits]. split; [auto|]. split; [|auto].
  intros ->. cbn [andb] in E. destruct (Req_EM_T _ 0) as [?|N]; [discriminate|]. intros Z. apply N. rewrite Z. apply Cmod_0.
Qed.
Lemma normalized_entry r v i : rfacts r -> scale_of (r_nd r) (r_ndof r) v <> RtoC 0 -> lateral_entry (r_nd r) (r_ndof r) i ->
  Cmod (v i / scale_of (r_nd r) (r_ndof r) v)%C <= 1.
Proof.
  intros F Hd Hi. rewrite Cmod_div by auto. assert (P : 0 < Cmod (scale_of (r_nd r) (r_ndof r) v)) by (apply Cmod_gt_0; auto).
  apply Rmult_le_reg_r with (Cmod (scale_of (r_nd r) (r_ndof r) v)); auto. unfold Rdiv. rewrite Rmult_assoc, Rinv_l, Rmult_1_r, Rmult_1_l by lra.
  apply scale_max; auto. destruct (rf_nd _ F) as [-> | ->]; lia.
Qed.
Lemma scale_zero_iff r v : rfacts r -> (scale_of (r_nd r) (r_ndof r) v = RtoC 0 <-> forall i, lateral_entry (r_nd r) (r_ndof r) i -> v i = RtoC 0).
Proof.
  intros F. assert (Hn : (2 <= r_nd r)%nat) by (destruct (rf_nd _ F) as [-> | ->]; lia). assert (Hs : (2 <= r_ndof r)%nat) by (rewrite (rf_ndof _ F); nia). split.
  - intros Z i Hi. apply Cmod_eq_0. pose proof (scale_max _ _ v Hn i Hi) as B. rewrite Z, Cmod_0 in B. pose proof (Cmod_ge_0 (v i)). lra.
  - intros H. destruct (scale_entry _ _ v Hn Hs) as (i & Hi & ->). auto.
Qed.

(** ** ends of an element *)
Lemma zeta_ends : zeta 0 = 0 /\ zeta 4 = 1.
Proof. unfold zeta. simpl. split; lra. Qed.
Lemma line_x_left nd Le v n : line_x nd Le v n 0 = v (nd * n)%nat.
Proof.
  unfold line_x. rewrite (proj1 zeta_ends). replace (N1 0) with 1 by (unfold N1; ring). replace (N3 0) with 0 by (unfold N3; ring).
  replace (Le * N2 0)%R with 0 by (unfold N2; ring). replace (Le * N4 0)%R with 0 by (unfold N4; ring). ring.
Qed.
Lemma line_y_left nd Le v n : line_y nd Le v n 0 = v (nd * n + 1)%nat.
Proof.
  unfold line_y. rewrite (proj1 zeta_ends). replace (N1 0) with 1 by (unfold N1; ring). replace (N3 0) with 0 by (unfold N3; ring).
  replace (- Le * N2 0)%R with 0 by (unfold N2; ring). replace (- Le * N4 0)%R with 0 by (unfold N4; ring). ring.
Qed.
Lemma line_x_right nd Le v n : line_x nd Le v n 4 = v (nd * S n)%nat.
Proof.
  unfold line_x. rewrite (proj2 zeta_ends). replace (N1 1) with 0 by (unfold N1; ring). replace (N3 1) with 1 by (unfold N3; ring).
  replace (Le * N2 1)%R with 0 by (unfold N2; ring). replace (Le * N4 1)%R with 0 by (unfold N4; ring). rewrite Nat.mul_succ_r. ring.
Qed.
Lemma line_y_right nd Le v n : line_y nd Le v n 4 = v (nd * S n + 1)%nat.
Proof.
  unfold line_y. rewrite (proj2 zeta_ends). replace (N1 1) with 0 by (unfold N1; ring). replace (N3 1) with 1 by (unfold N3; ring).
  replace (- Le * N2 1)%R with 0 by (unfold N2; ring). replace (- Le * N4 1)%R with 0 by (unfold N4; ring). rewrite Nat.mul_succ_r. ring.
Qed.

(** ** bending moments *)
Lemma resp_real_re resp i : resp_real resp i = Re (resp i).
Proof. unfold resp_real. rewrite cos_neg. apply polar_re. Qed.
(** curvature times E I of the cubic with end values u0, u1 and end slopes s0, s1 *)
Definition curv0 (L u0 s0 u1 s1 : R) : R := (- 6 * u0 - 4 * L * s0 + 6 * u1 - 2 * L * s1) / L ^ 2.
Definition curvL (L u0 s0 u1 s1 : R) : R := (6 * u0 + 2 * L * s0 - 6 * u1 + 4 * L * s1) / L ^ 2.
Lemma curv_cubic L a b c d : L <> 0 -> let u0 := cubic a b c d 0 in let s0 := cubic' b c d 0 in let u1 := cubic a b c d L in let s1 := cubic' b c d L in
  curv0 L u0 s0 u1 s1 = cubic'' c d 0 /\ curvL L u0 s0 u1 s1 = cubic'' c d L.
Proof. intros H. unfold curv0, curvL, cubic, cubic', cubic''. split; field; auto. Qed.
(** what one element adds at node j; [u] are the displacements, [s] the slopes at the nodes *)
Definition el_moment (u s : nat -> R) (e : elem) (j : nat) : R :=
  match e with
  | EShaft _ n _ sh =>
      let EI := mE (s_material sh) * s_Ie sh in
      (if Nat.eqb j n then - EI * curv0 (s_L sh) (u n) (s n) (u (S n)) (s (S n)) else 0) +
      (if Nat.eqb j (S n) then - EI * curvL (s_L sh) (u n) (s n) (u (S n)) (s (S n)) else 0)
  | _ => 0
  end.
Lemma moment_step_x nd q m e j : (forall six n t s, e = EShaft six n t s -> s_L s <> 0) ->
  moment_step nd 0 1 1 q m e j = m j + el_moment (fun n => q (nd * n)%nat) (fun n => q (nd * n + nd / 2 + 1)%nat) e j.
Proof.
  intros HL. destruct e as [six n t s| | |]; cbn [moment_step el_moment]; try ring. specialize (HL _ _ _ _ eq_refl).
  unfold vadd_at, curv0, curvL. rewrite !Nat.add_0_r. replace (n + 1)%nat with (S n) by lia.
  destruct (Nat.eqb_spec j n) as [E1|N1]; destruct (Nat.eqb_spec j (S n)) as [E2|N2]; try lia; try ring; field; auto.
Qed.
Lemma moment_step_y nd q m e j : (forall six n t s, e = EShaft six n t s -> s_L s <> 0) ->
  moment_step nd 1 0 (-1) q m e j = m j + el_moment (fun n => q (nd * n + 1)%nat) (fun n => - q (nd * n + nd / 2)%nat) e j.
Proof.
  intros HL. destruct e as [six n t s| | |]; cbn [moment_step el_moment]; try ring. specialize (HL _ _ _ _ eq_refl).
  unfold vadd_at, curv0, curvL. rewrite !Nat.add_0_r. replace (n + 1)%nat with (S n) by lia.
  destruct (Nat.eqb_spec j n) as [E1|N1]; destruct (Nat.eqb_spec j (S n)) as [E2|N2]; try lia; try ring; field; auto.
Qed.
Lemma moment_fold step (f : elem -> nat -> R) l m j : (forall m e j, In e l -> step m e j = m j + f e j) ->
  fold_left step l m j = m j + suml (map (fun e => f e j) l).
Proof.
  revert m. induction l as [|e l IH]; intros m Hs; simpl; [ring|]. rewrite IH by (intros; apply Hs; right; auto). rewrite Hs by (left; auto). ring.
Qed.
Lemma bending_sum r resp : (forall six n t s, In (EShaft six n t s) (r_shaft r) -> s_L s <> 0) ->
  forall j, let nd := r_nd r in
  fst (bending_moment r resp) j = suml (map (fun e => el_moment (fun n => Re (resp (nd * n)%nat)) (fun n => Re (resp (nd * n + nd / 2 + 1)%nat)) e j) (r_shaft r)) /\
  snd (bending_moment r resp) j = suml (map (fun e => el_moment (fun n => Re (resp (nd * n + 1)%nat)) (fun n => - Re (resp (nd * n + nd / 2)%nat)) e j) (r_shaft r)).
Proof.
  intros HL j nd. unfold bending_moment. cbn [fst snd]. split.
  - rewrite (moment_fold _ (el_moment (fun n => resp_real resp (nd * n)%nat) (fun n => resp_real resp (nd * n + nd / 2 + 1)%nat))).
    + rewrite Rplus_0_l. f_equal. apply map_ext. intros e. destruct e; simpl; auto. rewrite !resp_real_re. auto.
    + intros m e k He. apply moment_step_x. intros; subst. eapply HL; eauto.
  - rewrite (moment_fold _ (el_moment (fun n => resp_real resp (nd * n + 1)%nat) (fun n => - resp_real resp (nd * n + nd / 2)%nat))).
    + rewrite Rplus_0_l. f_equal. apply map_ext. intros e. destruct e; simpl; auto. rewrite !resp_real_re. auto.
    + intros m e k He. apply moment_step_y. intros; subst. eapply HL; eauto.
Qed.
