(** C70-C73: modal analyses with the iterative solver, critical speeds, Campbell diagrams and clustered frequencies. *)
From Coq Require Import Reals List Arith ZArith Bool Lia Lra Permutation Sorted.
From Coquelicot Require Import Complex.
From Verif Require Import PyBase MatBase SpecMat LMat CMat LCMat MRotor MDynamics SpecDynamics MResults MModal SpecModal LRotor6 LTransfer LModes LResponse LStoch LModal LDynEx LDynEx2 LModalEx.
Import ListNotations.
Open Scope list_scope.
Open Scope R_scope.

(** C70: what run_modal reports are eigenpairs of the state matrix at that speed, in the documented order, one number of each kind and one
    shape for each of the first num_modes // 2 of them; the eigenvalues are the ones the chosen solver stands for. *)
Theorem C70_modes : forall la eigs eig2 spl r speed nm sparse sync st m st', linalg_ok la -> eigs_ok la eigs ->
  run_modal la eigs eig2 spl r speed nm sparse sync st = (Ok m, st') ->
  let N := (2 * r_ndof r)%nat in
  exists A, rotor_A la spl r speed None sync = Ok A /\ mo_speed m = speed /\
  (forall z v, In (z, v) (mo_pairs m) -> forall i, (i < N)%nat -> cmulv N (of_mat A) v i = (z * v i)%C) /\
  from_spectrum la eigs N (2 * nm) A sparse sync st (map fst (mo_pairs m)) /\ split_order (map fst (mo_pairs m)) /\
  numbers_of (firstn (nm / 2) (map fst (mo_pairs m))) m /\
  Forall2 (fun p s => rotor_shape eig2 r (snd p) true = Ok s) (firstn (nm / 2) (mo_pairs m)) (mo_shapes m).
Proof.
  intros la eigs eig2 spl r speed nm sparse sync st m st' L E H N. apply run_modal_ok in H as (H1 & H2 & H3 & H4).
  destruct (eigen_full_spec _ _ _ _ _ _ _ _ _ _ _ L E H1) as (A & HA & Hev & Hf & Ho). exists A.
  split; [exact HA|]. split; [exact H2|]. split; [intros z v Hz; apply (Hev _ Hz)|]. split; [exact Hf|]. split; [exact Ho|]. split; [exact H3|].
  apply mapM_F2. exact H4.
Qed.
Example C70_modes_instance : forall eig2 spl speed st, linalg_ok la1 /\ eigs_ok la1 eigs1 /\ exists m st', run_modal la1 eigs1 eig2 spl tiny speed 2 true false st = (Ok m, st') /\ length (mo_wn m) = 1%nat.
Proof.
  intros eig2 spl speed st. split; [exact la1_ok|]. split; [exact eigs1_ok|]. destruct (tiny_modal eig2 spl speed st) as (m & st' & H). exists m, st'. split; [exact H|].
  apply (tiny_same _ _ _ _ _ _ _ _ _ _ H H).
Qed.

(** The start vector kept from earlier analyses does not change what is reported: the same eigenvalues, in the same order, with the same numbers. *)
Theorem C70_history_free : forall la eigs eig2 spl r speed nm A st st' l l' m m' s1 s2, eigs_ok la eigs -> rotor_A la spl r speed None false = Ok A ->
  let N := (2 * r_ndof r)%nat in
  told_apart (spectrum la N A) -> (well_cut (spectrum la N A) (2 * nm) \/ (N <= 2 * nm + 1)%nat) ->
  eigs N A (2 * nm)%nat st = Converged l -> eigs N A (2 * nm)%nat st' = Converged l' ->
  run_modal la eigs eig2 spl r speed nm true false st = (Ok m, s1) -> run_modal la eigs eig2 spl r speed nm true false st' = (Ok m', s2) ->
  map fst (mo_pairs m) = map fst (mo_pairs m') /\ mo_wn m = mo_wn m' /\ mo_wd m = mo_wd m' /\ mo_damping m = mo_damping m' /\ mo_log_dec m = mo_log_dec m'.
Proof.
  intros la eigs eig2 spl r speed nm A st st' l l' m m' s1 s2 E HA N T W El El' H H'.
  destruct (history_free _ _ _ _ _ _ _ _ _ _ _ _ _ _ _ _ E HA T W El El' H H') as [V K]. unfold numbers in K. injection K as K1 K2 K3 K4. auto.
Qed.
Example C70_history_instance : forall eig2 spl speed v, eigs_ok la1 eigs1 /\ exists A l l' m m' s1 s2, rotor_A la1 spl tiny speed None false = Ok A /\
  told_apart (spectrum la1 4 A) /\ (4 <= 2 * 2 + 1)%nat /\ eigs1 4%nat A 4%nat None = Converged l /\ eigs1 4%nat A 4%nat (Some v) = Converged l' /\ l' = rev l /\ map fst l <> map fst l' /\
  run_modal la1 eigs1 eig2 spl tiny speed 2 true false None = (Ok m, s1) /\ run_modal la1 eigs1 eig2 spl tiny speed 2 true false (Some v) = (Ok m', s2).
Proof.
  intros eig2 spl speed v. split; [exact eigs1_ok|]. destruct (tiny_A_ok spl speed None) as (A & HA & HT).
  destruct (tiny_modal eig2 spl speed None) as (m & s1 & H). destruct (tiny_modal eig2 spl speed (Some v)) as (m' & s2 & H').
  exists A, (eig_pairs 4 (la_eig la1 4 A)), (rev (eig_pairs 4 (la_eig la1 4 A))), m, m', s1, s2.
  split; [exact HA|]. split; [exact (tiny_apart A HT)|]. split; [lia|]. split; [unfold eigs1; rewrite HT; reflexivity|]. split; [unfold eigs1; rewrite HT; reflexivity|].
  split; [reflexivity|]. split; [|auto]. rewrite map_rev, eig_pairs_fst, (tiny_spectrum A HT). cbn. intros K. injection K. lra.
Qed.
(** If every analysis of the rotor succeeds and the hypotheses hold at every speed, no sequence of earlier calls changes the numbers. *)
Theorem C70_steady : forall la eigs eig2 spl r nm, eigs_ok la eigs -> let N := (2 * r_ndof r)%nat in
  (forall s st, exists A l, rotor_A la spl r s None false = Ok A /\ eigs N A (2 * nm)%nat st = Converged l /\
     told_apart (spectrum la N A) /\ (well_cut (spectrum la N A) (2 * nm) \/ (N <= 2 * nm + 1)%nat)) ->
  (forall s st, is_ok (fst (run_modal la eigs eig2 spl r s nm true false st))) -> steady la eigs eig2 spl r nm.
Proof.
  intros la eigs eig2 spl r nm E N H K s st st'. destruct (H s st) as (A & l & HA & Hl & T & W). destruct (H s st') as (A' & l' & HA' & Hl' & _ & _).
  assert (A' = A) by congruence. subst A'. destruct (K s st) as [m Hm]. destruct (K s st') as [m' Hm'].
  destruct (run_modal la eigs eig2 spl r s nm true false st) as [x s1] eqn:R1. destruct (run_modal la eigs eig2 spl r s nm true false st') as [x' s2] eqn:R2.
  cbn [fst] in *. subst x x'. cbn. f_equal. apply (history_free _ _ _ _ _ _ _ _ _ _ _ _ _ _ _ _ E HA T W Hl Hl' R1 R2).
Qed.
Example C70_steady_instance : forall eig2 spl, (forall s st, exists A l, rotor_A la1 spl tiny s None false = Ok A /\ eigs1 4%nat A 4%nat st = Converged l /\
     told_apart (spectrum la1 4 A) /\ (4 <= 2 * 2 + 1)%nat) /\ (forall s st, is_ok (fst (run_modal la1 eigs1 eig2 spl tiny s 2 true false st))).
Proof.
  intros eig2 spl. split.
  - intros s st. destruct (tiny_A_ok spl s None) as (A & HA & HT). eexists A, _. split; [exact HA|]. split; [unfold eigs1; rewrite HT; reflexivity|]. split; [exact (tiny_apart A HT)|lia].
  - intros s st. destruct (tiny_modal eig2 spl s st) as (m & x & H). rewrite H. eexists. reflexivity.
Qed.
(** When an odd number of the found eigenvalues is not of a rigid body, the analysis raises ValueError - after it has replaced the start vector. *)
Theorem C70_odd_raises : forall la eigs eig2 spl r speed nm A st l kept, rotor_A la spl r speed None false = Ok A ->
  eigs (2 * r_ndof r)%nat A (2 * nm)%nat st = Converged l -> picked (fun z => 1 / 10 < Cmod z) (map fst l) kept -> Nat.odd (length kept) = true ->
  exists st', run_modal la eigs eig2 spl r speed nm true false st = (Err ValueError, st') /\ st' <> None.
Proof.
  intros la eigs eig2 spl r speed nm A st l kept HA Hl (dropped & P & K & D) O. exists (Some (next_v0 l)). split; [|discriminate].
  unfold run_modal, sbind, eigen_full. rewrite HA, Hl. rewrite sort_pairs_odd; [reflexivity|].
  assert (E : length (filter (fun p : C * cvec => not_rigid (fst p)) l) = length kept).
  { rewrite <- (map_length fst), filter_fst. rewrite <- (Permutation_length (filter_perm not_rigid _ _ P)), filter_app.
    rewrite (filter_all not_rigid kept) by (intros z Hz; apply not_rigid_spec; auto). rewrite (filter_none not_rigid dropped), app_nil_r; [reflexivity|].
    intros z Hz. destruct (not_rigid z) eqn:Ez; [|reflexivity]. apply not_rigid_spec in Ez. destruct (D z Hz Ez). }
  rewrite E, <- Nat.negb_odd, O. reflexivity.
Qed.
Example C70_odd_instance : forall spl speed v w, exists A l kept, rotor_A la1 spl tiny speed None false = Ok A /\ l = [(RtoC (-1 / 20), v); (RtoC (-2), w)] /\
  picked (fun z => 1 / 10 < Cmod z) (map fst (l : list (C * cvec))) kept /\ Nat.odd (length kept) = true.
Proof.
  intros spl speed v w. destruct (tiny_A_ok spl speed None) as (A & HA & _). exists A, [(RtoC (-1 / 20), v); (RtoC (-2), w)], [RtoC (-2)].
  split; [exact HA|]. split; [reflexivity|]. split; [|reflexivity]. exists [RtoC (-1 / 20)]. split; [cbn; constructor|]. split.
  - intros z [<-|[]]. rewrite Cmod_R, Rabs_left; lra.
  - intros z [<-|[]]. rewrite Cmod_R, Rabs_left; lra.
Qed.

(** C71: position k of every array belongs to mode k of one analysis at the reported damped critical speed: its numbers and its whirl label
    are those of one eigenpair of the state matrix at that speed. *)
Theorem C71_one_mode : forall la eigs eig2 newton spl r nm st c st', linalg_ok la -> eigs_ok la eigs ->
  run_critical_speed la eigs eig2 newton spl r None nm st = (Ok c, st') ->
  length (cs_wn c) = length (cs_wd c) /\ length (cs_log_dec c) = length (cs_wd c) /\ length (cs_damping c) = length (cs_wd c) /\ length (cs_whirl c) = length (cs_wd c) /\
  forall k w, nth_error (cs_wd c) k = Some w -> exists A z v sh, rotor_A la spl r w None false = Ok A /\
    (forall i, (i < 2 * r_ndof r)%nat -> cmulv (2 * r_ndof r) (of_mat A) v i = (z * v i)%C) /\
    rotor_shape eig2 r v true = Ok sh /\ nth_error (cs_whirl c) k = Some (mode_whirl sh) /\
    nth_error (cs_damping c) k = Some (- Re z / Cmod z) /\ nth_error (cs_log_dec c) k = Some (2 * PI * (- Re z / Cmod z) / sqrt (1 - (- Re z / Cmod z) ^ 2)).
Proof.
  intros la eigs eig2 newton spl r nm st c st' L E H. destruct (critical_parts _ _ _ _ _ _ _ _ _ _ H) as (m0 & s0 & H0 & Fn & Fd & L1 & L2 & L3 & K).
  destruct (modal_lengths _ _ _ _ _ _ _ _ _ _ _ _ H0) as (M1 & _).
  split; [rewrite <- (F2_length _ _ _ Fn), <- (F2_length _ _ _ Fd), !seq_length; auto|]. split; [exact L1|]. split; [exact L2|]. split; [exact L3|].
  intros k w Hk. destruct (K k w Hk) as (m & sa & sb & ld & dr & wh & Hm & Q1 & Q2 & Q3 & Q4 & Q5 & Q6).
  destruct (modal_entry _ _ _ _ _ _ _ _ _ _ _ _ L E Hm Q3) as (A & z & v & sh & HA & Hv & _ & Hsh & _ & -> & _ & _ & Hd & Hl).
  exists A, z, v, sh. rewrite Q4, Q5, Q6, <- Q1, <- Q2. auto 10.
Qed.
(** With a search that finds roots up to tol and analyses that do not depend on the history, each reported speed is critical: one
    eigenvalue of the state matrix at that speed has that damped (for wn: undamped) frequency up to tol. *)
Theorem C71_critical : forall la eigs eig2 newton spl r nm st c st' tol, linalg_ok la -> eigs_ok la eigs -> steady la eigs eig2 spl r nm ->
  (forall f i x0, finds_root tol newton x0 (mismatch (fun s => fst (run_modal la eigs eig2 spl r s nm true false None)) f i)) ->
  run_critical_speed la eigs eig2 newton spl r None nm st = (Ok c, st') ->
  (forall k w, nth_error (cs_wd c) k = Some w -> exists A z v sh, rotor_A la spl r w None false = Ok A /\
    (forall i, (i < 2 * r_ndof r)%nat -> cmulv (2 * r_ndof r) (of_mat A) v i = (z * v i)%C) /\
    Rabs (w - Im z) <= tol /\ rotor_shape eig2 r v true = Ok sh /\ nth_error (cs_whirl c) k = Some (mode_whirl sh) /\ nth_error (cs_damping c) k = Some (- Re z / Cmod z)) /\
  (forall k w, nth_error (cs_wn c) k = Some w -> exists A z v, rotor_A la spl r w None false = Ok A /\
    (forall i, (i < 2 * r_ndof r)%nat -> cmulv (2 * r_ndof r) (of_mat A) v i = (z * v i)%C) /\ Rabs (w - Cmod z) <= tol).
Proof.
  intros la eigs eig2 newton spl r nm st c st' tol L E S NR H. destruct (critical_parts _ _ _ _ _ _ _ _ _ _ H) as (m0 & s0 & H0 & Fn & Fd & L1 & L2 & L3 & K).
  assert (Root : forall f nf (F : forall m, f m = nf (numbers m)) k w, Forall2 (fun i y => exists s s', run_search (field_f la eigs eig2 spl r f nm i) (newton (nth i (f m0) 0)) s = (Ok y, s')) (seq 0 (length (f m0))) w ->
     forall x, nth_error w k = Some x -> exists m s1, run_modal la eigs eig2 spl r x nm true false None = (Ok m, s1) /\ exists y, nth_error (f m) k = Some y /\ Rabs (x - y) <= tol).
  { intros f nf F k w Fw x Hx. destruct (Forall2_nth_error _ _ _ Fw k x Hx) as (i & Hi & s & s' & Hr). apply nth_error_seq in Hi as [-> _]. cbn [Nat.add] in Hr.
    pose proof (run_search_pure (field_f la eigs eig2 spl r f nm k) (mismatch (analysis la eigs eig2 spl r nm) f k) (newton (nth k (f m0) 0)) (fun a b => field_pure _ _ _ _ _ f nf nm k a b F S) s) as P.
    rewrite Hr in P. cbn [fst] in P. destruct (NR f k _ x (eq_sym P)) as (y & Hy & By). unfold mismatch in Hy.
    apply bind_ok in Hy as (m & Hm & Hy). destruct (run_modal la eigs eig2 spl r x nm true false None) as [rm s1] eqn:R1. cbn [fst] in Hm. subst rm.
    exists m, s1. split; [reflexivity|]. destruct (nth_error (f m) k) as [w0|]; [|discriminate]. injection Hy as <-. eauto. }
  split; intros k w Hk.
  - destruct (K k w Hk) as (m & sa & sb & ld & dr & wh & Hm & Q1 & Q2 & Q3 & Q4 & Q5 & Q6).
    destruct (modal_entry _ _ _ _ _ _ _ _ _ _ _ _ L E Hm Q3) as (A & z & v & sh & HA & Hv & _ & Hsh & _ & -> & _ & Hwd & Hd & _).
    exists A, z, v, sh. destruct (Root mo_wd (fun q => snd (fst (fst q))) (fun _ => eq_refl) k _ Fd w Hk) as (m' & s1 & Hm' & y & Hy & By).
    assert (Em : mo_wd m = mo_wd m').
    { specialize (S w sa None). rewrite Hm, Hm' in S. cbn in S. injection S as _ S _ _. exact S. }
    rewrite Em, Hy in Hwd. injection Hwd as ->. rewrite Q5, Q6, <- Q2. auto 10.
  - destruct (Root mo_wn (fun q => fst (fst (fst q))) (fun _ => eq_refl) k _ Fn w Hk) as (m' & s1 & Hm' & y & Hy & By).
    pose proof (run_modal_ok _ _ _ _ _ _ _ _ _ _ _ _ Hm') as (H1 & _ & (N1 & _) & _).
    destruct (eigen_full_spec _ _ _ _ _ _ _ _ _ _ _ L E H1) as (A & HA & Hev & _). rewrite N1 in Hy. apply nth_error_map_some in Hy as (z & Hz & ->).
    apply nth_error_firstn in Hz. apply nth_error_map_some in Hz as ([z' v] & Hz & ->). cbn [fst] in By. apply nth_error_In in Hz.
    exists A, z', v. split; [exact HA|]. split; [exact (Hev _ Hz)|exact By].
Qed.
Example C71_instance : forall eig2 spl st, linalg_ok la1 /\ eigs_ok la1 eigs1 /\ steady la1 eigs1 eig2 spl tiny 2 /\ (forall x0 g, finds_root 0 newton0 x0 g) /\
  exists c st', run_critical_speed la1 eigs1 eig2 newton0 spl tiny None 2 st = (Ok c, st') /\ length (cs_wd c) = 1%nat.
Proof.
  intros eig2 spl st. split; [exact la1_ok|]. split; [exact eigs1_ok|]. split; [apply tiny_steady|]. split; [exact newton0_root|]. apply tiny_critical.
Qed.
(** With a speed range the number of modes asked for is ignored: all five arrays are those of the analysis with (ndof - 4) * 2 modes, reduced
    to the positions whose damped critical speed is in the range, ends included. Errors and the start vector are the same. *)
Theorem C71_range : forall la eigs eig2 newton spl r lo hi nm st,
  let full := run_critical_speed la eigs eig2 newton spl r None ((r_ndof r - 4) * 2) st in
  let part := run_critical_speed la eigs eig2 newton spl r (Some (lo, hi)) nm st in
  snd part = snd full /\ (forall e, fst full = Err e -> fst part = Err e) /\
  forall c, fst full = Ok c -> exists c', fst part = Ok c' /\ in_band lo hi c c' /\ forall w, In w (cs_wd c') -> lo <= w <= hi.
Proof.
  intros la eigs eig2 newton spl r lo hi nm st full part.
  assert (E : part = after (fun c => let mask := map (in_range lo hi) (cs_wd c) in
      mkCritical (select mask (cs_wn c)) (select mask (cs_wd c)) (select mask (cs_log_dec c)) (select mask (cs_damping c)) (select mask (cs_whirl c))) full).
  { unfold part, full, run_critical_speed. cbv zeta. do 4 (apply sbind_after; intros ? ?). reflexivity. }
  pose proof (critical_parts la eigs eig2 newton spl r ((r_ndof r - 4) * 2) st) as CP. fold full in CP. rewrite E. destruct full as [[c|e] s]; cbn [fst snd after].
  - split; [reflexivity|]. split; [discriminate|]. intros c0 H0. injection H0 as <-. eexists. split; [reflexivity|].
    destruct (CP c s eq_refl) as (m0 & s0 & H0 & Fn & Fd & L1 & L2 & L3 & _). destruct (modal_lengths _ _ _ _ _ _ _ _ _ _ _ _ H0) as (M1 & _).
    assert (L0 : length (cs_wn c) = length (cs_wd c)) by (rewrite <- (F2_length _ _ _ Fn), <- (F2_length _ _ _ Fd), !seq_length; auto).
    assert (In_band : in_band lo hi c (mkCritical (select (map (in_range lo hi) (cs_wd c)) (cs_wn c)) (select (map (in_range lo hi) (cs_wd c)) (cs_wd c)) (select (map (in_range lo hi) (cs_wd c)) (cs_log_dec c)) (select (map (in_range lo hi) (cs_wd c)) (cs_damping c)) (select (map (in_range lo hi) (cs_wd c)) (cs_whirl c)))).
    { exists (positions 0 (map (in_range lo hi) (cs_wd c))). split; [apply positions_sorted|]. split.
      - intros k. pose proof (positions_in (map (in_range lo hi) (cs_wd c)) 0 k) as P. cbn [Nat.add] in P. rewrite P. split.
        + intros Hk. apply nth_error_map_some in Hk as (w & Hw & Hr). exists w. split; [exact Hw|]. apply in_range_spec. auto.
        + intros (w & Hw & Hr). apply in_range_spec in Hr. rewrite (map_nth_error _ _ _ Hw), Hr. reflexivity.
      - cbn. repeat split; apply select_band; auto. }
    split; [exact In_band|]. intros w Hw. destruct In_band as (idx & _ & Hi & _ & Hwd & _). apply In_nth_error in Hw as [j Hj].
    destruct (Forall2_nth_error _ _ _ Hwd j w Hj) as (k & Hk & Hk2). apply nth_error_In in Hk. apply Hi in Hk as (w' & Hw' & B). congruence.
  - split; [reflexivity|]. split; [|discriminate]. intros e0 H. injection H as <-. reflexivity.
Qed.

(** C72: every row of a Campbell diagram holds, at the speed it is labelled with, the modes of one analysis at that speed: by wd in the
    order of the analysis, by wn in increasing order; frequency, log_dec, damping ratio and whirl in a column belong to the same mode. *)
Theorem C72_rows : forall la eigs eig2 spl r speeds n by_wd st rows st', run_campbell la eigs eig2 spl r speeds n by_wd st = (Ok rows, st') ->
  map cr_speed rows = speeds /\
  forall i w row, nth_error speeds i = Some w -> nth_error rows i = Some row ->
    exists m sa sb idx, run_modal la eigs eig2 spl r w (2 * n) true false sa = (Ok m, sb) /\ Permutation idx (seq 0 (length (mo_wn m))) /\
    (if by_wd then idx = seq 0 (length (mo_wn m)) else StronglySorted (fun a b => nth a (mo_wn m) 0 <= nth b (mo_wn m) 0) idx) /\
    row_from idx n (if by_wd then mo_wd m else mo_wn m) m row.
Proof.
  intros la eigs eig2 spl r speeds n by_wd st rows st' H. apply campbell_rows in H. split.
  - clear - H. induction H as [|w row ws rs [H _] F IH]; cbn; [reflexivity|]. rewrite H, IH. reflexivity.
  - intros i w row Hw Hr. destruct (Forall2_nth_error _ _ _ H i row Hr) as (w' & Hw' & _ & X). rewrite Hw in Hw'. injection Hw' as <-. exact X.
Qed.
(** Every entry of a diagram by wd is a mode of the rotor: frequency, damping, log_dec and whirl come from one eigenpair at the row's speed. *)
Theorem C72_entries : forall la eigs eig2 spl r speeds n st rows st', linalg_ok la -> eigs_ok la eigs -> run_campbell la eigs eig2 spl r speeds n true st = (Ok rows, st') ->
  forall i w row j x, nth_error speeds i = Some w -> nth_error rows i = Some row -> nth_error (cr_freq row) j = Some x ->
  exists A z v sh, rotor_A la spl r w None false = Ok A /\ (forall a, (a < 2 * r_ndof r)%nat -> cmulv (2 * r_ndof r) (of_mat A) v a = (z * v a)%C) /\
    rotor_shape eig2 r v true = Ok sh /\ x = Im z /\ nth_error (cr_damping row) j = Some (- Re z / Cmod z) /\
    nth_error (cr_log_dec row) j = Some (2 * PI * (- Re z / Cmod z) / sqrt (1 - (- Re z / Cmod z) ^ 2)) /\ nth_error (cr_whirl row) j = Some (whirl_to_cmap (mode_whirl sh)).
Proof.
  intros la eigs eig2 spl r speeds n st rows st' L E H i w row j x Hw Hr Hx.
  destruct (proj2 (C72_rows _ _ _ _ _ _ _ _ _ _ _ H) i w row Hw Hr) as (m & sa & sb & idx & Hm & P & -> & f & ld & dr & wh & A1 & A2 & A3 & A4 & S1 & S2 & S3 & S4).
  destruct (modal_lengths _ _ _ _ _ _ _ _ _ _ _ _ Hm) as (M1 & M2 & M3 & M4).
  assert (Lf : length f = length ld /\ length f = length dr /\ length f = length wh).
  { rewrite <- (F2_length _ _ _ A1), <- (F2_length _ _ _ A2), <- (F2_length _ _ _ A3), <- (F2_length _ _ _ A4). auto. }
  (* position j of the row is position q of the analysis *)
  assert (Q : exists q, (q < length f)%nat /\ forall l l', spread n l l' -> length l = length f -> nth_error l' j = nth_error l q).
  { destruct S1 as [Ln [E1|(y & E1 & E2)]].
    - assert (Hj : (j < length f)%nat) by (rewrite <- E1; apply nth_error_Some; congruence). exists j. split; [exact Hj|]. intros l l' [Ll [->|(y & -> & ->)]] Hl; [reflexivity|].
      cbn in Hl. assert (j = 0%nat) as -> by lia. destruct n; [rewrite E1 in Ln; lia|reflexivity].
    - subst f. exists 0%nat. split; [cbn; lia|]. assert (Hj : (j < n)%nat) by (rewrite <- Ln; apply nth_error_Some; congruence).
      intros l l' [Ll [->|(y' & -> & ->)]] Hl; cbn in Hl; [assert (j = 0%nat) as -> by lia; reflexivity|]. rewrite nth_error_repeat by auto. reflexivity. }
  destruct Q as (q & Hq & Q). rewrite (Q _ _ S1 eq_refl) in Hx. rewrite (Q _ _ S2), (Q _ _ S3), (Q _ _ S4) by lia.
  destruct (Forall2_nth_error _ _ _ A1 q x Hx) as (k & Hk & Hxk).
  assert (k = q) as ->. { apply nth_error_firstn, nth_error_seq in Hk. lia. }
  assert (Z : forall l l', at_positions (firstn n (seq 0 (length (mo_wn m)))) l l' -> length l' = length f -> nth_error l' q = nth_error (l : list R) q).
  { intros l l' Hat Hl. destruct (nth_error l' q) as [y|] eqn:Ey; [|apply nth_error_None in Ey; lia]. destruct (Forall2_nth_error _ _ _ Hat q y Ey) as (k & Hk2 & Hy). rewrite Hk in Hk2. injection Hk2 as <-. auto. }
  rewrite (Z _ _ A2), (Z _ _ A3), (Z _ _ A4) by lia.
  assert (Hsh : exists d, nth_error (whirl_direction m) q = Some d).
  { destruct (nth_error (whirl_direction m) q) eqn:Ed; [eauto|]. apply nth_error_None in Ed. unfold whirl_direction in Ed. rewrite map_length in Ed.
    assert ((q < length (mo_wd m))%nat) by (apply nth_error_Some; congruence). lia. }
  destruct Hsh as [d Hd]. destruct (modal_entry _ _ _ _ _ _ _ _ _ _ _ _ L E Hm Hd) as (A & z & v & sh & HA & Hv & _ & Hs & _ & -> & _ & Hwd & Hdr & Hld).
  exists A, z, v, sh. split; [exact HA|]. split; [exact Hv|]. split; [exact Hs|]. split; [congruence|]. split; [exact Hdr|]. split; [exact Hld|].
  unfold whirl_values. apply map_nth_error. exact Hd.
Qed.
(** The numbers in the row of a speed do not depend on the other speeds of the diagram nor on earlier calls. *)
Theorem C72_rows_independent : forall la eigs eig2 spl r n st1 st2 speeds1 speeds2 rows1 rows2 s1 s2, steady la eigs eig2 spl r (2 * n) ->
  run_campbell la eigs eig2 spl r speeds1 n true st1 = (Ok rows1, s1) -> run_campbell la eigs eig2 spl r speeds2 n true st2 = (Ok rows2, s2) ->
  forall i j w row1 row2, nth_error speeds1 i = Some w -> nth_error speeds2 j = Some w -> nth_error rows1 i = Some row1 -> nth_error rows2 j = Some row2 ->
  cr_freq row1 = cr_freq row2 /\ cr_log_dec row1 = cr_log_dec row2 /\ cr_damping row1 = cr_damping row2.
Proof.
  intros la eigs eig2 spl r n st1 st2 speeds1 speeds2 rows1 rows2 s1 s2 S H1 H2 i j w row1 row2 I1 I2 R1 R2.
  destruct (proj2 (C72_rows _ _ _ _ _ _ _ _ _ _ _ H1) i w row1 I1 R1) as (m & sa & sb & idx & Hm & P & -> & f & ld & dr & wh & A1 & A2 & A3 & A4 & S1 & S2 & S3 & S4).
  destruct (proj2 (C72_rows _ _ _ _ _ _ _ _ _ _ _ H2) j w row2 I2 R2) as (m' & sa' & sb' & idx' & Hm' & P' & -> & f' & ld' & dr' & wh' & A1' & A2' & A3' & A4' & S1' & S2' & S3' & S4').
  specialize (S w sa sa'). rewrite Hm, Hm' in S. cbn in S. injection S as E1 E2 E3 E4. rewrite <- E1 in A1', A2', A3'. rewrite <- E2 in A1'. rewrite <- E3 in A3'. rewrite <- E4 in A2'.
  assert (U : forall idx (l a b : list R), at_positions idx l a -> at_positions idx l b -> a = b).
  { intros ix l a b Ha. revert b. induction Ha as [|k y ks ys Hk Ha IH]; intros b Hb; inversion Hb; subst; [reflexivity|]. f_equal; [congruence|auto]. }
  assert (V : forall l a b, spread n l a -> spread n l b -> a = b).
  { intros l a b [La [Ea|(u & Eu & Ea)]] [Lb [Eb|(v & Ev & Eb)]].
    - congruence.
    - rewrite Ea, Ev in La |- *. rewrite Eb, <- La. reflexivity.
    - rewrite Eb, Eu in Lb |- *. rewrite Ea, <- Lb. reflexivity.
    - congruence. }
  rewrite (U _ _ _ _ A1' A1) in S1'. rewrite (U _ _ _ _ A2' A2) in S2'. rewrite (U _ _ _ _ A3' A3) in S3'.
  split; [|split]; eapply V; eauto.
Qed.
(** If the analysis at the first speed has neither one mode nor as many as asked for, the diagram is not made. *)
Theorem C72_wrong_count : forall la eigs eig2 spl r w speeds n by_wd st m st', run_modal la eigs eig2 spl r w (2 * n) true false st = (Ok m, st') ->
  length (mo_wn m) <> n -> length (mo_wn m) <> 1%nat -> run_campbell la eigs eig2 spl r (w :: speeds) n by_wd st = (Err ValueError, st').
Proof.
  intros la eigs eig2 spl r w speeds n by_wd st m st' H N1 N2. destruct (modal_lengths _ _ _ _ _ _ _ _ _ _ _ _ H) as (M1 & _).
  pose proof (run_modal_ok _ _ _ _ _ _ _ _ _ _ _ _ H) as (_ & _ & (K & _) & _).
  assert (B : (length (mo_wn m) <= n)%nat) by (rewrite K, map_length, firstn_length, Nat.mul_comm, Nat.div_mul by lia; lia).
  unfold run_campbell. cbn [smap]. unfold sbind at 1. unfold sbind at 1. rewrite H. cbv zeta.
  set (idx := if by_wd then seq 0 (length (mo_wd m)) else argsort (mo_wn m)).
  assert (Li : length idx = length (mo_wn m)) by (unfold idx; destruct by_wd; [rewrite seq_length; exact M1|rewrite (Permutation_length (argsort_perm _)), seq_length; reflexivity]).
  match goal with |- context [fill n ?l] => assert (E : fill n l = Err ValueError) end.
  { unfold fill. rewrite firstn_length, map_length, Li, Nat.min_r by exact B. rewrite (proj2 (Nat.eqb_neq _ _) N1).
    match goal with |- match ?l with _ => _ end = _ => assert (Ll : length l = length (mo_wn m)) by (rewrite firstn_length, map_length, Li, Nat.min_r by exact B; reflexivity); destruct l as [|x [|y l0]]; try reflexivity end.
    cbn in Ll. lia. }
  unfold sbind, sres. rewrite E. reflexivity.
Qed.
Example C72_wrong_count_instance : forall eig2 spl w st, exists m st', run_modal la1 eigs1 eig2 spl tiny w (2 * 5) true false st = (Ok m, st') /\ length (mo_wn m) <> 5%nat /\ length (mo_wn m) <> 1%nat.
Proof.
  intros eig2 spl w st. destruct (tiny_modal_n eig2 spl w (2 * 5) st) as (m & st' & H & L); [lia|]. exists m, st'. split; [exact H|].
  apply run_modal_ok in H as (_ & _ & (K & _) & _). rewrite K, map_length, firstn_length, map_length, L. cbn. lia.
Qed.
Example C72_instance : forall eig2 spl by_wd st, linalg_ok la1 /\ eigs_ok la1 eigs1 /\ steady la1 eigs1 eig2 spl tiny (2 * 1) /\ exists rows st', run_campbell la1 eigs1 eig2 spl tiny [0; 50; 100] 1 by_wd st = (Ok rows, st').
Proof. intros eig2 spl by_wd st. split; [exact la1_ok|]. split; [exact eigs1_ok|]. split; [apply tiny_steady|]. apply tiny_campbell. Qed.

(** C73: the clustered frequencies are 0 followed by a sorted list made of, for each chosen critical speed, the same number of points
    below and above it, in pairs around it. num_points from 2 to 12 is used as it is, more becomes 10, less becomes 4. *)
Theorem C73_clustering : forall omega damping num_points modes pts, length omega = length damping -> (forall w, In w omega -> 0 < w) ->
  clustering_points omega damping num_points modes = Ok pts ->
  exists chosen below above np, match modes with None => chosen = omega | Some l => at_positions l omega chosen end /\
  np = (if 12 <? num_points then 10 else if num_points <? 2 then 4 else num_points)%nat /\
  hd_error pts = Some 0 /\ StronglySorted Rle pts /\ Permutation (tl pts) (concat below ++ concat above) /\ length pts = (1 + 2 * np * length chosen)%nat /\
  Forall2 (fun w l => length l = np /\ forall x, In x l -> 0 < x < w) chosen below /\ Forall2 (fun w l => length l = np /\ forall x, In x l -> w < x) chosen above /\
  (forall k w lo up, nth_error chosen k = Some w -> nth_error below k = Some lo -> nth_error above k = Some up -> Forall2 (fun x y => x * y = w * w) lo up).
Proof.
  intros omega damping num_points modes pts LD Pos H. unfold clustering_points in H. cbv zeta in H.
  set (np := (if 12 <? num_points then 10 else if num_points <? 2 then 4 else num_points)%nat) in *.
  apply bind_ok in H as (om & Hom & H). apply bind_ok in H as (da & Hda & H).
  set (fa := fun d j => 1 + Rpower d (2 * (INR np - INR j + 1) / (INR np - 1))).
  change (Ok (0 :: sort_R (flat_map (fun p => map (fun j => fst p / fa (snd p) j) (seq 0 np)) (combine om da) ++ flat_map (fun p => map (fun j => fst p * fa (snd p) j) (seq 0 np)) (combine om da))) = Ok pts) in H.
  assert (Ch : match modes with None => om = omega | Some l => at_positions l omega om end).
  { destruct modes as [l|]; [|injection Hom as <-; reflexivity]. apply mapM_F2 in Hom. unfold at_positions. clear - Hom. induction Hom as [|k x ks xs Hx F IH]; constructor; auto. apply item_ok in Hx. exact Hx. }
  assert (LL : length om = length da).
  { destruct modes as [l|]; [apply mapM_length in Hom, Hda; lia|]. injection Hom as <-. injection Hda as <-. rewrite map_length. exact LD. }
  assert (PO : forall w, In w om -> 0 < w).
  { destruct modes as [l|]; [|subst om; exact Pos]. intros w Hw. apply In_nth_error in Hw as [k Hk]. destruct (Forall2_nth_error _ _ _ Ch k w Hk) as (q & _ & Hq). apply nth_error_In in Hq. auto. }
  assert (PA : forall d j, 1 < fa d j) by (intros d j; unfold fa, Rpower; pose proof (exp_pos (2 * (INR np - INR j + 1) / (INR np - 1) * ln d)); lra).
  set (L1 := map (fun p => map (fun j => fst p / fa (snd p) j) (seq 0 np)) (combine om da)).
  set (L2 := map (fun p => map (fun j => fst p * fa (snd p) j) (seq 0 np)) (combine om da)).
  injection H as H. assert (Q : Permutation (tl pts) (concat L1 ++ concat L2)).
  { subst pts. cbn [tl]. rewrite sort_R_perm. unfold L1, L2. rewrite <- !flat_map_concat_map. reflexivity. }
  assert (FB : Forall2 (fun w l => length l = np /\ forall x, In x l -> 0 < x < w) om L1).
  { unfold L1. clear - LL PO PA. revert da LL. induction om as [|w om IH]; intros [|d da] LL; cbn in *; try discriminate; constructor; [|apply IH; [intros; apply PO; right; auto|lia]].
    split; [rewrite map_length, seq_length; reflexivity|]. intros x Hx. apply in_map_iff in Hx as (j & <- & _). specialize (PA d j). specialize (PO w (or_introl eq_refl)). split.
    - apply Rdiv_lt_0_compat; lra.
    - apply (Rmult_lt_reg_r (fa d j)); [lra|]. unfold Rdiv. rewrite Rmult_assoc, Rinv_l by lra. nra. }
  assert (FA : Forall2 (fun w l => length l = np /\ forall x, In x l -> w < x) om L2).
  { unfold L2. clear - LL PO PA. revert da LL. induction om as [|w om IH]; intros [|d da] LL; cbn in *; try discriminate; constructor; [|apply IH; [intros; apply PO; right; auto|lia]].
    split; [rewrite map_length, seq_length; reflexivity|]. intros x Hx. apply in_map_iff in Hx as (j & <- & _). specialize (PA d j). specialize (PO w (or_introl eq_refl)). nra. }
  assert (LC : forall (P : R -> list R -> Prop) o L, Forall2 P o L -> (forall w l, P w l -> length l = np) -> length (concat L) = (np * length o)%nat).
  { intros P o L F K. induction F as [|w l ws ls X F IH]; cbn; [lia|]. rewrite app_length, IH, (K _ _ X). lia. }
  exists om, L1, L2, np. split; [exact Ch|]. split; [reflexivity|]. split; [subst pts; reflexivity|]. split.
  { subst pts. constructor; [apply sort_R_sorted|]. apply Forall_forall. intros x Hx. cbn [tl] in Q. apply (Permutation_in _ Q), in_app_or in Hx.
    assert (G : forall (P : R -> list R -> Prop) L, Forall2 P om L -> (forall w l, 0 < w -> P w l -> forall x, In x l -> 0 <= x) -> In x (concat L) -> 0 <= x).
    { clear - PO. intros P L F K HI. apply in_concat in HI as (l & Hl & Hx). apply In_nth_error in Hl as [k Hk]. destruct (Forall2_nth_error _ _ _ F k l Hk) as (w & Hw & X). apply nth_error_In in Hw. eapply K; eauto. }
    destruct Hx as [Hx|Hx]; [eapply (G _ L1 FB)|eapply (G _ L2 FA)]; eauto.
    - intros w l _ [_ X] y Hy. specialize (X y Hy). lra.
    - intros w l Hw [_ X] y Hy. specialize (X y Hy). lra. }
  split; [exact Q|]. split.
  { subst pts. cbn [length]. cbn [tl] in Q. rewrite (Permutation_length Q), app_length, (LC _ _ _ FB), (LC _ _ _ FA) by tauto. lia. }
  split; [exact FB|]. split; [exact FA|].
  intros k w lo up Hw Hlo Hup. unfold L1 in Hlo. unfold L2 in Hup. apply nth_error_map_some in Hlo as ([w1 d1] & H1 & ->). apply nth_error_map_some in Hup as ([w2 d2] & H2 & ->).
  rewrite H1 in H2. injection H2 as <- <-. cbn [fst snd].
  assert (w1 = w) as ->.
  { clear - H1 Hw LL. revert k da LL H1 Hw. induction om as [|a om IH]; intros [|k] [|d da] LL H1 Hw; cbn in *; try discriminate; [congruence|]. apply (IH k da); [lia|exact H1|exact Hw]. }
  clear - PA. induction (seq 0 np) as [|j s IH]; cbn; constructor; auto. specialize (PA d1 j). field. lra.
Qed.
Example C73_instance : length [10; 20; 40] = length [0; 1 / 10; 2] /\ (forall w, In w [10; 20; 40] -> 0 < w) /\
  exists pts, clustering_points [10; 20; 40] [0; 1 / 10; 2] 5 (Some [2; 0]%nat) = Ok pts.
Proof.
  split; [reflexivity|]. split; [intros w Hw; cbn in Hw; intuition lra|]. unfold clustering_points. cbn [mapM item nth_error bind map]. eexists. reflexivity.
Qed.
(** A damping ratio below 0.005 is replaced by 0.005 and nothing else of the damping matters. *)
Theorem C73_damping_floor : forall omega d d' num_points modes, map (Rmax (5 / 1000)) d = map (Rmax (5 / 1000)) d' ->
  clustering_points omega d num_points modes = clustering_points omega d' num_points modes.
Proof.
  intros omega d d' n modes H. unfold clustering_points. cbv zeta.
  assert (E : forall l, map (fun x => if Rle_dec (5 / 1000) x then x else 5 / 1000) l = map (Rmax (5 / 1000)) l).
  { intros l. apply map_ext. intros x. unfold Rmax. destruct (Rle_dec (5 / 1000) x); reflexivity. }
  rewrite !E, H. reflexivity.
Qed.
Example C73_damping_instance : map (Rmax (5 / 1000)) [0; 1] = map (Rmax (5 / 1000)) [-3; 1] /\ [0; 1] <> [-3; 1].
Proof. split; [cbn; rewrite (Rmax_left (5 / 1000) 0), (Rmax_left (5 / 1000) (-3)) by lra; reflexivity|]. intros K. injection K. lra. Qed.

Print Assumptions C70_modes.
Print Assumptions C71_critical.
Print Assumptions C72_entries.
Print Assumptions C73_clustering.
