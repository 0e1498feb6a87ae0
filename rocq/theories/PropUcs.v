(** C74, C75: the undamped critical speed map and the level 1 stability analysis. *)
From Coq Require Import Reals String List Arith ZArith Bool Lia Lra Permutation Sorted.
From Coquelicot Require Import Complex.
From Verif Require Import PyBase MatBase SpecMat LMat CMat LCMat MMaterial MShaft MDisk MBearing MRotor SpecRotor LAssembly LRotor LRotor2 LRotor6 MDynamics SpecDynamics MResults SpecResults SpecUtils MModal SpecModal LModal MSave LSave3 LSave4 LResponse LStoch LDynEx LRotorInit LRotorInit2 LRotorEx PropSave MUcs SpecUcs LUcs LUcsEx PropUtils.
Import ListNotations.
Open Scope list_scope.
Open Scope R_scope.

(** * C74 *)
(** The rotor analysed for a stiffness k: the shaft and the disks of the original on springs k to ground, in x and y, at every bearing
    that is not a seal, and nothing else: no bearing damping or mass, no seals, no supports. *)
Theorem C74_rotor : forall sh dk br pm mn mx rt tag ro k u spl w, robj_init sh dk br pm mn mx rt tag = Ok ro -> r_nd (ro_val ro) = 4%nat -> ucs_rotor ro k = Ok u ->
  r_ndof (ro_val u) = (4 * (r_n_last (ro_val ro) + 2))%nat /\
  (forall K, rotor_K spl (ro_val u) w [] = Ok K -> forall i j, K i j = frame (el_K spl w) (ro_val ro) i j + ground_springs k (bearing_nodes ro) i j) /\
  (forall D, rotor_C spl (ro_val u) w [] = Ok D -> forall i j, D i j = frame (el_C spl w) (ro_val ro) i j) /\
  (forall M, rotor_M spl (ro_val u) (Some w) = Ok M -> forall i j, M i j = frame (el_M spl w) (ro_val ro) i j) /\
  (forall G, rotor_G spl (ro_val u) = Ok G -> forall i j, G i j = frame (el_G spl) (ro_val ro) i j).
Proof.
  intros sh dk br pm mn mx rt tag ro k u spl w Hro Hnd Hk. split.
  { destruct (ucs_rotor_ok _ _ _ Hk) as (brs & _ & Hu). rewrite <- Hnd. apply (again_sizes _ _ _ _ _ _ _ _ _ Hro _ _ Hu). }
  assert (Z : forall a b, (a < 2)%nat -> (b < 2)%nat -> lmat [[0; 0]; [0; 0]] a b = 0) by (intros [|[|a]] [|[|b]] Ha Hb; try lia; reflexivity).
  split; [|split; [|split]].
  - intros K HK. exact (sprung_K _ _ _ _ _ _ _ _ _ Hro spl w k u K Hnd Hk HK).
  - intros D HD. unfold rotor_C in HD. rewrite kept_nil in HD. apply (sprung_zero _ _ _ _ _ _ _ _ _ Hro spl w k u _ _ Hnd Hk (is_C spl w) (kp_C _ Fn_keeps spl w)); [|exact HD].
    intros t s n P. eexists. split; [apply (plain_C _ _ _ _ _ _ _ P)|exact Z].
  - intros M HM. apply (sprung_zero _ _ _ _ _ _ _ _ _ Hro spl w k u _ _ Hnd Hk (is_M spl w) (kp_M _ Fn_keeps spl w)); [|exact HM].
    intros t s n P. eexists. split; [apply (plain_M _ _ _ _ _ _ _ P)|exact Z].
  - intros G HG. apply (sprung_zero _ _ _ _ _ _ _ _ _ Hro spl w k u _ _ Hnd Hk (is_G spl w) (kp_G _ Fn_keeps spl)); [|exact HG].
    intros t s n P. eexists. split; [apply (plain_G _ _ _ _ _ _ _ P)|reflexivity].
Qed.

Lemma mapM_nth_error {A B} (f : A -> res B) l ys i x : mapM f l = Ok ys -> nth_error l i = Some x -> exists y, nth_error ys i = Some y /\ f x = Ok y.
Proof.
  intros H. apply mapM_F2 in H. revert i. induction H as [|a b l ys H1 H2 IH]; intros [|i] E; try discriminate.
  - injection E as <-. exists b. auto.
  - apply IH. exact E.
Qed.

(** The map: num stiffnesses, evenly spaced in the exponent; num_modes // 4 curves; the point of curve j at stiffness k is the frequency of
    mode 2 j of a modal analysis at rest of the rotor on springs k, which is the modulus of an eigenvalue of its state matrix
    (when that analysis reports only one or two modes, every curve shows the first). *)
Theorem C74_map : forall la eigs eig2 spl ro range frange nm num sync res, run_ucs la eigs eig2 spl ro range frange nm num sync = Ok res ->
  ucs_range spl ro range = Ok (uc_range res) /\ length (uc_log res) = num /\ length (uc_wn res) = (nm / 2 / 2)%nat /\
  forall i, (i < num)%nat -> exists u m, let k := Rpower 10 (evenly (fst (uc_range res)) (snd (uc_range res)) num i) in
    nth_error (uc_log res) i = Some k /\ ucs_rotor ro k = Ok u /\ fst (run_modal la eigs eig2 spl (ro_val u) 0 nm true sync None) = Ok m /\
    forall j, (j < nm / 2 / 2)%nat -> exists row x, nth_error (uc_wn res) j = Some row /\ length row = num /\ nth_error row i = Some x /\
      (nth_error (mo_wn m) (2 * j) = Some x \/ (length (mo_wn m) <= 2)%nat /\ nth_error (mo_wn m) 0 = Some x) /\
      (linalg_ok la -> eigs_ok la eigs -> exists A z v, rotor_A la spl (ro_val u) 0 None sync = Ok A /\ In (z, v) (mo_pairs m) /\ x = Cmod z /\
         forall i, (i < 2 * r_ndof (ro_val u))%nat -> cmulv (2 * r_ndof (ro_val u)) (of_mat A) v i = (z * v i)%C).
Proof.
  intros la eigs eig2 spl ro range frange nm num sync res H. unfold run_ucs in H. apply bind_ok in H as (sr & Hsr & H). cbv zeta in H. apply bind_ok in H as (cols & Hc & H).
  apply bind_ok in H as (b0 & _ & H). apply bind_ok in H as (freq & _ & H). apply bind_ok in H as (found & _ & H). injection H as <-. cbn [uc_range uc_log uc_wn].
  split; [exact Hsr|]. split; [unfold logspace; rewrite map_length; apply linspace_length|]. split; [rewrite map_length, seq_length; reflexivity|]. intros i Hi.
  assert (El : nth_error (logspace (fst sr) (snd sr) num) i = Some (Rpower 10 (evenly (fst sr) (snd sr) num i))) by (unfold logspace; apply map_nth_error, linspace_nth, Hi).
  destruct (mapM_nth_error _ _ _ _ _ Hc El) as (col & Ecol & Hcol). unfold ucs_column in Hcol. apply bind_ok in Hcol as (u & Hu & Hcol). apply bind_ok in Hcol as (m & Hm & Hcol).
  exists u, m. cbv zeta. split; [exact El|]. split; [exact Hu|]. split; [exact Hm|]. intros j Hj.
  exists (map (fun col => nth j col 0) cols), (nth j col 0). split.
  { rewrite (map_nth_error _ j (seq 0 (nm / 2 / 2)) (d := j)); [reflexivity|]. rewrite (nth_error_nth' _ 0%nat) by (rewrite seq_length; lia). rewrite seq_nth by lia. reflexivity. }
  split; [rewrite map_length, (mapM_length _ _ _ Hc); unfold logspace; rewrite map_length; apply linspace_length|]. split; [rewrite (map_nth_error _ _ _ Ecol); reflexivity|].
  apply fill_spread in Hcol as (Hl & Hs).
  assert (E : nth_error (mo_wn m) (2 * j) = Some (nth j col 0) \/ (length (mo_wn m) <= 2)%nat /\ nth_error (mo_wn m) 0 = Some (nth j col 0)).
  { destruct Hs as [-> | (x & Ex & ->)].
    - left. rewrite <- evens_nth. apply nth_error_nth'. lia.
    - right. assert (L : List.length (evens (mo_wn m)) = 1%nat) by (rewrite Ex; reflexivity). rewrite evens_length in L. split.
      + destruct (Nat.le_gt_cases (List.length (mo_wn m)) 2) as [|B]; [assumption|]. assert (2 <= (List.length (mo_wn m) + 1) / 2)%nat by (apply Nat.div_le_lower_bound; lia). lia.
      + pose proof (evens_nth (mo_wn m) 0) as En. cbn [Nat.mul Nat.add] in En. rewrite <- En, Ex. cbn [nth_error]. f_equal. clear -Hj. revert Hj. generalize (nm / 2 / 2)%nat. intros q. revert j. induction q as [|q IH]; intros [|j] Hj; try lia; cbn [repeat nth]; [reflexivity|]. apply IH. lia. }
  split; [exact E|]. intros L Ee. destruct (run_modal la eigs eig2 spl (ro_val u) 0 nm true sync None) as [rm st'] eqn:Er. cbn [fst] in Hm. subst rm.
  apply run_modal_ok in Er as (H1 & _ & (Hw & _) & _). destruct (eigen_full_spec _ _ _ _ _ _ _ _ _ _ _ L Ee H1) as (A & HA & Hev & _).
  assert (X : exists q, nth_error (mo_wn m) q = Some (nth j col 0)) by (destruct E as [E|[_ E]]; eauto). destruct X as (q & X). rewrite Hw in X. apply nth_error_map_some in X as (z & X & ->).
  apply nth_error_firstn in X. apply nth_error_map_some in X as ([z' v] & X & ->). exists A, z', v. split; [exact HA|]. apply nth_error_In in X. split; [exact X|]. split; [reflexivity|]. apply (Hev _ X).
Qed.

(** The default range of stiffness: 10^6 to 10^11 without a rated speed, otherwise six decades around the stiffness kxx of the first element
    of the bearing list (which may be a seal) at rated speed. *)
Theorem C74_default_range : forall spl ro r, ucs_range spl ro None = Ok r ->
  (ro_rated ro = None /\ r = (6, 11)) \/
  (exists w o rest k, ro_rated ro = Some w /\ ro_br ro = o :: rest /\ eval_coef spl (brg_of o) kxx w = Ok k /\ 0 < k /\
     snd r - fst r = 6 /\ Rpower 10 (fst r) < k < Rpower 10 (snd r)).
Proof.
  intros spl ro r H. unfold ucs_range in H. destruct (ro_rated ro) as [w|]; [|left; split; congruence]. right. apply bind_ok in H as (o & Ho & H). apply item_ok in Ho.
  destruct (ro_br ro) as [|o' rest]; [discriminate|]. injection Ho as ->. apply bind_ok in H as (k & Hk & H). destruct (Rlt_dec 0 k) as [P|]; [|discriminate]. injection H as <-. exists w, o, rest, k.
  do 4 (split; [auto|]). cbn [fst snd]. split; [rewrite minus_IZR, plus_IZR; lra|]. exact (log_bracket k P).
Qed.

(** The marked points: exactly the crossings of the curves with the curve of kxx over frequency of the first bearing that is not a seal, and with
    that of kyy if it is different (overlapping parallel pieces are not found, see C31); with each the modal analysis of the rotor on springs of
    that stiffness, at that speed. *)
Theorem C74_points : forall la eigs eig2 spl ro range frange nm num sync res, linalg_ok la -> run_ucs la eigs eig2 spl ro range frange nm num sync = Ok res ->
  hd_error (filter (fun o => negb (is_seal o)) (ro_br ro)) = Some (uc_bearing0 res) /\
  (forall p, In p (uc_points res) <-> exists row c x2, In row (uc_wn res) /\
     (c = kxx \/ c = kyy /\ fst (b_coef (brg_of (uc_bearing0 res)) kxx) <> fst (b_coef (brg_of (uc_bearing0 res)) kyy)) /\
     Forall2 (fun f x => eval_coef spl (brg_of (uc_bearing0 res)) c f = Ok x) (uc_freq res) x2 /\
     exists a b a' b', consecutive a b (combine (uc_log res) row) /\ consecutive a' b' (combine x2 (uc_freq res)) /\ ~ parallel a b a' b' /\ on_segment p a b /\ on_segment p a' b') /\
  Forall2 (fun p m => exists u, ucs_rotor ro (fst p) = Ok u /\ fst (run_modal la eigs eig2 spl (ro_val u) (snd p) 12 true false None) = Ok m) (uc_points res) (uc_modal res).
Proof.
  intros la eigs eig2 spl ro range frange nm num sync res L H. unfold run_ucs in H. apply bind_ok in H as (sr & Hsr & H). cbv zeta in H. apply bind_ok in H as (cols & Hc & H).
  apply bind_ok in H as (b0 & Hb0 & H). apply bind_ok in H as (freq & _ & H). apply bind_ok in H as (found & Hf & H). injection H as <-. cbn [uc_range uc_log uc_wn uc_freq uc_bearing0 uc_points uc_modal].
  set (rows := map _ (seq 0 _)) in *. set (klog := logspace _ _ _) in *. set (coeffs := if same_list _ _ then _ else _) in *.
  split. { apply item_ok in Hb0. fold (ucs_bearings ro). destruct (ucs_bearings ro); [discriminate|exact Hb0]. }
  assert (Hco : forall c, In c coeffs <-> c = kxx \/ c = kyy /\ fst (b_coef (brg_of b0) kxx) <> fst (b_coef (brg_of b0) kyy)).
  { intros c. unfold coeffs, same_list. destruct (list_eq_dec Req_EM_T _ _) as [E|E]; cbn [In]; split.
    - intros [<-|[]]; auto. - intros [->|[-> N]]; [auto|contradiction]. - intros [<-|[<-|[]]]; auto. - intros [->|[-> N]]; auto. }
  apply mapM_F2 in Hf.
  assert (HF : Forall2 (fun wc f => exists x2, mapM (eval_coef spl (brg_of b0) (snd wc)) freq = Ok x2 /\ fst f = intersection la (combine klog (fst wc)) (combine x2 freq) /\
    Forall2 (fun p m => exists u, ucs_rotor ro (fst p) = Ok u /\ fst (run_modal la eigs eig2 spl (ro_val u) (snd p) 12 true false None) = Ok m) (fst f) (snd f))
    (flat_map (fun wn => map (fun c => (wn, c)) coeffs) rows) found).
  { induction Hf as [|wc f l found H1 H2 IH]; constructor; [|exact IH]. apply bind_ok in H1 as (x2 & Hx & H1). apply bind_ok in H1 as (ms & Hm & H1). injection H1 as <-. exists x2. cbn [fst snd].
    split; [exact Hx|]. split; [reflexivity|]. apply mapM_F2 in Hm. clear -Hm. induction Hm as [|p m l ms H1 H2 IH]; constructor; [|exact IH]. unfold ucs_critical in H1. apply bind_ok in H1 as (u & Hu & H1). eauto. }
  clear Hf. split.
  - intros p. rewrite in_concat. split.
    + intros (l & Hl & Hp). apply in_map_iff in Hl as (f & <- & Hin). apply In_nth_error in Hin as (q & Hin). destruct (Forall2_nth_error _ _ _ HF _ _ Hin) as (wc & Ewc & x2 & Hx & Ef & _).
      apply nth_error_In in Ewc. apply in_flat_map in Ewc as (row & Hrow & Ewc). apply in_map_iff in Ewc as (c & <- & Hcc). cbn [fst snd] in *. exists row, c, x2. split; [exact Hrow|]. split; [apply Hco; exact Hcc|].
      split; [apply mapM_F2; exact Hx|]. rewrite Ef in Hp. exact (proj1 (C31_intersection_iff la _ _ p L) Hp).
    + intros (row & c & x2 & Hrow & Hcc & Hx & Hp). apply Hco in Hcc. apply (C31_intersection_iff la _ _ p L) in Hp.
      assert (Hin : In (row, c) (flat_map (fun wn => map (fun c => (wn, c)) coeffs) rows)) by (apply in_flat_map; exists row; split; [exact Hrow|apply in_map_iff; eauto]).
      apply mapM_F2 in Hx. clear -HF Hin Hx Hp. induction HF as [|wc f l found (x2' & Hx' & Ef & _) H2 IH]; [destruct Hin|]. destruct Hin as [-> |Hin].
      * cbn [fst snd] in *. assert (x2' = x2) by congruence. subst x2'. exists (fst f). split; [left; reflexivity|]. rewrite Ef. exact Hp.
      * destruct (IH Hin) as (l0 & Hl0 & Hp0). exists l0. split; [right; exact Hl0|exact Hp0].
  - clear -HF. induction HF as [|wc f l found (x2' & _ & _ & Hm) H2 IH]; cbn [map concat]; [constructor|]. apply Forall2_app; auto.
Qed.

(** Not every rotor can be analysed. With a bearing at a node beyond the shaft (a support) the analysis raises ValueError. *)
Theorem C74_support_refuted : forall sh dk br pm mn mx rt tag ro k, robj_init sh dk br pm mn mx rt tag = Ok ro -> r_nd (ro_val ro) = 4%nat ->
  (exists o, In o (ro_br ro) /\ is_seal o = false /\ (r_n_last (ro_val ro) + 1 < ob_n o)%nat) ->
  ucs_rotor ro k = Err ValueError /\
  forall la eigs eig2 spl range frange nm num sync, (0 < num)%nat -> is_ok (ucs_range spl ro range) -> run_ucs la eigs eig2 spl ro range frange nm num sync = Err ValueError.
Proof.
  intros sh dk br pm mn mx rt tag ro k Hro Hnd (o & Ho & Hs & Hn).
  assert (G : forall k, ucs_rotor ro k = Err ValueError).
  { clear k. intros k. unfold ucs_rotor. destruct (mapM_ok (fun o => spring (ob_n o) k) (ucs_bearings ro)) as [brs Hb].
    - intros x _. unfold spring. destruct (init_spring (ob_n x) k 0 0) as (s & -> & _). eexists. reflexivity.
    - rewrite Hb. cbn [bind]. apply mapM_springs in Hb. apply (beyond _ _ _ _ _ _ _ _ _ Hro brs Hnd).
      + intros b Hin. apply In_nth_error in Hin as (q & Hin). destruct (Forall2_nth_error _ _ _ Hb _ _ Hin) as (x & _ & s & -> & _). eexists _, _. reflexivity.
      + assert (Hin : In o (ucs_bearings ro)) by (apply filter_In; rewrite Hs; auto). clear -Hb Hin Hn. induction Hb as [|x b l brs (s & -> & N & _) H2 IH]; [destruct Hin|]. destruct Hin as [-> |Hin].
        * exists (OBearing s). split; [left; reflexivity|]. unfold ob_n at 1. cbn [brg_of]. lia.
        * destruct (IH Hin) as (o' & Ho' & Hn'). exists o'. split; [right; exact Ho'|exact Hn']. }
  split; [apply G|]. intros la eigs eig2 spl range frange nm num sync Hnum [sr Hsr]. unfold run_ucs. rewrite Hsr. cbn [bind]. cbv zeta. destruct num as [|num]; [lia|].
  unfold logspace, linspace. cbn [seq map mapM]. unfold ucs_column at 1. rewrite G. reflexivity.
Qed.
(** And if num_modes // 2 is odd and at least 3 (num_modes = 6, 10, 14, ...) it raises, whenever the modal analysis finds the modes it was asked for. *)
Theorem C74_odd_modes_refuted : forall la eigs eig2 spl ro range frange nm num sync sr u m, (0 < num)%nat -> ucs_range spl ro range = Ok sr -> ucs_rotor ro (Rpower 10 (fst sr)) = Ok u ->
  fst (run_modal la eigs eig2 spl (ro_val u) 0 nm true sync None) = Ok m -> length (mo_wn m) = (nm / 2)%nat -> Nat.odd (nm / 2) = true -> (3 <= nm / 2)%nat ->
  run_ucs la eigs eig2 spl ro range frange nm num sync = Err ValueError.
Proof.
  intros la eigs eig2 spl ro range frange nm num sync sr u m Hnum Hsr Hu Hm Hl Ho H3. unfold run_ucs. rewrite Hsr. cbn [bind]. cbv zeta. destruct num as [|num]; [lia|].
  unfold logspace, linspace. cbn [seq map mapM]. unfold ucs_column at 1. replace (fst sr + INR 0 * ((snd sr - fst sr) / INR (S num - 1))) with (fst sr) by (simpl (INR 0); lra). rewrite Hu. cbn [bind]. rewrite Hm. cbn [bind].
  assert (E : fill (nm / 2 / 2) (evens (mo_wn m)) = Err ValueError).
  { apply Nat.odd_spec in Ho as (q & Hq). rewrite Hq in *. assert (Le : List.length (evens (mo_wn m)) = S q) by (rewrite evens_length, Hl; replace (2 * q + 1 + 1)%nat with (S q * 2)%nat by lia; apply Nat.div_mul; lia).
    assert (Lq : ((2 * q + 1) / 2 = q)%nat) by (replace (2 * q + 1)%nat with (1 + q * 2)%nat by lia; rewrite Nat.div_add by lia; reflexivity).
    unfold fill. rewrite Le, Lq. destruct (Nat.eqb_spec (S q) q); [lia|]. destruct (evens (mo_wn m)) as [|x [|y l]]; cbn [List.length] in Le; try reflexivity; lia. }
  rewrite E. reflexivity.
Qed.

(** ** Concrete rotors *)
Definition BRU := [OBearing (brg0 0 None "b0"); OSeal (seal0 1 "b1"); OBearing (brg0 2 None "b2")].
Definition BRL := [OBearing (brg0 0 None "b0"); OBearing (brg0 2 None "b2")].
Lemma fits l : (forall b, In b (map to_rbrg l) -> exists sl s, b = RB4 sl s /\ (b_n s <= 2)%nat /\ b_n_link s = None) -> NoDup (map brg_n (map to_rbrg l)) -> on_shaft (map to_rbrg l).
Proof. split; assumption. Qed.
Ltac fit := apply fits; [intros b Hb; ins; eexists _, _; (split; [reflexivity|]); (split; [cbn; lia|reflexivity])|cbn; repeat constructor; cbn; intuition discriminate].
Ltac names := apply tags_unique_iff; reflexivity.
Lemma rotor_U rt : exists ro, robj_init SH DK BRU [] None None rt None = Ok ro /\ r_n_last (ro_val ro) = 1%nat /\ r_nd (ro_val ro) = 4%nat /\ ro_sh ro = SH /\ ro_dk ro = DK /\ ro_br ro = BRU /\ ro_rated ro = rt.
Proof.
  destruct (plain_init BRU ["b0"; "b1"; "b2"]%string) with (mn := @None R) (mx := @None R) (rt := rt) (tag := @None string) as (ro & H & El & En & _); [fit|reflexivity|names|].
  exists ro. split; [exact H|]. split; [exact El|]. split; [exact En|]. unfold robj_init in H. destruct (rotor_init _ _ _ _); [|discriminate]. injection H as <-. repeat split; reflexivity.
Qed.
Lemma ucs_U ro k : ro_sh ro = SH -> ro_dk ro = DK -> ro_br ro = BRU -> exists u, ucs_rotor ro k = Ok u /\ forall eig2 spl w nm, (2 <= nm)%nat -> (nm <= 48)%nat ->
  exists m st, run_modal la0 eigsC eig2 spl (ro_val u) w nm true false None = (Ok m, st) /\ mo_wn m = repeat 1 (nm / 2).
Proof.
  intros Es Ed Eb. unfold ucs_rotor, ucs_bearings. rewrite Es, Ed, Eb. cbn [filter BRU is_seal negb mapM]. unfold spring.
  change (ob_n (OBearing (brg0 0 None "b0"))) with 0%nat. change (ob_n (OBearing (brg0 2 None "b2"))) with 2%nat.
  destruct (init_spring 0 k 0 0) as (s1 & -> & N1 & L1 & T1 & _ & E1). destruct (init_spring 2 k 0 0) as (s2 & -> & N2 & L2 & T2 & _ & E2). cbn [bind].
  destruct (plain_init [OBearing s1; OBearing s2] ["Bearing 0"; "Bearing 1"]%string) with (mn := @None R) (mx := @None R) (rt := @None R) (tag := @None string) as (u & H & El & En & Hr & Hk & Hp & Hb & Hs & Hd).
  - apply fits.
    + intros b Hb; ins; eexists _, _; (split; [reflexivity|]); (split; [cbn [brg_of]; lia|assumption]).
    + cbn [map to_rbrg]. unfold brg_n. cbn [brg_base brg_of]. rewrite N1, N2. repeat constructor; cbn; intuition discriminate.
  - cbn [map to_rbrg mapi tagged brg_of b_tag bearing_with brg_base]. rewrite T1, T2. reflexivity.
  - names.
  - exists u. split; [exact H|]. intros eig2 spl w nm Hn Hn'. destruct (modal_C _ u _ _ _ _ eig2 spl w nm Hn Hn' H Hr Hk Hp Hs Hd) as (m & st & Hm & Hw & _); [|exists m, st; split; assumption].
    intros e He. rewrite Hb in He. apply (Permutation_in _ (sort_n_perm _)) in He. cbn [map mapi] in He.
    destruct He as [<-|[<-|[]]]; eapply plain_good; (split; [eassumption|split; [assumption|intros; rewrite ?E1, ?E2; reflexivity]]).
Qed.
Lemma mapM_const {A B} (f : A -> res B) b l : (forall a, In a l -> f a = Ok b) -> mapM f l = Ok (repeat b (List.length l)).
Proof. induction l as [|a l IH]; intros H; [reflexivity|]. cbn [mapM]. rewrite (H a) by (left; reflexivity). cbn [bind]. rewrite IH by (intros; apply H; right; auto). reflexivity. Qed.

(** the rotor of two bearings and a seal is analysed, and the stiffness of the first bearing is found where the lowest curve crosses it *)
Example C74_instance : forall eig2 spl, linalg_ok la0 /\ exists ro res, robj_init SH DK BRU [] None None (Some 400) None = Ok ro /\ r_nd (ro_val ro) = 4%nat /\ length (bearing_nodes ro) = 2%nat /\
  (forall k, is_ok (ucs_rotor ro k)) /\ is_ok (ucs_range spl ro None) /\ run_ucs la0 eigsC eig2 spl ro (Some (0, 6)) (Some (1, 2)) 16 2 false = Ok res /\ length (uc_wn res) = 4%nat /\ In (1000, 1) (uc_points res).
Proof.
  intros eig2 spl. split; [apply la0_ok|]. destruct (rotor_U (Some 400)) as (ro & Hro & _ & Hnd & Es & Ed & Eb & Er). exists ro.
  assert (U : forall k, exists u, ucs_rotor ro k = Ok u /\ forall eig2 spl w nm, (2 <= nm)%nat -> (nm <= 48)%nat -> exists m st, run_modal la0 eigsC eig2 spl (ro_val u) w nm true false None = (Ok m, st) /\ mo_wn m = repeat 1 (nm / 2)) by (intros k; apply ucs_U; assumption).
  assert (Cl : forall k, ucs_column la0 eigsC eig2 spl ro 16 false k = Ok [1; 1; 1; 1]).
  { intros k. unfold ucs_column. destruct (U k) as (u & -> & Hm). destruct (Hm eig2 spl 0 16%nat ltac:(lia) ltac:(lia)) as (m & st & Hr & Hw). cbn [bind]. rewrite Hr. cbn [bind fst]. rewrite Hw. reflexivity. }
  assert (Rn : exists res, run_ucs la0 eigsC eig2 spl ro (Some (0, 6)) (Some (1, 2)) 16 2 false = Ok res /\ uc_wn res = [[1; 1]; [1; 1]; [1; 1]; [1; 1]] /\ uc_log res = logspace 0 6 2 /\ uc_freq res = linspace 1 2 30 /\ uc_bearing0 res = OBearing (brg0 0 None "b0")).
  { unfold run_ucs. cbn [ucs_range bind fst snd]. cbv zeta. rewrite (mapM_const _ [1; 1; 1; 1]) by (intros; apply Cl). cbn [bind]. unfold ucs_bearings. rewrite Eb. cbn [filter BRU is_seal negb item nth_error bind].
    match goal with |- context [mapM ?f ?l] => destruct (mapM_ok f l) as [found Hf] end.
    - intros [row c] _. cbn [fst snd]. match goal with |- context [mapM ?f ?l] => destruct (mapM_ok f l) as [x2 Hx] end; [intros f _; destruct c; eexists; reflexivity|]. rewrite Hx. cbn [bind].
      match goal with |- context [mapM ?f ?l] => destruct (mapM_ok f l) as [ms Hms] end; [|rewrite Hms; eexists; reflexivity]. intros p _. unfold ucs_critical. destruct (U (fst p)) as (u & -> & Hm).
      destruct (Hm eig2 spl (snd p) 12%nat ltac:(lia) ltac:(lia)) as (m & st & Hr & _). cbn [bind]. rewrite Hr. eexists. reflexivity.
    - rewrite Hf. cbn [bind]. eexists. split; [reflexivity|]. cbn [uc_wn uc_log uc_freq uc_bearing0]. repeat split; reflexivity. }
  destruct Rn as (res & Hres & Ew & Elog & Ef & E0). exists res. split; [exact Hro|]. split; [exact Hnd|]. split; [unfold bearing_nodes; rewrite Eb; reflexivity|].
  split; [intros k; destruct (U k) as (u & Hu & _); eexists; exact Hu|]. split.
  { unfold ucs_range. rewrite Er, Eb. cbn [BRU item nth_error bind]. change (eval_coef spl (brg_of (OBearing (brg0 0 None "b0"))) kxx 400) with (Ok 1000). cbn [bind]. destruct (Rlt_dec 0 1000); [eexists; reflexivity|lra]. }
  split; [exact Hres|]. split; [rewrite Ew; reflexivity|]. apply (proj1 (proj2 (C74_points _ _ _ _ _ _ _ _ _ _ _ la0_ok Hres))).
  exists [1; 1], kxx, (repeat 1000 30). rewrite Ew, Elog, Ef, E0. split; [left; reflexivity|]. split; [left; reflexivity|]. split.
  { unfold linspace. assert (G : forall l, Forall2 (fun f x => eval_coef spl (brg_of (OBearing (brg0 0 None "b0"))) kxx f = Ok x) l (repeat 1000 (List.length l))) by (induction l; constructor; [reflexivity|assumption]).
    specialize (G (linspace 1 2 30)). rewrite linspace_length in G. exact G. }
  exists (1, 1), (1000000, 1), (1000, 1), (1000, 1 + 1 / 29).
  assert (P0 : Rpower 10 0 = 1) by (apply Rpower_O; lra). assert (P6 : Rpower 10 6 = 1000000) by (change 6 with (INR 6 + 0) || replace 6 with (INR 6) by (simpl; lra); rewrite Rpower_pow by lra; lra).
  assert (L2 : logspace 0 6 2 = [1; 1000000]) by (unfold logspace, linspace; cbn [seq map]; f_equal; [rewrite <- P0; f_equal; simpl; lra|f_equal; rewrite <- P6; f_equal; simpl; lra]).
  rewrite L2. split; [exists [], []; reflexivity|]. split.
  { exists []. eexists. unfold linspace. cbn [seq map repeat combine app]. f_equal; [f_equal; simpl; lra|]. f_equal. f_equal. simpl. lra. }
  split; [unfold parallel; cbn [fst snd]; lra|]. split.
  - exists (999 / 999999). cbn [fst snd]. repeat split; lra.
  - exists 0. cbn [fst snd]. repeat split; lra.
Qed.

(** the rotor of PropSave has a support; the rotor above asked for 6 modes *)
Example C74_refuted_instance : forall eig2 spl, (exists ro, robj_init SH DK BR PM None None None None = Ok ro /\ r_nd (ro_val ro) = 4%nat /\ (exists o, In o (ro_br ro) /\ is_seal o = false /\ (r_n_last (ro_val ro) + 1 < ob_n o)%nat) /\
    run_ucs la0 eigsC eig2 spl ro None None 16 30 false = Err ValueError) /\
  exists ro, robj_init SH DK BRU [] None None None None = Ok ro /\ run_ucs la0 eigsC eig2 spl ro None None 6 30 false = Err ValueError.
Proof.
  intros eig2 spl. split.
  - destruct (init_ok _ _ _ _ _ wf0) as (r & H & El & _). assert (Hro : exists ro, robj_init SH DK BR PM None None None None = Ok ro /\ ro_val ro = r /\ ro_br ro = BR) by (unfold robj_init; rewrite H; eexists; repeat split; reflexivity).
    destruct Hro as (ro & Hro & Ev & Eb). exists ro. split; [exact Hro|].
    assert (Hnd : r_nd (ro_val ro) = 4%nat).
    { rewrite Ev. pose proof (rotor_facts _ _ _ _ _ H) as F. destruct (rotor_init_lists _ _ _ _ _ H) as (Es & _). eapply (el_fam_nd r false); [exact F|rewrite Es; left; reflexivity]. }
    assert (Hs : exists o, In o (ro_br ro) /\ is_seal o = false /\ (r_n_last (ro_val ro) + 1 < ob_n o)%nat).
    { exists (OBearing (brg0 3 None "b2")). rewrite Eb, Ev, El. split; [right; right; left; reflexivity|]. split; [reflexivity|]. cbn. lia. }
    split; [exact Hnd|]. split; [exact Hs|]. apply (proj2 (C74_support_refuted _ _ _ _ _ _ _ _ _ 0 Hro Hnd Hs)); [lia|].
    unfold ucs_range. unfold robj_init in Hro. rewrite H in Hro. injection Hro as <-. eexists. reflexivity.
  - destruct (rotor_U None) as (ro & Hro & _ & Hnd & Es & Ed & Eb & Er). exists ro. split; [exact Hro|].
    assert (Hsr : ucs_range spl ro None = Ok (6, 11)) by (unfold ucs_range; rewrite Er; reflexivity). destruct (ucs_U ro (Rpower 10 (fst (6, 11))) Es Ed Eb) as (u & Hu & Hm). destruct (Hm eig2 spl 0 6%nat ltac:(lia) ltac:(lia)) as (m & st & Hr & Hw).
    apply (C74_odd_modes_refuted _ _ _ _ _ _ _ _ _ _ (6, 11) u m); [lia|exact Hsr|exact Hu|rewrite Hr; reflexivity|rewrite Hw; reflexivity|reflexivity|cbn; lia].
Qed.

(** * C75 *)
(** Without a stiffness range the analysis always raises: bearing.kxx is a list with a rated speed, and there is no speed without one. *)
Theorem C75_default_refuted : forall la eigs eig2 spl ro n num st, exists e, fst (run_level1 la eigs eig2 spl ro n None num st) = Err e.
Proof.
  intros la eigs eig2 spl ro n num st. unfold run_level1, sbind, sres. destruct (ro_rated ro) as [w|].
  - destruct (item (ro_br ro) 0); cbn [bind fst]; eauto.
  - cbn [fst]. eauto.
Qed.
(** With one: num cross-coupling values, evenly spaced on a linear scale, and for each the log. decrement of the first mode that is not backward of
    the rotor with that cross coupling, at rated speed. *)
Theorem C75_entries : forall la eigs eig2 spl ro n range num st Qs ld st', run_level1 la eigs eig2 spl ro n range num st = (Ok (Qs, ld), st') ->
  exists a b w, range = Some (a, b) /\ ro_rated ro = Some w /\ length Qs = num /\ length ld = num /\
  forall i, (i < num)%nat -> exists u m x, nth_error Qs i = Some (evenly a b num i) /\ level1_rotor ro n (evenly a b num i) = Ok u /\
    fst (run_modal la eigs eig2 spl (ro_val u) w 12 true false None) = Ok m /\ nth_error ld i = Some x /\ first_not_backward m x.
Proof.
  intros la eigs eig2 spl ro n range num st Qs ld st' H. unfold run_level1 in H. apply sbind_ok in H as (sr & s1 & Hsr & H). apply sres_ok in Hsr as (Hsr & ->). cbv zeta in H.
  apply sbind_ok in H as (w & s2 & Hw & H). apply sres_ok in Hw as (Hw & ->). apply sbind_ok in H as (m0 & s3 & _ & H). apply sbind_ok in H as (ld' & s4 & Hld & H). apply sres_ok in Hld as (Hld & ->). injection H as <- <- <-.
  destruct (ro_rated ro) as [w'|]; [|discriminate]. injection Hw as ->. destruct range as [[a b]|]; [|apply bind_ok in Hsr as (? & _ & ?); discriminate]. injection Hsr as <-. cbn [fst snd] in *.
  exists a, b, w. split; [reflexivity|]. split; [reflexivity|]. split; [apply linspace_length|]. split; [rewrite (mapM_length _ _ _ Hld); apply linspace_length|]. intros i Hi.
  pose proof (linspace_nth a b num i Hi) as El. destruct (mapM_nth_error _ _ _ _ _ Hld El) as (x & Ex & Hx). apply bind_ok in Hx as (u & Hu & Hx). apply bind_ok in Hx as (m & Hm & Hx). exists u, m, x.
  repeat (split; [assumption|]). unfold first_forward in Hx. apply item_ok in Hx. unfold first_not_backward.
  assert (G : forall (wh : list whirl) (l : list R), nth_error (select (map (fun w => negb (whirl_eqb w Backward)) wh) l) 0 = Some x ->
    exists k w, nth_error wh k = Some w /\ w <> Backward /\ (forall j w', (j < k)%nat -> nth_error wh j = Some w' -> w' = Backward) /\ nth_error l k = Some x).
  { clear. induction wh as [|w0 wh IH]; intros l Hx; [discriminate|]. destruct l as [|y l]; [discriminate|]. unfold select in Hx. cbn [map combine filter fst snd] in Hx. destruct (whirl_eqb w0 Backward) eqn:E; cbn [negb] in Hx.
    - destruct (IH l Hx) as (k & w & H1 & H2 & H3 & H4). exists (S k), w. do 2 (split; [auto|]). split; [|exact H4]. intros [|j] w' Hj Hw'; [injection Hw' as <-; destruct w0; try discriminate; reflexivity|]. apply (H3 j); [lia|exact Hw'].
    - cbn [map snd nth_error] in Hx. injection Hx as ->. exists 0%nat, w0. split; [reflexivity|]. split; [intros ->; discriminate|]. split; [intros j w' Hj; lia|reflexivity]. }
  exact (G _ _ Hx).
Qed.
(** The rotor with the cross coupling: the same matrices, except for Q at (x, y) and -Q at (y, x) of node n in the stiffness matrix. *)
Theorem C75_rotor : forall sh dk br pm mn mx rt tag ro n Q u spl w, robj_init sh dk br pm mn mx rt tag = Ok ro -> r_nd (ro_val ro) = 4%nat -> r_pm (ro_val ro) = [] -> level1_rotor ro n Q = Ok u ->
  r_ndof (ro_val u) = r_ndof (ro_val ro) /\
  (forall K K', rotor_K spl (ro_val ro) w [] = Ok K -> rotor_K spl (ro_val u) w [] = Ok K' -> forall i j, K' i j = K i j + cross_at Q n i j) /\
  (forall D D', rotor_C spl (ro_val ro) w [] = Ok D -> rotor_C spl (ro_val u) w [] = Ok D' -> forall i j, D' i j = D i j) /\
  (forall M M', rotor_M spl (ro_val ro) (Some w) = Ok M -> rotor_M spl (ro_val u) (Some w) = Ok M' -> forall i j, M' i j = M i j) /\
  (forall G G', rotor_G spl (ro_val ro) = Ok G -> rotor_G spl (ro_val u) = Ok G' -> forall i j, G' i j = G i j).
Proof.
  intros sh dk br pm mn mx rt tag ro n Q u spl w Hro Hnd Hpm Hu. split.
  { destruct (level1_ok _ _ _ _ Hu) as (b0 & c & _ & _ & Hi). rewrite (rf_ndof _ (rfacts_ro _ _ _ _ _ _ _ _ _ Hro)), Hpm. cbn [List.length]. rewrite Nat.mul_0_r, Nat.add_0_r. apply (again_sizes _ _ _ _ _ _ _ _ _ Hro _ _ Hi). }
  assert (Z : forall a b, (a < 2)%nat -> (b < 2)%nat -> lmat [[0; 0]; [0; 0]] a b = 0) by (intros [|[|a]] [|[|b]] Ha Hb; try lia; reflexivity).
  split; [|split; [|split]].
  - intros K K' HK HK' i j. unfold rotor_K in HK, HK'. rewrite kept_nil in HK, HK'.
    destruct (crossed _ _ _ _ _ _ _ _ _ Hro n Q u spl w _ _ _ Hnd Hpm Hu (is_K spl w) (kp_K _ Fn_keeps spl w) HK' HK) as (t & sl & s & P & E). rewrite E. f_equal.
    unfold el_size, el_mat. rewrite (plain_K _ _ _ _ _ _ _ P). cbn [fst snd]. rewrite contribution2. unfold cross_at, lmat. cbn [nth].
    destruct (Nat.eqb_spec i (4 * n)), (Nat.eqb_spec i (4 * n + 1)), (Nat.eqb_spec j (4 * n)), (Nat.eqb_spec j (4 * n + 1)); cbn [andb]; try lia; lra.
  - intros D D' HD HD' i j. unfold rotor_C in HD, HD'. rewrite kept_nil in HD, HD'.
    destruct (crossed _ _ _ _ _ _ _ _ _ Hro n Q u spl w _ _ _ Hnd Hpm Hu (is_C spl w) (kp_C _ Fn_keeps spl w) HD' HD) as (t & sl & s & P & E). rewrite E.
    unfold el_size, el_mat. rewrite (plain_C _ _ _ _ _ _ _ P). cbn [fst snd]. rewrite contribution_zero by exact Z. lra.
  - intros M M' HM HM' i j.
    destruct (crossed _ _ _ _ _ _ _ _ _ Hro n Q u spl w _ _ _ Hnd Hpm Hu (is_M spl w) (kp_M _ Fn_keeps spl w) HM' HM) as (t & sl & s & P & E). rewrite E.
    unfold el_size, el_mat. rewrite (plain_M _ _ _ _ _ _ _ P). cbn [fst snd]. rewrite contribution_zero by exact Z. lra.
  - intros G G' HG HG' i j.
    destruct (crossed _ _ _ _ _ _ _ _ _ Hro n Q u spl w _ _ _ Hnd Hpm Hu (is_G spl w) (kp_G _ Fn_keeps spl) HG' HG) as (t & sl & s & P & E). rewrite E.
    unfold el_size, el_mat. rewrite (plain_G _ _ _ _ _ _ _ P). cbn [fst snd]. rewrite contribution_zero by reflexivity. lra.
Qed.
(** It raises when the first bearing is of a class with other parameters (ball, roller, magnetic, cylindrical, fluid film), and when a bearing or the
    cross coupling is at a node beyond the shaft. *)
Theorem C75_raises : forall ro n Q, (forall b0 rest, ro_br ro = b0 :: rest -> match b0 with OBearing _ | OSeal _ => False | _ => True end -> level1_rotor ro n Q = Err TypeError) /\
  (forall sh dk br pm mn mx rt tag, robj_init sh dk br pm mn mx rt tag = Ok ro -> r_nd (ro_val ro) = 4%nat -> is_ok (bind (item (ro_br ro) 0) (fun b0 => cross_coupling b0 n Q)) ->
     (r_n_last (ro_val ro) + 1 < n)%nat \/ (exists o, In o (ro_br ro) /\ (r_n_last (ro_val ro) + 1 < ob_n o)%nat) -> level1_rotor ro n Q = Err ValueError).
Proof.
  intros ro n Q. split.
  - intros b0 rest E H. unfold level1_rotor. rewrite E. cbn [item nth_error bind]. destruct b0; try contradiction; reflexivity.
  - intros sh dk br pm mn mx rt tag Hro Hnd [c Hc] Hb. apply bind_ok in Hc as (b0 & Hb0 & Hc). unfold level1_rotor. rewrite Hb0. cbn [bind]. rewrite Hc. cbn [bind].
    destruct (cross_plain _ _ _ _ Hc) as (sl & s & Es & En & _). apply (beyond _ _ _ _ _ _ _ _ _ Hro _ Hnd).
    + intros o Ho. apply in_app_or in Ho as [Ho|[<-|[]]]; [|eauto].
      pose proof (rfacts_ro _ _ _ _ _ _ _ _ _ Hro) as F.
      assert (Hin : In (mk_brg 0 (to_rbrg o)) (map Fn (r_brg (ro_val ro))) \/ exists i, In (mk_brg i (to_rbrg o)) (map Fn (r_brg (ro_val ro)))).
      { right. rewrite <- (named_brgs _ _ _ _ _ _ _ _ _ Hro 0). clear -Ho. revert Ho. generalize 0%nat. induction (ro_br ro) as [|x l IH]; intros i []; cbn [map mapi].
        - subst x. exists i. left. reflexivity. - destruct (IH (S i) H) as (j & Hj). exists j. right. exact Hj. }
      assert (X : exists i, In (mk_brg i (to_rbrg o)) (map Fn (r_brg (ro_val ro)))) by (destruct Hin; eauto). destruct X as (i & X). apply in_map_iff in X as (e & Ee & He).
      assert (Hel : In e (r_elements (ro_val ro))) by (unfold r_elements; rewrite !in_app_iff; auto). apply (rf_fam _ F) in Hel. destruct (rf_brg _ F e He) as (t & b & ->). rewrite Hnd in Hel.
      destruct b as [sl' b|b]; [|cbn [el_fam] in Hel; unfold fam in Hel; discriminate]. cbn [Fn] in Ee. unfold mk_brg in Ee. destruct (to_rbrg o) as [sl2 b2|b2]; [eauto|discriminate].
    + destruct Hb as [Hb|(o & Ho & Hb)]; [exists c; split; [apply in_or_app; right; left; reflexivity|lia]|exists o; split; [apply in_or_app; left; exact Ho|exact Hb]].
Qed.

Lemma lvl_L ro Q : ro_sh ro = SH -> ro_dk ro = DK -> ro_br ro = BRL -> exists u, level1_rotor ro 1 Q = Ok u /\ forall eig2 spl w, eig2_ok eig2 ->
  exists m st, run_modal la0 eigsC eig2 spl (ro_val u) w 12 true false None = (Ok m, st) /\ first_forward m = Ok 0.
Proof.
  intros Es Ed Eb. unfold level1_rotor. rewrite Es, Ed, Eb. cbn [BRL item nth_error bind cross_coupling app]. destruct (init_spring 1 0 Q (- Q)) as (s1 & -> & N1 & L1 & T1 & _ & E1). cbn [bind].
  destruct (plain_init [OBearing (brg0 0 None "b0"); OBearing (brg0 2 None "b2"); OBearing s1] ["b0"; "b2"; "Bearing 2"]%string) with (mn := @None R) (mx := @None R) (rt := @None R) (tag := @None string) as (u & H & El & En & Hr & Hk & Hp & Hb & Hs & Hd).
  - apply fits.
    + intros b Hb; ins; eexists _, _; (split; [reflexivity|]); (split; [|first [assumption|reflexivity]]); try (cbn; lia).
    + cbn [map to_rbrg]. unfold brg_n at 3. cbn [brg_base brg_of]. rewrite N1. repeat constructor; cbn; intuition discriminate.
  - cbn [map to_rbrg mapi tagged brg_of b_tag bearing_with brg_base]. rewrite T1. reflexivity.
  - names.
  - exists u. split; [exact H|]. intros eig2 spl w E2. destruct (modal_C _ u _ _ _ _ eig2 spl w 12 ltac:(lia) ltac:(lia) H Hr Hk Hp Hs Hd) as (m & st & Hm & _ & Hl & Hw).
    + intros e He. rewrite Hb in He. apply (Permutation_in _ (sort_n_perm _)) in He. cbn [map mapi to_rbrg] in He.
      destruct He as [<-|[<-|[<-|[]]]]; try apply brg0_good. eapply plain_good; (split; [eassumption|split; [assumption|intros; rewrite E1; reflexivity]]).
    + exists m, st. split; [exact Hm|]. unfold first_forward. rewrite Hl, (Hw E2). reflexivity.
Qed.
Lemma rotor_L rt : exists ro, robj_init SH DK BRL [] None None rt None = Ok ro /\ r_nd (ro_val ro) = 4%nat /\ r_pm (ro_val ro) = [] /\ ro_sh ro = SH /\ ro_dk ro = DK /\ ro_br ro = BRL /\ ro_rated ro = rt /\
  forall eig2 spl w, exists m st', run_modal la0 eigsC eig2 spl (ro_val ro) w 12 true false None = (Ok m, st').
Proof.
  destruct (plain_init BRL ["b0"; "b2"]%string) with (mn := @None R) (mx := @None R) (rt := rt) (tag := @None string) as (ro & H & El & En & Hr & Hk & Hp & Hb & Hs & Hd); [fit|reflexivity|names|].
  exists ro. split; [exact H|]. split; [exact En|]. split; [exact Hp|].
  assert (X : forall eig2 spl w, exists m st', run_modal la0 eigsC eig2 spl (ro_val ro) w 12 true false None = (Ok m, st')).
  { intros eig2 spl w. destruct (modal_C _ ro _ _ _ _ eig2 spl w 12 ltac:(lia) ltac:(lia) H Hr Hk Hp Hs Hd) as (m & st' & Hm & _).
    + intros e He. rewrite Hb in He. apply (Permutation_in _ (sort_n_perm _)) in He. cbn [map mapi to_rbrg BRL] in He. destruct He as [<-|[<-|[]]]; apply brg0_good.
    + exists m, st'. exact Hm. }
  unfold robj_init in H. destruct (rotor_init _ _ _ _); [|discriminate]. injection H as <-. do 4 (split; [reflexivity|]). exact X.
Qed.
(** two bearings, cross coupling at the disk *)
Example C75_instance : forall eig2 spl, eig2_ok eig2 -> exists ro, robj_init SH DK BRL [] None None (Some 400) None = Ok ro /\ r_nd (ro_val ro) = 4%nat /\ r_pm (ro_val ro) = [] /\
  (forall Q, is_ok (level1_rotor ro 1 Q)) /\ exists st', run_level1 la0 eigsC eig2 spl ro 1 (Some (0, 100)) 3 None = (Ok ([0; 50; 100], [0; 0; 0]), st').
Proof.
  intros eig2 spl E2. destruct (rotor_L (Some 400)) as (ro & Hro & Hnd & Hpm & Es & Ed & Eb & Er & X). exists ro. do 3 (split; [assumption|]).
  split; [intros Q; destruct (lvl_L ro Q Es Ed Eb) as (u & Hu & _); eexists; exact Hu|].
  unfold run_level1, sbind, sres, sret. rewrite Er. cbn [fst snd]. destruct (X eig2 spl 400) as (m & st' & ->). cbn [fst snd].
  match goal with |- context [mapM ?f ?l] => assert (Hf : mapM f l = Ok (repeat 0 (List.length l))) end.
  { apply mapM_const. intros Q _. destruct (lvl_L ro Q Es Ed Eb) as (u & -> & Hm). cbn [bind]. destruct (Hm eig2 spl 400 E2) as (m' & st2 & -> & Hf). exact Hf. }
  rewrite Hf. exists st'. do 2 f_equal. unfold linspace. cbn [seq map]. f_equal. f_equal; [simpl; lra|]. f_equal; [simpl; lra|]. f_equal. simpl. lra.
Qed.
(** the first bearing a ball bearing; a support *)
Example C75_raises_instance : forall n Q, (exists ro b0 rest, robj_init SH DK BALLS [] None None (Some 400) None = Ok ro /\ ro_br ro = b0 :: rest /\ level1_rotor ro n Q = Err TypeError) /\
  exists ro, robj_init SH DK BR PM None None (Some 400) None = Ok ro /\ level1_rotor ro n Q = Err ValueError.
Proof.
  intros n Q. split.
  - destruct (robj_ok _ _ _ _ None None (Some 400) None _ (wf_balls BALLS (or_introl eq_refl))) as (r & H). exists r. assert (Eb : ro_br r = BALLS) by (unfold robj_init in H; destruct (rotor_init _ _ _ _); [injection H as <-; reflexivity|discriminate]).
    rewrite Eb. eexists _, _. split; [exact H|]. split; [reflexivity|]. eapply (proj1 (C75_raises r n Q)); [exact Eb|exact I].
  - destruct (init_ok _ _ _ _ _ wf0) as (r & H & El & _). assert (Hro : exists ro, robj_init SH DK BR PM None None (Some 400) None = Ok ro /\ ro_val ro = r /\ ro_br ro = BR) by (unfold robj_init; rewrite H; eexists; repeat split; reflexivity).
    destruct Hro as (ro & Hro & Ev & Eb). exists ro. split; [exact Hro|]. eapply (proj2 (C75_raises ro n Q)); [exact Hro| | |].
    + rewrite Ev. pose proof (rotor_facts _ _ _ _ _ H) as F. destruct (rotor_init_lists _ _ _ _ _ H) as (Es & _). eapply (el_fam_nd r false); [exact F|rewrite Es; left; reflexivity].
    + rewrite Eb. cbn [BR item nth_error bind cross_coupling]. eexists. reflexivity.
    + right. exists (OBearing (brg0 3 None "b2")). rewrite Eb, Ev, El. split; [right; right; left; reflexivity|]. cbn. lia.
Qed.

Print Assumptions C74_rotor.
Print Assumptions C74_map.
Print Assumptions C74_default_range.
Print Assumptions C74_points.
Print Assumptions C74_support_refuted.
Print Assumptions C74_odd_modes_refuted.
Print Assumptions C75_default_refuted.
Print Assumptions C75_entries.
Print Assumptions C75_rotor.
Print Assumptions C75_raises.
