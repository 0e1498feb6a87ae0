(** C38, C65, C66: mode shapes, bending moments, modal quantities. *)
From Coq Require Import Reals String List Arith ZArith Bool Lia Lra Psatz Permutation.
From Coquelicot Require Import Complex.
From Verif Require Import PyBase MatBase LMat CMat MMaterial MShaft MDisk MBearing MRotor SpecRotor LAssembly LRotor LRotor2 LRotor3 LRotor4 LRotorInit LRotorInit2 LRotor6 LRotor7 LShaftEx LRotorEx
  MDynamics MFault MResults SpecResults LFault LResults LResults2 LResults3 LResults4 LResults5 LResults6.
Import ListNotations.
Open Scope list_scope.
Open Scope string_scope.
Open Scope R_scope.

(** ** C38: on every shaft element the line of a shape follows the cubics that match displacement and slope at both ends.
    The slope of x is the rotation about y (dof nd/2 + 1); the slope of y is minus the rotation about x (dof nd/2). *)
Theorem C38_element_cubics : forall eig2 shafts disks brgs pms r, rotor_init shafts disks brgs pms = Ok r ->
  (forall k, (k <= r_n_last r)%nat -> exists e, In e (r_shaft r) /\ el_n e = k) -> layers_match r ->
  forall v nz s, rotor_shape eig2 r v nz = Ok s -> forall e, In e (r_shaft r) -> sh_L e <> 0 ->
  let nd := r_nd r in let n := el_n e in let L := sh_L e in
  let x m := Re (sp_evec s (nd * m)%nat) in let y m := Re (sp_evec s (nd * m + 1)%nat) in
  let al m := Re (sp_evec s (nd * m + nd / 2)%nat) in let be m := Re (sp_evec s (nd * m + nd / 2 + 1)%nat) in
  exists a b c d a' b' c' d',
    (cubic a b c d 0 = x n /\ cubic' b c d 0 = be n /\ cubic a b c d L = x (S n) /\ cubic' b c d L = be (S n)) /\
    (cubic a' b' c' d' 0 = y n /\ cubic' b' c' d' 0 = - al n /\ cubic a' b' c' d' L = y (S n) /\ cubic' b' c' d' L = - al (S n)) /\
    forall k, (k < 5)%nat -> let z := L * (INR k / 4) in let i := (5 * n + k)%nat in
      ln_z (sp_line s) i = nth n (r_nodes_pos r) 0 + z /\ ln_x (sp_line s) i = cubic a b c d z /\ ln_y (sp_line s) i = cubic a' b' c' d' z.
Proof.
  intros eig2 shafts disks brgs pms r H Hc HL v nz s Hs e He HLe nd n L x y al be. pose proof (rotor_facts _ _ _ _ _ H) as F.
  assert (O : odd_part nd) by (destruct (rf_nd _ F); [left|right]; auto).
  destruct (hermite_cubic L (x n) (be n) (x (S n)) (be (S n)) HLe) as (a & b & c & d & Q1 & Q2 & Q3 & Q4 & Q5).
  destruct (hermite_cubic L (y n) (- al n) (y (S n)) (- al (S n)) HLe) as (a' & b' & c' & d' & Q1' & Q2' & Q3' & Q4' & Q5').
  exists a, b, c, d, a', b', c', d'. split; [auto|]. split; [auto|]. intros k Hk z i.
  destruct (shape_element eig2 r v nz s e k F Hc HL Hs He Hk) as (E1 & E2 & E3 & _). fold n L nd i in E1, E2, E3.
  split; [exact E3|]. unfold z. change (INR k / 4) with (zeta k). rewrite <- Q5, <- Q5', E1, E2, line_x_re, line_y_re by auto.
  fold (x n) (x (S n)) (y n) (y (S n)) (be n) (be (S n)) (al n) (al (S n)). split; ring.
Qed.
(** the line passes through the nodes: displacement and size of the orbit *)
Theorem C38_through_nodes : forall eig2 shafts disks brgs pms r, rotor_init shafts disks brgs pms = Ok r ->
  (forall k, (k <= r_n_last r)%nat -> exists e, In e (r_shaft r) /\ el_n e = k) -> layers_match r ->
  forall v nz s, rotor_shape eig2 r v nz = Ok s ->
  length (sp_orbits s) = (r_n_last r + 2)%nat /\
  forall n, (n <= r_n_last r)%nat -> forall k m, (k = 0 /\ m = n \/ k = 4 /\ m = n + 1)%nat ->
  let i := (5 * n + k)%nat in
  ln_z (sp_line s) i = nth m (r_nodes_pos r) 0 /\
  ln_x (sp_line s) i = Re (sp_evec s (r_nd r * m)%nat) /\ ln_y (sp_line s) i = Re (sp_evec s (r_nd r * m + 1)%nat) /\
  exists o, nth_error (sp_orbits s) m = Some o /\ o = orbit_init eig2 (sp_evec s (r_nd r * m)%nat) (sp_evec s (r_nd r * m + 1)%nat) /\ ln_major (sp_line s) i = ob_major o.
Proof.
  intros eig2 shafts disks brgs pms r H Hc HL v nz s Hs. pose proof (rotor_facts _ _ _ _ _ H) as F.
  destruct (positions r F Hc HL) as (Pl & _ & Ps & _). destruct (shape_evec eig2 r v nz s Hs) as (_ & _ & Eo). split.
  { rewrite Eo. unfold r_nodes. rewrite map_length, seq_length. exact Pl. }
  intros n Hn k m Hkm i. destruct (Hc n Hn) as (e & He & En).
  assert (Hm : (m <= r_n_last r + 1)%nat) by lia.
  assert (No : nth_error (sp_orbits s) m = Some (orbit_init eig2 (sp_evec s (r_nd r * m)%nat) (sp_evec s (r_nd r * m + 1)%nat))).
  { rewrite Eo. rewrite (map_nth_error _ m (r_nodes r) (d := m)); auto. unfold r_nodes. rewrite Pl.
    rewrite nth_error_nth' with (d := 0%nat) by (rewrite seq_length; lia). rewrite seq_nth by lia. auto. }
  destruct (shape_element eig2 r v nz s e k F Hc HL Hs He ltac:(lia)) as (E1 & E2 & E3 & E4). rewrite En in *. fold i in E1, E2, E3, E4.
  destruct Hkm as [[-> ->]|[-> ->]].
  - rewrite line_x_left, line_y_left in *. rewrite (proj1 zeta_ends), Rmult_0_r, Rplus_0_r in E3. split; [exact E3|]. split; [exact E1|]. split; [exact E2|]. eauto.
  - rewrite line_x_right, line_y_right in *. rewrite (proj2 zeta_ends), Rmult_1_r in E3. rewrite <- (Ps e He), En in E3 || (specialize (Ps e He); rewrite En in Ps; rewrite <- Ps in E3).
    replace (n + 1)%nat with (S n) in * by lia. split; [exact E3|]. split; [exact E1|]. split; [exact E2|]. eauto.
Qed.
(** a rigid motion is drawn as a straight line *)
Theorem C38_rigid_straight : forall eig2 shafts disks brgs pms r, rotor_init shafts disks brgs pms = Ok r ->
  (forall k, (k <= r_n_last r)%nat -> exists e, In e (r_shaft r) /\ el_n e = k) -> layers_match r ->
  forall v s a b p q, rotor_shape eig2 r v false = Ok s ->
  (forall n, (n <= r_n_last r + 1)%nat -> let nd := r_nd r in let z := nth n (r_nodes_pos r) 0 in
     Re (v (nd * n)%nat) = a + z * q /\ Re (v (nd * n + 1)%nat) = b - z * p /\ Re (v (nd * n + nd / 2)%nat) = p /\ Re (v (nd * n + nd / 2 + 1)%nat) = q) ->
  forall i, (i < 5 * (r_n_last r + 1))%nat -> ln_x (sp_line s) i = a + ln_z (sp_line s) i * q /\ ln_y (sp_line s) i = b - ln_z (sp_line s) i * p.
Proof.
  intros eig2 shafts disks brgs pms r H Hc HL v s a b p q Hs Hv i Hi. pose proof (rotor_facts _ _ _ _ _ H) as F.
  assert (O : odd_part (r_nd r)) by (destruct (rf_nd _ F); [left|right]; auto).
  destruct (shape_evec eig2 r v false s Hs) as (Ev & _ & _). destruct (positions r F Hc HL) as (_ & _ & Ps & _).
  pose proof (Nat.div_mod i 5 ltac:(lia)) as D. pose proof (Nat.mod_upper_bound i 5 ltac:(lia)) as Hk. set (n := (i / 5)%nat) in *. set (k := (i mod 5)%nat) in *. rewrite D.
  destruct (Hc n ltac:(lia)) as (e & He & En). destruct (shape_element eig2 r v false s e k F Hc HL Hs He Hk) as (E1 & E2 & E3 & _). rewrite Ev in *.
  specialize (Ps e He). rewrite En in *. rewrite E1, E2, E3, line_x_re, line_y_re by auto.
  destruct (Hv n ltac:(lia)) as (A1 & A2 & A3 & A4). destruct (Hv (S n) ltac:(lia)) as (B1 & B2 & B3 & B4). rewrite A1, A2, A3, A4, B1, B2, B3, B4, Ps.
  unfold N1, N2, N3, N4. split; ring.
Qed.
(** normalize=True divides the vector so that the largest displacement has modulus one *)
Theorem C38_normalized : forall eig2 shafts disks brgs pms r, rotor_init shafts disks brgs pms = Ok r ->
  forall v s, rotor_shape eig2 r v true = Ok s ->
  (exists d, d <> RtoC 0 /\ forall i, v i = (d * sp_evec s i)%C) /\
  (exists i, (i < r_ndof r)%nat /\ (i mod r_nd r = 0 \/ i mod r_nd r = 1)%nat /\ sp_evec s i = RtoC 1) /\
  (forall n c, (n <= r_n_last r + 1)%nat -> (c < 2)%nat -> Cmod (sp_evec s (r_nd r * n + c)%nat) <= 1).
Proof.
  intros eig2 shafts disks brgs pms r H v s Hs. pose proof (rotor_facts _ _ _ _ _ H) as F. destruct (shape_evec eig2 r v true s Hs) as (Ev & Hd & _). specialize (Hd eq_refl).
  rewrite Ev. split; [|split].
  - eexists. split; [exact Hd|]. intros i. cbv beta. field. exact Hd.
  - destruct (scale_entry (r_nd r) (r_ndof r) v) as (i & [Hi Hm] & E).
    + destruct (rf_nd _ F) as [-> | ->]; lia.
    + rewrite (rf_ndof _ F). destruct (rf_nd _ F) as [-> | ->]; lia.
    + exists i. split; [auto|]. split; [auto|]. rewrite <- E. field. exact Hd.
  - intros n c Hn Hc. apply normalized_entry; auto. apply shaft_lateral; auto.
Qed.
(** a mode without lateral motion (an axial or torsional mode) cannot be normalized *)
Theorem C38_normalize_fails_iff : forall eig2 shafts disks brgs pms r, rotor_init shafts disks brgs pms = Ok r -> forall v,
  rotor_shape eig2 r v true = Err ValueError <-> (forall i, (i < r_ndof r)%nat -> (i mod r_nd r = 0 \/ i mod r_nd r = 1)%nat -> v i = RtoC 0).
Proof.
  intros eig2 shafts disks brgs pms r H v. pose proof (rotor_facts _ _ _ _ _ H) as F. pose proof (scale_zero_iff r v F) as Z.
  assert (E : rotor_shape eig2 r v true = Err ValueError <-> scale_of (r_nd r) (r_ndof r) v = RtoC 0).
  { unfold rotor_shape, shape_init. destruct (Req_EM_T _ 0) as [E|N]; cbn [andb].
    - split; auto. intros _. apply Cmod_eq_0; auto.
    - split; [discriminate|]. intros E. exfalso. apply N. rewrite E. apply Cmod_0. }
  rewrite E, Z. split; intros Q i.
  - intros Hi Hm. apply Q. split; auto.
  - intros [Hi Hm]. auto.
Qed.
(** two supports: the second one is left out of the search for the largest displacement *)
Definition twoB := [ex_brg false 0 (Some 3%nat) "b0"; ex_brg false 2 (Some 4%nat) "b1"; ex_brg false 3 None "b2"; ex_brg false 4 None "b3"].
Definition twoP := [ex_pm false 3 "p0"; ex_pm false 4 "p1"].
Lemma two_wf : well_formed (exS false) [] twoB twoP 1.
Proof.
  constructor.
  - exists ["s0"; "s1"; "b0"; "b1"; "b2"; "b3"; "p0"; "p1"]. split; [reflexivity|]. apply tags_unique_iff. reflexivity.
  - exists false. repeat split; unfold exS, twoB; intros x Hx; cases_in; reflexivity.
  - unfold exS. intros s Hs; cases_in; [exists 0%nat|exists 1%nat]; split; try reflexivity; lia.
  - unfold exS. intros [|[|k]] Hk; [|exists (ex_rshaft false 1 "s1")|lia]; [exists (ex_rshaft false 0 "s0")|]; split; simpl; auto.
  - unfold exS. intros s s' Hs Hs'; cases_in; reflexivity.
  - unfold exS. intros s Hs; cases_in; simpl; lra.
  - intros d [].
  - unfold twoB. cbn. repeat (constructor; [simpl; lia|]). constructor.
  - unfold twoB, twoP. intros b Hb; cases_in; rewrite brg_n_ex; [left; lia|left; lia|right|right].
    + split; [exists (ex_pm false 3 "p0"); simpl; auto|]. exists (ex_brg false 0 (Some 3%nat) "b0"). simpl; auto.
    + split; [exists (ex_pm false 4 "p1"); simpl; auto|]. exists (ex_brg false 2 (Some 4%nat) "b1"). simpl; auto.
  - unfold twoB. intros b m Hb; cases_in; rewrite brg_link_ex, brg_n_ex; intros [= <-]; lia.
  - unfold twoP, twoB. intros p Hp; cases_in; [exists (ex_brg false 3 None "b2")|exists (ex_brg false 4 None "b3")]; simpl; auto 6.
Qed.
Theorem C38_normalize_supports_refuted : forall eig2, exists shafts disks brgs pms r v s n, rotor_init shafts disks brgs pms = Ok r /\
  (n < r_n_last r + 2 + length (r_pm r))%nat /\ rotor_shape eig2 r v true = Ok s /\ Cmod (sp_evec s (node_start (r_nd r) (r_n_last r) n)) = 2.
Proof.
  intros eig2. destruct (init_ok _ _ _ _ _ two_wf) as (r & H & E & Hl & Hc & _). pose proof (rotor_facts _ _ _ _ _ H) as F.
  destruct (rotor_init_lists _ _ _ _ _ H) as (Es & _ & Eb & Ep).
  assert (Hnd : r_nd r = 4%nat) by (apply (el_fam_nd r false 0 "s0" (ex_shaft 0 "s0")); [exact F|rewrite Es; left; reflexivity]).
  assert (Ep' : length (r_pm r) = 2%nat) by (rewrite Ep; reflexivity).
  assert (Hn : r_ndof r = 16%nat) by (rewrite (rf_ndof _ F), Hnd, E, Ep'; reflexivity).
  set (v := fun i => if Nat.eqb i 14 then RtoC 2 else if Nat.eqb i 0 then RtoC 1 else RtoC 0).
  assert (Hz : scale_of (r_nd r) (r_ndof r) v <> RtoC 0).
  { intros Z. apply (scale_zero_iff r v F) with (i := 0%nat) in Z; [|rewrite Hn, Hnd; split; [lia|left; reflexivity]]. unfold v in Z. simpl in Z. apply RtoC_inj in Z. lra. }
  destruct (rotor_shape eig2 r v true) as [s|] eqn:Hs.
  2:{ exfalso. unfold rotor_shape, shape_init in Hs. destruct (Req_EM_T _ 0) as [Q|Q]; cbn [andb] in Hs; [|discriminate]. apply Cmod_eq_0 in Q. auto. }
  exists (exS false), [], twoB, twoP, r, v, s, 4%nat. split; [exact H|]. split; [rewrite E, Ep'; lia|]. split; [exact Hs|].
  destruct (shape_evec eig2 r v true s Hs) as (Ev & _ & _). rewrite Ev, Hnd, E. change (node_start 4 1 4) with 14%nat. change (v 14%nat) with (RtoC 2).
  rewrite Cmod_div by (rewrite <- Hnd; exact Hz). rewrite Hn.
  assert (S1 : Cmod (scale_of 4 16 v) = 1).
  { rewrite Hn, Hnd in Hz. apply Rle_antisym.
    - destruct (scale_entry 4 16 v ltac:(lia) ltac:(lia)) as (i & [Hi Hm] & ->). unfold v. destruct (Nat.eqb_spec i 14) as [->|N]; [simpl in Hm; lia|].
      destruct (Nat.eqb i 0); [rewrite Cmod_1|rewrite Cmod_0]; lra.
    - assert (B := scale_max 4 16 v ltac:(lia) 0%nat ltac:(split; [lia|left; reflexivity])). change (v 0%nat) with (RtoC 1) in B. rewrite Cmod_1 in B. exact B. }
  rewrite S1, Cmod_R, Rabs_pos_eq; lra.
Qed.
Example C38_instance : forall eig2, exists r, rotor_init (exS true) (exD true) (exB true) (exP true) = Ok r /\ layers_match r /\
  (forall k, (k <= r_n_last r)%nat -> exists e, In e (r_shaft r) /\ el_n e = k) /\ (forall e, In e (r_shaft r) -> sh_L e <> 0) /\ exists s, rotor_shape eig2 r (fun i => RtoC (INR i)) true = Ok s.
Proof.
  intros eig2. destruct (ex_rotor true) as (r & H & X). exists r. split; [exact H|]. split; [apply X|]. split; [apply (reg_shaft _ (xf_reg _ _ X))|].
  split.
  - rewrite (xf_shaft _ _ X). intros e He. cases_in; simpl; lra.
  - pose proof (C38_normalize_fails_iff eig2 _ _ _ _ _ H (fun i => RtoC (INR i))) as [A _]. destruct (rotor_shape eig2 r _ true) as [s|er] eqn:E; [eauto|].
    unfold rotor_shape, shape_init in E. assert (er = ValueError) as -> by (destruct (_ && _)%bool; [congruence|discriminate]).
    specialize (A eq_refl 1%nat). pose proof (rotor_facts _ _ _ _ _ H) as F. rewrite (rf_ndof _ F), (xf_nd _ _ X), (xf_last _ _ X) in A.
    specialize (A ltac:(lia) ltac:(right; reflexivity)). simpl in A. apply RtoC_inj in A. lra.
Qed.

(** ** C65: the bending moment at a node is minus E I times the curvature, summed over the elements that meet there *)
Definition elements_lengths (r : rotor) : Prop := forall six n t s, In (EShaft six n t s) (r_shaft r) -> s_L s <> 0.
Theorem C65_moment_sum : forall r resp, elements_lengths r ->
  (* the cubics of every element: value and slope at both ends are those of the nodes *)
  forall cx cy : elem -> R * R * R * R,
  (forall six n t s, let e := EShaft six n t s in In e (r_shaft r) ->
     let nd := r_nd r in let x m := Re (resp (nd * m)%nat) in let y m := Re (resp (nd * m + 1)%nat) in
     let al m := Re (resp (nd * m + nd / 2)%nat) in let be m := Re (resp (nd * m + nd / 2 + 1)%nat) in
     (let '(a, b, c, d) := cx e in cubic a b c d 0 = x n /\ cubic' b c d 0 = be n /\ cubic a b c d (s_L s) = x (S n) /\ cubic' b c d (s_L s) = be (S n)) /\
     (let '(a, b, c, d) := cy e in cubic a b c d 0 = y n /\ cubic' b c d 0 = - al n /\ cubic a b c d (s_L s) = y (S n) /\ cubic' b c d (s_L s) = - al (S n))) ->
  let term (cf : elem -> R * R * R * R) j e := match e with
    | EShaft _ n _ s => let '(a, b, c, d) := cf e in let EI := mE (s_material s) * s_Ie s in
        (if Nat.eqb j n then - (EI * cubic'' c d 0) else 0) + (if Nat.eqb j (S n) then - (EI * cubic'' c d (s_L s)) else 0)
    | _ => 0 end in
  forall j, fst (bending_moment r resp) j = suml (map (term cx j) (r_shaft r)) /\ snd (bending_moment r resp) j = suml (map (term cy j) (r_shaft r)).
Proof.
  intros r resp HL cx cy Hc term j. destruct (bending_sum r resp HL j) as [-> ->].
  split; f_equal; apply map_ext_in; intros e He; (destruct e as [six n t s| | |]; [|reflexivity|reflexivity|reflexivity]);
    assert (HLe := HL _ _ _ _ He); destruct (Hc six n t s He) as [Hx Hy]; unfold term, el_moment.
  - destruct (cx (EShaft six n t s)) as [[[a b] c] d]. destruct Hx as (Q1 & Q2 & Q3 & Q4). rewrite <- Q1, <- Q2, <- Q3, <- Q4.
    destruct (curv_cubic (s_L s) a b c d HLe) as [-> ->]. destruct (Nat.eqb j n), (Nat.eqb j (S n)); ring.
  - destruct (cy (EShaft six n t s)) as [[[a b] c] d]. destruct Hy as (Q1 & Q2 & Q3 & Q4). rewrite <- Q1, <- Q2, <- Q3, <- Q4.
    destruct (curv_cubic (s_L s) a b c d HLe) as [-> ->]. destruct (Nat.eqb j n), (Nat.eqb j (S n)); ring.
Qed.
(** a uniform shaft bent into the parabola x = z^2 has the same moment - 2 E I everywhere; the node in the middle reports twice that *)
Theorem C65_interior_moment_refuted : exists shafts disks brgs pms r resp, rotor_init shafts disks brgs pms = Ok r /\ 
  (forall n, (n <= r_n_last r + 1)%nat -> let z := nth n (r_nodes_pos r) 0 in
     resp (r_nd r * n)%nat = RtoC (z ^ 2) /\ resp (r_nd r * n + r_nd r / 2 + 1)%nat = RtoC (2 * z)) /\
  exists EI, 0 < EI /\ (forall six n t s, In (EShaft six n t s) (r_shaft r) -> mE (s_material s) * s_Ie s = EI) /\
  fst (bending_moment r resp) 0%nat = - (EI * 2) /\ fst (bending_moment r resp) 2%nat = - (EI * 2) /\ fst (bending_moment r resp) 1%nat = 2 * - (EI * 2).
Proof.
  destruct (ex_rotor false) as (r & H & X). pose proof (rotor_facts _ _ _ _ _ H) as F.
  destruct (positions r F (reg_shaft _ (xf_reg _ _ X)) (xf_layers _ _ X)) as (_ & P0 & Ps & _).
  assert (Ps0 := Ps (EShaft false 0 "s0" (ex_shaft 0 "s0")) ltac:(rewrite (xf_shaft _ _ X); left; reflexivity)).
  assert (Ps1 := Ps (EShaft false 1 "s1" (ex_shaft 1 "s1")) ltac:(rewrite (xf_shaft _ _ X); right; left; reflexivity)). simpl in Ps0, Ps1.
  rewrite P0, Rplus_0_l in Ps0. rewrite Ps0 in Ps1.
  set (resp := fun i => if Nat.eqb i 4 then RtoC 1 else if Nat.eqb i 7 then RtoC 2 else if Nat.eqb i 8 then RtoC 4 else if Nat.eqb i 11 then RtoC 4 else RtoC 0).
  exists (exS false), (exD false), (exB false), (exP false), r, resp. split; [exact H|]. rewrite (xf_nd _ _ X), (xf_last _ _ X). split.
  { intros [|[|[|n]]] Hn; [| | |lia]; cbv zeta; rewrite ?P0, ?Ps0, ?Ps1; split; unfold resp; simpl Nat.eqb; cbv iota; f_equal; ring. }
  exists (mE ex_material * s_Ie (ex_shaft 0 "s0")).
  assert (PI0 := PI_RGT_0).
  assert (Hp : 0 < s_Ie (ex_shaft 0 "s0")) by (simpl; nra).
  split; [apply Rmult_lt_0_compat; [simpl; lra|exact Hp]|].
  split. { rewrite (xf_shaft _ _ X). intros six n t s [[= <- <- <- <-]|[[= <- <- <- <-]|[]]]; reflexivity. }
  assert (HL : forall six n t s, In (EShaft six n t s) (r_shaft r) -> s_L s <> 0).
  { rewrite (xf_shaft _ _ X). intros six n t s [[= <- <- <- <-]|[[= <- <- <- <-]|[]]]; simpl; lra. }
  assert (B := fun j => proj1 (bending_sum r resp HL j)). cbv zeta in B. rewrite (xf_shaft _ _ X), (xf_nd _ _ X) in B.
  rewrite !B. unfold el_moment. cbn [map suml]. unfold resp. change (s_Ie (ex_shaft 1 "s1")) with (s_Ie (ex_shaft 0 "s0")).
  change (s_L (ex_shaft 0 "s0")) with 1. change (s_L (ex_shaft 1 "s1")) with 1. change (s_material (ex_shaft 0 "s0")) with ex_material. change (s_material (ex_shaft 1 "s1")) with ex_material.
  set (K := mE ex_material). set (I := s_Ie (ex_shaft 0 "s0")). unfold curv0, curvL. cbv [Nat.eqb Nat.mul Nat.add Nat.div Nat.divmod fst Re RtoC]. cbv [suml fold_right]. repeat split; field.
Qed.

(** ** C66: natural frequency, damped frequency, damping ratio and logarithmic decrement *)
Theorem C66_modal_relations : forall ev i, ev i <> RtoC 0 -> let wn := modal_wn ev i in let wd := modal_wd ev i in let z := modal_damping_ratio ev i in
  0 < wn /\ -1 <= z <= 1 /\ Re (ev i) = - z * wn /\ wd ^ 2 + (z * wn) ^ 2 = wn ^ 2 /\ (0 < z <-> Re (ev i) < 0) /\
  (0 < wd -> modal_log_dec ev i = 2 * PI * (- Re (ev i)) / wd /\ exp (Re (ev i) * (2 * PI / wd)) = exp (- modal_log_dec ev i)) /\
  (wd = 0 <-> 1 - z ^ 2 = 0).
Proof.
  intros ev i Hz wn wd z. assert (P : 0 < wn) by (apply Cmod_gt_0; auto). assert (S : wn ^ 2 = Re (ev i) ^ 2 + wd ^ 2) by (apply cmod_sq).
  assert (E : Re (ev i) = - z * wn) by (unfold z, modal_damping_ratio; change (Cmod (ev i)) with wn; field; lra).
  assert (S1 : wd ^ 2 + (z * wn) ^ 2 = wn ^ 2) by (rewrite S, E; ring).
  assert (W2 : 0 < wn ^ 2) by (apply pow_lt; auto).
  assert (Z2 : z ^ 2 <= 1) by (apply Rmult_le_reg_r with (wn ^ 2); auto; pose proof (pow2_ge_0 wd); lra).
  assert (R : -1 <= z <= 1) by (clear - Z2; clearbody z; split; nra).
  split; [auto|]. split; [auto|]. split; [auto|]. split; [auto|]. split; [rewrite E; split; intros; nra|].
  assert (Q : wd ^ 2 = (1 - z ^ 2) * wn ^ 2) by lra. split.
  - intros Hd. assert (Sq : sqrt (1 - z ^ 2) = wd / wn).
    { replace (1 - z ^ 2) with ((wd / wn) * (wd / wn)). apply sqrt_square. left. apply Rdiv_lt_0_compat; auto. field_simplify_eq; [|lra]. lra. }
    assert (L : modal_log_dec ev i = 2 * PI * (- Re (ev i)) / wd) by (unfold modal_log_dec; fold z; rewrite Sq, E; field; lra).
    split; [exact L|]. rewrite L. f_equal. field. lra.
  - split; intros Z; [rewrite Z in Q|rewrite Z in Q]; nra.
Qed.
Theorem C66_list_length : forall q ev n num_modes, length (modal_list q ev n num_modes) = Nat.min (num_modes / 2) n /\
  forall i, (i < Nat.min (num_modes / 2) n)%nat -> nth i (modal_list q ev n num_modes) 0 = q ev i.
Proof.
  intros q ev n m. unfold modal_list. rewrite firstn_length, map_length, seq_length. split; auto. intros i Hi.
  assert (E : nth i (firstn (m / 2) (map (q ev) (seq 0 n))) 0 = nth i (map (q ev) (seq 0 n)) 0).
  { rewrite <- (firstn_skipn (m / 2) (map (q ev) (seq 0 n))) at 2. rewrite app_nth1; auto. rewrite firstn_length, map_length, seq_length. auto. }
  rewrite E. rewrite nth_indep with (d' := q ev 0%nat) by (rewrite map_length, seq_length; lia). rewrite map_nth. rewrite seq_nth by lia. auto.
Qed.
Example C66_instance : let ev := fun _ : nat => (-3, 4) : C in ev 0%nat <> RtoC 0 /\ modal_wn ev 0 = 5 /\ 0 < modal_wd ev 0.
Proof.
  cbv zeta. split; [intros E; injection E; intros; lra|]. split; [|unfold modal_wd, Im; cbn [snd]; lra]. unfold modal_wn, Cmod. cbn [fst snd].
  replace ((-3) ^ 2 + 4 ^ 2) with (5 * 5) by ring. apply sqrt_square. lra.
Qed.

Print Assumptions C38_element_cubics.
Print Assumptions C38_through_nodes.
Print Assumptions C38_rigid_straight.
Print Assumptions C38_normalized.
Print Assumptions C38_normalize_fails_iff.
Print Assumptions C38_normalize_supports_refuted.
Print Assumptions C65_moment_sum.
Print Assumptions C65_interior_moment_refuted.
Print Assumptions C66_modal_relations.
