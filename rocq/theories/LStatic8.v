(** Shearing force and bending moment of a shaft with conical elements: the exact difference from the resultants. *)
From Coq Require Import Reals String List Arith Bool Lia Lra Permutation Sorted.
From Verif Require Import PyBase PyDict MatBase SpecMat LMat MMaterial MShaft MDisk MBearing MRotor SpecBeam SpecShaft SpecRotor LShaft LShaftEnergy LShaftProps LShaft6 LShaftEx LBearing LBearing2
  LAssembly LRotor LRotor2 LRotor3 LRotor4 LRotor5 LRotor6 LRotor7 LRotorInit2 MDynamics MResults MSection LSection LSection2 MStatic SpecStatic LResults7 LResults8 LStatic LStatic2 LStatic3 LStatic4 LStatic5 LStatic6.
Import ListNotations.
Open Scope list_scope.
Open Scope R_scope.

Lemma area_poly a s : shaft_init a = Ok s -> good_args a -> s_A_r s - s_A_l s = s_A_l s * (s_a1 s + s_b1 s).
Proof.
  intros Hi Hg. pose proof (shaft_init_facts _ _ Hi) as F. pose proof (shaft_positive _ _ Hi Hg) as Ps. assert (HA : s_A_l s <> 0) by (destruct Ps; lra).
  rewrite (f_a1 _ _ F), (f_b1 _ _ F), (f_Ar _ _ F).
  transitivity (PI * ((s_odr s) ^ 2 - (s_idr s) ^ 2) / 4 - PI * ((s_odl s) ^ 2 - (s_idl s) ^ 2) / 4); [rewrite (f_Al _ _ F); field|]. field. exact HA.
Qed.
(** the mass matrix against the upward acceleration: the levers of the weight, moved by uneven mass from the left end to the right one *)
Lemma shaft_shares a s x y : shaft_init a = Ok s -> good_args a -> (forall i, (i < 8)%nat -> y i = up4 i) -> x 2%nat = 0 -> x 6%nat = 0 ->
  bform 8 (shaft_M s) x y = (s_m s * (1 - s_beam_cg s / s_L s) - mrho (s_material s) * s_L s * (s_A_r s - s_A_l s) / (60 * (1 + s_phi s))) * x 1%nat
    + (s_m s * (s_beam_cg s / s_L s) + mrho (s_material s) * s_L s * (s_A_r s - s_A_l s) / (60 * (1 + s_phi s))) * x 5%nat.
Proof.
  intros Hi Hg Hy E2 E6. pose proof (shaft_positive _ _ Hi Hg) as Ps. assert (HL : s_L s <> 0) by (destruct Ps; lra). assert (HP : 1 + s_phi s <> 0) by (destruct Ps; lra).
  rewrite (shaft_up s x y HL HP Hy), E2, E6.
  replace (s_m s * (1 - s_beam_cg s / s_L s)) with (s_m s - s_m s * s_beam_cg s / s_L s) by (field; exact HL).
  replace (s_m s * (s_beam_cg s / s_L s)) with (s_m s * s_beam_cg s / s_L s) by (field; exact HL).
  rewrite (shaft_cg_poly a s Hi Hg), (shaft_mass_poly a s Hi Hg), (area_poly a s Hi Hg). unfold m1, m2, m3, m4, m6, m8, m9. field. split; assumption.
Qed.

Section Cones.
Variables (spl : list R -> list R -> R -> R) (r : rotor).
Hypothesis F : rfacts r.
Hypothesis Hc : forall k, (k <= r_n_last r)%nat -> exists e, In e (r_shaft r) /\ el_n e = k.
Hypothesis Hl : layers_match r.
Hypothesis Hs : forall e, In e (r_shaft r) -> no_load e.
Variables (ra : rotor) (u nodal weight : vec).
Hypothesis C : core spl r ra u nodal weight.
Let R0 := reaction_of nodal weight.
Let f k := nodal (4 * k + 1)%nat - nodal_shaft_weight (r_shaft r) k.

Lemma el_facts e : In e (r_shaft r) -> sh_L e <> 0 /\ sh_m e * (sh_L e / 2 - sh_cg e) = - (mass_rise e * sh_L e / 12).
Proof.
  intros He. pose proof (Hs e He) as H. destruct (rf_shaft _ F e He) as (six & n & t & s & ->). destruct H as (a & Hi & Hg & _). cbn [sh_m sh_L sh_cg mass_rise].
  pose proof (shaft_positive _ _ Hi Hg) as Ps. assert (HL : s_L s <> 0) by (destruct Ps; lra). split; [exact HL|].
  replace (s_m s * (s_L s / 2 - s_beam_cg s)) with (s_m s * s_L s / 2 - s_m s * s_beam_cg s) by field. rewrite (shaft_cg_poly a s Hi Hg), (shaft_mass_poly a s Hi Hg), (area_poly a s Hi Hg). field.
Qed.
Lemma unit_shares k : (k <= r_n_last r + 1)%nat -> let x := fun j => if Nat.eqb j (4 * k + 1) then 1 else 0 : R in
  P spl r x up4 = suml (map (fun e => (if Nat.eqb (el_n e) k then sh_m e * (1 - sh_cg e / sh_L e) - shift e else 0) + (if Nat.eqb (S (el_n e)) k then sh_m e * (sh_cg e / sh_L e) + shift e else 0)) (r_shaft r)) + disk_mass r k.
Proof.
  intros Hk x. unfold P. rewrite map_app, suml_app. f_equal.
  - apply suml_map_ext. intros e He. pose proof (Hs e He) as Hcy. destruct (rf_shaft _ F e He) as (six & n & t & s & E). subst e.
    pose proof (work_fam r _ _ _ _ _ F He eq_refl) as Hnd. pose proof (shaft_node r _ F He) as Hn. cbn [el_n] in Hn. rewrite (work_shaft_M spl 0 r six n t s) by auto.
    destruct Hcy as (a & Hi & Hg & _). rewrite (shaft_shares a s _ _ Hi Hg).
    + cbn [sh_m sh_cg sh_L el_n shift mass_rise]. unfold at_n, x. f_equal.
      * destruct (Nat.eqb_spec (4 * n + 1) (4 * k + 1)), (Nat.eqb_spec n k); (ring || lia).
      * destruct (Nat.eqb_spec (4 * n + 5) (4 * k + 1)), (Nat.eqb_spec (S n) k); (ring || lia).
    + intros i _. apply up4_at.
    + unfold at_n, x. destruct (Nat.eqb_spec (4 * n + 2) (4 * k + 1)); [lia|reflexivity].
    + unfold at_n, x. destruct (Nat.eqb_spec (4 * n + 6) (4 * k + 1)); [lia|reflexivity].
  - unfold disk_mass. rewrite <- suml_filter_if. apply suml_map_ext. intros e He. destruct (rf_disk _ F e He) as (six & t & d & E). subst e. destruct (disk_fam r _ _ _ F He) as [Hnd Hn].
    rewrite (work_disk_M spl 0 r six t d) by auto. rewrite disk_up by (intros i _; apply up4_at). cbn [el_n dk_m]. unfold at_n, x.
    destruct (Nat.eqb_spec (4 * d_n d + 1) (4 * k + 1)), (Nat.eqb_spec (d_n d) k); (ring || lia).
Qed.
(** the mass moved at the elements that end at node k *)
Definition prev_shift (k : nat) : R := match k with O => 0 | S i => shift_at r i end.
Lemma load_cone k : (k <= r_n_last r + 1)%nat -> f k = node_load r R0 k + g0 * (shift_at r k - prev_shift k).
Proof.
  intros Hk. unfold f, node_load, R0, reaction_of. set (i := (4 * k + 1)%nat). assert (Hi : (i < n4 r)%nat) by (unfold i, n4; lia).
  pose proof (co_weight _ _ _ _ _ _ C (fun j => if Nat.eqb j i then 1 else 0)) as E. rewrite (unit_dot r i weight Hi) in E. unfold i in E. rewrite (unit_shares k Hk) in E. fold i in E.
  assert (Ea : forall j, shift_at r j = suml (map (fun e => if Nat.eqb (el_n e) j then shift e else 0) (r_shaft r))) by (intros j; unfold shift_at; rewrite suml_filter_if; reflexivity).
  assert (Ep : prev_shift k = suml (map (fun e => if Nat.eqb (S (el_n e)) k then shift e else 0) (r_shaft r))).
  { destruct k as [|k]; cbn [prev_shift].
    - rewrite (suml_map_ext _ (fun _ => 0 * 0)); [rewrite suml_map_scal; ring|]. intros e _. cbn [Nat.eqb]. ring.
    - rewrite Ea. apply suml_map_ext. intros e _. reflexivity. }
  assert (En : nodal_shaft_weight (r_shaft r) k = - g0 * (suml (map (fun e => (if Nat.eqb (el_n e) k then sh_m e * (1 - sh_cg e / sh_L e) - shift e else 0) + (if Nat.eqb (S (el_n e)) k then sh_m e * (sh_cg e / sh_L e) + shift e else 0)) (r_shaft r)) + shift_at r k - prev_shift k)).
  { rewrite Ea, Ep. unfold nodal_shaft_weight. replace (suml (map (fun e => if Nat.eqb (el_n e) k then shift e else 0) (r_shaft r))) with (1 * suml (map (fun e => if Nat.eqb (el_n e) k then shift e else 0) (r_shaft r))) by ring.
    match goal with |- _ = - g0 * (?A + 1 * ?B - ?D) => replace (- g0 * (A + 1 * B - D)) with (- g0 * (A + (B + (- 1) * D))) by ring end.
    rewrite <- (suml_map_scal (- 1)), <- !suml_map_plus, <- suml_map_scal. apply suml_map_ext. intros e He. destruct (el_facts e He) as [HL _]. unfold grav, g0.
    destruct (Nat.eqb (S (el_n e)) k), (Nat.eqb (el_n e) k); field; exact HL. }
  rewrite En, E. ring.
Qed.

Lemma res_el0 j : resultant r R0 j j = resultant r R0 j (S j) - g0 * suml (map sh_m (at_node (r_shaft r) j)).
Proof. exact (res_el r nodal weight j). Qed.
Lemma res_node0 j : (j <= r_n_last r)%nat -> resultant r R0 j (S j) = node_load r R0 (S j) + resultant r R0 (S j) (S j).
Proof. exact (res_node r nodal weight j). Qed.
Let N := (r_n_last r + 1)%nat.
Let V := vx_loop (elm_forces (r_shaft r) N f) N.
Lemma shift_end : shift_at r N = 0.
Proof.
  unfold shift_at. rewrite (filter_ext_in _ (fun _ => false)).
  - clear. induction (r_shaft r) as [|e l IH]; [reflexivity|exact IH].
  - intros e He. pose proof (shaft_node r e F He). apply Nat.eqb_neq. unfold N. lia.
Qed.
Lemma V_cone j : (2 <= N)%nat -> (j < N)%nat -> fst (V j) = - resultant r R0 j j + g0 * shift_at r j /\ snd (V j) = - resultant r R0 j (S j) + g0 * shift_at r j.
Proof.
  intros HN. induction j as [|j IH]; intros Hj.
  - assert (E : fst (V 0%nat) = - resultant r R0 0 0 + g0 * shift_at r 0).
    { unfold V. cbn [vx_loop fst elm_forces]. rewrite load_cone by lia. cbn [prev_shift]. pose proof (res_start spl r F Hc Hl Hs ra u nodal weight C) as Q. fold R0 in Q. rewrite Q. ring. }
    split; [exact E|]. unfold V. cbn [vx_loop snd fst]. unfold elm_forces at 2. cbn [snd]. destruct (Nat.eqb_spec 1 N); [lia|]. unfold N. rewrite (weight_at r) by (fold N; lia). fold N.
    unfold V in E. cbn [vx_loop fst] in E. rewrite E, (res_el0 0). ring.
  - destruct (IH ltac:(lia)) as [_ I].
    assert (E : fst (V (S j)) = - resultant r R0 (S j) (S j) + g0 * shift_at r (S j)).
    { change (fst (V (S j))) with (snd (V j) + f (S j)). rewrite I, load_cone by (unfold N in Hj; lia). rewrite (res_node0 j) by (unfold N in Hj; lia). cbn [prev_shift]. ring. }
    split; [exact E|].
    assert (E2 : snd (V (S j)) = if Nat.eqb (S (S j)) N then snd (elm_forces (r_shaft r) N f (S j)) else fst (V (S j)) + snd (elm_forces (r_shaft r) N f (S j))) by reflexivity.
    rewrite E2, E. unfold elm_forces. cbn [snd]. destruct (Nat.eqb_spec (S (S j)) N) as [Hn|Hn].
    + unfold N. rewrite (weight_last r (S j)) by exact Hn. fold N. rewrite load_cone by (unfold N; lia). rewrite (res_node0 (S j)) by (unfold N in Hn; lia). replace (S (S j)) with N by lia.
      assert (Z : resultant r R0 N N = 0).
      { unfold resultant. replace (r_n_last r + 1 - N)%nat with 0%nat by (unfold N; lia). rewrite ge_none; [unfold suml; simpl; ring|]. intros e He. pose proof (shaft_node r e F He). unfold N. lia. }
      assert (Hp : prev_shift N = shift_at r (S j)) by (rewrite <- Hn; reflexivity).
      rewrite Z, shift_end, Hp. ring.
    + unfold N. rewrite (weight_at r (S j)) by (fold N; lia). fold N. rewrite (res_el0 (S j)). ring.
Qed.
Let v := vx_row (elm_forces (r_shaft r) N f) N.
Let ax := axis_row (r_shaft r) (r_nodes_pos r).
Lemma v_cone j : (2 <= N)%nat -> (j < N)%nat -> v j = (resultant r R0 j j - g0 * shift_at r j, resultant r R0 j (S j) - g0 * shift_at r j).
Proof. intros H1 H2. destruct (V_cone j H1 H2) as [E1 E2]. unfold v, vx_row. fold (V j). rewrite E1, E2. f_equal; ring. Qed.
Lemma moment_cone j : (2 <= N)%nat -> (j < N)%nat -> moment_right r R0 j = moment_right r R0 (S j) + area v ax j - g0 * bend_at r j.
Proof.
  intros HN Hj. assert (Hj' : (j <= r_n_last r)%nat) by (unfold N in Hj; lia). unfold area, ax. rewrite (v_cone j HN Hj), (ax_row r Hc j Hj). cbn [fst snd]. rewrite (res_el0 j). unfold moment_right, resultant.
  rewrite (tail_load r (fun k => (zpos r k - zpos r j) * node_load r R0 k) j Hj'), (tail_load r (node_load r R0) j Hj').
  rewrite (suml_map_ext (fun k => (zpos r k - zpos r j) * node_load r R0 k) (fun k => (zpos r k - zpos r (S j)) * node_load r R0 k + (zpos r (S j) - zpos r j) * node_load r R0 k) (seq (S (S j)) _)) by (intros; ring).
  rewrite suml_map_plus, suml_map_scal. rewrite (ge_split (fun e => sh_m e * (zpos r (el_n e) + sh_cg e - zpos r j)) (r_shaft r) j).
  assert (Hp : forall e, In e (at_node (r_shaft r) j) -> zpos r (S j) - zpos r j = sh_L e /\ el_n e = j /\ In e (r_shaft r)).
  { intros e He. apply at_node_filter in He as [He En]. destruct (positions r F Hc Hl) as (_ & _ & Hp & _). specialize (Hp _ He). rewrite En in Hp. unfold zpos. rewrite Hp. split; [ring|auto]. }
  assert (B : bend_at r j = suml (map (fun e => (zpos r (S j) - zpos r j) / 2 * sh_m e - (sh_m e * (zpos r (el_n e) + sh_cg e - zpos r j)) - (zpos r (S j) - zpos r j) * - shift e) (at_node (r_shaft r) j)) * - 1).
  { unfold bend_at. fold (at_node (r_shaft r) j). rewrite Rmult_comm, <- suml_map_scal. apply suml_map_ext. intros e He. destruct (Hp e He) as (EL & En & Hin). destruct (el_facts e Hin) as [_ Q]. rewrite En, EL. unfold bend_error.
    transitivity (- (sh_m e * (sh_L e / 2 - sh_cg e)) - sh_L e * shift e); [rewrite Q; ring|field]. }
  assert (B' : suml (map (fun e => sh_m e * (zpos r (el_n e) + sh_cg e - zpos r j)) (at_node (r_shaft r) j)) = bend_at r j + (zpos r (S j) - zpos r j) / 2 * suml (map sh_m (at_node (r_shaft r) j)) + (zpos r (S j) - zpos r j) * shift_at r j).
  { rewrite B. unfold shift_at. fold (at_node (r_shaft r) j). clear. induction (at_node (r_shaft r) j) as [|e l IH]; unfold suml in *; cbn [map fold_right] in *; [ring|]. rewrite IH. field. }
  rewrite B'.
  rewrite (suml_map_ext (fun e => sh_m e * (zpos r (el_n e) + sh_cg e - zpos r j)) (fun e => sh_m e * (zpos r (el_n e) + sh_cg e - zpos r (S j)) + (zpos r (S j) - zpos r j) * sh_m e) (filter _ (r_shaft r))) by (intros; ring).
  rewrite suml_map_plus, !suml_map_scal. field.
Qed.
Lemma sum_snoc (g : nat -> R) j : suml (map g (seq 0 (S j))) = suml (map g (seq 0 j)) + g j.
Proof. rewrite seq_S, map_app, suml_app. unfold suml. cbn [map fold_right Nat.add]. ring. Qed.
Lemma m_cone j : (2 <= N)%nat -> (j < N)%nat ->
  ((S j < N)%nat -> mx_row v ax N j = (- moment_right r R0 j + g0 * suml (map (bend_at r) (seq 0 j)), - moment_right r R0 (S j) + g0 * suml (map (bend_at r) (seq 0 (S j))))) /\
  (S j = N -> mx_row v ax N j = (- moment_right r R0 j - g0 * bend_at r j, 0)).
Proof.
  intros HN. induction j as [|j IH]; intros Hj.
  - split; [|intros Q; lia]. intros _. cbn [mx_row]. destruct (Nat.eqb_spec 1 N); [lia|]. cbv zeta. pose proof (moment_cone 0 HN Hj) as E. pose proof (moment_start spl r F Hc Hl Hs ra u nodal weight C) as M0. fold R0 in M0. rewrite M0 in *.
    rewrite sum_snoc. unfold suml. cbn [seq map fold_right]. f_equal; lra.
  - pose proof (moment_cone (S j) HN Hj) as E.
    assert (X : mx_row v ax N (S j) = if Nat.eqb (S (S j)) N then (- area v ax (S j), 0) else (snd (mx_row v ax N j), snd (mx_row v ax N j) + area v ax (S j))) by reflexivity.
    rewrite X. destruct (Nat.eqb_spec (S (S j)) N) as [Hn|Hn]; split; try lia; intros _.
    + rewrite Hn in *. pose proof (moment_end r F nodal weight) as M1. fold N in M1. fold R0 in M1. rewrite M1 in *. f_equal; lra.
    + destruct (IH ltac:(lia)) as [I _]. rewrite I by lia. cbn [snd]. rewrite (sum_snoc _ (S j)). f_equal. lra.
Qed.
End Cones.
