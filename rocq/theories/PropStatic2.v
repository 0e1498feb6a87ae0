(** C48: the diagrams of a shaft with conical elements. *)
From Coq Require Import Reals String List Arith Bool Lia Lra Permutation Sorted.
From Verif Require Import PyBase PyDict MatBase CMat SpecMat LMat MMaterial LMaterial MShaft MDisk MBearing MRotor SpecBeam SpecShaft SpecRotor LShaft LShaftEnergy LShaftProps LShaft6 LShaftEx LBearing LBearing2
  LAssembly LRotor LRotor2 LRotor3 LRotor4 LRotor5 LRotor6 LRotor7 LRotorInit LRotorInit2 LRotorInit3 LRotorEx MDynamics LDynEx MResults MSection LSection LSection2 MStatic SpecStatic LResults7 LResults8 LStatic LStatic2 LStatic3 LStatic4 LStatic5 LStatic6 LStatic7 LStatic8 PropStatic.
Import ListNotations.
Open Scope list_scope.
Open Scope string_scope.
Open Scope R_scope.

(** Shaft of two elements or more, cones included. The shearing force misses the resultant of the loads to the right by the weight that the shape
    functions put at the wrong end of the element: density * length * (right area - left area) / (60 (1 + phi)). The bending moment adds up the
    errors of the trapezoidal rule from the left end; its last row starts again from the right end. *)
Theorem C48_diagrams_cones : forall la spl shafts disks brgs pms r st, rotor_init shafts disks brgs pms = Ok r -> apart r -> linalg_ok la -> layers_match r ->
  (forall e, In e (r_shaft r) -> no_load e) -> run_static la spl r = Ok st -> (1 <= r_n_last r)%nat ->
  let react := force_at (st_brg_nodal st) in
  let rows := seq 0 (r_n_last r + 1) in
  st_axis st = map (fun j => (zpos r j, zpos r (S j))) rows /\
  st_Vx st = map (fun j => (resultant r react j j - g0 * shift_at r j, resultant r react j (S j) - g0 * shift_at r j)) rows /\
  st_Bm st = map (fun j => if (j <? r_n_last r)%nat
    then (- moment_right r react j + g0 * suml (map (bend_at r) (seq 0 j)), - moment_right r react (S j) + g0 * suml (map (bend_at r) (seq 0 (S j))))
    else (- moment_right r react j - g0 * bend_at r j, 0)) rows.
Proof.
  intros la spl shafts disks brgs pms r st H Ha Hla Hl Hs Hst HN. pose proof (rotor_facts _ _ _ _ _ H) as F.
  destruct (run_static_inv la spl r st F Ha Hla Hst) as (ra & u & nodal & weight & C & ->).
  pose proof (cover_of r F (co_cover _ _ _ _ _ _ C)) as Hc.
  assert (EN : (length (r_nodes_pos r) - 1 = r_n_last r + 1)%nat) by (rewrite (nodes_pos_length r F Hc); lia).
  assert (Er : forall k, (k <= r_n_last r + 1)%nat -> force_at (st_brg_nodal (result_of r ra u nodal weight)) k = reaction_of nodal weight k) by (intros; apply (force_reaction spl); auto).
  cbv zeta. split; [|split]; cbn [st_axis st_Vx st_Bm result_of]; rewrite EN; apply map_seq_ext; intros j Hj.
  - apply (ax_row r Hc j Hj).
  - rewrite (v_cone spl r F Hc Hl Hs ra u nodal weight C j ltac:(lia) Hj). rewrite !(resultant_ext r _ _ _ _ Er). reflexivity.
  - destruct (m_cone spl r F Hc Hl Hs ra u nodal weight C j ltac:(lia) Hj) as [M1 M2]. rewrite !(moment_ext r _ _ _ Er). destruct (Nat.ltb_spec j (r_n_last r)); [apply M1; lia|apply M2; lia].
Qed.

Definition cone_args : shaft_args := mkShaftArgs 1 0 2 None (Some 4) (Some ex_material) (Some 1%nat) 0 0 true true true Cowper (Some "s1") 0 0.
Lemma cone_good : good_args cone_args.
Proof.
  split; [unfold good_geometry, right_id, right_od; simpl; lra|].
  exists ex_material; split; [reflexivity|]. unfold good_material; simpl; lra.
Qed.
(** a cylinder followed by a cone: the shearing force of the cone is not the resultant of the loads *)
Theorem C48_cone_shear_refuted : forall spl, exists r st, (exists shafts disks brgs pms, rotor_init shafts disks brgs pms = Ok r) /\ apart r /\ layers_match r /\
  (forall e, In e (r_shaft r) -> no_load e) /\ run_static la0 spl r = Ok st /\ r_n_last r = 1%nat /\
  let react := force_at (st_brg_nodal st) in
  nth 0 (st_Vx st) (0, 0) = (resultant r react 0 0, resultant r react 0 1) /\
  nth 1 (st_Vx st) (0, 0) = (resultant r react 1 1 - g0 * (9 * PI / 1005), resultant r react 1 2 - g0 * (9 * PI / 1005)).
Proof.
  intros spl. assert (Hi : exists s, shaft_init cone_args = Ok s) by (eexists; reflexivity). destruct Hi as (s & Hi).
  assert (Vs : s_n s = Some 1%nat /\ s_tag s = Some "s1" /\ s_L s = 1 /\ mrho (s_material s) = 3 /\ s_phi s = 63 / 4 /\ s_A_r s - s_A_l s = 3 * PI).
  { pose proof (shaft_init_facts _ _ Hi) as Fs. pose proof PI_RGT_0. injection Hi; intros <-. cbn [s_n s_tag s_L s_material s_phi s_A_l s_A_r]. repeat split; try (cbn; field; try lra). }
  destruct Vs as (V1 & V2 & V3 & V4 & V5 & V6).
  set (S0 := [ex_rshaft false 0 "s0"; mkRShaft false s]). set (B0 := [ex_brg false 0 None "b0"; ex_brg false 2 None "b1"]).
  destruct (init_final S0 [] B0 [] 1) as (r & Hr & Hlast & Hlay & Hcov & _).
  { constructor; unfold S0, B0; simpl.
    - apply tags_unique_iff. simpl. rewrite V2. reflexivity.
    - exists false. repeat split; intros x Hx; repeat destruct Hx as [<-|Hx]; try contradiction; reflexivity.
    - intros e Hx; repeat destruct Hx as [<-|Hx]; try contradiction; simpl; rewrite ?V1; simpl; lia.
    - intros k Hk. destruct k as [|[|k]]; [eexists; split; [left; reflexivity|reflexivity]|eexists; split; [right; left; reflexivity|simpl; rewrite V1; reflexivity]|lia].
    - intros e e' Hx Hy; repeat destruct Hx as [<-|Hx]; try contradiction; repeat destruct Hy as [<-|Hy]; try contradiction; simpl; rewrite ?V1, ?V3; simpl; auto; discriminate.
    - intros e Hx; repeat destruct Hx as [<-|Hx]; try contradiction; simpl; rewrite ?V3; lra.
    - contradiction.
    - change (NoDup [0; 2]%nat). constructor; [simpl; intuition lia|constructor; [simpl; tauto|constructor]].
    - intros e Hx; repeat destruct Hx as [<-|Hx]; try contradiction; left; unfold brg_n; simpl; lia.
    - intros e m Hx Hm; repeat destruct Hx as [<-|Hx]; try contradiction; discriminate.
    - contradiction. }
  pose proof (rotor_facts _ _ _ _ _ Hr) as F. destruct (rotor_init_lists _ _ _ _ _ Hr) as (Es & Ed & Eb & Ep).
  assert (Es' : r_shaft r = [EShaft false 0 "s0" (ex_shaft 0 "s0"); EShaft false 1 "s1" s]) by (rewrite Es; unfold S0; simpl; unfold mk_shaft; simpl; rewrite V1, V2; reflexivity). clear Es. rename Es' into Es.
  assert (Eb' : r_brg r = [EBrg "b0" (ex_brg false 0 None "b0"); EBrg "b1" (ex_brg false 2 None "b1")]) by (rewrite Eb; reflexivity). clear Eb. rename Eb' into Eb.
  assert (Ed' : r_disk r = []) by (rewrite Ed; reflexivity). clear Ed. rename Ed' into Ed.
  assert (Hlen : length (r_nodes_pos r) = 3%nat) by (rewrite (nodes_pos_length r F Hcov), Hlast; reflexivity).
  assert (Hcar : carriers r = r_brg r) by (unfold carriers, carries; rewrite Eb, Hlen; reflexivity).
  assert (Ha : apart r) by (intros e m He Hm; rewrite Hcar, Eb in He; destruct He as [<-|[<-|[]]]; discriminate).
  assert (Hsup : supports r = [0; 2]%nat) by (unfold supports; rewrite Hcar, Eb; reflexivity).
  assert (Hld : forall e, In e (r_shaft r) -> no_load e).
  { rewrite Es; intros e [<-|[<-|[]]]; eexists; [split; [apply ex_shaft_init|]; split; [apply ex_sargs_good|]; split; reflexivity|split; [exact Hi|]; split; [apply cone_good|]; split; reflexivity]. }
  assert (Hnd : NoDup (supports r)) by (rewrite Hsup; constructor; [simpl; intuition lia|constructor; [simpl; tauto|constructor]]).
  assert (Hft : free_tags r) by (intros e i He; rewrite Es, Ed in He; destruct He as [<-|[<-|[]]]; discriminate).
  destruct (C48_solvable la0 spl _ _ _ _ r Hr Ha la0_ok Hlay Hcov Hld Hnd Hft) as [_ Q].
  destruct Q as [Q _]; [exists "b1", (ex_brg false 2 None "b1"); split; [rewrite Eb; right; left; reflexivity|intros b'; discriminate]|].
  destruct Q as [st Hst]; [exists 0%nat, 2%nat; rewrite Hsup; simpl; auto|].
  destruct (C48_diagrams_cones la0 spl _ _ _ _ r st Hr Ha la0_ok Hlay Hld Hst ltac:(lia)) as (_ & Vx & _).
  exists r, st. split; [exists S0, [], B0, []; exact Hr|]. split; [exact Ha|]. split; [exact Hlay|]. split; [exact Hld|]. split; [exact Hst|]. split; [exact Hlast|]. cbv zeta. rewrite Vx, Hlast. cbn [seq map Nat.add nth].
  assert (E0 : shift_at r 0 = 0).
  { unfold shift_at. rewrite Es. cbn [filter el_n Nat.eqb map]. unfold suml. cbn [fold_right shift mass_rise]. destruct (cyl_flat _ _ (ex_shaft_init 0 "s0") (ex_sargs_good 0 "s0")) as (Z1 & Z2 & _); [split; reflexivity|].
    rewrite (area_poly _ _ (ex_shaft_init 0 "s0") (ex_sargs_good 0 "s0")), Z1, Z2. pose proof (shaft_positive _ _ (ex_shaft_init 0 "s0") (ex_sargs_good 0 "s0")) as Ps. field. destruct Ps. lra. }
  assert (E1 : shift_at r 1 = 9 * PI / 1005).
  { unfold shift_at. rewrite Es. cbn [filter el_n Nat.eqb map]. unfold suml. cbn [fold_right shift mass_rise]. rewrite V3, V4, V5, V6. field. }
  rewrite E0, E1. split; [f_equal; ring|reflexivity].
Qed.

Print Assumptions C48_diagrams_cones.
Print Assumptions C48_cone_shear_refuted.
