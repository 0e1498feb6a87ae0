(** What run_static computes, in lateral coordinates. *)
From Coq Require Import Reals String List Arith Bool Lia Lra Permutation Sorted.
From Verif Require Import PyBase PyDict MatBase SpecMat LMat MMaterial MShaft MDisk MBearing MRotor SpecBeam SpecShaft SpecRotor LShaft LShaftEnergy LShaftProps LShaft6 LBearing LBearing2
  LAssembly LRotor LRotor2 LRotor3 LRotor4 LRotor5 LRotor6 LRotor7 LRotorInit2 MDynamics MResults MSection LSection LSection2 MStatic SpecStatic LResults7 LResults8 LStatic LStatic2 LStatic3.
Import ListNotations.
Open Scope list_scope.
Open Scope R_scope.

(** lateral elastic, support and inertia forms *)
Definition W spl (r : rotor) (x y : vec) : R := suml (map (work (el_K spl 0) r (wide (r_nd r) x) (wide (r_nd r) y)) (r_shaft r)).
Definition P spl (r : rotor) (x y : vec) : R := suml (map (work (el_M spl 0) r (wide (r_nd r) x) (wide (r_nd r) y)) (r_shaft r ++ r_disk r)).
Definition grip (x y : vec) (k : nat) : R := x (4 * k)%nat * y (4 * k)%nat + x (4 * k + 1)%nat * y (4 * k + 1)%nat.
Definition G (r : rotor) (x y : vec) : R := suml (map (grip x y) (supports r)).
Definition n4 (r : rotor) : nat := (4 * (r_n_last r + 2))%nat.
Definition dotv (n : nat) (x y : vec) : R := sumn n (fun i => x i * y i).

Lemma wide_grip r x y k : (r_nd r = 4 \/ r_nd r = 6)%nat -> support_work r (wide (r_nd r) x) (wide (r_nd r) y) k = grip x y k.
Proof.
  intros E. unfold support_work, grip.
  replace (r_nd r * k)%nat with (r_nd r * k + rot (r_nd r) 0)%nat by (unfold rot; destruct E as [-> | ->]; cbn [Nat.eqb]; lia).
  rewrite !wide_node by (auto; lia).
  replace (r_nd r * k + rot (r_nd r) 0 + 1)%nat with (r_nd r * k + rot (r_nd r) 1)%nat by (unfold rot; destruct E as [-> | ->]; cbn [Nat.eqb]; lia).
  rewrite !wide_node by (auto; lia). rewrite Nat.add_0_r. reflexivity.
Qed.
Lemma wide_G r x y : (r_nd r = 4 \/ r_nd r = 6)%nat -> suml (map (support_work r (wide (r_nd r) x) (wide (r_nd r) y)) (supports r)) = G r x y.
Proof. intros E. apply suml_map_ext. intros k _. apply wide_grip. exact E. Qed.
Lemma wide_scal nd c x i : wide nd (fun j => c * x j) i = c * wide nd x i.
Proof. unfold wide. destruct (Nat.eqb nd 6); [|reflexivity]. destruct (Nat.eqb (i mod 3) 2); ring. Qed.
Lemma P_scal spl r c x y : P spl r x (fun j => c * y j) = c * P spl r x y.
Proof.
  unfold P. rewrite <- suml_map_scal. apply suml_map_ext. intros e _. unfold work, bform.
  rewrite <- sumn_scal. apply sumn_ext. intros i _.
  rewrite (sumn_ext _ _ (fun j => c * (el_mat (el_M spl 0) e i j * gather (acts_on (r_nd r) (r_n_last r) e) (wide (r_nd r) y) j))).
  - rewrite sumn_scal. ring.
  - intros j _. unfold gather. rewrite wide_scal. ring.
Qed.
Lemma P_ext spl r x y y' : (forall i, y i = y' i) -> P spl r x y = P spl r x y'.
Proof.
  intros H. apply suml_map_ext. intros e _. apply bform_vext; [reflexivity|]. intros i _. unfold gather, wide. destruct (Nat.eqb (r_nd r) 6); rewrite H; reflexivity.
Qed.
Lemma gravity_up i : gravity i = - g0 * up4 i.
Proof. unfold gravity, up4, grav, g0. destruct (Nat.eqb (i mod 4) 1); lra. Qed.
Lemma P_gravity spl r x : P spl r x gravity = - g0 * P spl r x up4.
Proof. rewrite <- P_scal. apply P_ext. intros i. apply gravity_up. Qed.

Definition reaction_of (nodal weight : vec) (k : nat) : R := nodal (4 * k + 1)%nat - weight (4 * k + 1)%nat.
Record core spl (r ra : rotor) (u nodal weight : vec) : Prop := {
  co_aux : aux_facts r (10 ^ 20) ra;
  co_nodal : forall x, dotv (n4 r) x nodal = W spl r x u;
  co_weight : forall x, dotv (n4 r) x weight = - g0 * P spl r x up4;
  co_eq : forall x, W spl r x u + 10 ^ 20 * G r x u = - g0 * P spl r x up4;
  co_cover : forall e, In e (r_shaft r) -> (el_n e < length (r_nodes_pos r) - 1)%nat }.
Definition result_of (r ra : rotor) (u nodal weight : vec) : static :=
  let pos := r_nodes_pos r in
  let N := (length pos - 1)%nat in
  let sh := r_shaft r in
  let f k := nodal (4 * k + 1)%nat - nodal_shaft_weight sh k in
  let v := vx_row (elm_forces sh N f) N in
  let ax := axis_row sh pos in
  mkStatic (map (fun k => u (4 * k + 1)%nat) (seq 0 (r_n_last r + 2))) (map v (seq 0 N)) (map (mx_row v ax N) (seq 0 N)) (map ax (seq 0 N))
        (suml (map sh_m sh) * (- grav))
        (fold_left (fun d e => nset d (el_n e) (- dk_m e * grav)) (r_disk ra) [])
        (fold_left (fun d e => nset d (el_n e) (reaction_of nodal weight (el_n e))) (r_brg ra) [])
        (fold_left (fun d e => dset d (el_tag e) (- dk_m e * grav)) (r_disk ra) [])
        (fold_left (fun d e => dset d (el_tag e) (reaction_of nodal weight (el_n e))) (r_brg ra) []).

Lemma run_static_inv la spl r st : rfacts r -> apart r -> linalg_ok la -> run_static la spl r = Ok st ->
  exists ra u nodal weight, core spl r ra u nodal weight /\ st = result_of r ra u nodal weight.
Proof.
  intros F Ha Hla H. unfold run_static in H. destruct (forallb is_seal (r_brg r)); [discriminate|].
  destruct (aux_rotor r (10 ^ 20)) as [ra|] eqn:Ea; [|discriminate]. cbn [bind] in H.
  destruct (aux_rotor r 0) as [rb|] eqn:Eb; [|discriminate]. cbn [bind] in H.
  pose proof (aux_rotor_facts _ _ _ F Ha Ea) as Fa. pose proof (aux_rotor_facts _ _ _ F Ha Eb) as Fb.
  rewrite <- (af_nd _ _ _ Fa) in H.
  destruct (rotor_M spl ra (Some 0)) as [Ma|] eqn:EM; [|unfold lateral, converted in H; destruct (Nat.eqb (r_nd ra) 6); discriminate].
  destruct (lateral_form ra Ma (af_facts _ _ _ Fa) (af_pm _ _ _ Fa)) as (M4 & LM & FM). rewrite LM in H. cbn [bind] in H.
  destruct (rotor_K spl ra 0 []) as [Ka|] eqn:EK; [|unfold lateral, converted in H; destruct (Nat.eqb (r_nd ra) 6); discriminate].
  destruct (lateral_form ra Ka (af_facts _ _ _ Fa) (af_pm _ _ _ Fa)) as (K4 & LK & FK). rewrite LK in H. cbn [bind] in H.
  rewrite (af_nd _ _ _ Fa), <- (af_nd _ _ _ Fb) in H.
  destruct (rotor_K spl rb 0 []) as [Kb|] eqn:EKb; [|unfold lateral, converted in H; destruct (Nat.eqb (r_nd rb) 6); discriminate].
  destruct (lateral_form rb Kb (af_facts _ _ _ Fb) (af_pm _ _ _ Fb)) as (K1 & LK1 & FK1). rewrite LK1 in H. cbn [bind fst snd] in H.
  rewrite (af_last _ _ _ Fa) in *. rewrite (af_last _ _ _ Fb) in *. fold (n4 r) in *. rewrite (af_nd _ _ _ Fa) in FM, FK. rewrite (af_nd _ _ _ Fb) in FK1.
  set (weight := mulv (n4 r) M4 gravity) in *.
  destruct (la_solve la (n4 r) K4 (fun i _ => weight i)) as [X|] eqn:ES; [|discriminate]. cbn [bind] in H.
  set (u := fun i => X i 0%nat) in *. set (nodal := mulv (n4 r) K1 u) in *.
  destruct (forallb (fun e => (el_n e <? length (r_nodes_pos r) - 1)%nat) (r_shaft r)) eqn:Ec; [|discriminate]. cbn [negb] in H. apply Ok_inj in H.
  assert (HM : forall x y, bform (n4 r) M4 x y = P spl r x y) by (intros x y; rewrite FM; apply (aux_M_form spl r (10 ^ 20) ra Ma); auto).
  assert (HK : forall x y, bform (n4 r) K4 x y = W spl r x y + 10 ^ 20 * G r x y) by (intros x y; rewrite FK, (aux_K_form spl r (10 ^ 20) ra Ka) by auto; rewrite wide_G by apply (rf_nd _ F); reflexivity).
  assert (HK1 : forall x y, bform (n4 r) K1 x y = W spl r x y) by (intros x y; rewrite FK1, (aux_K_form spl r 0 rb Kb) by auto; unfold W; ring).
  exists ra, u, nodal, weight. split.
  - constructor.
    + exact Fa.
    + intros x. rewrite <- HK1. reflexivity.
    + intros x. rewrite <- P_gravity, <- HM. reflexivity.
    + intros x. rewrite <- HK, <- P_gravity, <- HM. unfold bform. apply sumn_ext. intros i Hi. f_equal. destruct (solve_sol _ Hla _ _ _ _ ES) as [_ S]. specialize (S i 0%nat Hi ltac:(unfold n4; lia)).
      exact S.
    + intros e He. rewrite forallb_forall in Ec. apply Nat.ltb_lt, Ec, He.
  - rewrite <- H. unfold result_of. replace (n4 r / 4)%nat with (r_n_last r + 2)%nat by (unfold n4; rewrite Nat.mul_comm, Nat.div_mul; lia). reflexivity.
Qed.
