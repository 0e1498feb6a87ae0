(** Lemmas behind the shaft element theorems. *)
From Coq Require Import Reals List Arith Lra Lia Psatz Bool String.
From Coquelicot Require Import Coquelicot.
From Verif Require Import PyBase MatBase SpecMat MMaterial MShaft SpecBeam SpecShaft LMat LQuad LShaft LShaftEnergy.
Import ListNotations.
Open Scope R_scope.

(** *** geometry *)
Ltac ncgoal := unfold nc10, apoly, ipoly; cbv zeta.

Lemma geometry_volume a s : shaft_init a = Ok s -> good_args a -> s_volume s = RInt (arg_area a) 0 (a_L a).
Proof.
  intros Hi Hg. pose proof (shaft_positive _ _ Hi Hg) as Ps. pose proof (shaft_init_facts _ _ Hi) as F.
  assert (HL : s_L s <> 0) by (destruct Ps; lra). assert (HA : s_A_l s <> 0) by (destruct Ps; lra).
  rewrite (RInt_ext _ (fun z => s_A_l s * apoly s z)) by (intros; apply (arg_area_eq a s F HA)).
  rewrite <- (f_L _ _ F), RInt_nc10 by (apply poly_scale, (poly_weaken 3); [lia|apply apoly_poly]).
  unfold nc10, apoly. nodes (s_L s) HL.
  rewrite (f_vol _ _ F), (f_a1 _ _ F), (f_b1 _ _ F).
  transitivity (s_L s * (s_A_l s + PI * (s_odl s / 2 * (s_odr s / 2 - s_odl s / 2) - s_idl s / 2 * (s_idr s / 2 - s_idl s / 2))
     + PI * ((s_odr s / 2 - s_odl s / 2) ^ 2 - (s_idr s / 2 - s_idl s / 2) ^ 2) / 3)).
  - rewrite (f_Al _ _ F). field.
  - field. exact HA.
Qed.

Lemma volume_pos a s : shaft_init a = Ok s -> good_args a -> 0 < s_volume s.
Proof.
  intros Hi Hg. pose proof (shaft_positive _ _ Hi Hg) as Ps. pose proof (shaft_init_facts _ _ Hi) as F.
  rewrite (f_vol _ _ F). destruct Ps. apply Rmult_lt_0_compat; [apply Rmult_lt_0_compat; [apply PI_RGT_0|lra]|].
  nra.
Qed.

Lemma geometry_mass a s : shaft_init a = Ok s -> good_args a ->
  s_m s = RInt (fun z => mrho (s_material s) * arg_area a z) 0 (a_L a).
Proof.
  intros Hi Hg. pose proof (shaft_init_facts _ _ Hi) as F. pose proof (shaft_positive _ _ Hi Hg) as Ps.
  assert (HA : s_A_l s <> 0) by (destruct Ps; lra).
  rewrite (f_m _ _ F), (geometry_volume a s Hi Hg).
  rewrite (RInt_ext (arg_area a) (fun z => s_A_l s * apoly s z)) by (intros; apply (arg_area_eq a s F HA)).
  rewrite (RInt_ext (fun z => mrho (s_material s) * arg_area a z) (fun z => mrho (s_material s) * (s_A_l s * apoly s z)))
     by (intros; rewrite (arg_area_eq a s F HA); reflexivity).
  rewrite !RInt_nc10; [unfold nc10; ring| |].
  all: repeat apply poly_scale; apply (poly_weaken 3); [lia|apply apoly_poly].
Qed.

Lemma geometry_cg a s : shaft_init a = Ok s -> good_args a ->
  s_m s * s_beam_cg s = RInt (fun z => mrho (s_material s) * arg_area a z * z) 0 (a_L a).
Proof.
  intros Hi Hg. pose proof (shaft_init_facts _ _ Hi) as F. pose proof (shaft_positive _ _ Hi Hg) as Ps.
  pose proof (volume_pos _ _ Hi Hg) as Hv.
  assert (HL : s_L s <> 0) by (destruct Ps; lra). assert (HA : s_A_l s <> 0) by (destruct Ps; lra).
  rewrite (RInt_ext _ (fun z => mrho (s_material s) * s_A_l s * (apoly s z * z))).
  2:{ intros; rewrite (arg_area_eq a s F HA). req; ring. }
  rewrite <- (f_L _ _ F), RInt_nc10, nc10_scal.
  2:{ apply poly_scale. apply (poly_weaken 4); [lia|]. apply (poly_mult 2 1); [apply apoly_poly|apply poly_id]. }
  unfold nc10, apoly. nodes (s_L s) HL.
  rewrite (f_m _ _ F), (f_vol _ _ F), (f_cg _ _ F), (f_a1 _ _ F), (f_b1 _ _ F).
  transitivity (mrho (s_material s) * s_L s ^ 2 * (s_A_l s / 2 + 2 * PI * (s_odl s / 2 * (s_odr s / 2 - s_odl s / 2) - s_idl s / 2 * (s_idr s / 2 - s_idl s / 2)) / 3
     + PI * ((s_odr s / 2 - s_odl s / 2) ^ 2 - (s_idr s / 2 - s_idl s / 2) ^ 2) / 4)).
  - rewrite (f_Al _ _ F). field.
    destruct Ps. nra.
  - field. exact HA.
Qed.

Lemma geometry_Im a s : shaft_init a = Ok s -> good_args a ->
  s_Im s = RInt (fun z => mrho (s_material s) * (2 * arg_inertia a z)) 0 (a_L a).
Proof.
  intros Hi Hg. pose proof (shaft_init_facts _ _ Hi) as F. pose proof (shaft_positive _ _ Hi Hg) as Ps.
  pose proof (volume_pos _ _ Hi Hg) as Hv.
  assert (HL : s_L s <> 0) by (destruct Ps; lra). assert (HA : s_Ie_l s <> 0) by (destruct Ps; lra).
  rewrite (RInt_ext _ (fun z => mrho (s_material s) * 2 * s_Ie_l s * (ipoly s z))).
  2:{ intros; rewrite (arg_inertia_eq a s F HA). req; ring. }
  rewrite <- (f_L _ _ F), RInt_nc10, nc10_scal.
  2:{ apply poly_scale. apply (poly_weaken 5); [lia|]. apply ipoly_poly. }
  unfold nc10, ipoly. nodes (s_L s) HL.
  rewrite (f_Im _ _ F), (f_m _ _ F), (f_a2 _ _ F), (f_b2 _ _ F), (f_ga _ _ F), (f_de _ _ F).
  set (ro := s_odl s / 2). set (rk := s_odr s / 2). set (qo := s_idl s / 2). set (qk := s_idr s / 2).
  transitivity (mrho (s_material s) * 2 * s_L s * (s_Ie_l s
     + PI * (ro ^ 3 * (rk - ro) - qo ^ 3 * (qk - qo)) / 2
     + 3 * PI * (ro ^ 2 * (rk - ro) ^ 2 - qo ^ 2 * (qk - qo) ^ 2) / 6
     + PI * (ro * (rk - ro) ^ 3 - qo * (qk - qo) ^ 3) / 4
     + PI * ((rk - ro) ^ 4 - (qk - qo) ^ 4) / 20)).
  - rewrite (f_Iel _ _ F). replace (mrho (s_material s) * s_volume s / s_volume s) with (mrho (s_material s)) by (field; lra).
    unfold ro, rk, qo, qk. field.
  - field. exact HA.
Qed.

Lemma geometry_mid a s : shaft_init a = Ok s -> good_args a ->
  s_A s = arg_area a (a_L a / 2) /\ s_Ie s = arg_inertia a (a_L a / 2).
Proof.
  intros Hi Hg. pose proof (shaft_init_facts _ _ Hi) as F. pose proof (shaft_positive _ _ Hi Hg) as Ps.
  assert (HL : s_L s <> 0) by (destruct Ps; lra).
  rewrite (arg_area_eq a s F), (arg_inertia_eq a s F) by (destruct Ps; lra).
  rewrite (f_A _ _ F), (f_Ie _ _ F), <- (f_L _ _ F). unfold apoly, ipoly.
  replace (s_L s / 2 / s_L s) with (1/2) by (field; exact HL). split; reflexivity.
Qed.

(** *** symmetry *)
Ltac table_case := cbn [lmat nth]; try ring.

Ltac symtab T := let i := fresh "i" in let j := fresh "j" in let Hi := fresh in let Hj := fresh in
  intros i j Hi Hj; unfold T, lmat;
  do 12 (destruct i as [|i]; [do 12 (destruct j as [|j]; [cbn [nth]; try reflexivity; try ring; exfalso; lia|]); exfalso; lia|]);
  exfalso; lia.

Lemma Mt_sym s : symmetric 8 (Mt_tab s). Proof. symtab Mt_tab. Qed.
Lemma Mr_sym s : symmetric 8 (Mr_tab s). Proof. symtab Mr_tab. Qed.
Lemma K1_sym s : symmetric 8 (K1_tab s). Proof. symtab K1_tab. Qed.
Lemma K2_sym s : symmetric 8 (K2_tab s). Proof. symtab K2_tab. Qed.
Lemma Ka_sym s : symmetric 8 (Kaxial_tab s). Proof. symtab Kaxial_tab. Qed.
Lemma G_skew s : skew 8 (G_tab s). Proof. symtab G_tab. Qed.
Lemma M6_sym s : symmetric 12 (M6_tab s). Proof. symtab M6_tab. Qed.
Lemma Mr6_sym s : symmetric 12 (Mr6_tab s). Proof. symtab Mr6_tab. Qed.
Lemma Mam6_sym s : symmetric 12 (Mam6_tab s). Proof. symtab Mam6_tab. Qed.
Lemma Mts6_sym s : symmetric 12 (Mts6_tab s). Proof. symtab Mts6_tab. Qed.
Lemma K1_6_sym s : symmetric 12 (K1_6_tab s). Proof. symtab K1_6_tab. Qed.
Lemma K2_6_sym s : symmetric 12 (K2_6_tab s). Proof. symtab K2_6_tab. Qed.
Lemma Kaf6_sym s : symmetric 12 (Kaf6_tab s). Proof. symtab Kaf6_tab. Qed.
Lemma Kam6_sym s : symmetric 12 (Kam6_tab s). Proof. symtab Kam6_tab. Qed.
Lemma Kts6_sym s : symmetric 12 (Kts6_tab s). Proof. symtab Kts6_tab. Qed.
Lemma G6_skew s : skew 12 (G6_tab s). Proof. symtab G6_tab. Qed.

Lemma shaft_M_sym s : symmetric 8 (shaft_M s).
Proof.
  intros i j Hi Hj. unfold shaft_M. rewrite (Mt_sym s i j), (Mr_sym s i j) by assumption. reflexivity.
Qed.
Lemma shaft6_M_sym s : symmetric 12 (shaft6_M s).
Proof.
  intros i j Hi Hj. unfold shaft6_M. rewrite (M6_sym s i j), (Mr6_sym s i j), (Mam6_sym s i j), (Mts6_sym s i j) by assumption. reflexivity.
Qed.
Lemma shaft_K_sym s : s_torque s = 0 -> symmetric 8 (shaft_K s).
Proof.
  intros T i j Hi Hj. unfold shaft_K. rewrite (K1_sym s i j), (K2_sym s i j), (Ka_sym s i j), T by assumption.
  unfold Rdiv. ring.
Qed.
Lemma shaft6_K_sym s : s_torque s = 0 -> symmetric 12 (shaft6_K s).
Proof.
  intros T i j Hi Hj. unfold shaft6_K. rewrite (K1_6_sym s i j), (K2_6_sym s i j), (Kaf6_sym s i j), (Kam6_sym s i j), (Kts6_sym s i j), T by assumption.
  unfold Rdiv. ring.
Qed.
Lemma shaft_K_sym_torque s : s_L s <> 0 -> symmetric 8 (shaft_K s) -> s_torque s = 0.
Proof.
  intros HL H. specialize (H 2%nat 3%nat ltac:(lia) ltac:(lia)).
  unfold shaft_K in H. rewrite (K1_sym s 2%nat 3%nat), (K2_sym s 2%nat 3%nat), (Ka_sym s 2%nat 3%nat) in H by lia.
  apply Rplus_eq_reg_l in H. unfold Ktorque_tab, lmat in H; cbn [nth] in H.
  assert (E : - s_L s / 2 * (s_torque s / s_L s) = - (s_torque s / 2)) by (field; exact HL).
  assert (E' : s_L s / 2 * (s_torque s / s_L s) = (s_torque s / 2)) by (field; exact HL).
  rewrite E, E' in H. lra.
Qed.
Lemma shaft_G_skew s : skew 8 (shaft_G s).
Proof.
  intros i j Hi Hj. unfold shaft_G. destruct (s_gyroscopic s); [|ring].
  rewrite (G_skew s i j) by assumption. unfold Rdiv; ring.
Qed.
Lemma shaft6_G_skew s : skew 12 (shaft6_G s).
Proof.
  intros i j Hi Hj. unfold shaft6_G. destruct (s_gyroscopic s); [|ring].
  rewrite (G6_skew s i j) by assumption. unfold Rdiv; ring.
Qed.

(** *** positivity *)
Lemma arg_area_pos a z : good_args a -> 0 <= z <= a_L a -> 0 < arg_area a z.
Proof. intros [(HL & Hl & Hr) _] Hz. apply sec_area_pos; auto. Qed.
Lemma arg_inertia_pos a z : good_args a -> 0 <= z <= a_L a -> 0 < arg_inertia a z.
Proof. intros [(HL & Hl & Hr) _] Hz. apply sec_inertia_pos; auto. Qed.

Lemma apoly_pos a s z : shaft_init a = Ok s -> good_args a -> 0 <= z <= s_L s -> 0 < apoly s z.
Proof.
  intros Hi Hg Hz. pose proof (shaft_init_facts _ _ Hi) as F. destruct (shaft_positive _ _ Hi Hg).
  rewrite (f_L _ _ F) in Hz. pose proof (arg_area_pos a z Hg Hz) as H.
  rewrite (arg_area_eq a s F) in H by lra. apply Rmult_lt_reg_l with (s_A_l s); lra.
Qed.
Lemma ipoly_pos a s z : shaft_init a = Ok s -> good_args a -> 0 <= z <= s_L s -> 0 < ipoly s z.
Proof.
  intros Hi Hg Hz. pose proof (shaft_init_facts _ _ Hi) as F. destruct (shaft_positive _ _ Hi Hg).
  rewrite (f_L _ _ F) in Hz. pose proof (arg_inertia_pos a z Hg Hz) as H.
  rewrite (arg_inertia_eq a s F) in H by lra. apply Rmult_lt_reg_l with (s_Ie_l s); lra.
Qed.

Lemma tw_zero L phi w0 t0 w1 t1 : 0 < L -> 0 <= phi ->
  tw L phi w0 t0 w1 t1 0 = 0 -> tw L phi w0 t0 w1 t1 (3 * L / 9) = 0 ->
  tw L phi w0 t0 w1 t1 (6 * L / 9) = 0 -> tw L phi w0 t0 w1 t1 L = 0 ->
  w0 = 0 /\ t0 = 0 /\ w1 = 0 /\ t1 = 0.
Proof.
  intros HL Hp. unfold tw; cbv zeta.
  replace (0 / L) with 0 by (field; lra). replace (L / L) with 1 by (field; lra).
  replace (3 * L / 9 / L) with (1/3) by (field; lra). replace (6 * L / 9 / L) with (2/3) by (field; lra).
  intros H0 H1 H2 H3.
  assert (N : 1 + phi <> 0) by lra.
  assert (D : forall x, x / (1 + phi) = 0 -> x = 0).
  { intros x Hx. replace x with (x / (1 + phi) * (1 + phi)) by (field; lra). rewrite Hx; ring. }
  apply D in H0. apply D in H1. apply D in H2. apply D in H3.
  assert (W0 : w0 = 0). { assert ((1 + phi) * w0 = 0) by (rewrite <- H0; ring). nra. }
  assert (W1 : w1 = 0). { assert ((1 + phi) * w1 = 0) by (rewrite <- H3; ring). nra. }
  subst. 
  assert (E1 : L * ((4 + 3 * phi) * t0 - (2 + 3 * phi) * t1) = 0) by (rewrite <- (Rmult_0_r 27), <- H1; field).
  assert (E2 : L * ((2 + 3 * phi) * t0 - (4 + 3 * phi) * t1) = 0) by (rewrite <- (Rmult_0_r 27), <- H2; field).
  assert (F1 : (4 + 3 * phi) * t0 - (2 + 3 * phi) * t1 = 0) by nra.
  assert (F2 : (2 + 3 * phi) * t0 - (4 + 3 * phi) * t1 = 0) by nra.
  assert (S1 : t0 + t1 = 0) by lra.
  assert (t0 = 0) by nra. repeat split; lra.
Qed.

Lemma shaft_M_pd a s : shaft_init a = Ok s -> good_args a -> pos_def 8 (shaft_M s).
Proof.
  intros Hi Hg v Hv. pose proof (shaft_positive _ _ Hi Hg) as Ps. pose proof (shaft_init_facts _ _ Hi) as F.
  rewrite shaft_M_nc by (apply pos_nz, Ps).
  set (f := fun z => apoly s z * (ux (s_L s) (s_phi s) v z ^ 2 + uy (s_L s) (s_phi s) v z ^ 2)).
  set (g := fun z => ipoly s z * (rx (s_L s) (s_phi s) v z ^ 2 + ry (s_L s) (s_phi s) v z ^ 2)).
  assert (Hf : forall z, 0 <= z <= s_L s -> 0 <= f z).
  { intros z Hz. pose proof (apoly_pos _ _ _ Hi Hg Hz). unfold f. apply Rmult_le_pos; [lra|nra]. }
  assert (Hgp : forall z, 0 <= z <= s_L s -> 0 <= g z).
  { intros z Hz. pose proof (ipoly_pos _ _ _ Hi Hg Hz). unfold g. apply Rmult_le_pos; [lra|nra]. }
  destruct Ps.
  assert (Nf : 0 <= nc10 f (s_L s)) by (apply nc10_nonneg; auto; lra).
  assert (Ng : 0 <= nc10 g (s_L s)) by (apply nc10_nonneg; auto; lra).
  assert (Np : 0 < nc10 f (s_L s)).
  { destruct (Rle_lt_or_eq_dec _ _ Nf) as [|E]; [assumption|exfalso].
    symmetry in E. apply nc10_zero in E; auto. destruct E as (Z0 & Z1 & Z2 & Z3).
    assert (Hz : forall z, 0 <= z <= s_L s -> f z = 0 -> ux (s_L s) (s_phi s) v z = 0 /\ uy (s_L s) (s_phi s) v z = 0).
    { intros z Hz. unfold f. intros E. apply Rmult_integral in E. pose proof (apoly_pos _ _ _ Hi Hg Hz).
      destruct E as [E|E]; [lra|]. split; nra. }
    apply Hz in Z0; [|lra]. apply Hz in Z1; [|lra]. apply Hz in Z2; [|lra]. apply Hz in Z3; [|lra].
    unfold ux, uy in *.
    destruct (tw_zero (s_L s) (s_phi s) (v 0%nat) (v 3%nat) (v 4%nat) (v 7%nat)) as (A0 & A1 & A2 & A3); try tauto.
    destruct (tw_zero (s_L s) (s_phi s) (v 1%nat) (- v 2%nat) (v 5%nat) (- v 6%nat)) as (B0 & B1 & B2 & B3); try tauto.
    destruct Hv as (i & Hi8 & Hne).
    do 8 (destruct i as [|i]; [lra|]). lia. }
  assert (0 < mrho (s_material s) * s_A_l s * nc10 f (s_L s)) by (apply Rmult_lt_0_compat; [apply Rmult_lt_0_compat|]; assumption).
  destruct (s_rotary_inertia s); [|lra].
  assert (0 <= mrho (s_material s) * s_Ie_l s * nc10 g (s_L s)); [|lra].
  apply Rmult_le_pos; [apply Rmult_le_pos; lra|assumption].
Qed.

Lemma k7_pos a s : shaft_init a = Ok s -> good_args a -> 0 < k7 s.
Proof.
  intros Hi Hg. destruct (shaft_positive _ _ Hi Hg).
  assert (E : k7 s = 12 * (nc10 (apoly s) (s_L s)) / s_L s).
  { unfold nc10, apoly, k7. nodes (s_L s) (Rgt_not_eq _ _ p_L). field. lra. }
  assert (0 < nc10 (apoly s) (s_L s)).
  { destruct (Rle_lt_or_eq_dec 0 (nc10 (apoly s) (s_L s))) as [|E']; [|assumption|exfalso].
    - apply nc10_nonneg; [lra|]. intros z Hz. pose proof (apoly_pos _ _ _ Hi Hg Hz). lra.
    - symmetry in E'. apply nc10_zero in E'; [|lra|intros z Hz; pose proof (apoly_pos _ _ _ Hi Hg Hz); lra].
      destruct E' as [E0 _]. pose proof (apoly_pos _ _ 0 Hi Hg ltac:(lra)). lra. }
  rewrite E. apply Rdiv_lt_0_compat; lra.
Qed.

Lemma Pk2_sq s w0 t0 w1 t1 : Pk2 s w0 t0 w1 t1 = k7 s * (w0 - w1 + s_L s * (t0 + t1) / 2) ^ 2.
Proof. unfold Pk2, qf4, k7, k8, k9. field. Qed.

Lemma tt'_rigid L phi w0 t0 w1 t1 : 0 < L -> 0 <= phi ->
  (tt' L phi w0 t0 w1 t1 0 = 0 /\ tt' L phi w0 t0 w1 t1 L = 0) <-> (t1 = t0 /\ w1 = w0 + L * t0).
Proof.
  intros HL Hp. unfold tt'; cbv zeta.
  replace (0 / L) with 0 by (field; lra). replace (L / L) with 1 by (field; lra).
  assert (D : forall x, x / (L * (1 + phi)) = 0 <-> x = 0).
  { intros x; split; [|intros ->; unfold Rdiv; ring].
    intros Hx. replace x with (x / (L * (1 + phi)) * (L * (1 + phi))) by (field; lra). rewrite Hx; ring. }
  rewrite !D. split.
  - intros [H0 H1].
    assert (E : 2 * (1 + phi) * (t1 - t0) = 0).
    { apply (Rplus_eq_compat_l 0) in H0. rewrite <- H1 in H0 at 1.
      match type of H0 with ?a = _ => replace (2 * (1 + phi) * (t1 - t0)) with a end. lra. field; lra. }
    assert (t1 = t0) by nra. split; auto. subst t1.
    assert (E2 : 6 / L * (w1 - w0 - L * t0) = 0) by (rewrite <- H0; field; lra).
    apply Rmult_integral in E2. destruct E2 as [E2|E2]; [|lra].
    exfalso. assert (0 < 6 / L) by (apply Rdiv_lt_0_compat; lra). lra.
  - intros [-> ->]. split; field; lra.
Qed.

Lemma nc10_bend_0 a s v : shaft_init a = Ok s -> good_args a ->
  let f := fun z => ipoly s z * (rx' (s_L s) (s_phi s) v z ^ 2 + ry' (s_L s) (s_phi s) v z ^ 2) in
  0 <= nc10 f (s_L s) /\ (nc10 f (s_L s) = 0 -> rigid4 (s_L s) v).
Proof.
  intros Hi Hg f. pose proof (shaft_positive _ _ Hi Hg) as Ps. destruct Ps.
  assert (Hf : forall z, 0 <= z <= s_L s -> 0 <= f z).
  { intros z Hz. pose proof (ipoly_pos _ _ _ Hi Hg Hz). unfold f. apply Rmult_le_pos; [lra|nra]. }
  split; [apply nc10_nonneg; auto; lra|].
  intros E. apply nc10_zero in E; auto. destruct E as (Z0 & _ & _ & Z3).
  assert (Hz : forall z, 0 <= z <= s_L s -> f z = 0 -> rx' (s_L s) (s_phi s) v z = 0 /\ ry' (s_L s) (s_phi s) v z = 0).
  { intros z Hz. unfold f. intros E. apply Rmult_integral in E. pose proof (ipoly_pos _ _ _ Hi Hg Hz).
    destruct E as [E|E]; [lra|]. split; nra. }
  apply Hz in Z0; [|lra]. apply Hz in Z3; [|lra]. unfold rx', ry' in *.
  destruct (proj1 (tt'_rigid (s_L s) (s_phi s) (v 0%nat) (v 3%nat) (v 4%nat) (v 7%nat) p_L p_phi)) as (A1 & A2); [tauto|].
  destruct (proj1 (tt'_rigid (s_L s) (s_phi s) (v 1%nat) (- v 2%nat) (v 5%nat) (- v 6%nat) p_L p_phi)) as (B1 & B2); [tauto|].
  unfold rigid4. repeat split; lra.
Qed.

Lemma K2_coef_nonneg a s : shaft_init a = Ok s -> good_args a ->
  0 <= mE (s_material s) * / (s_L s ^ 3) * / ((1 + s_phi s) ^ 2) * s_Ie s * s_phi s * s_A_l s / s_A s.
Proof.
  intros Hi Hg. pose proof (shaft_positive _ _ Hi Hg) as Ps. destruct Ps.
  assert (0 < / (s_L s ^ 3)) by (apply Rinv_0_lt_compat, pow_lt; lra).
  assert (0 < / ((1 + s_phi s) ^ 2)) by (apply Rinv_0_lt_compat, pow_lt; lra).
  assert (0 < / s_A s) by (apply Rinv_0_lt_compat; lra).
  unfold Rdiv. repeat apply Rmult_le_pos; lra.
Qed.

Lemma bform_K2_nonneg a s v : shaft_init a = Ok s -> good_args a -> 0 <= bform 8 (K2_tab s) v v.
Proof.
  intros Hi Hg. rewrite bform_K2, !Pk2_sq. pose proof (k7_pos _ _ Hi Hg).
  assert (forall x, 0 <= k7 s * x ^ 2) by (intros x; apply Rmult_le_pos; [lra|apply pow2_ge_0]).
  apply Rplus_le_le_0_compat; auto.
Qed.

Lemma shaft_K_psd a s : shaft_init a = Ok s -> good_args a -> a_torque a = 0 -> 0 <= a_axial_force a ->
  pos_semidef 8 (shaft_K s).
Proof.
  intros Hi Hg HT HA v. pose proof (shaft_positive _ _ Hi Hg) as Ps. pose proof (shaft_init_facts _ _ Hi) as F.
  rewrite shaft_K_nc; [|apply pos_nz, Ps|destruct Ps; lra|rewrite (f_tq _ _ F); auto].
  pose proof (bform_K2_nonneg _ _ v Hi Hg). pose proof (K2_coef_nonneg _ _ Hi Hg).
  destruct (nc10_bend_0 _ _ v Hi Hg) as [Hb _].
  assert (0 <= nc10 (fun z => ux' (s_L s) (s_phi s) v z ^ 2 + uy' (s_L s) (s_phi s) v z ^ 2) (s_L s)).
  { apply nc10_nonneg; [destruct Ps; lra|]. intros. nra. }
  rewrite (f_af _ _ F). destruct Ps.
  apply Rplus_le_le_0_compat; [apply Rplus_le_le_0_compat|]; (apply Rmult_le_pos; [|assumption]); try assumption; try lra.
  apply Rmult_le_pos; lra.
Qed.

Lemma shaft_K_rigid_0 s x : nz s -> s_A s <> 0 -> s_torque s = 0 -> s_axial_force s = 0 ->
  rigid4 (s_L s) x -> forall i, (i < 8)%nat -> mulv 8 (shaft_K s) x i = 0.
Proof.
  intros [HL HP] HA HT HF (R1 & R2 & R3 & R4) i Hi.
  assert (E1 : mulv 8 (K1_tab s) x i = 0).
  { do 8 (destruct i as [|i]; [unfold mulv, K1_tab, lmat; cbn [sumn nth]; rewrite R1, R2, R3, R4; unfold k1,k2,k3,k4,k5,k6; field|]). lia. }
  assert (E2 : mulv 8 (K2_tab s) x i = 0).
  { do 8 (destruct i as [|i]; [unfold mulv, K2_tab, lmat; cbn [sumn nth]; rewrite R1, R2, R3, R4; unfold k7,k8,k9; field|]). lia. }
  transitivity (mE (s_material s) * / (s_L s ^ 3) * / ((1 + s_phi s) ^ 2) *
     (mulv 8 (K1_tab s) x i * s_Ie_l s / 105 + mulv 8 (K2_tab s) x i * s_Ie s * s_phi s * s_A_l s / s_A s)).
  - unfold mulv. set (c := mE (s_material s) * / s_L s ^ 3 * / (1 + s_phi s) ^ 2).
    transitivity (sumn 8 (fun j => c * (s_Ie_l s / 105 * (K1_tab s i j * x j) + s_Ie s * s_phi s * s_A_l s / s_A s * (K2_tab s i j * x j)))).
    + apply sumn_ext; intros j _. unfold shaft_K. rewrite HT, HF. fold c. unfold Rdiv. ring.
    + rewrite sumn_scal, sumn_plus, !sumn_scal. unfold Rdiv. ring.
  - rewrite E1, E2. unfold Rdiv; ring.
Qed.

Lemma shaft_K_kernel a s x : shaft_init a = Ok s -> good_args a -> a_torque a = 0 -> a_axial_force a = 0 ->
  (bform 8 (shaft_K s) x x = 0 <-> rigid4 (a_L a) x).
Proof.
  intros Hi Hg HT HA. pose proof (shaft_positive _ _ Hi Hg) as Ps. pose proof (shaft_init_facts _ _ Hi) as F.
  rewrite <- (f_L _ _ F). split.
  - rewrite shaft_K_nc; [|apply pos_nz, Ps|destruct Ps; lra|rewrite (f_tq _ _ F); auto].
    pose proof (bform_K2_nonneg _ _ x Hi Hg). pose proof (K2_coef_nonneg _ _ Hi Hg).
    destruct (nc10_bend_0 _ _ x Hi Hg) as [Hb Hr]. rewrite (f_af _ _ F), HA, Rmult_0_l, Rplus_0_r.
    intros E. apply Hr. destruct Ps.
    match type of E with ?a * ?b * ?X + ?c * ?Y = 0 =>
      assert (0 <= c * Y) by (apply Rmult_le_pos; assumption);
      assert (0 < a * b) by (apply Rmult_lt_0_compat; lra);
      assert (a * b * X <= 0) by lra end.
    nra.
  - intros R. unfold bform. apply sumn_0. intros i Hi8.
    assert (mulv 8 (shaft_K s) x i = 0) as E.
    { apply shaft_K_rigid_0; auto; [apply pos_nz, Ps|destruct Ps; lra|rewrite (f_tq _ _ F); auto|rewrite (f_af _ _ F); auto]. }
    unfold mulv in E. rewrite E. ring.
Qed.
