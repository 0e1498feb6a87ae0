(** Lemmas on the gyroscopic matrix and on the six degree of freedom element. *)
From Coq Require Import Reals List Arith Lra Lia Psatz Bool String.
From Coquelicot Require Import Coquelicot.
From Verif Require Import PyBase MatBase SpecMat MMaterial MShaft SpecBeam SpecShaft LMat LQuad LShaft LShaftEnergy LShaftProps.
Import ListNotations.
Open Scope R_scope.

(** *** gyroscopic matrix as an integral *)
Definition Br (s : shaft) a0 b0 a1 b1 c0 d0 c1 d1 : R :=
  (Pr s (a0 + c0) (b0 + d0) (a1 + c1) (b1 + d1) - Pr s a0 b0 a1 b1 - Pr s c0 d0 c1 d1) / 2.

Lemma g_m s : g1 s = m11 s /\ g2 s = m12 s /\ g3 s = m13 s /\ g4 s = m14 s /\ g5 s = m15 s /\ g6 s = m16 s.
Proof. repeat split; reflexivity. Qed.

Lemma bform_G s v w : bform 8 (G_tab s) v w =
  Br s (v 0%nat) (v 3%nat) (v 4%nat) (v 7%nat) (w 1%nat) (- w 2%nat) (w 5%nat) (- w 6%nat)
  - Br s (v 1%nat) (- v 2%nat) (v 5%nat) (- v 6%nat) (w 0%nat) (w 3%nat) (w 4%nat) (w 7%nat).
Proof.
  destruct (g_m s) as (E1 & E2 & E3 & E4 & E5 & E6).
  unfold Br, Pr, qf4, G_tab; unbform. rewrite E1, E2, E3, E4, E5, E6. field.
Qed.

Lemma tt_add L phi a b c d a' b' c' d' z : L <> 0 -> 1 + phi <> 0 ->
  tt L phi (a + a') (b + b') (c + c') (d + d') z = tt L phi a b c d z + tt L phi a' b' c' d' z.
Proof. intros. unfold tt; cbv zeta. field. split; assumption. Qed.

Lemma Br_nc s a0 b0 a1 b1 c0 d0 c1 d1 : s_L s <> 0 -> 1 + s_phi s <> 0 ->
  Br s a0 b0 a1 b1 c0 d0 c1 d1 / (210 * s_L s * (1 + s_phi s) ^ 2)
  = nc10 (fun z => ipoly s z * (tt (s_L s) (s_phi s) a0 b0 a1 b1 z * tt (s_L s) (s_phi s) c0 d0 c1 d1 z)) (s_L s).
Proof.
  intros HL HP.
  transitivity ((Pr s (a0 + c0) (b0 + d0) (a1 + c1) (b1 + d1) / (210 * s_L s * (1 + s_phi s) ^ 2)
    - Pr s a0 b0 a1 b1 / (210 * s_L s * (1 + s_phi s) ^ 2) - Pr s c0 d0 c1 d1 / (210 * s_L s * (1 + s_phi s) ^ 2)) / 2).
  - unfold Br. field. split; assumption.
  - rewrite !Pr_nc by assumption.
    rewrite (nc10_ext (fun z => ipoly s z * tt (s_L s) (s_phi s) (a0 + c0) (b0 + d0) (a1 + c1) (b1 + d1) z ^ 2)
      (fun z => ipoly s z * (tt (s_L s) (s_phi s) a0 b0 a1 b1 z + tt (s_L s) (s_phi s) c0 d0 c1 d1 z) ^ 2)).
    2:{ intros z. rewrite tt_add by assumption. reflexivity. }
    unfold nc10. field.
Qed.

Lemma shaft_gyro a s v w : shaft_init a = Ok s -> good_args a -> a_gyroscopic a = true ->
  bform 8 (shaft_G s) v w =
  RInt (fun z => mrho (s_material s) * (2 * arg_inertia a z) *
          (rx (a_L a) (s_phi s) v z * ry (a_L a) (s_phi s) w z
           - ry (a_L a) (s_phi s) v z * rx (a_L a) (s_phi s) w z)) 0 (a_L a).
Proof.
  intros Hi Hg Hy. pose proof (shaft_positive _ _ Hi Hg) as Ps. pose proof (shaft_init_facts _ _ Hi) as F.
  destruct (pos_nz _ Ps) as [HL HP].
  rewrite (RInt_ext _ (fun z => mrho (s_material s) * 2 * s_Ie_l s * (ipoly s z *
      (rx (s_L s) (s_phi s) v z * ry (s_L s) (s_phi s) w z - ry (s_L s) (s_phi s) v z * rx (s_L s) (s_phi s) w z)))).
  2:{ intros z _. rewrite (arg_inertia_eq a s F), (f_L _ _ F) by (destruct Ps; lra). req; ring. }
  rewrite <- (f_L _ _ F), RInt_nc10.
  2:{ apply poly_scale. apply (poly_weaken 9); [lia|]. apply (poly_mult 4 4); [apply ipoly_poly|].
      apply poly_minus; apply (poly_mult 2 2); apply tt_poly. }
  rewrite nc10_scal.
  rewrite (nc10_ext _ (fun z => ipoly s z * (rx (s_L s) (s_phi s) v z * ry (s_L s) (s_phi s) w z)
      + (-1) * (ipoly s z * (ry (s_L s) (s_phi s) v z * rx (s_L s) (s_phi s) w z)))) by (intros; ring).
  rewrite nc10_plus, nc10_scal. unfold rx, ry. rewrite <- !Br_nc by assumption.
  transitivity (mrho (s_material s) * s_Ie_l s * 2 / (210 * s_L s * (1 + s_phi s) ^ 2) * bform 8 (G_tab s) v w).
  - rewrite <- bform_scal. apply bform_ext. intros i j _ _. unfold shaft_G. rewrite (f_gy _ _ F), Hy.
    unfold Rdiv; ring.
  - rewrite bform_G. field. split; assumption.
Qed.

(** *** the six degree of freedom element restricted to its lateral dofs *)
Ltac eqtab T T' extra := let i := fresh "i" in let j := fresh "j" in let Hi := fresh in let Hj := fresh in
  intros i j Hi Hj; unfold T, T', lmat, lat6;
  do 8 (destruct i as [|i]; [do 8 (destruct j as [|j]; [cbn [nth]; try reflexivity; extra; try ring|]); exfalso; lia|]);
  exfalso; lia.

Lemma M6_lat s : forall i j, (i < 8)%nat -> (j < 8)%nat -> M6_tab s (lat6 i) (lat6 j) = Mt_tab s i j.
Proof. eqtab M6_tab Mt_tab ltac:(unfold m1,m2,m3,m4,m5,m6,m7,m8,m9,m10,m1_6,m2_6,m3_6,m4_6,m5_6,m6_6,m7_6,m8_6,m9_6,m10_6). Qed.
Lemma Mr6_lat s : forall i j, (i < 8)%nat -> (j < 8)%nat -> Mr6_tab s (lat6 i) (lat6 j) = Mr_tab s i j.
Proof. eqtab Mr6_tab Mr_tab ltac:(unfold m11,m12,m13,m14,m15,m16,m11_6,m12_6,m13_6,m14_6,m15_6,m16_6). Qed.
Lemma K1_6_lat s : forall i j, (i < 8)%nat -> (j < 8)%nat -> K1_6_tab s (lat6 i) (lat6 j) = K1_tab s i j.
Proof. eqtab K1_6_tab K1_tab ltac:(unfold k1,k2,k3,k4,k5,k6,k1_6,k2_6,k3_6,k4_6,k5_6,k6_6). Qed.
Lemma K2_6_lat s : forall i j, (i < 8)%nat -> (j < 8)%nat -> K2_6_tab s (lat6 i) (lat6 j) = K2_tab s i j.
Proof. eqtab K2_6_tab K2_tab ltac:(unfold k7,k8,k9,k7_6,k8_6,k9_6). Qed.
Lemma Kaf6_lat s : forall i j, (i < 8)%nat -> (j < 8)%nat -> Kaf6_tab s (lat6 i) (lat6 j) = Kaxial_tab s i j.
Proof. eqtab Kaf6_tab Kaxial_tab ltac:(unfold k10,k11,k12,k13,k10_6,k11_6,k12_6,k13_6). Qed.
Lemma Ktq6_lat s : forall i j, (i < 8)%nat -> (j < 8)%nat -> Ktq6_tab s (lat6 i) (lat6 j) = Ktorque_tab s i j.
Proof. eqtab Ktq6_tab Ktorque_tab ltac:(idtac). Qed.
Lemma Mam6_lat s : forall i j, (i < 8)%nat -> (j < 8)%nat -> Mam6_tab s (lat6 i) (lat6 j) = 0.
Proof. eqtab Mam6_tab Mam6_tab ltac:(idtac). Qed.
Lemma Mts6_lat s : forall i j, (i < 8)%nat -> (j < 8)%nat -> Mts6_tab s (lat6 i) (lat6 j) = 0.
Proof. eqtab Mts6_tab Mts6_tab ltac:(idtac). Qed.
Lemma Kam6_lat s : forall i j, (i < 8)%nat -> (j < 8)%nat -> Kam6_tab s (lat6 i) (lat6 j) = 0.
Proof. eqtab Kam6_tab Kam6_tab ltac:(idtac). Qed.
Lemma Kts6_lat s : forall i j, (i < 8)%nat -> (j < 8)%nat -> Kts6_tab s (lat6 i) (lat6 j) = 0.
Proof. eqtab Kts6_tab Kts6_tab ltac:(idtac). Qed.

Lemma shaft6_M_lat s : meq 8 (fun i j => shaft6_M s (lat6 i) (lat6 j)) (shaft_M s).
Proof.
  intros i j Hi Hj. unfold shaft6_M, shaft_M.
  rewrite M6_lat, Mr6_lat, Mam6_lat, Mts6_lat by assumption.
  destruct (s_rotary_inertia s); unfold Rdiv; ring.
Qed.
Lemma shaft6_K_lat s : meq 8 (fun i j => shaft6_K s (lat6 i) (lat6 j)) (shaft_K s).
Proof.
  intros i j Hi Hj. unfold shaft6_K, shaft_K.
  rewrite K1_6_lat, K2_6_lat, Kaf6_lat, Ktq6_lat, Kam6_lat, Kts6_lat by assumption.
  unfold Rdiv; ring.
Qed.
Lemma shaft6_C_lat s : meq 8 (fun i j => shaft6_C s (lat6 i) (lat6 j)) (shaft_C s).
Proof.
  intros i j Hi Hj. unfold shaft6_C, shaft_C.
  pose proof (shaft6_M_lat s i j Hi Hj) as EM. pose proof (shaft6_K_lat s i j Hi Hj) as EK.
  cbv beta in EM, EK. rewrite EM, EK. reflexivity.
Qed.

(** the only difference between the gyroscopic tables *)
Lemma g5_diff s : g5_6 s = s_L s ^ 2 * (g5 s + s_gama s * (7 * s_phi s ^ 2 - 14 * s_phi s)).
Proof. unfold g5_6, g5. ring. Qed.

Lemma G6_lat s : s_gama s * (7 * s_phi s ^ 2 - 14 * s_phi s) = 0 ->
  forall i j, (i < 8)%nat -> (j < 8)%nat -> G6_tab s (lat6 i) (lat6 j) = G_tab s i j.
Proof.
  intros E. pose proof (g5_diff s) as E5. rewrite E, Rplus_0_r in E5.
  eqtab G6_tab G_tab ltac:(rewrite ?E5; unfold g1,g2,g3,g4,g6,g1_6,g2_6,g3_6,g4_6,g6_6).
Qed.

Lemma shaft6_G_lat s : s_gama s * (7 * s_phi s ^ 2 - 14 * s_phi s) = 0 ->
  meq 8 (fun i j => shaft6_G s (lat6 i) (lat6 j)) (shaft_G s).
Proof.
  intros E i j Hi Hj. unfold shaft6_G, shaft_G. rewrite G6_lat by assumption.
  destruct (s_gyroscopic s); unfold Rdiv; ring.
Qed.

Lemma shaft6_G_lat_conv a s : shaft_init a = Ok s -> good_args a -> a_gyroscopic a = true ->
  meq 8 (fun i j => shaft6_G s (lat6 i) (lat6 j)) (shaft_G s) ->
  s_gama s * (7 * s_phi s ^ 2 - 14 * s_phi s) = 0.
Proof.
  intros Hi Hg Hy H. pose proof (shaft_positive _ _ Hi Hg) as Ps. pose proof (shaft_init_facts _ _ Hi) as F.
  specialize (H 2%nat 7%nat ltac:(lia) ltac:(lia)). cbv beta in H.
  unfold shaft6_G, shaft_G in H. rewrite (f_gy _ _ F), Hy in H.
  change (G6_tab s (lat6 2) (lat6 7)) with (- g5_6 s) in H.
  change (G_tab s 2%nat 7%nat) with ((- s_L s ^ 2) * g5 s) in H. rewrite g5_diff in H.
  set (x := s_gama s * (7 * s_phi s ^ 2 - 14 * s_phi s)) in *.
  destruct Ps.
  assert (E : mrho (s_material s) * s_Ie_l s * 2 * s_L s ^ 2 / (210 * s_L s * (1 + s_phi s) ^ 2) * x = 0).
  { match type of H with ?A = ?B => replace (mrho (s_material s) * s_Ie_l s * 2 * s_L s ^ 2 / (210 * s_L s * (1 + s_phi s) ^ 2) * x) with (B - A) by (unfold Rdiv; ring) end.
    rewrite H; ring. }
  apply Rmult_integral in E. destruct E as [E|E]; [exfalso|exact E].
  assert (0 < mrho (s_material s) * s_Ie_l s * 2 * s_L s ^ 2 / (210 * s_L s * (1 + s_phi s) ^ 2)); [|lra].
  apply Rdiv_lt_0_compat; repeat apply Rmult_lt_0_compat; try apply pow_lt; lra.
Qed.

(** *** definiteness of the six degree of freedom element *)
Definition latv (x : vec) : vec := fun i => x (lat6 i).

Lemma M6_bform s v : bform 12 (M6_tab s) v v = bform 8 (Mt_tab s) (latv v) (latv v).
Proof.
  unfold M6_tab, Mt_tab, latv, lat6; unbform.
  unfold m1_6,m2_6,m3_6,m4_6,m5_6,m6_6,m7_6,m8_6,m9_6,m10_6.
  fold (m1 s) (m2 s) (m3 s) (m4 s) (m5 s) (m6 s) (m7 s) (m8 s) (m9 s) (m10 s). ring.
Qed.
Lemma Mr6_bform s v : bform 12 (Mr6_tab s) v v = bform 8 (Mr_tab s) (latv v) (latv v).
Proof.
  unfold Mr6_tab, Mr_tab, latv, lat6; unbform.
  unfold m11_6,m12_6,m13_6,m14_6,m15_6,m16_6.
  fold (m11 s) (m12 s) (m13 s) (m14 s) (m15 s) (m16 s). ring.
Qed.
Lemma Mam6_bform s v : bform 12 (Mam6_tab s) v v = 2 * (v 2%nat ^ 2 + v 2%nat * v 8%nat + v 8%nat ^ 2).
Proof. unfold Mam6_tab; unbform. ring. Qed.
Lemma Mts6_bform s v : bform 12 (Mts6_tab s) v v = 2 * (v 5%nat ^ 2 + v 5%nat * v 11%nat + v 11%nat ^ 2).
Proof. unfold Mts6_tab; unbform. ring. Qed.
Lemma K1_6_bform s v : bform 12 (K1_6_tab s) v v = bform 8 (K1_tab s) (latv v) (latv v).
Proof.
  unfold K1_6_tab, K1_tab, latv, lat6; unbform.
  unfold k1_6,k2_6,k3_6,k4_6,k5_6,k6_6.
  fold (k1 s) (k2 s) (k3 s) (k4 s) (k5 s) (k6 s). ring.
Qed.
Lemma K2_6_bform s v : bform 12 (K2_6_tab s) v v = bform 8 (K2_tab s) (latv v) (latv v).
Proof.
  unfold K2_6_tab, K2_tab, latv, lat6; unbform.
  unfold k7_6,k8_6,k9_6. fold (k7 s) (k8 s) (k9 s). ring.
Qed.
Lemma Kaf6_bform s v : bform 12 (Kaf6_tab s) v v = bform 8 (Kaxial_tab s) (latv v) (latv v).
Proof.
  unfold Kaf6_tab, Kaxial_tab, latv, lat6; unbform.
  unfold k10_6,k11_6,k12_6,k13_6,k10,k11,k12,k13. ring.
Qed.
Lemma Ktq6_bform s v : bform 12 (Ktq6_tab s) v v = bform 8 (Ktorque_tab s) (latv v) (latv v).
Proof. unfold Ktq6_tab, Ktorque_tab, latv, lat6; unbform. field. Qed.
Lemma Kam6_bform s v : bform 12 (Kam6_tab s) v v = (v 8%nat - v 2%nat) ^ 2.
Proof. unfold Kam6_tab; unbform. ring. Qed.
Lemma Kts6_bform s v : bform 12 (Kts6_tab s) v v = (v 11%nat - v 5%nat) ^ 2.
Proof. unfold Kts6_tab; unbform. ring. Qed.

Lemma shaft6_M_bform s v : bform 12 (shaft6_M s) v v =
  bform 8 (shaft_M s) (latv v) (latv v)
  + mrho (s_material s) * ((s_A_l s + s_A_r s) / 2) * s_L s / 3 * (v 2%nat ^ 2 + v 2%nat * v 8%nat + v 8%nat ^ 2)
  + mrho (s_material s) * (s_Ie_l s + s_Ie_r s) * s_L s / 3 * (v 5%nat ^ 2 + v 5%nat * v 11%nat + v 11%nat ^ 2).
Proof.
  rewrite shaft_M_bform, <- M6_bform, <- Mr6_bform.
  transitivity (mrho (s_material s) * s_A_l s * s_L s / (1260 * (1 + s_phi s) ^ 2) * bform 12 (M6_tab s) v v
    + (if s_rotary_inertia s then mrho (s_material s) * s_Ie_l s / (210 * s_L s * (1 + s_phi s) ^ 2) else 0) * bform 12 (Mr6_tab s) v v
    + mrho (s_material s) * ((s_A_l s + s_A_r s) / 2) * s_L s / 6 * bform 12 (Mam6_tab s) v v
    + mrho (s_material s) * (s_Ie_l s + s_Ie_r s) * s_L s / 6 * bform 12 (Mts6_tab s) v v).
  - rewrite <- !bform_scal, <- !bform_plus. apply bform_ext. intros i j _ _. unfold shaft6_M.
    unfold Rdiv. generalize (/ (1260 * (1 + s_phi s) ^ 2)) (/ (210 * s_L s * (1 + s_phi s) ^ 2)).
    intros; destruct (s_rotary_inertia s); field.
  - rewrite Mam6_bform, Mts6_bform. unfold Rdiv.
    generalize (/ (1260 * (1 + s_phi s) ^ 2)) (/ (210 * s_L s * (1 + s_phi s) ^ 2)).
    intros; destruct (s_rotary_inertia s); field.
Qed.

Lemma shaft6_K_bform s v : bform 12 (shaft6_K s) v v =
  bform 8 (shaft_K s) (latv v) (latv v)
  + mE (s_material s) * ((s_A_l s + s_A_r s) / 2) / s_L s * (v 8%nat - v 2%nat) ^ 2
  + mG_s (s_material s) * (s_Ie_l s + s_Ie_r s) / s_L s * (v 11%nat - v 5%nat) ^ 2.
Proof.
  rewrite shaft_K_bform, <- K1_6_bform, <- K2_6_bform, <- Kaf6_bform, <- Ktq6_bform, <- Kam6_bform with (s := s), <- Kts6_bform with (s := s).
  rewrite <- !bform_scal, <- !bform_plus. apply bform_ext. intros i j _ _. unfold shaft6_K, Rdiv.
  generalize (/ (30 * s_L s * (1 + s_phi s) ^ 2)) (/ s_L s ^ 3) (/ (1 + s_phi s) ^ 2) (/ s_L s) (/ s_A s). intros. field.
Qed.

Lemma quad_pos x y : 0 <= x ^ 2 + x * y + y ^ 2.
Proof. nra. Qed.
Lemma quad_zero x y : x ^ 2 + x * y + y ^ 2 = 0 -> x = 0 /\ y = 0.
Proof.
  intros H. pose proof (pow2_ge_0 (x + y / 2)). pose proof (pow2_ge_0 (y + x / 2)).
  assert (y ^ 2 <= 0) by nra. assert (x ^ 2 <= 0) by nra. split; nra.
Qed.

Lemma shaft6_M_pd a s : shaft_init a = Ok s -> good_args a -> pos_def 12 (shaft6_M s).
Proof.
  intros Hi Hg v Hv. pose proof (shaft_positive _ _ Hi Hg) as Ps. rewrite shaft6_M_bform.
  pose proof (shaft_M_pd _ _ Hi Hg) as PD.
  destruct Ps.
  set (ca := mrho (s_material s) * ((s_A_l s + s_A_r s) / 2) * s_L s / 3).
  set (ct := mrho (s_material s) * (s_Ie_l s + s_Ie_r s) * s_L s / 3).
  assert (Hca : 0 < ca) by (unfold ca; apply Rdiv_lt_0_compat; [repeat apply Rmult_lt_0_compat; lra|lra]).
  assert (Hct : 0 < ct) by (unfold ct; apply Rdiv_lt_0_compat; [repeat apply Rmult_lt_0_compat; lra|lra]).
  pose proof (quad_pos (v 2%nat) (v 8%nat)) as Qa. pose proof (quad_pos (v 5%nat) (v 11%nat)) as Qt.
  assert (P8 : 0 <= bform 8 (shaft_M s) (latv v) (latv v)).
  { destruct (classic_nonzero 8 (latv v)) as [N|Z]; [left; apply PD, N|].
    right. symmetry. unfold bform. apply sumn_0. intros i Hi8. rewrite Z by assumption. ring. }
  pose proof (Rmult_le_pos _ _ (Rlt_le _ _ Hca) Qa). pose proof (Rmult_le_pos _ _ (Rlt_le _ _ Hct) Qt).
  destruct (Rle_lt_or_eq_dec 0 (bform 8 (shaft_M s) (latv v) (latv v) + ca * (v 2%nat ^ 2 + v 2%nat * v 8%nat + v 8%nat ^ 2)
      + ct * (v 5%nat ^ 2 + v 5%nat * v 11%nat + v 11%nat ^ 2))) as [|E]; [lra|assumption|exfalso].
  assert (E0 : bform 8 (shaft_M s) (latv v) (latv v) = 0) by lra.
  assert (E1 : ca * (v 2%nat ^ 2 + v 2%nat * v 8%nat + v 8%nat ^ 2) = 0) by lra.
  assert (E2 : ct * (v 5%nat ^ 2 + v 5%nat * v 11%nat + v 11%nat ^ 2) = 0) by lra.
  apply Rmult_integral in E1; destruct E1 as [E1|E1]; [lra|]. apply quad_zero in E1.
  apply Rmult_integral in E2; destruct E2 as [E2|E2]; [lra|]. apply quad_zero in E2.
  assert (Z : forall i, (i < 8)%nat -> latv v i = 0).
  { destruct (classic_nonzero 8 (latv v)) as [N|Z]; [|exact Z]. apply PD in N. lra. }
  destruct Hv as (i & Hi12 & Hne). apply Hne.
  do 12 (destruct i as [|i]; [first [tauto | (apply (Z 0%nat); lia) | (apply (Z 1%nat); lia) | (apply (Z 2%nat); lia)
   | (apply (Z 3%nat); lia) | (apply (Z 4%nat); lia) | (apply (Z 5%nat); lia) | (apply (Z 6%nat); lia) | (apply (Z 7%nat); lia)]|]). lia.
Qed.

Lemma shaft6_K_psd a s : shaft_init a = Ok s -> good_args a -> a_torque a = 0 -> 0 <= a_axial_force a ->
  pos_semidef 12 (shaft6_K s).
Proof.
  intros Hi Hg HT HA v. rewrite shaft6_K_bform. pose proof (shaft_K_psd _ _ Hi Hg HT HA (latv v)) as P.
  pose proof (shaft_positive _ _ Hi Hg) as Ps. destruct Ps.
  assert (forall x, 0 <= mE (s_material s) * ((s_A_l s + s_A_r s) / 2) / s_L s * x ^ 2).
  { intros x. apply Rmult_le_pos; [|apply pow2_ge_0]. apply Rlt_le, Rdiv_lt_0_compat; [apply Rmult_lt_0_compat; lra|lra]. }
  assert (forall x, 0 <= mG_s (s_material s) * (s_Ie_l s + s_Ie_r s) / s_L s * x ^ 2).
  { intros x. apply Rmult_le_pos; [|apply pow2_ge_0]. apply Rlt_le, Rdiv_lt_0_compat; [apply Rmult_lt_0_compat; lra|lra]. }
  apply Rplus_le_le_0_compat; [apply Rplus_le_le_0_compat|]; auto.
Qed.

Lemma shaft6_K_kernel a s x : shaft_init a = Ok s -> good_args a -> a_torque a = 0 -> a_axial_force a = 0 ->
  (bform 12 (shaft6_K s) x x = 0 <-> rigid6 (a_L a) x).
Proof.
  intros Hi Hg HT HA. rewrite shaft6_K_bform. 
  pose proof (shaft_K_psd _ _ Hi Hg HT ltac:(lra) (latv x)) as P.
  pose proof (shaft_K_kernel _ _ (latv x) Hi Hg HT HA) as KK.
  pose proof (shaft_positive _ _ Hi Hg) as Ps. destruct Ps.
  set (ca := mE (s_material s) * ((s_A_l s + s_A_r s) / 2) / s_L s).
  set (ct := mG_s (s_material s) * (s_Ie_l s + s_Ie_r s) / s_L s).
  assert (Hca : 0 < ca) by (unfold ca; apply Rdiv_lt_0_compat; [repeat apply Rmult_lt_0_compat; lra|lra]).
  assert (Hct : 0 < ct) by (unfold ct; apply Rdiv_lt_0_compat; [repeat apply Rmult_lt_0_compat; lra|lra]).
  assert (Na : 0 <= ca * (x 8%nat - x 2%nat) ^ 2) by (apply Rmult_le_pos; [lra|apply pow2_ge_0]).
  assert (Nt : 0 <= ct * (x 11%nat - x 5%nat) ^ 2) by (apply Rmult_le_pos; [lra|apply pow2_ge_0]).
  unfold rigid4, latv, lat6 in KK; cbn [nth] in KK. fold lat6 in KK.
  unfold rigid6. split.
  - intros E. fold (latv x) in *.
    assert (E0 : bform 8 (shaft_K s) (latv x) (latv x) = 0) by lra.
    assert (E1 : ca * (x 8%nat - x 2%nat) ^ 2 = 0) by lra.
    assert (E2 : ct * (x 11%nat - x 5%nat) ^ 2 = 0) by lra.
    apply KK in E0. apply Rmult_integral in E1; destruct E1 as [E1|E1]; [lra|].
    apply Rmult_integral in E2; destruct E2 as [E2|E2]; [lra|].
    assert (x 8%nat = x 2%nat) by nra. assert (x 11%nat = x 5%nat) by nra. tauto.
  - intros (H1 & H2 & H3 & H4 & H5 & H6).
    assert (E0 : bform 8 (shaft_K s) (latv x) (latv x) = 0) by (apply KK; tauto).
    rewrite E0, H5, H6. ring.
Qed.


(** *** the acceleration stiffness *)
Lemma Kst6_G6 a s : shaft_init a = Ok s -> good_args a -> cylindrical a ->
  a_shear_effects a = false -> a_gyroscopic a = true ->
  forall i j, (i < 12)%nat -> (j < 12)%nat -> shaft6_Kst s j i - shaft6_Kst s i j = shaft6_G s i j.
Proof.
  intros Hi Hg [C1 C2] Hs Hy. pose proof (shaft_init_facts _ _ Hi) as F. pose proof (shaft_positive _ _ Hi Hg) as Ps.
  assert (HL : s_L s <> 0) by (destruct Ps; lra). assert (HI : s_Ie_l s <> 0) by (destruct Ps; lra).
  assert (E1 : s_idr s = s_idl s) by (rewrite (f_idr _ _ F), (f_idl _ _ F); auto).
  assert (E2 : s_odr s = s_odl s) by (rewrite (f_odr _ _ F), (f_odl _ _ F); auto).
  assert (P0 : s_phi s = 0) by (destruct (f_phi _ _ F) as [[_ E]|[E _]]; [exact E|congruence]).
  assert (A2 : s_a2 s = 0) by (rewrite (f_a2 _ _ F), E1, E2; field; exact HI).
  assert (B2 : s_b2 s = 0) by (rewrite (f_b2 _ _ F), E1, E2; field; exact HI).
  assert (GA : s_gama s = 0) by (rewrite (f_ga _ _ F), E1, E2; field; exact HI).
  assert (DE : s_delta s = 0) by (rewrite (f_de _ _ F), E1, E2; field; exact HI).
  assert (IR : s_Ie_r s = s_Ie_l s) by (rewrite (f_Ier _ _ F), (f_Iel _ _ F), E1, E2; reflexivity).
  intros i j Hi12 Hj12. unfold shaft6_Kst, shaft6_G. rewrite (f_gy _ _ F), Hy, P0, IR.
  assert (T : 14 * (Kst6_tab s j i - Kst6_tab s i j) = 2 * G6_tab s i j).
  { revert i j Hi12 Hj12. 
    assert (G1 : g1_6 s = 252) by (unfold g1_6; rewrite A2, B2, GA, DE; ring).
    assert (G2 : g2_6 s = 21 * s_L s) by (unfold g2_6; rewrite A2, B2, GA, DE, P0; ring).
    assert (G3 : g3_6 s = 21 * s_L s) by (unfold g3_6; rewrite A2, B2, GA, DE, P0; ring).
    assert (G4 : g4_6 s = 28 * s_L s ^ 2) by (unfold g4_6; rewrite A2, B2, GA, DE, P0; ring).
    assert (G5 : g5_6 s = 7 * s_L s ^ 2) by (unfold g5_6; rewrite A2, B2, GA, DE, P0; ring).
    assert (G6 : g6_6 s = 28 * s_L s ^ 2) by (unfold g6_6; rewrite A2, B2, GA, DE, P0; ring).
    intros i j Hi12 Hj12. unfold Kst6_tab, G6_tab, lmat.
    do 12 (destruct i as [|i]; [do 12 (destruct j as [|j]; [cbn [nth]; rewrite ?G1, ?G2, ?G3, ?G4, ?G5, ?G6; ring|]); exfalso; lia|]);
    exfalso; lia. }
  replace (G6_tab s i j) with (7 * (Kst6_tab s j i - Kst6_tab s i j)) by lra. field. exact HL.
Qed.
