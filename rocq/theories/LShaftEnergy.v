(** The element tables are exact energy integrals. *)
From Coq Require Import Reals List Lra Lia Psatz Bool String.
From Coquelicot Require Import Coquelicot.
From Verif Require Import PyBase MatBase SpecMat MMaterial MShaft SpecBeam SpecShaft LMat LQuad LShaft.
Import ListNotations.
Open Scope R_scope.

Ltac nodes L HL :=
  replace (0 / L) with 0 by (field; exact HL);
  replace (L / L) with 1 by (field; exact HL);
  replace (L / 9 / L) with (1/9) by (field; exact HL);
  replace (2 * L / 9 / L) with (2/9) by (field; exact HL);
  replace (3 * L / 9 / L) with (3/9) by (field; exact HL);
  replace (4 * L / 9 / L) with (4/9) by (field; exact HL);
  replace (5 * L / 9 / L) with (5/9) by (field; exact HL);
  replace (6 * L / 9 / L) with (6/9) by (field; exact HL);
  replace (7 * L / 9 / L) with (7/9) by (field; exact HL);
  replace (8 * L / 9 / L) with (8/9) by (field; exact HL).

Definition apoly (s : shaft) (z : R) := 1 + s_a1 s * (z / s_L s) + s_b1 s * (z / s_L s) ^ 2.
Definition ipoly (s : shaft) (z : R) :=
  1 + s_a2 s * (z / s_L s) + s_b2 s * (z / s_L s) ^ 2 + s_gama s * (z / s_L s) ^ 3 + s_delta s * (z / s_L s) ^ 4.

Lemma Pt_nc s w0 t0 w1 t1 : s_L s <> 0 -> 1 + s_phi s <> 0 ->
  s_L s * Pt s w0 t0 w1 t1 / (1260 * (1 + s_phi s) ^ 2)
  = nc10 (fun z => apoly s z * tw (s_L s) (s_phi s) w0 t0 w1 t1 z ^ 2) (s_L s).
Proof.
  intros HL HP. unfold nc10, apoly, tw, Pt, qf4, m1, m2, m3, m4, m5, m6, m7, m8, m9, m10. cbv zeta.
  nodes (s_L s) HL. field. exact HP.
Qed.

Lemma Pr_nc s w0 t0 w1 t1 : s_L s <> 0 -> 1 + s_phi s <> 0 ->
  Pr s w0 t0 w1 t1 / (210 * s_L s * (1 + s_phi s) ^ 2)
  = nc10 (fun z => ipoly s z * tt (s_L s) (s_phi s) w0 t0 w1 t1 z ^ 2) (s_L s).
Proof.
  intros HL HP. unfold nc10, ipoly, tt, Pr, qf4, m11, m12, m13, m14, m15, m16. cbv zeta.
  nodes (s_L s) HL. field. split; assumption.
Qed.

Lemma Pk1_nc s w0 t0 w1 t1 : s_L s <> 0 -> 1 + s_phi s <> 0 ->
  / (s_L s ^ 3) * / ((1 + s_phi s) ^ 2) * Pk1 s w0 t0 w1 t1 / 105
  = nc10 (fun z => ipoly s z * tt' (s_L s) (s_phi s) w0 t0 w1 t1 z ^ 2) (s_L s).
Proof.
  intros HL HP. unfold nc10, ipoly, tt', Pk1, qf4, k1, k2, k3, k4, k5, k6. cbv zeta.
  nodes (s_L s) HL. field. split; assumption.
Qed.

Lemma Pk2_nc s w0 t0 w1 t1 : s_L s <> 0 -> 1 + s_phi s <> 0 ->
  / s_L s * / ((1 + s_phi s) ^ 2) * Pk2 s w0 t0 w1 t1 * s_phi s ^ 2 / 12
  = nc10 (fun z => apoly s z *
      (tw' (s_L s) (s_phi s) w0 t0 w1 t1 z - tt (s_L s) (s_phi s) w0 t0 w1 t1 z) ^ 2) (s_L s).
Proof.
  intros HL HP. unfold nc10, apoly, tt, tw', Pk2, qf4, k7, k8, k9. cbv zeta.
  nodes (s_L s) HL. field. split; assumption.
Qed.

Lemma Pka_nc s w0 t0 w1 t1 : s_L s <> 0 -> 1 + s_phi s <> 0 ->
  Pka s w0 t0 w1 t1 / (30 * s_L s * (1 + s_phi s) ^ 2)
  = nc10 (fun z => tw' (s_L s) (s_phi s) w0 t0 w1 t1 z ^ 2) (s_L s).
Proof.
  intros HL HP. unfold nc10, tw', Pka, qf4, k10, k11, k12, k13. cbv zeta.
  nodes (s_L s) HL. field. split; assumption.
Qed.

(** the interpolation: derivatives, end values *)
Lemma tw_derive L phi w0 t0 w1 t1 z : L <> 0 -> 1 + phi <> 0 ->
  is_derive (tw L phi w0 t0 w1 t1) z (tw' L phi w0 t0 w1 t1 z).
Proof.
  intros HL HP. unfold tw, tw'. auto_derive; [auto|]. field. split; assumption.
Qed.
Lemma tt_derive L phi w0 t0 w1 t1 z : L <> 0 -> 1 + phi <> 0 ->
  is_derive (tt L phi w0 t0 w1 t1) z (tt' L phi w0 t0 w1 t1 z).
Proof.
  intros HL HP. unfold tt, tt'. auto_derive; [auto|]. field. split; assumption.
Qed.
Lemma tw_ends L phi w0 t0 w1 t1 : L <> 0 -> 1 + phi <> 0 ->
  tw L phi w0 t0 w1 t1 0 = w0 /\ tt L phi w0 t0 w1 t1 0 = t0 /\
  tw L phi w0 t0 w1 t1 L = w1 /\ tt L phi w0 t0 w1 t1 L = t1.
Proof.
  intros HL HP. unfold tw, tt. cbv zeta. 
  repeat split; field; try (split; assumption); assumption.
Qed.

(** polynomial degrees *)
Lemma poly_ext' n f g : poly n f -> (forall z, g z = f z) -> poly n g.
Proof. intros H E; apply (poly_ext n f); auto. Qed.

Lemma poly_lin L c0 c1 : poly 2 (fun z => c0 + c1 * (z / L)).
Proof. exists [c0;c1 * / L]; split; [simpl; lia|]. intros; unfold peval, Rdiv; ring. Qed.
Lemma poly_quadr L c0 c1 c2 : poly 3 (fun z => c0 + c1 * (z / L) + c2 * (z / L) ^ 2).
Proof. exists [c0;c1 * / L;c2 * (/ L)^2]; split; [simpl; lia|]. intros; unfold peval, Rdiv; ring. Qed.
Lemma poly_cubic L c0 c1 c2 c3 : poly 4 (fun z => c0 + c1 * (z / L) + c2 * (z / L) ^ 2 + c3 * (z / L) ^ 3).
Proof. exists [c0;c1 * / L;c2 * (/ L)^2;c3 * (/ L)^3]; split; [simpl; lia|]. intros; unfold peval, Rdiv; ring. Qed.
Lemma poly_quart L c0 c1 c2 c3 c4 :
  poly 5 (fun z => c0 + c1 * (z / L) + c2 * (z / L) ^ 2 + c3 * (z / L) ^ 3 + c4 * (z / L) ^ 4).
Proof.
  exists [c0;c1 * / L;c2 * (/ L)^2;c3 * (/ L)^3;c4 * (/ L)^4]; split; [simpl; lia|].
  intros; unfold peval, Rdiv; ring.
Qed.

Lemma tw_poly L phi w0 t0 w1 t1 : poly 4 (tw L phi w0 t0 w1 t1).
Proof.
  eapply poly_ext'.
  - apply (poly_cubic L
    ((1 + phi) * w0 * / (1 + phi))
    (((- phi) * w0 + L * (1 + phi / 2) * t0 + phi * w1 - L * (phi / 2) * t1) * / (1 + phi))
    ((- 3 * w0 - L * (2 + phi / 2) * t0 + 3 * w1 + L * (phi / 2 - 1) * t1) * / (1 + phi))
    ((2 * w0 + L * t0 - 2 * w1 + L * t1) * / (1 + phi))).
  - intros z. unfold tw. cbv zeta. generalize (z / L). intros. unfold Rdiv. ring.
Qed.
Lemma tt_poly L phi w0 t0 w1 t1 : poly 3 (tt L phi w0 t0 w1 t1).
Proof.
  eapply poly_ext'.
  - apply (poly_quadr L
    ((1 + phi) * t0 * / (1 + phi))
    ((- 6 / L * w0 - (4 + phi) * t0 + 6 / L * w1 + (phi - 2) * t1) * / (1 + phi))
    ((6 / L * w0 + 3 * t0 - 6 / L * w1 + 3 * t1) * / (1 + phi))).
  - intros z. unfold tt. cbv zeta. generalize (z / L). intros. unfold Rdiv. ring.
Qed.
Lemma tw'_poly L phi w0 t0 w1 t1 : poly 3 (tw' L phi w0 t0 w1 t1).
Proof.
  eapply poly_ext'.
  - apply (poly_quadr L
    (((- phi) * w0 + L * (1 + phi / 2) * t0 + phi * w1 - L * (phi / 2) * t1) * / (L * (1 + phi)))
    ((- 6 * w0 - 2 * L * (2 + phi / 2) * t0 + 6 * w1 + 2 * L * (phi / 2 - 1) * t1) * / (L * (1 + phi)))
    ((6 * w0 + 3 * L * t0 - 6 * w1 + 3 * L * t1) * / (L * (1 + phi)))).
  - intros z. unfold tw'. cbv zeta. generalize (z / L). intros. unfold Rdiv. ring.
Qed.
Lemma tt'_poly L phi w0 t0 w1 t1 : poly 2 (tt' L phi w0 t0 w1 t1).
Proof.
  eapply poly_ext'.
  - apply (poly_lin L
    ((- 6 / L * w0 - (4 + phi) * t0 + 6 / L * w1 + (phi - 2) * t1) * / (L * (1 + phi)))
    ((12 / L * w0 + 6 * t0 - 12 / L * w1 + 6 * t1) * / (L * (1 + phi)))).
  - intros z. unfold tt'. cbv zeta. generalize (z / L). intros. unfold Rdiv. ring.
Qed.
Lemma apoly_poly s : poly 3 (apoly s).
Proof. apply (poly_quadr (s_L s) 1 (s_a1 s) (s_b1 s)). Qed.
Lemma ipoly_poly s : poly 5 (ipoly s).
Proof. apply (poly_quart (s_L s) 1 (s_a2 s) (s_b2 s) (s_gama s) (s_delta s)). Qed.


Ltac req := match goal with |- @eq _ ?a ?b => change (@eq R a b) end.

Lemma nc10_plus f g L : nc10 (fun z => f z + g z) L = nc10 f L + nc10 g L.
Proof. unfold nc10; ring. Qed.
Lemma nc10_scal c f L : nc10 (fun z => c * f z) L = c * nc10 f L.
Proof. unfold nc10; ring. Qed.
Lemma nc10_ext f g L : (forall z, f z = g z) -> nc10 f L = nc10 g L.
Proof. intros E; unfold nc10; rewrite !E; reflexivity. Qed.

Definition nz (s : shaft) : Prop := s_L s <> 0 /\ 1 + s_phi s <> 0.
Lemma pos_nz s : shaft_pos s -> nz s.
Proof. intros P; destruct P; split; lra. Qed.

(** *** kinetic energy *)
Lemma shaft_M_bform s v : bform 8 (shaft_M s) v v =
  mrho (s_material s) * s_A_l s * s_L s / (1260 * (1 + s_phi s) ^ 2) * bform 8 (Mt_tab s) v v
  + (if s_rotary_inertia s then mrho (s_material s) * s_Ie_l s / (210 * s_L s * (1 + s_phi s) ^ 2) else 0)
     * bform 8 (Mr_tab s) v v.
Proof.
  rewrite <- bform_lin. apply bform_ext. intros i j _ _. unfold shaft_M.
  destruct (s_rotary_inertia s); unfold Rdiv; ring.
Qed.

Lemma shaft_M_nc s v : nz s -> bform 8 (shaft_M s) v v =
  mrho (s_material s) * s_A_l s *
    nc10 (fun z => apoly s z * (ux (s_L s) (s_phi s) v z ^ 2 + uy (s_L s) (s_phi s) v z ^ 2)) (s_L s)
  + (if s_rotary_inertia s then mrho (s_material s) * s_Ie_l s *
      nc10 (fun z => ipoly s z * (rx (s_L s) (s_phi s) v z ^ 2 + ry (s_L s) (s_phi s) v z ^ 2)) (s_L s) else 0).
Proof.
  intros [HL HP]. rewrite shaft_M_bform, bform_Mt, bform_Mr.
  rewrite (nc10_ext (fun z => apoly s z * (ux (s_L s) (s_phi s) v z ^ 2 + uy (s_L s) (s_phi s) v z ^ 2))
    (fun z => apoly s z * ux (s_L s) (s_phi s) v z ^ 2 + apoly s z * uy (s_L s) (s_phi s) v z ^ 2)) by (intros; ring).
  rewrite (nc10_ext (fun z => ipoly s z * (rx (s_L s) (s_phi s) v z ^ 2 + ry (s_L s) (s_phi s) v z ^ 2))
    (fun z => ipoly s z * rx (s_L s) (s_phi s) v z ^ 2 + ipoly s z * ry (s_L s) (s_phi s) v z ^ 2)) by (intros; ring).
  rewrite !nc10_plus. unfold ux, uy, rx, ry.
  rewrite <- !Pt_nc, <- !Pr_nc by assumption.
  destruct (s_rotary_inertia s); field; repeat split; assumption.
Qed.

Lemma mass_integrand_poly c s v :
  poly 10 (fun z => c * (apoly s z * (ux (s_L s) (s_phi s) v z ^ 2 + uy (s_L s) (s_phi s) v z ^ 2))).
Proof.
  apply poly_scale. apply poly_weaken with 9%nat; [lia|].
  apply (poly_mult 2 6); [apply apoly_poly|]. apply poly_plus; apply (poly_sq 3), tw_poly.
Qed.
Lemma rot_integrand_poly c s v :
  poly 10 (fun z => c * (ipoly s z * (rx (s_L s) (s_phi s) v z ^ 2 + ry (s_L s) (s_phi s) v z ^ 2))).
Proof.
  apply poly_scale. apply poly_weaken with 9%nat; [lia|].
  apply (poly_mult 4 4); [apply ipoly_poly|]. apply poly_plus; apply (poly_sq 2), tt_poly.
Qed.

Lemma arg_area_eq a s : shaft_facts a s -> s_A_l s <> 0 -> forall z, arg_area a z = s_A_l s * apoly s z.
Proof.
  intros F H z. unfold arg_area. rewrite <- (f_idl _ _ F), <- (f_odl _ _ F), <- (f_idr _ _ F), <- (f_odr _ _ F), <- (f_L _ _ F).
  apply (area_expand a s z F H).
Qed.
Lemma arg_inertia_eq a s : shaft_facts a s -> s_Ie_l s <> 0 -> forall z, arg_inertia a z = s_Ie_l s * ipoly s z.
Proof.
  intros F H z. unfold arg_inertia. rewrite <- (f_idl _ _ F), <- (f_odl _ _ F), <- (f_idr _ _ F), <- (f_odr _ _ F), <- (f_L _ _ F).
  apply (inertia_expand a s z F H).
Qed.

Lemma shaft_kinetic a s v : shaft_init a = Ok s -> good_args a ->
  bform 8 (shaft_M s) v v =
  RInt (fun z => mrho (s_material s) * arg_area a z *
          (ux (a_L a) (s_phi s) v z ^ 2 + uy (a_L a) (s_phi s) v z ^ 2)) 0 (a_L a)
  + (if a_rotary_inertia a
     then RInt (fun z => mrho (s_material s) * arg_inertia a z *
          (rx (a_L a) (s_phi s) v z ^ 2 + ry (a_L a) (s_phi s) v z ^ 2)) 0 (a_L a)
     else 0).
Proof.
  intros Hi Hg. pose proof (shaft_positive _ _ Hi Hg) as Ps. pose proof (shaft_init_facts _ _ Hi) as F.
  rewrite shaft_M_nc by (apply pos_nz, Ps). rewrite (f_ri _ _ F), <- (f_L _ _ F).
  f_equal.
  - rewrite <- nc10_scal, <- RInt_nc10 by apply mass_integrand_poly.
    apply RInt_ext. intros z _. rewrite (arg_area_eq a s F) by (destruct Ps; lra). req; ring.
  - destruct (a_rotary_inertia a); [|reflexivity].
    rewrite <- nc10_scal, <- RInt_nc10 by apply rot_integrand_poly.
    apply RInt_ext. intros z _. rewrite (arg_inertia_eq a s F) by (destruct Ps; lra). req; ring.
Qed.

(** *** strain energy *)
Lemma shaft_K_bform s v : bform 8 (shaft_K s) v v =
  mE (s_material s) * / (s_L s ^ 3) * / ((1 + s_phi s) ^ 2) * s_Ie_l s / 105 * bform 8 (K1_tab s) v v
  + mE (s_material s) * / (s_L s ^ 3) * / ((1 + s_phi s) ^ 2) * s_Ie s * s_phi s * s_A_l s / s_A s * bform 8 (K2_tab s) v v
  + s_axial_force s / (30 * s_L s * (1 + s_phi s) ^ 2) * bform 8 (Kaxial_tab s) v v
  + s_torque s / s_L s * bform 8 (Ktorque_tab s) v v.
Proof.
  rewrite <- !bform_scal, <- !bform_plus. apply bform_ext. intros i j _ _. unfold shaft_K, Rdiv. ring.
Qed.

(** bending, shear and axial load, without torque *)
Lemma shaft_K_nc s v : nz s -> s_A s <> 0 -> s_torque s = 0 ->
  bform 8 (shaft_K s) v v =
  mE (s_material s) * s_Ie_l s *
    nc10 (fun z => ipoly s z * (rx' (s_L s) (s_phi s) v z ^ 2 + ry' (s_L s) (s_phi s) v z ^ 2)) (s_L s)
  + mE (s_material s) * / (s_L s ^ 3) * / ((1 + s_phi s) ^ 2) * s_Ie s * s_phi s * s_A_l s / s_A s * bform 8 (K2_tab s) v v
  + s_axial_force s *
    nc10 (fun z => ux' (s_L s) (s_phi s) v z ^ 2 + uy' (s_L s) (s_phi s) v z ^ 2) (s_L s).
Proof.
  intros [HL HP] HA HT. rewrite shaft_K_bform, bform_K1, bform_Ka, HT.
  rewrite (nc10_ext (fun z => ipoly s z * (rx' (s_L s) (s_phi s) v z ^ 2 + ry' (s_L s) (s_phi s) v z ^ 2))
    (fun z => ipoly s z * rx' (s_L s) (s_phi s) v z ^ 2 + ipoly s z * ry' (s_L s) (s_phi s) v z ^ 2)) by (intros; ring).
  rewrite !nc10_plus. unfold ux', uy', rx', ry'.
  rewrite <- !Pk1_nc, <- !Pka_nc by assumption.
  field; repeat split; assumption.
Qed.

Lemma bend_integrand_poly c s v :
  poly 10 (fun z => c * (ipoly s z * (rx' (s_L s) (s_phi s) v z ^ 2 + ry' (s_L s) (s_phi s) v z ^ 2))).
Proof.
  apply poly_scale. apply poly_weaken with 7%nat; [lia|].
  apply (poly_mult 4 2); [apply ipoly_poly|]. apply poly_plus; apply (poly_sq 1), tt'_poly.
Qed.
Lemma axial_integrand_poly c s v :
  poly 10 (fun z => c * (ux' (s_L s) (s_phi s) v z ^ 2 + uy' (s_L s) (s_phi s) v z ^ 2)).
Proof.
  apply poly_scale. apply poly_weaken with 5%nat; [lia|].
  apply poly_plus; apply (poly_sq 2), tw'_poly.
Qed.
Lemma shear_integrand_poly c s v :
  poly 10 (fun z => c * (apoly s z * ((ux' (s_L s) (s_phi s) v z - rx (s_L s) (s_phi s) v z) ^ 2
                                    + (uy' (s_L s) (s_phi s) v z - ry (s_L s) (s_phi s) v z) ^ 2))).
Proof.
  apply poly_scale. apply poly_weaken with 7%nat; [lia|].
  apply (poly_mult 2 4); [apply apoly_poly|].
  apply poly_plus; apply (poly_sq 2); apply poly_minus; first [apply tw'_poly|apply tt_poly].
Qed.

Lemma shaft_strain a s v : shaft_init a = Ok s -> good_args a -> a_torque a = 0 ->
  bform 8 (shaft_K s) v v =
  RInt (fun z => mE (s_material s) * arg_inertia a z *
          (rx' (a_L a) (s_phi s) v z ^ 2 + ry' (a_L a) (s_phi s) v z ^ 2)) 0 (a_L a)
  + (if a_shear_effects a
     then RInt (fun z => s_kappa s * mG_s (s_material s) * arg_area a z *
          ((ux' (a_L a) (s_phi s) v z - rx (a_L a) (s_phi s) v z) ^ 2
           + (uy' (a_L a) (s_phi s) v z - ry (a_L a) (s_phi s) v z) ^ 2)) 0 (a_L a)
     else 0)
  + a_axial_force a *
    RInt (fun z => ux' (a_L a) (s_phi s) v z ^ 2 + uy' (a_L a) (s_phi s) v z ^ 2) 0 (a_L a).
Proof.
  intros Hi Hg HT. pose proof (shaft_positive _ _ Hi Hg) as Ps. pose proof (shaft_init_facts _ _ Hi) as F.
  assert (Hgm : -1/2 <= mPoisson (s_material s)).
  { destruct Hg as [_ (mt & Em & Hm)]. rewrite (f_mat _ _ F) in Em; injection Em; intros ->. apply Hm. }
  pose proof (pos_nz _ Ps) as Hnz. pose proof Hnz as [HL HP].
  assert (HA : s_A s <> 0) by (destruct Ps; lra).
  rewrite shaft_K_nc by (auto; rewrite (f_tq _ _ F); auto). rewrite (f_af _ _ F), <- (f_L _ _ F).
  f_equal; [f_equal|f_equal].
  - rewrite <- nc10_scal, <- RInt_nc10 by apply bend_integrand_poly.
    apply RInt_ext. intros z _. rewrite (arg_inertia_eq a s F) by (destruct Ps; lra). req; ring.
  - destruct (f_phi _ _ F) as [[Es E]|(Es & Ek & E)]; rewrite Es.
    + rewrite E. unfold Rdiv. ring.
    + apply kappa_pos in Ek; [|assumption].
      rewrite (RInt_ext _ (fun z => s_kappa s * mG_s (s_material s) * s_A_l s *
            (apoly s z * ((ux' (s_L s) (s_phi s) v z - rx (s_L s) (s_phi s) v z) ^ 2
                        + (uy' (s_L s) (s_phi s) v z - ry (s_L s) (s_phi s) v z) ^ 2)))).
      2:{ intros z _. rewrite (arg_area_eq a s F) by (destruct Ps; lra). req; ring. }
      rewrite RInt_nc10 by apply shear_integrand_poly.
      rewrite nc10_scal.
      rewrite (nc10_ext (fun z => apoly s z * ((ux' (s_L s) (s_phi s) v z - rx (s_L s) (s_phi s) v z) ^ 2
                        + (uy' (s_L s) (s_phi s) v z - ry (s_L s) (s_phi s) v z) ^ 2))
          (fun z => apoly s z * (ux' (s_L s) (s_phi s) v z - rx (s_L s) (s_phi s) v z) ^ 2
                  + apoly s z * (uy' (s_L s) (s_phi s) v z - ry (s_L s) (s_phi s) v z) ^ 2)) by (intros; ring).
      rewrite nc10_plus. unfold ux', uy', rx, ry. rewrite <- !Pk2_nc by assumption.
      rewrite bform_K2.
      assert (HG : mG_s (s_material s) <> 0) by (destruct Ps; lra).
      assert (HEI : 12 * mE (s_material s) * s_Ie s = s_phi s * (mG_s (s_material s) * s_kappa s * s_A s * s_L s ^ 2)).
      { rewrite E. field. repeat split; auto; lra. }
      replace (mE (s_material s) * / s_L s ^ 3 * / (1 + s_phi s) ^ 2 * s_Ie s * s_phi s * s_A_l s / s_A s)
        with ((12 * mE (s_material s) * s_Ie s) / 12 * / s_L s ^ 3 * / (1 + s_phi s) ^ 2 * s_phi s * s_A_l s / s_A s) by (field; repeat split; auto).
      rewrite HEI. field. repeat split; auto.
  - symmetry. rewrite <- (Rmult_1_l (nc10 _ _)), <- nc10_scal, <- RInt_nc10 by apply axial_integrand_poly.
    apply RInt_ext. intros; req; ring.
Qed.
