(** Lemmas about shaft elements. *)
From Coq Require Import Reals List Lra Lia Psatz Bool String.
From Coquelicot Require Import Coquelicot.
From Verif Require Import PyBase MatBase SpecMat MMaterial MShaft SpecBeam SpecShaft LQuad.
Import ListNotations.
Open Scope R_scope.

(** facts about a constructed element *)
Record shaft_facts (a : shaft_args) (s : shaft) : Prop := {
  f_mat : a_material a = Some (s_material s);
  f_L : s_L s = a_L a; f_idl : s_idl s = a_idl a; f_odl : s_odl s = a_odl a;
  f_idr : s_idr s = right_id a; f_odr : s_odr s = right_od a;
  f_ri : s_rotary_inertia s = a_rotary_inertia a;
  f_gy : s_gyroscopic s = a_gyroscopic a;
  f_se : s_shear_effects s = a_shear_effects a;
  f_af : s_axial_force s = a_axial_force a;
  f_tq : s_torque s = a_torque a;
  f_al : s_alpha s = a_alpha a; f_be : s_beta s = a_beta a;
  f_Al : s_A_l s = PI * (s_odl s ^ 2 - s_idl s ^ 2) / 4;
  f_Ar : s_A_r s = PI * (s_odr s ^ 2 - s_idr s ^ 2) / 4;
  f_Iel : s_Ie_l s = PI * (s_odl s ^ 4 - s_idl s ^ 4) / 64;
  f_Ier : s_Ie_r s = PI * (s_odr s ^ 4 - s_idr s ^ 4) / 64;
  f_vol : s_volume s = PI * (s_L s / 12) *
            ((s_odl s ^ 2 + s_odl s * s_odr s + s_odr s ^ 2) - (s_idl s ^ 2 + s_idl s * s_idr s + s_idr s ^ 2));
  f_m : s_m s = mrho (s_material s) * s_volume s;
  f_a1 : s_a1 s = 2 * PI * (s_odl s / 2 * (s_odr s / 2 - s_odl s / 2) - s_idl s / 2 * (s_idr s / 2 - s_idl s / 2)) / s_A_l s;
  f_a2 : s_a2 s = PI * ((s_odl s / 2) ^ 3 * (s_odr s / 2 - s_odl s / 2) - (s_idl s / 2) ^ 3 * (s_idr s / 2 - s_idl s / 2)) / s_Ie_l s;
  f_b1 : s_b1 s = PI * ((s_odr s / 2 - s_odl s / 2) ^ 2 - (s_idr s / 2 - s_idl s / 2) ^ 2) / s_A_l s;
  f_b2 : s_b2 s = 3 * PI * ((s_odl s / 2) ^ 2 * (s_odr s / 2 - s_odl s / 2) ^ 2 - (s_idl s / 2) ^ 2 * (s_idr s / 2 - s_idl s / 2) ^ 2) / (2 * s_Ie_l s);
  f_ga : s_gama s = PI * ((s_odl s / 2) * (s_odr s / 2 - s_odl s / 2) ^ 3 - (s_idl s / 2) * (s_idr s / 2 - s_idl s / 2) ^ 3) / s_Ie_l s;
  f_de : s_delta s = PI * ((s_odr s / 2 - s_odl s / 2) ^ 4 - (s_idr s / 2 - s_idl s / 2) ^ 4) / (4 * s_Ie_l s);
  f_A : s_A s = s_A_l s * (1 + s_a1 s * (1 / 2) + s_b1 s * (1 / 2) ^ 2);
  f_Ie : s_Ie s = s_Ie_l s * (1 + s_a2 s * (1 / 2) + s_b2 s * (1 / 2) ^ 2 + s_gama s * (1 / 2) ^ 3 + s_delta s * (1 / 2) ^ 4);
  f_cg : s_beam_cg s = s_L s *
     ((s_odl s / 2) ^ 2 + 2 * (s_odl s / 2) * (s_odr s / 2) + 3 * (s_odr s / 2) ^ 2
      - (s_idl s / 2) ^ 2 - 2 * (s_idl s / 2) * (s_idr s / 2) - 3 * (s_idr s / 2) ^ 2) /
     (4 * (((s_odl s / 2) ^ 2 + s_odl s / 2 * (s_odr s / 2) + (s_odr s / 2) ^ 2)
      - ((s_idl s / 2) ^ 2 + s_idl s / 2 * (s_idr s / 2) + (s_idr s / 2) ^ 2)));
  f_Im : s_Im s = (PI * s_L s * (s_m s / s_volume s) / 10) *
     (((s_odl s / 2) ^ 4 + (s_odl s / 2) ^ 3 * (s_odr s / 2) + (s_odl s / 2) ^ 2 * (s_odr s / 2) ^ 2
       + s_odl s / 2 * (s_odr s / 2) ^ 3 + (s_odr s / 2) ^ 4)
      - ((s_idl s / 2) ^ 4 + (s_idl s / 2) ^ 3 * (s_idr s / 2) + (s_idl s / 2) ^ 2 * (s_idr s / 2) ^ 2
       + s_idl s / 2 * (s_idr s / 2) ^ 3 + (s_idr s / 2) ^ 4));
  f_phi : (a_shear_effects a = false /\ s_phi s = 0) \/
          (a_shear_effects a = true /\
           shear_kappa (a_method a) (mPoisson (s_material s)) (s_idl s) (s_odl s) (s_idr s) (s_odr s) = Ok (s_kappa s) /\
           s_phi s = 12 * mE (s_material s) * s_Ie s / (mG_s (s_material s) * s_kappa s * s_A s * s_L s ^ 2))
}.

Lemma shaft_init_facts a s : shaft_init a = Ok s -> shaft_facts a s.
Proof.
  unfold shaft_init. destruct (a_material a) as [mt|] eqn:Em; [|discriminate].
  cbv zeta.
  destruct (a_shear_effects a) eqn:Es.
  - destruct (shear_kappa _ _ _ _ _ _) as [kp|] eqn:Ek; [|discriminate].
    intros H; injection H; clear H; intros <-.
    constructor; try exact Em; try reflexivity; simpl; try reflexivity; auto.
    all: match goal with |- _ \/ _ => right; repeat split; auto | _ => idtac end.
    all: idtac.
  - intros H; injection H; clear H; intros <-.
    constructor; try exact Em; try reflexivity; simpl; try reflexivity; auto.
Qed.

(** positivity of the ingredients *)
Record shaft_pos (s : shaft) : Prop := {
  p_L : 0 < s_L s; p_rho : 0 < mrho (s_material s); p_E : 0 < mE (s_material s);
  p_G : 0 < mG_s (s_material s);
  p_idl : 0 <= s_idl s < s_odl s; p_idr : 0 <= s_idr s < s_odr s;
  p_Al : 0 < s_A_l s; p_Iel : 0 < s_Ie_l s; p_Ar : 0 < s_A_r s; p_Ier : 0 < s_Ie_r s;
  p_A : 0 < s_A s; p_Ie : 0 < s_Ie s;
  p_phi : 0 <= s_phi s }.

Lemma sq_lt a b : 0 <= a < b -> a ^ 2 < b ^ 2.
Proof. nra. Qed.
Lemma qu_lt a b : 0 <= a < b -> a ^ 4 < b ^ 4.
Proof.
  intros H. pose proof (sq_lt _ _ H) as H2. assert (H0 : 0 <= a ^ 2) by nra.
  replace (a ^ 4) with ((a ^ 2) ^ 2) by ring. replace (b ^ 4) with ((b ^ 2) ^ 2) by ring.
  apply sq_lt. lra.
Qed.

Lemma taper_lt idl odl idr odr L z : 0 < L -> 0 <= z <= L ->
  0 <= idl < odl -> 0 <= idr < odr -> 0 <= taper idl idr L z < taper odl odr L z.
Proof.
  intros HL Hz Hl Hr. unfold taper.
  assert (Hs : 0 <= z / L <= 1).
  { split; [apply Rmult_le_pos; [lra|left; apply Rinv_0_lt_compat; lra]|].
    apply Rmult_le_reg_r with L; [lra|]. unfold Rdiv. rewrite Rmult_assoc, Rinv_l; lra. }
  set (t := z / L) in *. clearbody t.
  replace (idl + (idr - idl) * t) with ((1 - t) * idl + t * idr) by ring.
  replace (odl + (odr - odl) * t) with ((1 - t) * odl + t * odr) by ring.
  split; [nra|].
  destruct (Rle_lt_dec t (1/2)); nra.
Qed.

Lemma sec_area_pos idl odl idr odr L z : 0 < L -> 0 <= z <= L ->
  0 <= idl < odl -> 0 <= idr < odr -> 0 < sec_area idl odl idr odr L z.
Proof.
  intros. pose proof PI_RGT_0. pose proof (taper_lt idl odl idr odr L z) as T.
  unfold sec_area. apply sq_lt in T; auto.
  set (a := taper odl odr L z ^ 2) in *. set (b := taper idl idr L z ^ 2) in *. nra.
Qed.
Lemma sec_inertia_pos idl odl idr odr L z : 0 < L -> 0 <= z <= L ->
  0 <= idl < odl -> 0 <= idr < odr -> 0 < sec_inertia idl odl idr odr L z.
Proof.
  intros. pose proof PI_RGT_0. pose proof (taper_lt idl odl idr odr L z) as T.
  unfold sec_inertia. apply qu_lt in T; auto.
  set (a := taper odl odr L z ^ 4) in *. set (b := taper idl idr L z ^ 4) in *. nra.
Qed.

(** the polynomial coefficients of the code describe the tapered section *)
Lemma area_expand a s z : shaft_facts a s -> s_A_l s <> 0 ->
  sec_area (s_idl s) (s_odl s) (s_idr s) (s_odr s) (s_L s) z
  = s_A_l s * (1 + s_a1 s * (z / s_L s) + s_b1 s * (z / s_L s) ^ 2).
Proof.
  intros F H. rewrite (f_a1 _ _ F), (f_b1 _ _ F). unfold sec_area, taper.
  set (t := z / s_L s).
  transitivity (s_A_l s + 2 * PI * (s_odl s / 2 * (s_odr s / 2 - s_odl s / 2) - s_idl s / 2 * (s_idr s / 2 - s_idl s / 2)) * t
     + PI * ((s_odr s / 2 - s_odl s / 2) ^ 2 - (s_idr s / 2 - s_idl s / 2) ^ 2) * t^2).
  - rewrite (f_Al _ _ F). field.
  - field. exact H.
Qed.
Lemma inertia_expand a s z : shaft_facts a s -> s_Ie_l s <> 0 ->
  sec_inertia (s_idl s) (s_odl s) (s_idr s) (s_odr s) (s_L s) z
  = s_Ie_l s * (1 + s_a2 s * (z / s_L s) + s_b2 s * (z / s_L s) ^ 2 + s_gama s * (z / s_L s) ^ 3
      + s_delta s * (z / s_L s) ^ 4).
Proof.
  intros F H. rewrite (f_a2 _ _ F), (f_b2 _ _ F), (f_ga _ _ F), (f_de _ _ F). unfold sec_inertia, taper.
  set (t := z / s_L s).
  transitivity (s_Ie_l s
     + PI * ((s_odl s / 2) ^ 3 * (s_odr s / 2 - s_odl s / 2) - (s_idl s / 2) ^ 3 * (s_idr s / 2 - s_idl s / 2)) * t
     + 3 * PI * ((s_odl s / 2) ^ 2 * (s_odr s / 2 - s_odl s / 2) ^ 2 - (s_idl s / 2) ^ 2 * (s_idr s / 2 - s_idl s / 2) ^ 2) / 2 * t^2
     + PI * ((s_odl s / 2) * (s_odr s / 2 - s_odl s / 2) ^ 3 - (s_idl s / 2) * (s_idr s / 2 - s_idl s / 2) ^ 3) * t^3
     + PI * ((s_odr s / 2 - s_odl s / 2) ^ 4 - (s_idr s / 2 - s_idl s / 2) ^ 4) / 4 * t^4).
  - rewrite (f_Iel _ _ F). field.
  - field. exact H.
Qed.

Lemma kappa_pos meth nu idl odl idr odr k :
  -1/2 <= nu -> shear_kappa meth nu idl odl idr odr = Ok k -> 0 < k.
Proof.
  intros Hnu. unfold shear_kappa. cbv zeta.
  set (r := (idl + idr) / 2 / ((odl + odr) / 2)). clearbody r.
  assert (Hr : 0 <= r * r) by nra. set (r2 := r * r) in *. clearbody r2.
  assert (H1 : 1 <= (1 + r2) ^ 2) by nra. set (r12 := (1 + r2) ^ 2) in *. clearbody r12.
  destruct meth; intros H; try discriminate; injection H; clear H; intros <-.
  - assert (0 < 7 + 12 * nu + 4 * nu ^ 2) by nra. assert (0 < 5 + 6 * nu + 2 * nu ^ 2) by nra.
    apply Rmult_lt_0_compat; [lra|]. apply Rdiv_lt_0_compat; [lra|]. nra.
  - apply Rmult_lt_0_compat; [lra|]. apply Rdiv_lt_0_compat; [lra|]. nra.
Qed.

Lemma shaft_positive a s : shaft_init a = Ok s -> good_args a -> shaft_pos s.
Proof.
  intros Hi [(HL & Hl & Hr) (mt & Em & Hm)].
  pose proof (shaft_init_facts _ _ Hi) as F.
  rewrite (f_mat _ _ F) in Em; injection Em; clear Em; intros <-.
  destruct Hm as (Hrho & HE & HG & Hnu).
  rewrite <- (f_L _ _ F) in HL. rewrite <- (f_idl _ _ F), <- (f_odl _ _ F) in Hl.
  rewrite <- (f_idr _ _ F), <- (f_odr _ _ F) in Hr.
  pose proof PI_RGT_0 as HP.
  pose proof (sq_lt _ _ Hl). pose proof (sq_lt _ _ Hr). pose proof (qu_lt _ _ Hl). pose proof (qu_lt _ _ Hr).
  assert (PAl : 0 < s_A_l s) by (rewrite (f_Al _ _ F); nra).
  assert (PAr : 0 < s_A_r s) by (rewrite (f_Ar _ _ F); nra).
  assert (PIl : 0 < s_Ie_l s) by (rewrite (f_Iel _ _ F); nra).
  assert (PIr : 0 < s_Ie_r s) by (rewrite (f_Ier _ _ F); nra).
  assert (PA : 0 < s_A s).
  { pose proof (sec_area_pos (s_idl s) (s_odl s) (s_idr s) (s_odr s) (s_L s) (s_L s / 2) HL ltac:(lra) Hl Hr) as P.
    rewrite (area_expand a s _ F) in P by lra.
    replace (s_L s / 2 / s_L s) with (1/2) in P by (field; lra).
    rewrite (f_A _ _ F). exact P. }
  assert (PIe : 0 < s_Ie s).
  { pose proof (sec_inertia_pos (s_idl s) (s_odl s) (s_idr s) (s_odr s) (s_L s) (s_L s / 2) HL ltac:(lra) Hl Hr) as P.
    rewrite (inertia_expand a s _ F) in P by lra.
    replace (s_L s / 2 / s_L s) with (1/2) in P by (field; lra).
    rewrite (f_Ie _ _ F). exact P. }
  constructor; auto.
  destruct (f_phi _ _ F) as [[_ E]|(_ & Ek & E)]; [lra|].
  apply kappa_pos in Ek; [|assumption]. rewrite E. left.
  apply Rdiv_lt_0_compat.
  - apply Rmult_lt_0_compat; [lra|assumption].
  - assert (0 < s_L s ^ 2) by nra.
    apply Rmult_lt_0_compat; [|assumption]. apply Rmult_lt_0_compat; [|assumption]. apply Rmult_lt_0_compat; assumption.
Qed.

(** ** The tables as planar quadratic forms *)

Definition qf4 (c11 c12 c13 c14 c22 c23 c24 c33 c34 c44 w0 t0 w1 t1 : R) : R :=
  c11 * w0 ^ 2 + c22 * t0 ^ 2 + c33 * w1 ^ 2 + c44 * t1 ^ 2
  + 2 * (c12 * w0 * t0 + c13 * w0 * w1 + c14 * w0 * t1 + c23 * t0 * w1 + c24 * t0 * t1 + c34 * w1 * t1).

Ltac unbform := unfold bform, lmat; cbn [sumn nth].

Definition Pt (s : shaft) := let L := s_L s in
  qf4 (m1 s) (L * m2 s) (m3 s) (- L * m4 s) (L^2 * m5 s) (L * m6 s) (- L^2 * m7 s) (m8 s) (- L * m9 s) (L^2 * m10 s).
Definition Pr (s : shaft) := let L := s_L s in
  qf4 (m11 s) (L * m12 s) (- m11 s) (L * m13 s) (L^2 * m14 s) (- L * m12 s) (- L^2 * m15 s) (m11 s) (- L * m13 s) (L^2 * m16 s).
Definition Pk1 (s : shaft) := let L := s_L s in
  qf4 (k1 s) (L * k2 s) (- k1 s) (L * k3 s) (L^2 * k4 s) (- L * k2 s) (L^2 * k5 s) (k1 s) (- L * k3 s) (L^2 * k6 s).
Definition Pk2 (s : shaft) := let L := s_L s in
  qf4 (k7 s) (L * k8 s) (- k7 s) (L * k8 s) (L^2 * k9 s) (- L * k8 s) (L^2 * k9 s) (k7 s) (- L * k8 s) (L^2 * k9 s).
Definition Pka (s : shaft) :=
  qf4 (k10 s) (k11 s) (- k10 s) (k11 s) (k12 s) (- k11 s) (- k13 s) (k10 s) (- k11 s) (k12 s).

Lemma bform_Mt s v : bform 8 (Mt_tab s) v v =
  Pt s (v 0%nat) (v 3%nat) (v 4%nat) (v 7%nat) + Pt s (v 1%nat) (- v 2%nat) (v 5%nat) (- v 6%nat).
Proof. unfold Mt_tab, Pt, qf4; unbform. ring. Qed.
Lemma bform_Mr s v : bform 8 (Mr_tab s) v v =
  Pr s (v 0%nat) (v 3%nat) (v 4%nat) (v 7%nat) + Pr s (v 1%nat) (- v 2%nat) (v 5%nat) (- v 6%nat).
Proof. unfold Mr_tab, Pr, qf4; unbform. ring. Qed.
Lemma bform_K1 s v : bform 8 (K1_tab s) v v =
  Pk1 s (v 0%nat) (v 3%nat) (v 4%nat) (v 7%nat) + Pk1 s (v 1%nat) (- v 2%nat) (v 5%nat) (- v 6%nat).
Proof. unfold K1_tab, Pk1, qf4; unbform. ring. Qed.
Lemma bform_K2 s v : bform 8 (K2_tab s) v v =
  Pk2 s (v 0%nat) (v 3%nat) (v 4%nat) (v 7%nat) + Pk2 s (v 1%nat) (- v 2%nat) (v 5%nat) (- v 6%nat).
Proof. unfold K2_tab, Pk2, qf4; unbform. ring. Qed.
Lemma bform_Ka s v : bform 8 (Kaxial_tab s) v v =
  Pka s (v 0%nat) (v 3%nat) (v 4%nat) (v 7%nat) + Pka s (v 1%nat) (- v 2%nat) (v 5%nat) (- v 6%nat).
Proof. unfold Kaxial_tab, Pka, qf4; unbform. ring. Qed.
