(** Theorems about the crack model (property C43). *)
From Coq Require Import String Reals List Arith Bool ZArith Lia Lra Psatz.
From Verif Require Import PyBase MatBase SpecMat LMat CMat LCMat MMaterial MShaft SpecShaft LShaft PropShaft LRotor5 MRotor MTime MFault SpecFault LFault LFault2 LFault3.
Import ListNotations.
Open Scope string_scope.
Open Scope R_scope.

Lemma coef_pos z nu E R0 : (0 < z)%Z -> -1 < nu < 1 -> 0 < E -> 0 < R0 -> 0 < coef z nu E R0.
Proof.
  intros. unfold coef. apply Rdiv_lt_0_compat; [|apply Rmult_lt_0_compat; [auto|apply pow_lt; auto]]. apply Rmult_lt_0_compat; [|nra].
  apply Rdiv_lt_0_compat; [apply IZR_lt; auto|apply pow_lt; lra].
Qed.
Definition unit_coef nu E R0 : R := (1 - nu ^ 2) / (E * R0 ^ 3) / 10 ^ 21.
Lemma coef_unit z nu E R0 : E * R0 ^ 3 <> 0 -> coef z nu E R0 = IZR z * unit_coef nu E R0.
Proof. intros. unfold coef, unit_coef. assert (10 ^ 21 <> 0) by (apply pow_nonzero; lra). assert (E <> 0) by (intros ->; apply H; ring). assert (R0 <> 0) by (intros ->; apply H; ring). field. repeat split; auto. Qed.
Lemma unit_pos nu E R0 : -1 < nu < 1 -> 0 < E -> 0 < R0 -> 0 < unit_coef nu E R0.
Proof. intros. unfold unit_coef. apply Rdiv_lt_0_compat; [|apply pow_lt; lra]. apply Rdiv_lt_0_compat; [nra|]. apply Rmult_lt_0_compat; auto. apply pow_lt; auto. Qed.
(** Every depth up to half the diameter has positive coefficients, which do not decrease with the depth; deeper cracks are rejected. *)
Theorem C43_coefficients : forall d1 d2 nu E R0, d1 <= d2 -> d2 <= 1 / 2 -> -1 < nu < 1 -> 0 < E -> 0 < R0 ->
  exists k1 k2, get_coefs d1 nu E R0 = Ok k1 /\ get_coefs d2 nu E R0 = Ok k2 /\
    0 < cc44 k1 <= cc44 k2 /\ 0 < cc45 k1 <= cc45 k2 /\ 0 < cc55 k1 <= cc55 k2.
Proof.
  intros d1 d2 nu E R0 H1 H2 Hn HE HR. destruct (get_coefs_row d1 nu E R0 ltac:(lra)) as (x & Ix & Rx & Gx). destruct (get_coefs_row d2 nu E R0 H2) as (y & Iy & Ry & Gy).
  eexists _, _. split; [exact Gx|]. split; [exact Gy|]. cbn [cc44 cc45 cc55]. destruct (row_facts x Ix) as (A & B & C & _).
  destruct (coef_row_mono d1 d2 x y H1 Rx Ry) as (M1 & M2 & M3).
  assert (N : E * R0 ^ 3 <> 0) by (apply Rgt_not_eq, Rmult_lt_0_compat; [auto|apply pow_lt; auto]). pose proof (unit_pos nu E R0 Hn HE HR).
  repeat split; try (apply coef_pos; auto); rewrite !coef_unit by auto; apply Rmult_le_compat_r; try lra; apply IZR_le; auto.
Qed.
Theorem C43_depth_limit : forall lib s d, 1 / 2 < d -> crack_setup lib s d = Err ValueError.
Proof. intros lib s d H. unfold crack_setup. destruct (Rle_dec d (1 / 2)); [lra|reflexivity]. Qed.
(** The extra compliance is not positive: at every depth there is a load under which the crack gives energy back. *)
Theorem C43_compliance_refuted : forall d nu E R0, d <= 1 / 2 -> -1 < nu < 1 -> 0 < E -> 0 < R0 ->
  exists k u v, get_coefs d nu E R0 = Ok k /\ cc55 k * u ^ 2 + 2 * cc45 k * u * v + cc44 k * v ^ 2 < 0.
Proof.
  intros d nu E R0 H Hn HE HR. destruct (get_coefs_row d nu E R0 H) as (x & Ix & Rx & Gx). eexists _, (- coef (z45 x) nu E R0), (coef (z55 x) nu E R0).
  split; [exact Gx|]. cbn [cc44 cc45 cc55]. destruct (row_facts x Ix) as (A & B & C & D & _).
  assert (N : E * R0 ^ 3 <> 0) by (apply Rgt_not_eq, Rmult_lt_0_compat; [auto|apply pow_lt; auto]). pose proof (unit_pos nu E R0 Hn HE HR) as U.
  rewrite !coef_unit by auto. set (u := unit_coef nu E R0) in *. apply IZR_lt in C, D. rewrite !mult_IZR in D. set (p := IZR (z44 x)) in *. set (q := IZR (z45 x)) in *. set (w := IZR (z55 x)) in *.
  replace (w * u * (- (q * u)) ^ 2 + 2 * (q * u) * - (q * u) * (w * u) + p * u * (w * u) ^ 2) with (- ((u ^ 3 * w) * (q * q - p * w))) by ring.
  assert (0 < u ^ 3) by (apply pow_lt; auto). assert (0 < (u ^ 3 * w) * (q * q - p * w)) by (apply Rmult_lt_0_compat; [apply Rmult_lt_0_compat; lra|lra]). lra.
Qed.
(** For cylindrical elements at least two diameters long, every crack lowers both stiffnesses, and they stay positive. *)
Theorem C43_softening : forall lib s d c, pinv_ok lib -> crackable s -> s_odr s = s_odl s -> 2 * s_odl s <= s_L s -> d <> 0 ->
  crack_setup lib s d = Ok c -> 0 < cr_kcx c < cr_ko c /\ 0 < cr_kcz c < cr_ko c.
Proof.
  intros lib s d c L H Ho HL Hd E. destruct (setup_inv lib s d c L H E) as (Hd2 & _ & _ & _ & x & Ix & _ & Ko & _ & Kc). cbv zeta in Kc. specialize (Kc Hd).
  destruct (cp_eq s H) as (A & _ & C). destruct (cp_pos s H) as [P0 P4]. pose proof H as [_ HE HG Hnu Hl Hr].
  set (nu := mPoisson (s_material s)) in *. set (EE := mE (s_material s)) in *. set (R0 := s_odl s / 2) in *.
  assert (R0p : 0 < R0) by (unfold R0; lra). assert (R3 : 0 < R0 ^ 3) by (apply pow_lt; auto).
  assert (N : EE * R0 ^ 3 <> 0) by (apply Rgt_not_eq, Rmult_lt_0_compat; auto).
  pose proof (unit_pos nu EE R0 ltac:(lra) HE R0p) as U. rewrite !coef_unit in Kc by auto. set (u := unit_coef nu EE R0) in *.
  assert (G : 10 ^ 21 * u <= cP s).
  { apply Rle_trans with (1 / (EE * R0 ^ 3)).
    - unfold u, unit_coef. replace (10 ^ 21 * ((1 - nu ^ 2) / (EE * R0 ^ 3) / 10 ^ 21)) with ((1 - nu ^ 2) * (1 / (EE * R0 ^ 3))) by (field; repeat split; lra).
      assert (0 < 1 / (EE * R0 ^ 3)) by (apply Rdiv_lt_0_compat; [lra|apply Rmult_lt_0_compat; auto]). pose proof (pow2_ge_0 nu). nra.
    - apply Rle_trans with (cC s / 4); [|exact P4]. unfold cC. fold EE.
      assert (I1 : ck_I s <= PI / 4 * R0 ^ 4).
      { unfold ck_I. rewrite Ho. fold R0. apply Rmult_le_compat_l; [pose proof PI_RGT_0; lra|].
        assert (0 <= (s_idr s / 2) ^ 4) by (apply pow_le; lra). assert (0 <= (s_idl s / 2) ^ 4) by (apply pow_le; lra). lra. }
      destruct (ck_pos s H) as (I0 & _ & _). pose proof PI_4. pose proof PI_RGT_0.
      assert (I2 : ck_I s <= R0 ^ 4) by (assert (0 < R0 ^ 4) by (apply pow_lt; auto); nra).
      apply (Rmult_le_reg_r (EE * R0 ^ 3)); [apply Rmult_lt_0_compat; auto|]. replace (1 / (EE * R0 ^ 3) * (EE * R0 ^ 3)) with 1 by (field; lra).
      apply (Rmult_le_reg_r (4 * ck_I s)); [lra|]. replace (s_L s / (EE * ck_I s) / 4 * (EE * R0 ^ 3) * (4 * ck_I s)) with (s_L s * R0 ^ 3) by (field; lra).
      replace (R0 ^ 4) with (R0 * R0 ^ 3) in I2 by ring. assert (4 * R0 <= s_L s) by (unfold R0; lra). nra. }
  destruct (row_facts x Ix) as (Z4 & Z45 & Z5 & _ & W1 & W2). apply IZR_lt in Z4, Z45, Z5, W1, W2. rewrite !mult_IZR, !plus_IZR in W1, W2.
  rewrite <- (pow_IZR 10 21 : _ = IZR (10 ^ 21)) in W1, W2.
  set (p := IZR (z44 x)) in *. set (q := IZR (z45 x)) in *. set (w := IZR (z55 x)) in *. set (T := 10 ^ 21) in *. clearbody T.
  assert (pu : 0 < p * u) by (apply Rmult_lt_0_compat; auto). assert (wu : 0 < w * u) by (apply Rmult_lt_0_compat; auto).
  assert (V1 : (q * u) ^ 2 < (cP s + w * u) * (p * u)).
  { apply Rlt_le_trans with ((T * u + w * u) * (p * u)); [|apply Rmult_le_compat_r; lra].
    replace ((q * u) ^ 2) with ((u * u) * (q * q)) by ring. replace ((T * u + w * u) * (p * u)) with ((u * u) * (p * (w + T))) by ring. apply Rmult_lt_compat_l; [nra|exact W1]. }
  assert (V2 : (q * u) ^ 2 < (cP s + p * u) * (w * u)).
  { apply Rlt_le_trans with ((T * u + p * u) * (w * u)); [|apply Rmult_le_compat_r; lra].
    replace ((q * u) ^ 2) with ((u * u) * (q * q)) by ring. replace ((T * u + p * u) * (w * u)) with ((u * u) * (w * (p + T))) by ring. apply Rmult_lt_compat_l; [nra|exact W2]. }
  set (P := cP s + w * u) in *. set (Q := cP s + p * u) in *.
  assert (Pp : 0 < P) by (unfold P; lra). assert (Qp : 0 < Q) by (unfold Q; lra).
  assert (D : 0 < P * Q - (q * u) ^ 2) by (unfold Q; nra).
  destruct (Kc ltac:(lra)) as [-> ->]. rewrite Ko.
  rewrite stf_kcx, stf_kcz, stf_ko by lra.
  assert (Bp : 0 < cB s ^ 2 / cA s ^ 2).
  { apply Rdiv_lt_0_compat; [|apply pow_lt; auto]. apply pow_lt. unfold cB. destruct (ck_pos s H) as (I0 & _). pose proof (ca_L _ H). apply Rdiv_lt_0_compat; [apply pow_lt; auto|]. fold EE. nra. }
  assert (Ai : 0 < 1 / cA s) by (apply Rdiv_lt_0_compat; lra).
  assert (F1 : P / (P * Q - (q * u) ^ 2) < / cP s) by (apply inv_lt; auto; replace (Q - cP s) with (p * u) by (unfold Q; ring); exact V1).
  assert (F2 : Q / (P * Q - (q * u) ^ 2) < / cP s).
  { rewrite (Rmult_comm P Q). rewrite (Rmult_comm P Q) in D. apply inv_lt; auto. replace (P - cP s) with (w * u) by (unfold P; ring). exact V2. }
  assert (G1 : 0 < P / (P * Q - (q * u) ^ 2)) by (apply Rdiv_lt_0_compat; auto). assert (G2 : 0 < Q / (P * Q - (q * u) ^ 2)) by (apply Rdiv_lt_0_compat; auto).
  repeat split; nra.
Qed.
(** the row used for a depth given in hundredths *)
Lemma row_of d k x : d * 2 = IZR k / 100 -> find (fun x => (k <=? zdepth x)%Z) papadopoulos = Some x -> coef_row d = Ok x.
Proof.
  intros H F. unfold coef_row.
  assert (E : forall l, find (fun x => if Rle_dec (d * 2) (row_depth x) then true else false) l = find (fun x => (k <=? zdepth x)%Z) l).
  { induction l as [|y l IH]; [reflexivity|]. simpl. rewrite IH. rewrite H. unfold row_depth. fold (zdepth y).
    destruct (Rle_dec (IZR k / 100) (IZR (zdepth y) / 100)) as [L|L], (Z.leb_spec k (zdepth y)) as [M|M]; auto; exfalso.
    - apply IZR_lt in M. lra.
    - apply IZR_le in M. lra. }
  rewrite E, F. reflexivity.
Qed.
Definition ck_args (L : R) : shaft_args := mkShaftArgs L 0 2 None None (Some (mkMaterial "m" 1 1 (1 / 2) 0 "c")) None 0 0 true true true Cowper None 0 0.
Lemma ck_args_ok L : 0 < L -> exists s, shaft_init (ck_args L) = Ok s /\ good_args (ck_args L) /\ crackable s /\ s_L s = L /\ s_material s = mkMaterial "m" 1 1 (1 / 2) 0 "c" /\
  s_odl s = 2 /\ s_odr s = 2 /\ s_idl s = 0 /\ s_idr s = 0.
Proof.
  intros HL. eexists. split; [reflexivity|]. split; [|split; [|repeat split]].
  - split; [unfold good_geometry, right_id, right_od; simpl; lra|]. eexists; split; [reflexivity|]. unfold good_material; simpl; lra.
  - constructor; simpl; lra.
Qed.
Lemma ck_vals s L : 0 < L -> crackable s -> s_L s = L -> s_material s = mkMaterial "m" 1 1 (1 / 2) 0 "c" -> s_odl s = 2 -> s_odr s = 2 -> s_idl s = 0 -> s_idr s = 0 ->
  ck_I s = PI / 4 /\ ck_A s = 7 / L ^ 2 /\ cC s = 4 * L / PI /\ forall z, coef z (mPoisson (s_material s)) (mE (s_material s)) (s_odl s / 2) = IZR z / 10 ^ 21.
Proof.
  intros HL H EL Em E1 E2 E3 E4. pose proof PI_RGT_0.
  assert (I : ck_I s = PI / 4) by (unfold ck_I; rewrite E1, E2, E3, E4; field). assert (S : ck_S s = PI) by (unfold ck_S; rewrite E1, E2, E3, E4; field).
  split; [exact I|]. split; [unfold ck_A, ck_kappa; rewrite I, S, Em, EL; simpl; field; lra|]. split; [unfold cC; rewrite I, Em, EL; simpl; field; lra|].
  intros z. unfold coef. rewrite Em, E1. cbn [mPoisson mE]. field.
Qed.
(** In a short element the same crack makes the element stiffer. *)
Theorem C43_stiffening_refuted : exists a s, shaft_init a = Ok s /\ good_args a /\ crackable s /\
  forall lib, pinv_ok lib -> exists c, crack_setup lib s (1 / 4) = Ok c /\ cr_ko c < cr_kcx c.
Proof.
  pose proof PI_RGT_0 as Pp. assert (HL : 0 < PI / 16) by lra. destruct (ck_args_ok (PI / 16) HL) as (s & Hs & Hg & Hc & EL & Em & E1 & E2 & E3 & E4).
  exists (ck_args (PI / 16)), s. split; [exact Hs|]. split; [exact Hg|]. split; [exact Hc|]. intros lib L.
  destruct (crack_setup lib s (1 / 4)) as [c|e] eqn:E.
  2:{ exfalso. unfold crack_setup in E. destruct (Rle_dec (1 / 4) (1 / 2)); [|lra]. destruct (get_coefs_row (1 / 4) (mPoisson (s_material s)) (mE (s_material s)) (s_odl s / 2)) as (x & _ & _ & G); [lra|]. rewrite G in E. discriminate. }
  exists c. split; [reflexivity|]. destruct (setup_inv lib s (1 / 4) c L Hc E) as (_ & _ & _ & _ & x & _ & Rx & Ko & _ & Kc).
  assert (X : x = (50, 123230000000000000000, 436694000000000000000, 1221530000000000000000)%Z).
  { rewrite (row_of (1 / 4) 50 (50, 123230000000000000000, 436694000000000000000, 1221530000000000000000)%Z) in Rx; [congruence|lra|vm_compute; reflexivity]. }
  subst x. destruct (ck_vals s (PI / 16) HL Hc EL Em E1 E2 E3 E4) as (I & A & C & F). cbv zeta in Kc. rewrite !F in Kc. cbn [z44 z45 z55 fst snd] in Kc.
  destruct (cp_eq s Hc) as (A0 & EP & A1). destruct (cp_pos s Hc) as [P0 _]. 
  assert (C' : cC s = 1 / 4) by (rewrite C; field; lra). rewrite C' in EP.
  assert (PB : 3 / 16 < cP s < 1 / 4).
  { assert (Ab : 64 < ck_A s). { rewrite A. pose proof PI_4. apply (Rmult_lt_reg_r ((PI / 16) ^ 2)); [apply pow_lt; auto|]. replace (7 / (PI / 16) ^ 2 * (PI / 16) ^ 2) with 7 by (field; lra). nra. }
    rewrite EP. set (Av := ck_A s) in *. split.
    - apply (Rmult_lt_reg_r (4 + Av)); [lra|]. replace (1 / 4 * ((1 + Av) / (4 + Av)) * (4 + Av)) with ((1 + Av) / 4) by (field; lra). lra.
    - apply (Rmult_lt_reg_r (4 + Av)); [lra|]. replace (1 / 4 * ((1 + Av) / (4 + Av)) * (4 + Av)) with ((1 + Av) / 4) by (field; lra). lra. }
  replace (123230000000000000000 / 10 ^ 21) with (12323 / 100000) in Kc by field. replace (436694000000000000000 / 10 ^ 21) with (436694 / 1000000) in Kc by field.
  replace (1221530000000000000000 / 10 ^ 21) with (122153 / 100000) in Kc by field.
  set (p := cP s) in *. set (P := p + 122153 / 100000) in *. set (Q := p + 12323 / 100000) in *. set (e := 436694 / 1000000) in *.
  assert (D : 0 < P * Q - e ^ 2) by (unfold P, Q, e; nra).
  destruct (Kc ltac:(lra) ltac:(lra)) as [-> _]. rewrite Ko, stf_ko, stf_kcx by lra.
  assert (Bp : 0 < cB s ^ 2 / cA s ^ 2).
  { apply Rdiv_lt_0_compat; [|apply pow_lt; auto]. apply pow_lt. unfold cB. rewrite EL, I, Em. cbn [mE]. apply Rdiv_lt_0_compat; [apply pow_lt; auto|lra]. }
  assert (G : / p < P / (P * Q - e ^ 2)).
  { apply (Rmult_lt_reg_r (p * (P * Q - e ^ 2))); [apply Rmult_lt_0_compat; auto|]. replace (/ p * (p * (P * Q - e ^ 2))) with (P * Q - e ^ 2) by (field; lra).
    replace (P / (P * Q - e ^ 2) * (p * (P * Q - e ^ 2))) with (P * p) by (field; lra). unfold P, Q, e. nra. }
  nra.
Qed.
(** ** breathing *)
Lemma turned_form kee knn th x : bform 2 (turned kee knn th) x x = kee * (cos th * x 0%nat + sin th * x 1%nat) ^ 2 + knn * (- sin th * x 0%nat + cos th * x 1%nat) ^ 2.
Proof. unfold bform, turned, mulm, mtrans, T_matrix, lmat, sumn. cbn [nth]. ring. Qed.
Lemma turn_norm th x : (cos th * x 0%nat + sin th * x 1%nat) ^ 2 + (- sin th * x 0%nat + cos th * x 1%nat) ^ 2 = (x 0%nat) ^ 2 + (x 1%nat) ^ 2 :> R.
Proof. pose proof (sin2_cos2 th) as E. unfold Rsqr in E. transitivity ((sin th * sin th + cos th * cos th) * ((x 0%nat) ^ 2 + (x 1%nat) ^ 2)); [ring|rewrite E; ring]. Qed.
Lemma turned_sym kee knn th : symmetric 2 (turned kee knn th).
Proof. intros i j Hi Hj. destruct i as [|[|i]]; [| |exfalso; lia]; (destruct j as [|[|j]]; [| |exfalso; lia]); unfold turned, mulm, mtrans, T_matrix, lmat, sumn; cbn [nth]; ring. Qed.
Lemma turned_scalar k th : meq 2 (turned k k th) (mscale k mid).
Proof.
  pose proof (sin2_cos2 th) as E. unfold Rsqr in E.
  intros i j Hi Hj. destruct i as [|[|i]]; [| |exfalso; lia]; (destruct j as [|[|j]]; [| |exfalso; lia]); unfold turned, mulm, mtrans, T_matrix, lmat, sumn, mscale, mid; cbn [nth Nat.eqb]; try ring;
  (transitivity (k * (sin th * sin th + cos th * cos th)); [ring|rewrite E; ring]).
Qed.
(** Mayes: symmetric, between the stiffness of the open crack and that of the uncracked element in every direction and at every angle;
    closed at the angle 0, open at the angle pi, the same after a full turn. *)
Theorem C43_mayes_bounds : forall c th, let k := Rmin (cr_kcx c) (cr_kcz c) in cr_kcx c <= cr_ko c -> cr_kcz c <= cr_ko c ->
  let K := crack_model Mayes c th in
  symmetric 2 K /\
  (forall x, k * ((x 0%nat) ^ 2 + (x 1%nat) ^ 2) <= bform 2 K x x <= cr_ko c * ((x 0%nat) ^ 2 + (x 1%nat) ^ 2)) /\
  meq 2 (crack_model Mayes c 0) (mscale (cr_ko c) mid) /\
  meq 2 (crack_model Mayes c PI) (lmat [[cr_kcx c; 0]; [0; cr_kcz c]]) /\
  meq 2 (crack_model Mayes c (th + 2 * PI)) K.
Proof.
  intros c th k Hx Hz K. unfold K, crack_model, mayes. split; [apply turned_sym|]. split; [|split; [|split]].
  - intros x. rewrite turned_form, <- (turn_norm th x). pose proof (COS_bound th) as [B1 B2].
    set (u := (cos th * x 0%nat + sin th * x 1%nat) ^ 2). set (v := (- sin th * x 0%nat + cos th * x 1%nat) ^ 2).
    assert (0 <= u) by apply pow2_ge_0. assert (0 <= v) by apply pow2_ge_0.
    pose proof (Rmin_l (cr_kcx c) (cr_kcz c)) as M1. pose proof (Rmin_r (cr_kcx c) (cr_kcz c)) as M2. fold k in M1, M2.
    set (a := 1 / 2 * (cr_ko c + cr_kcx c) + 1 / 2 * (cr_ko c - cr_kcx c) * cos th). set (b := 1 / 2 * (cr_ko c + cr_kcz c) + 1 / 2 * (cr_ko c - cr_kcz c) * cos th).
    assert (k <= a <= cr_ko c) by (unfold a; nra). assert (k <= b <= cr_ko c) by (unfold b; nra). nra.
  - rewrite cos_0. intros i j Hi Hj. replace (1 / 2 * (cr_ko c + cr_kcx c) + 1 / 2 * (cr_ko c - cr_kcx c) * 1) with (cr_ko c) by field.
    replace (1 / 2 * (cr_ko c + cr_kcz c) + 1 / 2 * (cr_ko c - cr_kcz c) * 1) with (cr_ko c) by field. apply turned_scalar; auto.
  - rewrite cos_PI. intros i j Hi Hj. replace (1 / 2 * (cr_ko c + cr_kcx c) + 1 / 2 * (cr_ko c - cr_kcx c) * -1) with (cr_kcx c) by field.
    replace (1 / 2 * (cr_ko c + cr_kcz c) + 1 / 2 * (cr_ko c - cr_kcz c) * -1) with (cr_kcz c) by field.
    unfold turned, mulm, mtrans, T_matrix, sumn, lmat. rewrite cos_PI, sin_PI.
    destruct i as [|[|i]]; [| |exfalso; lia]; (destruct j as [|[|j]]; [| |exfalso; lia]); cbn [nth]; ring.
  - intros i j Hi Hj. destruct (trig_2PI th) as [Es Ec]. unfold turned, T_matrix. rewrite Es, Ec. reflexivity.
Qed.
(** Without crack nothing breathes: both laws give the stiffness of the uncracked element at every angle. *)
Theorem C43_zero_depth_no_breathing : forall lib s c t th, pinv_ok lib -> crackable s -> crack_setup lib s 0 = Ok c -> meq 2 (crack_model t c th) (mscale (cr_ko c) mid).
Proof.
  intros lib s c t th L H E. destruct (setup_inv lib s 0 c L H E) as (_ & _ & _ & _ & x & _ & _ & _ & Z & _). destruct (Z eq_refl) as [Zx Zz].
  intros i j Hi Hj. destruct t; unfold crack_model, mayes, gasch; rewrite Zx, Zz.
  - replace (1 / 2 * (cr_ko c + cr_ko c) + 1 / 2 * (cr_ko c - cr_ko c) * cos th) with (cr_ko c) by field. apply turned_scalar; auto.
  - pose proof PI_RGT_0. replace ((cr_ko c + cr_ko c) / 2 + 4 / PI * ((cr_ko c - cr_ko c) / 2) * cosine_sum th) with (cr_ko c) by (field; lra). apply turned_scalar; auto.
Qed.
(** ** Gasch *)
Definition dsum n th : R := sumn n (fun i => (-1) ^ i * sin ((2 * INR i + 1) * th)).
Lemma dirichlet n th : 2 * cos th * dsum n th = - (-1) ^ n * sin (2 * INR n * th).
Proof.
  induction n as [|n IH]; [unfold dsum; simpl; replace (2 * 0 * th) with 0 by ring; rewrite sin_0; ring|].
  unfold dsum in *. cbn [sumn]. rewrite Rmult_plus_distr_l, IH. rewrite S_INR. cbn [pow].
  replace (2 * (INR n + 1) * th) with ((2 * INR n + 1) * th + th) by ring. replace (2 * INR n * th) with ((2 * INR n + 1) * th - th) by ring. rewrite sin_plus, sin_minus. ring.
Qed.
Lemma lin_deriv k t : derivable_pt_lim (fun t => k * t) t k.
Proof. pose proof (derivable_pt_lim_scal id k t 1 (derivable_pt_lim_id t)) as H. rewrite Rmult_1_r in H. exact H. Qed.
Definition csum n th : R := sumn n (fun i => (-1) ^ i * cos ((2 * INR i + 1) * th) / (2 * INR i + 1)).
Lemma odd_nz i : 2 * INR i + 1 <> 0. Proof. pose proof (pos_INR i). lra. Qed.
Lemma csum_deriv n th : derivable_pt_lim (csum n) th (- dsum n th).
Proof.
  induction n as [|n IH].
  - unfold csum, dsum. cbn [sumn]. rewrite Ropp_0. apply derivable_pt_lim_const.
  - unfold csum, dsum in *. cbn [sumn]. set (k := 2 * INR n + 1). assert (Hk : k <> 0) by apply odd_nz.
    replace (- (sumn n (fun i => (-1) ^ i * sin ((2 * INR i + 1) * th)) + (-1) ^ n * sin (k * th))) with
      (- sumn n (fun i => (-1) ^ i * sin ((2 * INR i + 1) * th)) + (-1) ^ n / k * (- sin (k * th) * k)) by (field; auto).
    apply (derivable_pt_lim_ext (fun t => sumn n (fun i => (-1) ^ i * cos ((2 * INR i + 1) * t) / (2 * INR i + 1)) + (-1) ^ n / k * cos (k * t))).
    + intros t. unfold k. field. apply odd_nz.
    + apply (derivable_pt_lim_plus _ (fun t => (-1) ^ n / k * cos (k * t))); [exact IH|].
      apply (derivable_pt_lim_scal (fun t => cos (k * t))). apply (derivable_pt_lim_comp (fun t => k * t) cos).
      * apply lin_deriv.
      * apply derivable_pt_lim_cos.
Qed.
Lemma gibbs : PI / 4 < csum 18 (PI / 36).
Proof.
  pose proof PI_RGT_0 as Pp. set (g := fun t => csum 18 t + 1 / 72 * cos (36 * t)).
  assert (Dg : forall t, derivable_pt_lim g t (- dsum 18 t + 1 / 72 * (- sin (36 * t) * 36))).
  { intros t. unfold g. apply (derivable_pt_lim_plus (csum 18) (fun t => 1 / 72 * cos (36 * t))); [apply csum_deriv|].
    apply (derivable_pt_lim_scal (fun t => cos (36 * t))). apply (derivable_pt_lim_comp (fun t => 36 * t) cos).
    - apply lin_deriv.
    - apply derivable_pt_lim_cos. }
  destruct (MVT_cor2 g (fun t => - dsum 18 t + 1 / 72 * (- sin (36 * t) * 36)) 0 (PI / 36)) as (t & E & Ht); [lra|intros; apply Dg|].
  assert (C : 0 < cos t) by (apply cos_gt_0; lra). assert (C1 : cos t <= 1) by apply COS_bound. assert (S : 0 < sin (36 * t)) by (apply sin_gt_0; lra).
  assert (Dd : - dsum 18 t = sin (36 * t) / (2 * cos t)).
  { pose proof (dirichlet 18 t) as X. replace (2 * INR 18 * t) with (36 * t) in X by (simpl; ring). replace (- (-1) ^ 18 * sin (36 * t)) with (- sin (36 * t)) in X by ring.
    apply (Rmult_eq_reg_l (2 * cos t)); [|lra]. transitivity (sin (36 * t)); [lra|field; lra]. }
  assert (P : 0 <= g (PI / 36) - g 0).
  { rewrite E, Dd. apply Rmult_le_pos; [|lra]. assert (1 / 2 <= 1 / (2 * cos t)).
    { apply (Rmult_le_reg_r (2 * cos t)); [lra|]. replace (1 / (2 * cos t) * (2 * cos t)) with 1 by (field; lra). lra. }
    replace (sin (36 * t) / (2 * cos t)) with (sin (36 * t) * (1 / (2 * cos t))) by (field; lra). nra. }
  unfold g in P. replace (36 * (PI / 36)) with PI in P by field. rewrite cos_PI in P. replace (36 * 0) with 0 in P by ring. rewrite cos_0 in P.
  assert (Z : PI / 4 <= csum 18 0 + 1 / 37).
  { destruct (PI_ineq 9) as [_ U]. eapply Rle_trans; [exact U|]. unfold tg_alt, PI_tg. cbn [Nat.mul Nat.add sum_f_R0 pow INR]. unfold csum. cbn [sumn pow INR]. rewrite !Rmult_0_r, cos_0. lra. }
  lra.
Qed.
(** Gasch: the truncated series overshoots, so a crack that softens the element makes it at some angle stiffer than the uncracked one in some direction. *)
Theorem C43_gasch_refuted : forall c, cr_kcx c < cr_ko c -> exists th x, cr_ko c * ((x 0%nat) ^ 2 + (x 1%nat) ^ 2) < bform 2 (crack_model Gasch c th) x x.
Proof.
  intros c H. set (th := PI / 36). exists th, (fun i => match i with O => cos th | _ => sin th end). unfold crack_model, gasch. rewrite turned_form. cbv beta iota.
  pose proof (sin2_cos2 th) as E. unfold Rsqr in E. pose proof gibbs as Gb. change (csum 18 (PI / 36)) with (cosine_sum th) in Gb. pose proof PI_RGT_0.
  replace (cos th ^ 2 + sin th ^ 2) with 1 by (rewrite <- E; ring). replace ((cos th * cos th + sin th * sin th) ^ 2) with 1 by (rewrite (Rplus_comm (cos th * cos th)), E; ring).
  replace ((- sin th * cos th + cos th * sin th) ^ 2) with 0 by ring.
  assert (1 < 4 / PI * cosine_sum th) by (apply (Rmult_lt_reg_r (PI / 4)); [lra|]; replace (4 / PI * cosine_sum th * (PI / 4)) with (cosine_sum th) by (field; lra); lra). nra.
Qed.
(** ** forces of the crack *)
(** A lateral translation of the element gives no force, cracked or not, at any angle. *)
Lemma crack_entries c n K x d : (d < 12)%nat -> crack_force c n K x (6 * n + d)%nat = mulv 12 (msub (cr_KK c) (KK_crack c K)) (fun j => x (6 * n + j)%nat) d.
Proof.
  intros Hd. unfold crack_force. replace (6 * n + d - 6 * n)%nat with d by lia. destruct (Nat.leb_spec (6 * n) (6 * n + d)); [|lia]. destruct (Nat.ltb_spec d 12); [|lia]. reflexivity.
Qed.
Lemma mulv_msub n A B x i : mulv n (msub A B) x i = mulv n A x i - mulv n B x i.
Proof. unfold mulv, msub. rewrite <- sumn_minus. apply sumn_ext. intros; ring. Qed.
Lemma shaft6_rigid a s x : shaft_init a = Ok s -> good_args a -> a_torque a = 0 -> a_axial_force a = 0 -> rigid6 (a_L a) x -> forall i, (i < 12)%nat -> mulv 12 (shaft6_K s) x i = 0.
Proof.
  intros H G T F Hr. destruct (C07_stiffness_psd a s H G T ltac:(lra)) as (_ & _ & S & P). destruct (C07_stiffness_kernel a s x H G T F) as (_ & _ & Kn).
  exact (proj1 (psd_kernel 12 _ x S P) (proj2 Kn Hr)).
Qed.
Lemma KK_rows c K v : let r i := Koxy c K i 0%nat * v 0%nat + Koxy c K i 1%nat * v 4%nat + Koxy c K i 2%nat * v 6%nat + Koxy c K i 3%nat * v 10%nat in
  let q i := Koyz c K i 0%nat * v 1%nat + Koyz c K i 1%nat * v 3%nat + Koyz c K i 2%nat * v 7%nat + Koyz c K i 3%nat * v 9%nat in
  forall d, (d < 12)%nat -> mulv 12 (KK_crack c K) v d = nth d [r 0%nat; q 0%nat; 0; q 1%nat; r 1%nat; 0; r 2%nat; q 2%nat; 0; q 3%nat; r 3%nat; 0] 0.
Proof.
  intros r q d Hd. unfold r, q, mulv, KK_crack. set (X := Koxy c K). set (Y := Koyz c K). clearbody X Y.
  do 12 (destruct d as [|d]; [unfold lmat; cbn [sumn nth]; ring|]). lia.
Qed.
Lemma row_xy c K i a0 a1 a2 a3 : let T := Toxy (cr_L c) in let g0 := - a0 + cr_L c * a1 + a2 in let g1 := - a1 + a3 in
  Koxy c K i 0%nat * a0 + Koxy c K i 1%nat * a1 + Koxy c K i 2%nat * a2 + Koxy c K i 3%nat * a3 =
  T i 0%nat * (K 0%nat 0%nat * g0 + cr_Kele c 0%nat 3%nat * g1) + T i 1%nat * (cr_Kele c 3%nat 0%nat * g0 + cr_Kele c 3%nat 3%nat * g1).
Proof.
  intros T g0 g1. unfold g0, g1, Koxy. fold T.
  assert (E : forall k, T 0%nat k = lmat [[-1; 0]] 0%nat k /\ T 1%nat k = lmat [[cr_L c; -1]] 0%nat k /\ T 2%nat k = lmat [[1; 0]] 0%nat k /\ T 3%nat k = lmat [[0; 1]] 0%nat k) by (intros; repeat split).
  unfold mulm, mtrans. cbn [sumn]. destruct (E 0%nat) as (-> & -> & -> & ->). destruct (E 1%nat) as (-> & -> & -> & ->).
  generalize (T i 0%nat) (T i 1%nat). intros t0 t1. unfold lmat. cbn [nth]. ring.
Qed.
Lemma row_yz c K i a0 a1 a2 a3 : let T := Toyz (cr_L c) in let g0 := - a0 - cr_L c * a1 + a2 in let g1 := - a1 + a3 in
  Koyz c K i 0%nat * a0 + Koyz c K i 1%nat * a1 + Koyz c K i 2%nat * a2 + Koyz c K i 3%nat * a3 =
  T i 0%nat * (K 1%nat 1%nat * g0 + cr_Kele c 1%nat 2%nat * g1) + T i 1%nat * (cr_Kele c 2%nat 1%nat * g0 + cr_Kele c 2%nat 2%nat * g1).
Proof.
  intros T g0 g1. unfold g0, g1, Koyz. fold T.
  assert (E : forall k, T 0%nat k = lmat [[-1; 0]] 0%nat k /\ T 1%nat k = lmat [[- cr_L c; -1]] 0%nat k /\ T 2%nat k = lmat [[1; 0]] 0%nat k /\ T 3%nat k = lmat [[0; 1]] 0%nat k) by (intros; repeat split).
  unfold mulm, mtrans. cbn [sumn]. destruct (E 0%nat) as (-> & -> & -> & ->). destruct (E 1%nat) as (-> & -> & -> & ->).
  generalize (T i 0%nat) (T i 1%nat). intros t0 t1. unfold lmat. cbn [nth]. ring.
Qed.
Theorem C43_translation_no_force : forall lib a s d c K n x, shaft_init a = Ok s -> good_args a -> a_torque a = 0 -> a_axial_force a = 0 -> crack_setup lib s d = Ok c ->
  (forall j, (j < 12)%nat -> x (6 * n + j)%nat = if (Nat.eqb j 0 || Nat.eqb j 6)%bool then x (6 * n)%nat else if (Nat.eqb j 1 || Nat.eqb j 7)%bool then x (6 * n + 1)%nat else 0) ->
  forall k, crack_force c n K x k = 0.
Proof.
  intros lib a s d c K n x H G T F E Hx k.
  assert (EK : cr_KK c = shaft6_K s) by (unfold crack_setup in E; destruct (Rle_dec d (1 / 2)); [|discriminate]; destruct (get_coefs _ _ _ _); [|discriminate]; cbn [bind] in E; injection E as <-; reflexivity).
  assert (Hu : exists u w, forall j, (j < 12)%nat -> x (6 * n + j)%nat = if (Nat.eqb j 0 || Nat.eqb j 6)%bool then u else if (Nat.eqb j 1 || Nat.eqb j 7)%bool then w else 0) by (eexists _, _; exact Hx).
  clear Hx. destruct Hu as (u & w & Hx).
  unfold crack_force. destruct (Nat.leb_spec (6 * n) k); [|reflexivity]. destruct (Nat.ltb_spec (k - 6 * n) 12) as [Hd|]; [|reflexivity]. cbn [andb].
  set (d' := (k - 6 * n)%nat) in *. clearbody d'. rewrite mulv_msub, EK.
  rewrite (shaft6_rigid a s (fun j => x (6 * n + j)%nat) H G T F); [|unfold rigid6; rewrite !(Hx 0%nat), !(Hx 1%nat), !(Hx 2%nat), !(Hx 3%nat), !(Hx 4%nat), !(Hx 5%nat), !(Hx 6%nat), !(Hx 7%nat), !(Hx 8%nat), !(Hx 9%nat), !(Hx 10%nat), !(Hx 11%nat) by lia; cbn [Nat.eqb orb]; repeat split; ring|exact Hd].
  rewrite (mulv_ext 12 _ _ (fun j => if (Nat.eqb j 0 || Nat.eqb j 6)%bool then u else if (Nat.eqb j 1 || Nat.eqb j 7)%bool then w else 0)) by (intros j Hj; apply Hx; auto).
  rewrite KK_rows by auto. cbv zeta. rewrite !row_xy, !row_yz. cbv beta zeta. cbn [Nat.eqb orb].
  do 12 (destruct d' as [|d']; [cbn [nth]; ring|]). lia.
Qed.
(** A rigid tilt gives a force, even without crack: the rotations enter the cracked stiffness with the sign opposite to that of the elements. *)
Theorem C43_tilt_refuted : forall lib a s d c K n x, shaft_init a = Ok s -> good_args a -> a_torque a = 0 -> a_axial_force a = 0 -> crack_setup lib s d = Ok c ->
  (forall j, (j < 12)%nat -> x (6 * n + j)%nat = if (Nat.eqb j 4 || Nat.eqb j 10)%bool then 1 else if Nat.eqb j 6 then a_L a else 0) ->
  rigid6 (a_L a) (fun j => x (6 * n + j)%nat) /\ crack_force c n K x (6 * n)%nat = 2 * a_L a * K 0%nat 0%nat.
Proof.
  intros lib a s d c K n x H G T F E Hx.
  assert (R : rigid6 (a_L a) (fun j => x (6 * n + j)%nat)) by (unfold rigid6; rewrite !(Hx 0%nat), !(Hx 1%nat), !(Hx 2%nat), !(Hx 3%nat), !(Hx 4%nat), !(Hx 5%nat), !(Hx 6%nat), !(Hx 7%nat), !(Hx 8%nat), !(Hx 9%nat), !(Hx 10%nat), !(Hx 11%nat) by lia; cbn [Nat.eqb orb]; repeat split; ring).
  split; [exact R|].
  assert (EK : cr_KK c = shaft6_K s /\ cr_L c = s_L s) by (unfold crack_setup in E; destruct (Rle_dec d (1 / 2)); [|discriminate]; destruct (get_coefs _ _ _ _); [|discriminate]; cbn [bind] in E; injection E as <-; auto).
  destruct EK as [EK EL]. assert (SL : s_L s = a_L a) by (destruct (shaft_init_facts a s H); auto).
  rewrite <- (Nat.add_0_r (6 * n)) at 1. rewrite crack_entries by lia. rewrite mulv_msub, EK, (shaft6_rigid a s _ H G T F R) by lia.
  rewrite (mulv_ext 12 _ _ (fun j => if (Nat.eqb j 4 || Nat.eqb j 10)%bool then 1 else if Nat.eqb j 6 then a_L a else 0)) by (intros j Hj; apply Hx; auto).
  rewrite KK_rows by lia. cbv zeta. rewrite !row_xy, !row_yz. cbv beta zeta. cbn [Nat.eqb orb nth]. unfold Toxy, lmat. cbn [nth]. rewrite EL, SL. ring.
Qed.
(** The axial stiffness of the element is taken away: an axial displacement of a node gives the force E A / L, whatever the depth. *)
Theorem C43_axial_refuted : forall lib a s d c K n x, shaft_init a = Ok s -> good_args a -> a_torque a = 0 -> a_axial_force a = 0 -> crack_setup lib s d = Ok c ->
  (forall j, (j < 12)%nat -> x (6 * n + j)%nat = if Nat.eqb j 2 then 1 else 0) ->
  crack_force c n K x (6 * n + 2)%nat = mE (s_material s) * ((s_A_l s + s_A_r s) / 2) / s_L s.
Proof.
  intros lib a s d c K n x H G T F E Hx.
  assert (EK : cr_KK c = shaft6_K s) by (unfold crack_setup in E; destruct (Rle_dec d (1 / 2)); [|discriminate]; destruct (get_coefs _ _ _ _); [|discriminate]; cbn [bind] in E; injection E as <-; auto).
  rewrite crack_entries by lia. rewrite mulv_msub, EK.
  assert (M : forall A, mulv 12 A (fun j => x (6 * n + j)%nat) 2%nat = A 2%nat 2%nat).
  { intros A. unfold mulv. rewrite (sumn_single 12 _ 2); [|lia|intros j Hj N; rewrite Hx by auto; destruct (Nat.eqb_spec j 2); [lia|ring]]. rewrite Hx by lia. cbn [Nat.eqb]. ring. }
  rewrite !M. replace (KK_crack c K 2%nat 2%nat) with 0 by reflexivity.
  assert (Fa : s_axial_force s = 0 /\ s_torque s = 0) by (destruct (shaft_init_facts a s H); split; congruence).
  unfold shaft6_K. destruct Fa as [-> ->]. unfold K1_6_tab, K2_6_tab, Kaf6_tab, Ktq6_tab, Kam6_tab, Kts6_tab, lmat. cbn [nth]. unfold Rdiv. ring.
Qed.
(** A deep crack in an ordinary element gives a stiffness matrix with a negative direction when it is open. *)
Theorem C43_open_definite_refuted : exists a s, shaft_init a = Ok s /\ good_args a /\ crackable s /\ a_L a = 3 /\ a_odl a = 2 /\
  forall lib, pinv_ok lib -> exists c, crack_setup lib s (1 / 2) = Ok c /\ exists x, bform 12 (KK_crack c (crack_model Mayes c PI)) x x < 0.
Proof.
  pose proof PI_RGT_0 as Pp. assert (HL : 0 < 3) by lra. destruct (ck_args_ok 3 HL) as (s & Hs & Hg & Hc & EL & Em & E1 & E2 & E3 & E4).
  exists (ck_args 3), s. split; [exact Hs|]. split; [exact Hg|]. split; [exact Hc|]. split; [reflexivity|]. split; [reflexivity|]. intros lib L.
  destruct (crack_setup lib s (1 / 2)) as [c|e] eqn:E.
  2:{ exfalso. unfold crack_setup in E. destruct (Rle_dec (1 / 2) (1 / 2)); [|lra]. destruct (get_coefs_row (1 / 2) (mPoisson (s_material s)) (mE (s_material s)) (s_odl s / 2)) as (x & _ & _ & G); [lra|]. rewrite G in E. discriminate. }
  exists c. split; [reflexivity|]. destruct (setup_inv lib s (1 / 2) c L Hc E) as (_ & _ & _ & KE & x & _ & Rx & Ko & _ & Kc).
  assert (X : x = (100, 2633180000000000000000, 4759930000000000000000, 7790390000000000000000)%Z).
  { rewrite (row_of (1 / 2) 100 (100, 2633180000000000000000, 4759930000000000000000, 7790390000000000000000)%Z) in Rx; [congruence|lra|vm_compute; reflexivity]. }
  subst x. destruct (ck_vals s 3 HL Hc EL Em E1 E2 E3 E4) as (I & A & C & F). cbv zeta in Kc. rewrite !F in Kc. cbn [z44 z45 z55 fst snd] in Kc.
  destruct (cp_eq s Hc) as (A0 & EP & A1). destruct (cp_pos s Hc) as [P0 _].
  assert (C' : 3 <= cC s < 4).
  { rewrite C. pose proof PI_4. pose proof PI2_3_2. split; apply (Rmult_le_reg_r PI) || apply (Rmult_lt_reg_r PI); auto; replace (4 * 3 / PI * PI) with 12 by (field; lra); lra. }
  assert (EP' : cP s = cC s * (16 / 43)) by (rewrite EP, A; field).
  replace (2633180000000000000000 / 10 ^ 21) with (263318 / 100000) in Kc by field. replace (4759930000000000000000 / 10 ^ 21) with (475993 / 100000) in Kc by field.
  replace (7790390000000000000000 / 10 ^ 21) with (779039 / 100000) in Kc by field.
  set (p := cP s) in *. set (P := p + 779039 / 100000) in *. set (Q := p + 263318 / 100000) in *. set (e := 475993 / 100000) in *.
  assert (D : 0 < P * Q - e ^ 2) by (unfold P, Q, e; nra).
  destruct (Kc ltac:(lra) ltac:(lra)) as [_ Kz]. rewrite stf_kcz in Kz by lra.
  set (b := cB s) in *. set (a := cA s) in *.
  (* energy of the displacement 1 and the rotation b / a of the right end in the second plane *)
  exists (fun i => if Nat.eqb i 7 then 1 else if Nat.eqb i 9 then b / a else 0).
  assert (Kyy : crack_model Mayes c PI 1%nat 1%nat = cr_kcz c).
  { unfold crack_model, mayes, turned, mulm, mtrans, T_matrix, sumn, lmat. cbn [nth]. rewrite cos_PI, sin_PI. field. }
  assert (En : bform 12 (KK_crack c (crack_model Mayes c PI)) (fun i => if Nat.eqb i 7 then 1 else if Nat.eqb i 9 then b / a else 0) (fun i => if Nat.eqb i 7 then 1 else if Nat.eqb i 9 then b / a else 0)
    = cr_kcz c + (cr_Kele c 1%nat 2%nat + cr_Kele c 2%nat 1%nat) * (b / a) + cr_Kele c 2%nat 2%nat * (b / a) ^ 2).
  { rewrite <- Kyy. set (v := fun i => if Nat.eqb i 7 then 1 else if Nat.eqb i 9 then b / a else 0).
    change (sumn 12 (fun i => v i * mulv 12 (KK_crack c (crack_model Mayes c PI)) v i) = crack_model Mayes c PI 1%nat 1%nat + (cr_Kele c 1%nat 2%nat + cr_Kele c 2%nat 1%nat) * (b / a) + cr_Kele c 2%nat 2%nat * (b / a) ^ 2).
    set (K := crack_model Mayes c PI). clearbody K.
    cbn [sumn]. rewrite !KK_rows by lia. cbv zeta. rewrite !row_xy, !row_yz. cbv beta zeta. cbn [nth]. unfold v. cbn [Nat.eqb]. unfold Toyz, lmat. cbn [nth]. ring. }
  rewrite En, Kz, !KE by lia. unfold stf, lmat. cbn [nth].
  assert (AB : a * cC s * 3 = b ^ 2 * (4 + 7 / 9)).
  { unfold a, b, cA, cB, cC. rewrite EL, I, Em, A, EL || rewrite EL, I, Em, A. cbn [mE]. field. lra. }
  assert (B0 : 0 < b) by (unfold b, cB; rewrite EL, I, Em; cbn [mE]; apply Rdiv_lt_0_compat; [apply pow_lt; lra|lra]).
  match goal with |- ?lhs < 0 => replace lhs with (1 / a * (1 - b ^ 2 / a * ((P * Q - e ^ 2 - p * Q) / (p * (P * Q - e ^ 2))))) by (field; repeat split; lra) end.
  assert (BA : b ^ 2 / a = cC s * (27 / 43)) by (apply (Rmult_eq_reg_r a); [|lra]; replace (b ^ 2 / a * a) with (b ^ 2) by (field; lra); lra).
  rewrite BA. assert (CP : cC s * (27 / 43) = p * (27 / 16)) by (rewrite EP'; field). rewrite CP.
  replace (p * (27 / 16) * ((P * Q - e ^ 2 - p * Q) / (p * (P * Q - e ^ 2)))) with (27 / 16 * (P * Q - e ^ 2 - p * Q) / (P * Q - e ^ 2)) by (field; split; lra).
  assert (W : 1 < 27 / 16 * (P * Q - e ^ 2 - p * Q) / (P * Q - e ^ 2)).
  { apply (Rmult_lt_reg_r (P * Q - e ^ 2)); [auto|]. replace (27 / 16 * (P * Q - e ^ 2 - p * Q) / (P * Q - e ^ 2) * (P * Q - e ^ 2)) with (27 / 16 * (P * Q - e ^ 2 - p * Q)) by (field; lra).
    assert (48 / 43 <= p < 64 / 43) by (rewrite EP'; lra). unfold P, Q, e. nra. }
  assert (0 < 1 / a) by (apply Rdiv_lt_0_compat; lra). nra.
Qed.
Example C43_instance : exists s c, crackable s /\ s_odr s = s_odl s /\ 2 * s_odl s <= s_L s /\ crack_setup lib0 s (1 / 4) = Ok c.
Proof.
  destruct (ck_args_ok 4 ltac:(lra)) as (s & _ & _ & Hc & EL & _ & E1 & E2 & _).
  destruct (crack_setup lib0 s (1 / 4)) as [c|e] eqn:E.
  - exists s, c. split; [exact Hc|]. rewrite EL, E1, E2. split; [reflexivity|]. split; [lra|exact E].
  - exfalso. unfold crack_setup in E. destruct (Rle_dec (1 / 4) (1 / 2)); [|lra]. destruct (get_coefs_row (1 / 4) (mPoisson (s_material s)) (mE (s_material s)) (s_odl s / 2)) as (x & _ & _ & G); [lra|]. rewrite G in E. discriminate.
Qed.

Print Assumptions C43_coefficients.
Print Assumptions C43_depth_limit.
Print Assumptions C43_compliance_refuted.
Print Assumptions C43_softening.
Print Assumptions C43_stiffening_refuted.
Print Assumptions C43_mayes_bounds.
Print Assumptions C43_zero_depth_no_breathing.
Print Assumptions C43_gasch_refuted.
Print Assumptions C43_translation_no_force.
Print Assumptions C43_tilt_refuted.
Print Assumptions C43_axial_refuted.
Print Assumptions C43_open_definite_refuted.
