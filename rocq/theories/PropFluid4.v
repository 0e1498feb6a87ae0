(** C69: numerical film force and the numerical stiffness and damping coefficients. *)
From Coq Require Import Reals String List Arith Bool Lia Lra.
From Coquelicot Require Import Coquelicot.
From Verif Require Import PyBase MatBase LMat CMat MDynamics LDynEx MFault LFault MFluid SpecFluid SpecFilm LFluid LFluid7 LFluid8 LFluid9 PropFluid PropFluid2 PropFluid3.
Import ListNotations.
Open Scope string_scope. Open Scope R_scope.

Lemma rule_comb S nz nt zs ts (F G : mat) a b : linear_rule S -> grid_integral S nz nt zs ts (fun i j => a * F i j + b * G i j) = a * grid_integral S nz nt zs ts F + b * grid_integral S nz nt zs ts G.
Proof. intros H. unfold grid_integral. rewrite <- H. f_equal. apply map_ext. intros i. apply H. Qed.
Lemma rule_ext S nz nt zs ts (F G : mat) : (forall i j, (i < nz)%nat -> (j < nt)%nat -> F i j = G i j) -> grid_integral S nz nt zs ts F = grid_integral S nz nt zs ts G.
Proof. intros H. unfold grid_integral. f_equal. apply map_ext_in. intros i Hi. f_equal. apply map_ext_in. intros j Hj. apply in_seq in Hi. apply in_seq in Hj. apply H; lia. Qed.

(** The force with force_type "numerical" is minus the integral (by the quadrature rule) of the pressure times the unit vector from the rotor centre to the stator. *)
Theorem C69_force fl f fr ft fx fy : linear_rule (fl_simpson fl) ->
  let dx i j := ff_xre f i j - ff_xi f in let dy i j := ff_yre f i j - ff_yi f in let dist i j := sqrt (dx i j ^ 2 + dy i j ^ 2) in
  (forall i j, (i < ff_nz f)%nat -> (j < ff_nt f)%nat -> dist i j <> 0) -> film_numerical fl f = (fr, ft, fx, fy) ->
  let integral := grid_integral (fl_simpson fl) (ff_nz f) (ff_nt f) (map (fun i => INR i * ff_dz f) (seq 0 (ff_nz f))) (map (fun j => ff_gama f 0%nat j) (seq 0 (ff_nt f))) in
  fx = - ff_rr f * integral (fun i j => ff_pnum f i j * (dx i j / dist i j)) /\ fy = - ff_rr f * integral (fun i j => ff_pnum f i j * (dy i j / dist i j)) /\
  fx = - fr * sin (ff_att f) + ft * cos (ff_att f) /\ fy = fr * cos (ff_att f) + ft * sin (ff_att f).
Proof.
  intros HS dx dy dist Hd. unfold film_numerical. cbv zeta.
  set (ang := fun i j => atan2 (ff_yre f i j - ff_yi f) (ff_xre f i j - ff_xi f)). set (be := atan2 (ff_yre f 0%nat 0%nat - ff_yi f) (ff_xre f 0%nat 0%nat - ff_xi f)).
  set (btw := fun i j => if Rlt_dec (atan2 (ff_yre f i j - ff_yi f) (ff_xre f i j - ff_xi f) - be) 0 then atan2 (ff_yre f i j - ff_yi f) (ff_xre f i j - ff_xi f) - be + 2 * PI else atan2 (ff_yre f i j - ff_yi f) (ff_xre f i j - ff_xi f) - be).
  set (ig := grid_integral (fl_simpson fl) (ff_nz f) (ff_nt f) (map (fun i => INR i * ff_dz f) (seq 0 (ff_nz f))) (map (fun j => ff_gama f 0%nat j) (seq 0 (ff_nt f)))).
  match goal with |- force_xy _ (_ * ?a * _ + _ * ?b * _) _ = _ -> _ => change a with (ig (fun i j => ff_pnum f i j * cos (btw i j))); change b with (ig (fun i j => ff_pnum f i j * sin (btw i j))) end.
  set (A := ig (fun i j => ff_pnum f i j * (dx i j / dist i j))). set (B := ig (fun i j => ff_pnum f i j * (dy i j / dist i j))).
  assert (CS : forall i j, (i < ff_nz f)%nat -> (j < ff_nt f)%nat -> cos (btw i j) = cos be * (dx i j / dist i j) + sin be * (dy i j / dist i j) /\ sin (btw i j) = cos be * (dy i j / dist i j) + (- sin be) * (dx i j / dist i j)).
  { intros i j Hi Hj. destruct (atan2_spec (dy i j) (dx i j) (Hd i j Hi Hj)) as [E1 E2]. fold (dist i j) in E1, E2. rewrite <- E1, <- E2. fold (ang i j) in btw. change (atan2 (dy i j) (dx i j)) with (ang i j).
    assert (P : cos (btw i j) = cos (ang i j - be) /\ sin (btw i j) = sin (ang i j - be)).
    { unfold btw. fold (ang i j). destruct (Rlt_dec (ang i j - be) 0); [|split; reflexivity]. split; [rewrite cos_plus, cos_2PI, sin_2PI; ring|rewrite sin_plus, cos_2PI, sin_2PI; ring]. }
    destruct P as [-> ->]. rewrite cos_minus, sin_minus. split; ring. }
  assert (I1 : ig (fun i j => ff_pnum f i j * cos (btw i j)) = cos be * A + sin be * B).
  { unfold A, B, ig. rewrite <- rule_comb by exact HS. apply rule_ext. intros i j Hi Hj. destruct (CS i j Hi Hj) as [-> _]. ring. }
  assert (I2 : ig (fun i j => ff_pnum f i j * sin (btw i j)) = cos be * B + (- sin be) * A).
  { unfold A, B, ig. rewrite <- rule_comb by exact HS. apply rule_ext. intros i j Hi Hj. destruct (CS i j Hi Hj) as [_ ->]. ring. }
  rewrite I1, I2. unfold force_xy. intros E. injection E as <- <- <- <-. set (a := ff_att f). set (R0 := ff_rr f).
  assert (T1 : forall x, cos (x + PI) = - cos x) by (intros x; rewrite cos_plus, cos_PI, sin_PI; ring). assert (T2 : forall x, cos (x + PI / 2) = - sin x) by (intros x; rewrite cos_plus, cos_PI2, sin_PI2; ring). rewrite T1, T2.
  assert (C1 : cos (PI / 2 - be + a) = sin be * cos a - cos be * sin a). { replace (PI / 2 - be + a) with (PI / 2 - (be - a)) by ring. rewrite cos_shift. apply sin_minus. }
  assert (S1 : sin (PI / 2 - be + a) = cos be * cos a + sin be * sin a). { replace (PI / 2 - be + a) with (PI / 2 - (be - a)) by ring. rewrite sin_shift. apply cos_minus. }
  rewrite C1, S1. pose proof (sin2_cos2 a) as Pa. pose proof (sin2_cos2 be) as Pb. unfold Rsqr in Pa, Pb. set (ca := cos a) in *. set (sa := sin a) in *. set (cb := cos be) in *. set (sb := sin be) in *. clearbody ca sa cb sb A B R0.
  split; [|split; [|split; reflexivity]].
  - transitivity (- R0 * A * ((sa * sa + ca * ca) * (sb * sb + cb * cb))); [ring|rewrite Pa, Pb; ring].
  - transitivity (- R0 * B * ((sa * sa + ca * ca) * (sb * sb + cb * cb))); [ring|rewrite Pa, Pb; ring].
Qed.
Example C69_force_instance : exists S, linear_rule S /\ S [1; 2] [0; 1] <> 0.
Proof.
  exists (fun ys _ => fold_right Rplus 0 ys). split.
  - intros l f g a b _. induction l as [|i l IH]; cbn [map fold_right]; [ring|rewrite IH; ring].
  - simpl. lra.
Qed.

(** calculate_stiffness_and_damping_coefficients: forces are taken at six instants of a harmonic motion of the rotor centre about its given position, in x and then in y; the coefficients are those of the only best affine fit of minus the force to displacement and velocity. *)
Lemma rows_fit la n rows F P (d v : vec) : linalg_ok la -> length rows = n -> least_squares3 la rows F = Ok P ->
  (forall i, (i < n)%nat -> nth i rows (0, 0) = (d i, v i)) -> (forall a k c, (forall i, (i < n)%nat -> a + k * d i + c * v i = 0) -> a = 0 /\ k = 0 /\ c = 0) ->
  best_fit n d v (fun i => nth i F 0) (P 1%nat) (P 2%nat).
Proof.
  intros Hla Hn E Hr Free. pose proof (lsq_best la rows F P Hla E) as H. rewrite Hn in H. exists (P 0%nat). intros a k c. specialize (H a k c).
  assert (S : forall a k c, sq_err rows F a k c = fit_error n d v (fun i => nth i F 0) a k c). { intros a' k' c'. unfold sq_err, fit_error. rewrite Hn. apply sumn_ext. intros i Hi. rewrite (Hr i Hi). reflexivity. }
  rewrite !S in H. set (q := sumn n _) in H. assert (Q : 0 <= q) by (apply sumn_nonneg; intros; apply pow2_ge_0). split; [lra|]. intros Eq. assert (Q0 : q = 0) by lra.
  assert (Z : forall i, (i < n)%nat -> (a - P 0%nat) + (k - P 1%nat) * d i + (c - P 2%nat) * v i = 0).
  { intros i Hi. assert (X : ((a - P 0%nat) + (k - P 1%nat) * d i + (c - P 2%nat) * v i) ^ 2 = 0).
    { assert (M : forall m g, (forall j, (j < m)%nat -> 0 <= g j) -> sumn m g = 0 -> forall j, (j < m)%nat -> g j = 0).
      { induction m as [|m IH]; intros g Hg Hs j Hj; [lia|]. cbn [sumn] in Hs. assert (0 <= sumn m g) by (apply sumn_nonneg; intros; apply Hg; lia). assert (0 <= g m) by (apply Hg; lia). destruct (Nat.eq_dec j m) as [->|]; [lra|]. apply IH; [intros; apply Hg; lia|lra|lia]. }
      pose proof (M n _ (fun j _ => pow2_ge_0 _) Q0 i Hi) as X. cbv beta in X. rewrite (Hr i Hi) in X. exact X. }
    apply Rsqr_0_uniq. unfold Rsqr. rewrite <- X. ring. }
  destruct (Free _ _ _ Z) as (A & B & D). repeat split; lra.
Qed.
Theorem C69_best_fit fl f K D : linalg_ok (fl_la fl) -> ff_omegap f <> 0 -> ff_clear f <> 0 -> stiffness_damping fl f = Ok (K, D) ->
  let xp := ff_clear f * / 10000 in let t i := INR i * (2 * PI / ff_omegap f / 5) in
  let d i := xp * sin (ff_omegap f * t i) in let v i := ff_omegap f * xp * cos (ff_omegap f * t i) in
  exists kxx kxy kyx kyy cxx cxy cyx cyy (fxx fyx fxy fyy : vec), K = [kxx; kxy; kyx; kyy] /\ D = [cxx; cxy; cyx; cyy] /\
   (forall i, (i < 6)%nat -> pert_force fl (move_abs (set_pert f (t i) xp xp) (ff_xi f + d i) (ff_yi f)) DirX = Ok (fxx i, fyx i) /\
                             pert_force fl (move_abs (set_pert f (t i) xp xp) (ff_xi f) (ff_yi f + d i)) DirY = Ok (fxy i, fyy i)) /\
   best_fit 6 d v (fun i => - fxx i) kxx cxx /\ best_fit 6 d v (fun i => - fxy i) kxy cxy /\ best_fit 6 d v (fun i => - fyx i) kyx cyx /\ best_fit 6 d v (fun i => - fyy i) kyy cyy.
Proof.
  intros Hla Ho Hc E xp t d v. unfold stiffness_damping in E. set (fp := set_pert f (ff_t f) (ff_clear f * / 10000) (ff_clear f * / 10000)) in E. cbv zeta in E.
  unfold bind in E. destruct (all_instants fl fp (instants (ff_omegap fp))) as [ms|] eqn:Em; [|discriminate].
  destruct (all_instants_eq fl fp _ fp ms (upto_refl fp) Em) as [Lm Hm]. change (ff_omegap fp) with (ff_omegap f) in *. assert (L6 : length (instants (ff_omegap f)) = 6%nat) by (unfold instants; rewrite map_length, seq_length; reflexivity). rewrite L6 in Lm, Hm.
  set (rows := map _ ms) in E. destruct (least_squares3 (fl_la fl) rows (map (fun '(_, _, (a, _), _) => a) ms)) as [P1|] eqn:E1; [|discriminate]. destruct (least_squares3 (fl_la fl) rows (map (fun '(_, _, _, (a, _)) => a) ms)) as [P2|] eqn:E2; [|discriminate]. destruct (least_squares3 (fl_la fl) rows (map (fun '(_, _, (_, b), _) => b) ms)) as [P3|] eqn:E3; [|discriminate]. destruct (least_squares3 (fl_la fl) rows (map (fun '(_, _, _, (_, b)) => b) ms)) as [P4|] eqn:E4; [|discriminate].
  injection E as <- <-. set (z := (0, 0, (0, 0), (0, 0)) : R * R * (R * R) * (R * R)) in *.
  set (row := fun i => nth i ms z). exists (P1 1%nat), (P2 1%nat), (P3 1%nat), (P4 1%nat), (P1 2%nat), (P2 2%nat), (P3 2%nat), (P4 2%nat).
  exists (fun i => - fst (snd (fst (row i)))), (fun i => - snd (snd (fst (row i)))), (fun i => - fst (snd (row i))), (fun i => - snd (snd (row i))).
  assert (Hi' : forall i, (i < 6)%nat -> pert_force fl (move_abs (set_pert f (t i) xp xp) (ff_xi f + d i) (ff_yi f)) DirX = Ok (- fst (snd (fst (row i))), - snd (snd (fst (row i)))) /\ pert_force fl (move_abs (set_pert f (t i) xp xp) (ff_xi f) (ff_yi f + d i)) DirY = Ok (- fst (snd (row i)), - snd (snd (row i))) /\ fst (fst (row i)) = (d i, v i)).
  { intros i Hi. destruct (Hm i Hi) as (a & b & c & e & F1 & F2 & F3). rewrite instants_nth in F1, F2, F3 by exact Hi. fold (row i) in F3. rewrite F3. cbn [fst snd]. rewrite !Ropp_involutive. split; [exact F1|]. split; [exact F2|]. reflexivity. }
  assert (Lr : length rows = 6%nat) by (unfold rows; rewrite map_length; exact Lm).
  assert (Hr : forall i, (i < 6)%nat -> nth i rows (0, 0) = (d i, v i)). { intros i Hi. unfold rows. rewrite (map_nth (fun '(d, v, _, _) => (d, v)) ms z i) || idtac. change (0, 0) with ((fun '(d, v, _, _) => (d, v)) z). rewrite map_nth. fold (row i). destruct (Hi' i Hi) as (_ & _ & X). destruct (row i) as [[[a b] ?] ?]. exact X. }
  assert (Fr : forall a k c, (forall i, (i < 6)%nat -> a + k * d i + c * v i = 0) -> a = 0 /\ k = 0 /\ c = 0).
  { intros a k c H. apply (instants_free xp (ff_omegap f)); [unfold xp; intros X; apply Rmult_integral in X; destruct X; [auto|lra]|exact Ho|]. intros i Hi. cbv zeta. rewrite instants_nth by exact Hi. exact (H i Hi). }
  assert (Bx : forall F P (g : vec), least_squares3 (fl_la fl) rows F = Ok P -> (forall i, (i < 6)%nat -> nth i F 0 = g i) -> best_fit 6 d v g (P 1%nat) (P 2%nat)).
  { intros F P g El Hg. destruct (rows_fit (fl_la fl) 6 rows F P d v Hla Lr El Hr Fr) as [a Ha]. exists a. intros a' k' c'.
    assert (X : forall a k c, fit_error 6 d v g a k c = fit_error 6 d v (fun i => nth i F 0) a k c) by (intros; apply sumn_ext; intros i Hi; rewrite (Hg i Hi); reflexivity). rewrite !X. apply Ha. }
  split; [reflexivity|]. split; [reflexivity|]. split; [intros i Hi; destruct (Hi' i Hi) as (X & Y & _); split; assumption|].
  split; [|split; [|split]].
  - apply (Bx _ _ _ E1). intros i Hi. rewrite Ropp_involutive. change 0 with ((fun '(_, _, (a, _), _) => a) z) at 1. rewrite map_nth. fold (row i). destruct (row i) as [[[? ?] [? ?]] [? ?]]. reflexivity.
  - apply (Bx _ _ _ E2). intros i Hi. rewrite Ropp_involutive. change 0 with ((fun '(_, _, _, (a, _)) => a) z) at 1. rewrite map_nth. fold (row i). destruct (row i) as [[[? ?] [? ?]] [? ?]]. reflexivity.
  - apply (Bx _ _ _ E3). intros i Hi. rewrite Ropp_involutive. change 0 with ((fun '(_, _, (_, b), _) => b) z) at 1. rewrite map_nth. fold (row i). destruct (row i) as [[[? ?] [? ?]] [? ?]]. reflexivity.
  - apply (Bx _ _ _ E4). intros i Hi. rewrite Ropp_involutive. change 0 with ((fun '(_, _, _, (_, b)) => b) z) at 1. rewrite map_nth. fold (row i). destruct (row i) as [[[? ?] [? ?]] [? ?]]. reflexivity.
Qed.

(** It returns for every cylindrical bearing whose rotor stays inside the clearance during the motion. *)
Lemma cyl_geometry f : ff_shape f = "cylindrical" -> exists g, geometry_description f = Ok g.
Proof. intros Hs. unfold geometry_description, external_radius. rewrite Hs. cbn [String.eqb Ascii.eqb Bool.eqb]. eexists. reflexivity. Qed.
Lemma pert_ok fl f d : linalg_ok (fl_la fl) -> ff_shape f = "cylindrical" -> (2 <= ff_nz f)%nat -> (4 <= ff_nt f)%nat -> 0 < ff_mu f -> ff_length f <> 0 -> 0 <= ff_ecc f < ff_rs f - ff_rr f -> ff_ecc f < ff_rr f -> exists a, pert_force fl f d = Ok a.
Proof.
  intros Hla Hs Hz Ht Hmu HL He Hr. unfold pert_force. destruct (cyl_geometry f Hs) as [g Hg]. rewrite Hg. cbn [bind]. destruct (geometry_keeps f g Hg) as (G1 & G2 & G3 & G4 & G5 & G6 & G7 & G8 & _).
  destruct (C46_pressure fl g (Some d) Hla) as (c1 & c2 & c0 & h & p & _ & Ep & _); [rewrite G1; exact Hz|rewrite G2; exact Ht|rewrite G5; exact Hmu|rewrite G3; exact HL| |].
  - intros i j _ _. apply (C46_cylindrical f g Hs Hg); rewrite ?G6, ?G7, ?G8; assumption.
  - rewrite Ep. cbn [bind]. destruct (film_numerical fl h) as [[[? ?] ?] ?]. eexists. reflexivity.
Qed.
Lemma shift_ecc x y d c : 0 < c -> sqrt (x ^ 2 + y ^ 2) < c - d -> 0 <= d -> forall s, Rabs s <= d -> sqrt ((x + s) ^ 2 + y ^ 2) < c.
Proof.
  intros Hc H Hd s Hs. pose proof (sqrt_pos (x ^ 2 + y ^ 2)) as P. pose proof (pow2_ge_0 x). pose proof (pow2_ge_0 y). assert (Q : sqrt (x ^ 2 + y ^ 2) * sqrt (x ^ 2 + y ^ 2) = x ^ 2 + y ^ 2) by (apply sqrt_sqrt; lra). set (e := sqrt (x ^ 2 + y ^ 2)) in *.
  rewrite <- (sqrt_pow2 c) by lra. apply sqrt_lt_1_alt. split; [pose proof (pow2_ge_0 (x + s)); lra|].
  assert (X : x <= e /\ - e <= x). { assert (x ^ 2 <= e ^ 2) by (replace (e ^ 2) with (e * e) by ring; lra). split; nra. }
  assert (S : x * s <= e * d). { assert (Rabs x <= e) by (unfold Rabs; destruct (Rcase_abs x); lra). pose proof (Rabs_pos x). pose proof (Rabs_pos s). pose proof (Rle_abs (x * s)) as A. rewrite Rabs_mult in A. assert (Rabs x * Rabs s <= e * d) by (apply Rmult_le_compat; assumption). lra. }
  assert (S2 : s ^ 2 <= d ^ 2). { rewrite <- (pow2_abs s). apply pow_incr. split; [apply Rabs_pos|exact Hs]. }
  replace ((x + s) ^ 2 + y ^ 2) with (e * e + 2 * (x * s) + s ^ 2) by (rewrite Q; ring). assert ((e + d) ^ 2 < c ^ 2) by (apply pow_lt_sq; lra) || nra. nra.
Qed.
Theorem C69_succeeds fl f : linalg_ok (fl_la fl) -> ff_shape f = "cylindrical" -> (2 <= ff_nz f)%nat -> (4 <= ff_nt f)%nat -> 0 < ff_mu f -> ff_length f <> 0 -> ff_omegap f <> 0 -> 0 < ff_clear f <= ff_rr f ->
  sqrt (ff_xi f ^ 2 + ff_yi f ^ 2) < ff_clear f - ff_clear f * / 10000 -> exists K D, stiffness_damping fl f = Ok (K, D).
Proof.
  intros Hla Hs Hz Ht Hmu HL Ho Hc He. unfold stiffness_damping. cbv zeta. set (xp := ff_clear f * / 10000) in *. set (fp := set_pert f (ff_t f) xp xp).
  assert (Xp : 0 < xp) by (unfold xp; apply Rmult_lt_0_compat; lra).
  assert (Sb : forall u, Rabs (xp * sin u) <= xp). { intros u. rewrite Rabs_mult, (Rabs_pos_eq xp) by lra. rewrite <- (Rmult_1_r xp) at 2. apply Rmult_le_compat_l; [lra|]. apply Rabs_le. destruct (SIN_bound u). lra. }
  destruct (all_instants_ok fl fp (instants (ff_omegap fp)) fp (upto_refl fp)) as [ms Em].
  { intros t _. assert (Bd : forall x y, sqrt (x ^ 2 + y ^ 2) < ff_clear f -> forall d, exists a, pert_force fl (move_abs (set_pert fp t xp xp) x y) d = Ok a).
    { intros x y Hxy d. apply pert_ok; try assumption; change (ff_ecc (move_abs (set_pert fp t xp xp) x y)) with (sqrt (x ^ 2 + y ^ 2)); [|change (ff_rr (move_abs (set_pert fp t xp xp) x y)) with (ff_rr f); lra].
      change (ff_rs (move_abs (set_pert fp t xp xp) x y)) with (ff_rs f). change (ff_rr (move_abs (set_pert fp t xp xp) x y)) with (ff_rr f). fold (ff_clear f). split; [apply sqrt_pos|exact Hxy]. }
    split.
    - apply (Bd (ff_xi f + xp * sin (ff_omegap f * t)) (ff_yi f)). apply (shift_ecc _ _ xp); [lra|exact He|lra|apply Sb].
    - apply (Bd (ff_xi f) (ff_yi f + xp * sin (ff_omegap f * t))). rewrite Rplus_comm. apply (shift_ecc _ _ xp); [lra|rewrite Rplus_comm; exact He|lra|apply Sb]. }
  rewrite Em. cbn [bind]. destruct (all_instants_eq fl fp _ fp ms (upto_refl fp) Em) as [Lm Hm]. change (ff_omegap fp) with (ff_omegap f) in *. assert (L6 : length (instants (ff_omegap f)) = 6%nat) by (unfold instants; rewrite map_length, seq_length; reflexivity). rewrite L6 in Lm, Hm.
  set (rows := map _ ms). assert (Lr : length rows = 6%nat) by (unfold rows; rewrite map_length; exact Lm).
  assert (NS : nonsingular 3 (mulm (length rows) (mtrans (lsq_X rows)) (lsq_X rows))).
  { rewrite Lr. intros q Hq. assert (Z : forall k, (k < 6)%nat -> sumn 3 (fun j => lsq_X rows k j * q j) = 0).
    { assert (Sq : sumn 6 (fun k => sumn 3 (fun j => lsq_X rows k j * q j) ^ 2) = 0).
      { transitivity (sumn 3 (fun i => q i * mulv 3 (mulm 6 (mtrans (lsq_X rows)) (lsq_X rows)) q i)); [|apply sumn_0; intros i Hi; rewrite (Hq i Hi); ring].
        unfold mulv, mulm, mtrans. generalize (lsq_X rows) as X. intros X. cbn [sumn]. ring. }
      assert (M : forall m g, (forall j, (j < m)%nat -> 0 <= g j) -> sumn m g = 0 -> forall j, (j < m)%nat -> g j = 0).
      { induction m as [|m IH]; intros g Hg Hs' j Hj; [lia|]. cbn [sumn] in Hs'. assert (0 <= sumn m g) by (apply sumn_nonneg; intros; apply Hg; lia). assert (0 <= g m) by (apply Hg; lia). destruct (Nat.eq_dec j m) as [->|]; [lra|]. apply IH; [intros; apply Hg; lia|lra|lia]. }
      intros k Hk. pose proof (M 6%nat _ (fun j _ => pow2_ge_0 _) Sq k Hk) as X. apply Rsqr_0_uniq. unfold Rsqr. cbv beta in X. rewrite <- X. ring. }
    assert (F : q 0%nat = 0 /\ q 1%nat = 0 /\ q 2%nat = 0).
    { apply (instants_free xp (ff_omegap f)); [lra|exact Ho|]. intros i Hi. cbv zeta. specialize (Z i Hi). destruct (Hm i Hi) as (a & b & c & e & _ & _ & F3). cbn [sumn] in Z.
      assert (Er : nth i rows (0, 0) = (xp * sin (ff_omegap f * nth i (instants (ff_omegap f)) 0), ff_omegap f * xp * cos (ff_omegap f * nth i (instants (ff_omegap f)) 0))).
      { unfold rows. change (0, 0) with ((fun '(d, v, _, _) => (d, v)) ((0, 0, (0, 0), (0, 0)) : R * R * (R * R) * (R * R))). rewrite map_nth, F3. reflexivity. }
      unfold lsq_X in Z. rewrite Er in Z. cbn [nth] in Z. lra. }
    intros i Hi. destruct F as (F0 & F1 & F2). destruct i as [|[|[|i]]]; [exact F0|exact F1|exact F2|lia]. }
  destruct (lsq_ok (fl_la fl) rows (map (fun '(_, _, (a, _), _) => a) ms) Hla NS) as [P1 E1]. rewrite E1. destruct (lsq_ok (fl_la fl) rows (map (fun '(_, _, _, (a, _)) => a) ms) Hla NS) as [P2 E2]. rewrite E2. destruct (lsq_ok (fl_la fl) rows (map (fun '(_, _, (_, b), _) => b) ms) Hla NS) as [P3 E3]. rewrite E3. destruct (lsq_ok (fl_la fl) rows (map (fun '(_, _, _, (_, b)) => b) ms) Hla NS) as [P4 E4]. rewrite E4. cbn [bind]. eexists. eexists. reflexivity.
Qed.
Example C69_instance : ff_shape ex_f = "cylindrical" /\ (2 <= ff_nz ex_f)%nat /\ (4 <= ff_nt ex_f)%nat /\ 0 < ff_mu ex_f /\ ff_length ex_f <> 0 /\ ff_omegap ex_f <> 0 /\ 0 < ff_clear ex_f <= ff_rr ex_f /\ sqrt (ff_xi ex_f ^ 2 + ff_yi ex_f ^ 2) < ff_clear ex_f - ff_clear ex_f * / 10000.
Proof.
  unfold ff_clear. cbn [ex_f ex_ff ff_base ff_shape ff_nz ff_nt ff_mu ff_length ff_omegap ff_rr ff_rs ff_xi ff_yi fa_shape fa_nz fa_nt fa_mu fa_length fa_omegap fa_omega fa_rr fa_rs default]. repeat split; try lra; try lia.
  replace ((1 / 200 * cos (3 * PI / 2 + PI / 4)) ^ 2 + (1 / 200 * sin (3 * PI / 2 + PI / 4)) ^ 2) with ((1 / 200) ^ 2). { rewrite sqrt_pow2 by lra. lra. }
  pose proof (sin2_cos2 (3 * PI / 2 + PI / 4)) as P. unfold Rsqr in P. transitivity ((1 / 200) ^ 2 * (sin (3 * PI / 2 + PI / 4) * sin (3 * PI / 2 + PI / 4) + cos (3 * PI / 2 + PI / 4) * cos (3 * PI / 2 + PI / 4))); [rewrite P; ring|ring].
Qed.

Print Assumptions C69_force. Print Assumptions C69_best_fit. Print Assumptions C69_succeeds.
