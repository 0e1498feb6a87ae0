(** C83: the coefficients of a thermo-hydrodynamic bearing element; C85: its perturbation method; C86: the temperature of the oil between its pads *)
From Coq Require Import Reals String List Arith Bool ZArith Lia Lra Psatz.
From Verif Require Import PyBase MatBase LMat CMat MDynamics MBearing MUnits MThd SpecFluid SpecThd LThd.
Import ListNotations.
Open Scope R_scope.

(** ** C83 *)
(** One speed, and the method returned kxx, kxy, kyx, kyy, cxx, cxy, cyx, cyy: the element is built, and these are its matrices at every frequency. *)
Theorem C83_element : forall lib t guess oil w eq last kxx kxy kyx kyy cxx cxy cyx cyy, th_nc t <> 0%nat -> th_na t <> 0%nat ->
  thd_run lib t w guess = Ok (eq, last) -> thd_coefficients lib t w eq = Ok ([Some kxx; Some kxy; Some kyx; Some kyy], [Some cxx; Some cxy; Some cyx; Some cyy]) ->
  exists b, thd_init lib t guess (Some oil) (SpList [w]) = Ok (Some ([[kxx; kxy; kyx; kyy; cxx; cxy; cyx; cyy]], b)) /\ b_n b = th_node t /\ b_n_link b = None /\
    forall spl f, bearing_K spl b f = Ok (lmat [[kxx; kyx]; [cyy; kxy]]) /\ bearing_C spl b f = Ok (lmat [[cxx; cyx]; [w; cxy]]) /\ bearing_M spl b f = Ok (lmat [[kyy; 0]; [0; kyy]]).
Proof.
  intros lib t guess oil w eq last kxx kxy kyx kyy cxx cxy cyx cyy Hc Ha Hr Hk. unfold thd_init. apply Nat.eqb_neq in Hc, Ha. rewrite Hc, Ha. cbn [orb thd_speeds]. rewrite Hr. cbn [bind]. rewrite Hk. cbn [bind fold_right finite fst snd app].
  eexists. split; [reflexivity|]. repeat split.
Qed.
(** Several speeds, or none: the element is never built. *)
Theorem C83_several_speeds_refuted : forall lib t guess oil ws l, (2 <= length ws)%nat -> th_nc t <> 0%nat -> th_na t <> 0%nat -> thd_speeds lib t guess ws = Ok l ->
  thd_init lib t guess (Some oil) (SpList ws) = Ok None \/ thd_init lib t guess (Some oil) (SpList ws) = Err ValueError.
Proof.
  intros lib t guess oil ws l Hl Hc Ha H. unfold thd_init. apply Nat.eqb_neq in Hc, Ha. rewrite Hc, Ha. cbn [orb]. rewrite H. cbn [bind].
  assert (L : length l = length ws). { revert guess l H. clear. induction ws as [|w ws IH]; intros guess l H; simpl in H; [inversion H; reflexivity|].
    destruct (thd_run lib t w guess) as [[e la]|]; simpl in H; [|discriminate]. destruct (thd_coefficients lib t w e); simpl in H; [|discriminate]. destruct (thd_speeds lib t la ws) eqn:E; simpl in H; [|discriminate].
    inversion H. simpl. f_equal. eauto. }
  assert (Lr : forall rows, fold_right (fun kc acc => match finite (fst kc ++ snd kc), acc with Some r, Some rs => Some (r :: rs) | _, _ => None end) (Some []) l = Some rows -> length rows = length l).
  { clear. induction l as [|kc l IH]; intros rows E; simpl in E; [inversion E; reflexivity|]. destruct (finite _); [|discriminate]. destruct (fold_right _ _ l); [|discriminate]. inversion E. simpl. f_equal. auto. }
  destruct (fold_right _ _ l) as [rows|] eqn:E; [|left; reflexivity]. right. specialize (Lr rows eq_refl).
  destruct rows as [|r1 [|r2 rows]]; simpl in Lr; [lia|lia|]. reflexivity.
Qed.
Theorem C83_no_speeds_refuted : forall lib t guess oil, th_nc t <> 0%nat -> th_na t <> 0%nat -> thd_init lib t guess (Some oil) (SpList []) = Err IndexError.
Proof. intros lib t guess oil Hc Ha. unfold thd_init. apply Nat.eqb_neq in Hc, Ha. rewrite Hc, Ha. reflexivity. Qed.
(** The documented forms of the arguments that always fail: no oil_flow (its default), a speed that is a number. *)
Theorem C83_default_oil_flow_refuted : forall lib t guess speed, th_nc t <> 0%nat -> th_na t <> 0%nat -> thd_init lib t guess None speed = Err TypeError.
Proof. intros lib t guess speed Hc Ha. unfold thd_init. apply Nat.eqb_neq in Hc, Ha. rewrite Hc, Ha. reflexivity. Qed.
Theorem C83_number_as_speed_refuted : forall lib t guess oil w, th_nc t <> 0%nat -> th_na t <> 0%nat -> thd_init lib t guess (Some oil) (SpNumber w) = Err IndexError.
Proof. intros lib t guess oil w Hc Ha. unfold thd_init. apply Nat.eqb_neq in Hc, Ha. rewrite Hc, Ha. reflexivity. Qed.
(** The matrices of the element are those of the coefficients only in a degenerate case. *)
Theorem C83_matches_iff : forall lib t guess oil w eq last kxx kxy kyx kyy cxx cxy cyx cyy b spl f, th_nc t <> 0%nat -> th_na t <> 0%nat ->
  thd_run lib t w guess = Ok (eq, last) -> thd_coefficients lib t w eq = Ok ([Some kxx; Some kxy; Some kyx; Some kyy], [Some cxx; Some cxy; Some cyx; Some cyy]) ->
  thd_init lib t guess (Some oil) (SpList [w]) = Ok (Some ([[kxx; kxy; kyx; kyy; cxx; cxy; cyx; cyy]], b)) ->
  ((exists K C M, bearing_K spl b f = Ok K /\ bearing_C spl b f = Ok C /\ bearing_M spl b f = Ok M /\
     (forall i j, (i < 2)%nat -> (j < 2)%nat -> K i j = lmat [[kxx; kxy]; [kyx; kyy]] i j /\ C i j = lmat [[cxx; cxy]; [cyx; cyy]] i j /\ M i j = 0)) <->
   kxy = 0 /\ kyx = 0 /\ kyy = 0 /\ cxy = 0 /\ cyx = 0 /\ cyy = 0 /\ w = 0).
Proof.
  intros lib t guess oil w eq last kxx kxy kyx kyy cxx cxy cyx cyy b spl f Hc Ha Hr Hk Hi.
  destruct (C83_element lib t guess oil w eq last kxx kxy kyx kyy cxx cxy cyx cyy Hc Ha Hr Hk) as (b' & E & _ & _ & Q). rewrite Hi in E. injection E as E. subst b'. destruct (Q spl f) as (K & C & M). split.
  - intros (K' & C' & M' & EK & EC & EM & A). rewrite K in EK. rewrite C in EC. rewrite M in EM. injection EK as <-. injection EC as <-. injection EM as <-.
    pose proof (A 0%nat 0%nat) as A00. pose proof (A 0%nat 1%nat) as A01. pose proof (A 1%nat 0%nat) as A10. pose proof (A 1%nat 1%nat) as A11. unfold lmat in *. cbn [nth] in *.
    destruct A00 as (_ & _ & ?); [lia|lia|]. destruct A01 as (? & ? & _); [lia|lia|]. destruct A10 as (? & ? & _); [lia|lia|]. destruct A11 as (? & ? & _); [lia|lia|]. repeat split; lra.
  - intros (-> & -> & -> & -> & -> & -> & ->). do 3 eexists. do 3 (split; [eassumption|]). intros [|[|i]] [|[|j]] Hi2 Hj2; try lia; repeat split; reflexivity.
Qed.
(** A quantity with a unit is not read as its documented number: degrees of arc become radians, degrees Celsius become kelvins, and the class goes on to use them as degrees and degrees Celsius. *)
Definition degree : punit := mkUnit [] (PI / 180) 0.
Definition celsius (d : list Z) : punit := mkUnit d 1 (27315 / 100).
Theorem C83_units_refuted : forall reg d m, reg "rad"%string = mkUnit [] 1 0 -> reg "degK"%string = mkUnit d 1 0 ->
  convert reg "pad_arc_length" (VQty m degree) = Ok (VNum (m * PI / 180)) /\ convert reg "reference_temperature" (VQty m (celsius d)) = Ok (VNum (m + 27315 / 100)).
Proof.
  intros reg d m H1 H2. split.
  - assert (C : convert reg "pad_arc_length" (VQty m degree) = bind (qty_to m degree (reg "rad"%string)) (fun x => Ok (VNum x))) by reflexivity. rewrite C, H1. unfold qty_to. cbn. do 2 f_equal. field.
  - assert (C : convert reg "reference_temperature" (VQty m (celsius d)) = bind (qty_to m (celsius d) (reg "degK"%string)) (fun x => Ok (VNum x))) by reflexivity. rewrite C, H2. unfold qty_to. cbn [celsius u_dim u_scale u_off].
    destruct (list_eq_dec Z.eq_dec d d); [|congruence]. cbn [bind]. do 2 f_equal. field.
Qed.

(** an instance: a bearing whose coefficients come from Lund's method *)
Definition ex_lib : thdlib := mkThdlib (mkLinalg (fun _ _ _ => Err LinAlgError) (fun _ _ => Err LinAlgError) (fun _ _ => (fun _ => Complex.RtoC 0, fun _ _ => Complex.RtoC 0)))
  (fun _ x => Ok (x, x)) (fun _ _ _ _ _ => 1) (fun _ _ _ => Err ValueError) (fun _ _ _ => Ok ([10; 3; -3; 12], [5; 1; 1; 6])).
Definition ex_thd : thd := mkThd (1 / 4) (1 / 5) (2 / 10000) 11 3 2 176 0 Circular 50 0 (-1000) (GList [52 / 100; 48 / 100]) 3 Sommerfeld2 ByLund Flooded (2 / 100).
Example C83_instance : exists b, thd_init ex_lib ex_thd (1 / 10, - 1 / 10) (Some 37) (SpList [94]) = Ok (Some ([[10; 3; -3; 12; 5; 1; 1; 6]], b)) /\
  forall spl f, bearing_K spl b f = Ok (lmat [[10; -3]; [6; 3]]) /\ bearing_C spl b f = Ok (lmat [[5; 1]; [94; 1]]) /\ bearing_M spl b f = Ok (lmat [[12; 0]; [0; 12]]).
Proof.
  destruct (C83_element ex_lib ex_thd (1 / 10, - 1 / 10) 37 94 (1 / 10, - 1 / 10) (1 / 10, - 1 / 10) 10 3 (-3) 12 5 1 1 6) as (b & E & _ & _ & Q); try (cbn; lia); try reflexivity. exists b. split; assumption.
Qed.

(** ** C85: the perturbation method *)
(** what every returned stiffness and damping is multiplied with: load / ((L / D)^2 |(a, b)|) *)
Definition scale2 (t : thd) (a b : R) : R := thd_load t / ((th_len t / (2 * th_rj t)) ^ 2 * sqrt (a ^ 2 + b ^ 2)).
Definition xeq (t : thd) (eq : R * R) : R := fst eq * th_cr t * cos (snd eq).
Definition yeq (t : thd) (eq : R * R) : R := fst eq * th_cr t * sin (snd eq).
Definition ex_of (t : thd) (eq : R * R) : R := Rabs (1 / 1000 * th_cr t * cos (snd eq)).
Definition ey_of (t : thd) (eq : R * R) : R := Rabs (1 / 1000 * th_cr t * sin (snd eq)).
Definition vx_of (t : thd) (w : R) (eq : R * R) : R := 1 / 1000000 * Rabs (w * th_rj t * sin (snd eq)).
Definition vy_of (t : thd) (w : R) (eq : R * R) : R := 1 / 1000000 * Rabs (w * th_rj t * cos (snd eq)).
Lemma fdiv_ok a b : b <> 0 -> fdiv a b = Some (a / b).
Proof. intros H. unfold fdiv. destruct (Req_EM_T b 0); [contradiction|reflexivity]. Qed.
Lemma fdiv_0 a b : b = 0 -> fdiv a b = None.
Proof. intros H. unfold fdiv. destruct (Req_EM_T b 0); [reflexivity|contradiction]. Qed.
Lemma sq_gt a : a <> 0 -> 0 < a ^ 2.
Proof. intros H. rewrite <- Rsqr_pow2. apply Rsqr_pos_lt. exact H. Qed.
Lemma norm_pos a b : (a, b) <> (0, 0) -> 0 < sqrt (a ^ 2 + b ^ 2).
Proof. intros H. apply sqrt_lt_R0. destruct (Req_dec a 0) as [->|Na]; [|pose proof (sq_gt a Na); pose proof (pow2_ge_0 b); lra]. destruct (Req_dec b 0) as [->|Nb]; [congruence|]. pose proof (sq_gt b Nb). nra. Qed.
Section Pert.
Variables (t : thd) (w : R) (eq : R * R).
Hypothesis Hcr : 0 < th_cr t.
Hypothesis Hrj : 0 < th_rj t.
Hypothesis Hlen : 0 < th_len t.
Hypothesis Hw : w <> 0.
Hypothesis Hcos : cos (snd eq) <> 0.
Hypothesis Hsin : sin (snd eq) <> 0.
Lemma steps_pos : 0 < ex_of t eq /\ 0 < ey_of t eq /\ 0 < vx_of t w eq /\ 0 < vy_of t w eq.
Proof.
  unfold ex_of, ey_of, vx_of, vy_of. assert (P : forall u, u <> 0 -> 0 < Rabs (1 / 1000 * th_cr t * u)). { intros u H. apply Rabs_pos_lt. repeat apply Rmult_integral_contrapositive_currified; try lra. }
  assert (Q : forall u, u <> 0 -> 0 < 1 / 1000000 * Rabs (w * th_rj t * u)). { intros u H. apply Rmult_lt_0_compat; [lra|]. apply Rabs_pos_lt. repeat apply Rmult_integral_contrapositive_currified; try assumption; lra. }
  auto.
Qed.
Lemma sommerfeld2_val a b : th_somm t = Sommerfeld2 -> (a, b) <> (0, 0) -> thd_S t w a b = Some (1 / (2 * (th_len t / (2 * th_rj t)) ^ 2 * sqrt (a ^ 2 + b ^ 2))).
Proof.
  intros S N. unfold thd_S. rewrite S. apply fdiv_ok. pose proof (norm_pos a b N). assert (0 < th_len t / (2 * th_rj t)) by (apply Rdiv_lt_0_compat; lra). assert (0 < (th_len t / (2 * th_rj t)) ^ 2) by (apply pow_lt; assumption). nra.
Qed.
Lemma kk_val a b d e : th_somm t = Sommerfeld2 -> (a, b) <> (0, 0) -> 0 < e ->
  oscale (thd_load t / th_cr t) (omul (oscale (-1) (thd_S t w a b)) (fdiv d (e / th_cr t))) = Some (scale2 t a b * - (d / (2 * e))).
Proof.
  intros S N He. rewrite sommerfeld2_val by assumption. rewrite fdiv_ok by (apply Rgt_not_eq, Rdiv_lt_0_compat; assumption). cbn [oscale omul]. f_equal. unfold scale2. pose proof (norm_pos a b N). field. repeat split; lra.
Qed.
Lemma cc_val a b d e : th_somm t = Sommerfeld2 -> (a, b) <> (0, 0) -> 0 < e ->
  oscale (thd_load t / (th_cr t * w)) (omul (oscale (-1) (thd_S t w a b)) (fdiv d (e / th_cr t / w))) = Some (scale2 t a b * - (d / (2 * e))).
Proof.
  intros S N He. rewrite sommerfeld2_val by assumption. rewrite fdiv_ok. 2:{ unfold Rdiv. repeat apply Rmult_integral_contrapositive_currified; try (apply Rinv_neq_0_compat); lra. }
  cbn [oscale omul]. f_equal. unfold scale2. pose proof (norm_pos a b N). field. repeat split; lra.
Qed.
End Pert.
(** Whatever the force of the film: every returned coefficient is the central difference quotient of the force, times load / ((L / D)^2 |(a, b)|), where a and b are the components
    listed here. They belong to different positions, and for kyx and kyy both are components along y. *)
Theorem C85_differences : forall (F : R -> R -> R -> R -> R * R) t w eq, 0 < th_cr t -> 0 < th_rj t -> 0 < th_len t -> w <> 0 -> cos (snd eq) <> 0 -> sin (snd eq) <> 0 -> th_somm t = Sommerfeld2 ->
  let x := xeq t eq in let y := yeq t eq in let ex := ex_of t eq in let ey := ey_of t eq in let vx := vx_of t w eq in let vy := vy_of t w eq in
  let g1 := F (x + ex) y 0 0 in let g2 := F (x - ex) y 0 0 in let g3 := F x (y + ey) 0 0 in let g4 := F x (y - ey) 0 0 in
  let g5 := F x y vx 0 in let g6 := F x y (- vx) 0 in let g7 := F x y 0 vy in let g8 := F x y 0 (- vy) in
  (fst g1, snd g2) <> (0, 0) -> (fst g3, snd g4) <> (0, 0) -> (snd g1, snd g2) <> (0, 0) -> (snd g3, snd g4) <> (0, 0) -> (fst g5, snd g6) <> (0, 0) -> (fst g7, snd g8) <> (0, 0) ->
  thd_perturbation (fun x y vx vy => Ok (F x y vx vy)) t w eq = Ok
    ([Some (scale2 t (fst g1) (snd g2) * - slope (fun u => fst (F u y 0 0)) x ex); Some (scale2 t (fst g3) (snd g4) * - slope (fun u => fst (F x u 0 0)) y ey);
      Some (scale2 t (snd g1) (snd g2) * - slope (fun u => snd (F u y 0 0)) x ex); Some (scale2 t (snd g3) (snd g4) * - slope (fun u => snd (F x u 0 0)) y ey)],
     [Some (scale2 t (fst g5) (snd g6) * - slope (fun u => fst (F x y u 0)) 0 vx); Some (scale2 t (fst g7) (snd g8) * - slope (fun u => fst (F x y 0 u)) 0 vy);
      Some (scale2 t (fst g5) (snd g6) * - slope (fun u => snd (F x y u 0)) 0 vx); Some (scale2 t (fst g7) (snd g8) * - slope (fun u => snd (F x y 0 u)) 0 vy)]).
Proof.
  intros F t w eq Hcr Hrj Hlen Hw Hc Hs HS x y ex ey vx vy g1 g2 g3 g4 g5 g6 g7 g8 N1 N2 N3 N4 N5 N6. destruct (steps_pos t w eq Hcr Hrj Hw Hc Hs) as (Px & Py & Pvx & Pvy).
  unfold slope. rewrite !Rplus_0_l, !Rminus_0_l. fold g1 g2 g3 g4 g5 g6 g7 g8. unfold thd_perturbation, thd_steps. cbn [bind]. fold (xeq t eq) (yeq t eq) (ex_of t eq) (ey_of t eq) (vx_of t w eq) (vy_of t w eq).
  fold x y ex ey vx vy. fold g1 g2 g3 g4 g5 g6 g7 g8.
  rewrite !(kk_val t w) by assumption. rewrite !(cc_val t w) by assumption. reflexivity.
Qed.
(** A film force that is affine with given stiffness and damping: what is returned instead of them. *)
Lemma slope_affine (f : R -> R) a b x d : 0 < d -> (forall u, f u = a - b * (u - x)) -> - slope f x d = b.
Proof. intros H E. unfold slope. rewrite !E. field. lra. Qed.
Lemma slope_affine0 (f : R -> R) a b d : 0 < d -> (forall u, f u = a - b * u) -> - slope f 0 d = b.
Proof. intros H E. unfold slope. rewrite !E. field. lra. Qed.
Theorem C85_affine : forall F t w eq fx fy kxx kxy kyx kyy cxx cxy cyx cyy, 0 < th_cr t -> 0 < th_rj t -> 0 < th_len t -> w <> 0 -> cos (snd eq) <> 0 -> sin (snd eq) <> 0 -> th_somm t = Sommerfeld2 ->
  affine_force F (xeq t eq) (yeq t eq) fx fy kxx kxy kyx kyy cxx cxy cyx cyy ->
  let ex := ex_of t eq in let ey := ey_of t eq in let vx := vx_of t w eq in let vy := vy_of t w eq in
  (fx - kxx * ex, fy + kyx * ex) <> (0, 0) -> (fx - kxy * ey, fy + kyy * ey) <> (0, 0) -> (fy - kyx * ex, fy + kyx * ex) <> (0, 0) -> (fy - kyy * ey, fy + kyy * ey) <> (0, 0) ->
  (fx - cxx * vx, fy + cyx * vx) <> (0, 0) -> (fx - cxy * vy, fy + cyy * vy) <> (0, 0) ->
  thd_perturbation (fun x y vx vy => Ok (F x y vx vy)) t w eq = Ok
    ([Some (scale2 t (fx - kxx * ex) (fy + kyx * ex) * kxx); Some (scale2 t (fx - kxy * ey) (fy + kyy * ey) * kxy);
      Some (scale2 t (fy - kyx * ex) (fy + kyx * ex) * kyx); Some (scale2 t (fy - kyy * ey) (fy + kyy * ey) * kyy)],
     [Some (scale2 t (fx - cxx * vx) (fy + cyx * vx) * cxx); Some (scale2 t (fx - cxy * vy) (fy + cyy * vy) * cxy);
      Some (scale2 t (fx - cxx * vx) (fy + cyx * vx) * cyx); Some (scale2 t (fx - cxy * vy) (fy + cyy * vy) * cyy)]).
Proof.
  intros F t w eq fx fy kxx kxy kyx kyy cxx cxy cyx cyy Hcr Hrj Hlen Hw Hc Hs HS HF ex ey vx vy N1 N2 N3 N4 N5 N6. destruct (steps_pos t w eq Hcr Hrj Hw Hc Hs) as (Px & Py & Pvx & Pvy).
  fold ex in Px. fold ey in Py. fold vx in Pvx. fold vy in Pvy.
  assert (G1 : F (xeq t eq + ex) (yeq t eq) 0 0 = (fx - kxx * ex, fy - kyx * ex)) by (rewrite HF; f_equal; ring).
  assert (G2 : F (xeq t eq - ex) (yeq t eq) 0 0 = (fx + kxx * ex, fy + kyx * ex)) by (rewrite HF; f_equal; ring).
  assert (G3 : F (xeq t eq) (yeq t eq + ey) 0 0 = (fx - kxy * ey, fy - kyy * ey)) by (rewrite HF; f_equal; ring).
  assert (G4 : F (xeq t eq) (yeq t eq - ey) 0 0 = (fx + kxy * ey, fy + kyy * ey)) by (rewrite HF; f_equal; ring).
  assert (G5 : F (xeq t eq) (yeq t eq) vx 0 = (fx - cxx * vx, fy - cyx * vx)) by (rewrite HF; f_equal; ring).
  assert (G6 : F (xeq t eq) (yeq t eq) (- vx) 0 = (fx + cxx * vx, fy + cyx * vx)) by (rewrite HF; f_equal; ring).
  assert (G7 : F (xeq t eq) (yeq t eq) 0 vy = (fx - cxy * vy, fy - cyy * vy)) by (rewrite HF; f_equal; ring).
  assert (G8 : F (xeq t eq) (yeq t eq) 0 (- vy) = (fx + cxy * vy, fy + cyy * vy)) by (rewrite HF; f_equal; ring).
  pose proof (C85_differences F t w eq Hcr Hrj Hlen Hw Hc Hs HS) as D. cbv zeta in D. fold ex ey vx vy in D. rewrite G1, G2, G3, G4, G5, G6, G7, G8 in D. cbn [fst snd] in D. rewrite D by assumption. clear D.
  rewrite (slope_affine (fun u => fst (F u (yeq t eq) 0 0)) fx kxx) by (auto; intros; rewrite HF; cbn [fst]; ring).
  rewrite (slope_affine (fun u => fst (F (xeq t eq) u 0 0)) fx kxy) by (auto; intros; rewrite HF; cbn [fst]; ring).
  rewrite (slope_affine (fun u => snd (F u (yeq t eq) 0 0)) fy kyx) by (auto; intros; rewrite HF; cbn [snd]; ring).
  rewrite (slope_affine (fun u => snd (F (xeq t eq) u 0 0)) fy kyy) by (auto; intros; rewrite HF; cbn [snd]; ring).
  rewrite (slope_affine0 (fun u => fst (F (xeq t eq) (yeq t eq) u 0)) fx cxx) by (auto; intros; rewrite HF; cbn [fst]; ring).
  rewrite (slope_affine0 (fun u => fst (F (xeq t eq) (yeq t eq) 0 u)) fx cxy) by (auto; intros; rewrite HF; cbn [fst]; ring).
  rewrite (slope_affine0 (fun u => snd (F (xeq t eq) (yeq t eq) u 0)) fy cyx) by (auto; intros; rewrite HF; cbn [snd]; ring).
  rewrite (slope_affine0 (fun u => snd (F (xeq t eq) (yeq t eq) 0 u)) fy cyy) by (auto; intros; rewrite HF; cbn [snd]; ring).
  reflexivity.
Qed.
(** With the load along y, balanced by the film: the stiffness kyy that is returned is at most kyy / (sqrt 2 (L / D)^2) in size, for every bearing. In particular it is never kyy for a bearing at least as long as its diameter. *)
Theorem C85_kyy_refuted : forall t kyy ey, 0 < th_rj t -> 0 < th_len t -> th_wx t = 0 -> th_wy t <> 0 ->
  let fy := - th_wy t in 2 * ((th_len t / (2 * th_rj t)) ^ 2 * (scale2 t (fy - kyy * ey) (fy + kyy * ey) * kyy)) ^ 2 <= kyy ^ 2.
Proof.
  intros t kyy ey Hr Hl Hx Hy fy. unfold scale2, thd_load. rewrite Hx. set (q := (th_len t / (2 * th_rj t)) ^ 2). assert (Hq : 0 < q) by (apply pow_lt, Rdiv_lt_0_compat; lra).
  set (n := sqrt ((fy - kyy * ey) ^ 2 + (fy + kyy * ey) ^ 2)). assert (Hn2 : n ^ 2 = 2 * th_wy t ^ 2 + 2 * (kyy * ey) ^ 2).
  { unfold n. rewrite <- Rsqr_pow2, Rsqr_sqrt by (pose proof (pow2_ge_0 (fy - kyy * ey)); pose proof (pow2_ge_0 (fy + kyy * ey)); lra). unfold fy. ring. }
  assert (Hn : 0 < n). { apply norm_pos. intros E. injection E as E1 E2. apply Hy. unfold fy in *. lra. }
  replace (q * (sqrt (0 ^ 2 + th_wy t ^ 2) / (q * n) * kyy)) with (sqrt (0 ^ 2 + th_wy t ^ 2) * kyy / n) by (field; lra).
  unfold Rdiv. rewrite !Rpow_mult_distr. rewrite <- (Rsqr_pow2 (sqrt _)), Rsqr_sqrt by nra. rewrite pow_inv. rewrite Hn2.
  assert (W : 0 < th_wy t ^ 2) by (apply sq_gt; exact Hy). assert (P : 0 <= (kyy * ey) ^ 2) by apply pow2_ge_0. pose proof (pow2_ge_0 kyy) as K.
  apply Rmult_le_reg_r with (2 * th_wy t ^ 2 + 2 * (kyy * ey) ^ 2); [lra|]. replace (2 * ((0 ^ 2 + th_wy t ^ 2) * kyy ^ 2 * / (2 * th_wy t ^ 2 + 2 * (kyy * ey) ^ 2)) * (2 * th_wy t ^ 2 + 2 * (kyy * ey) ^ 2)) with (2 * th_wy t ^ 2 * kyy ^ 2) by (field; lra). nra.
Qed.
(** With the load along x, balanced by the film: kyx and kyy are returned with their sign and a size that has nothing to do with them. *)
Theorem C85_load_along_x_refuted : forall t k e, 0 < th_rj t -> 0 < th_len t -> 0 < e -> k <> 0 -> th_wy t = 0 ->
  let fy := - th_wy t in scale2 t (fy - k * e) (fy + k * e) * k = (if Rlt_dec k 0 then -1 else 1) * (thd_load t / (sqrt 2 * (th_len t / (2 * th_rj t)) ^ 2 * e)).
Proof.
  intros t k e Hr Hl He Hk Hy fy. unfold fy. rewrite Hy. unfold scale2. set (q := (th_len t / (2 * th_rj t)) ^ 2). assert (Hq : 0 < q) by (apply pow_lt, Rdiv_lt_0_compat; lra).
  replace ((- 0 - k * e) ^ 2 + (- 0 + k * e) ^ 2) with (2 * (Rabs k * e) ^ 2). 2:{ unfold Rabs. destruct (Rcase_abs k); ring. }
  assert (0 < Rabs k) by (apply Rabs_pos_lt; exact Hk). assert (0 < Rabs k * e) by (apply Rmult_lt_0_compat; assumption). rewrite sqrt_mult by (try apply pow2_ge_0; lra). rewrite sqrt_pow2 by lra.
  assert (0 < sqrt 2) by (apply sqrt_lt_R0; lra). unfold Rabs in *. destruct (Rcase_abs k), (Rlt_dec k 0); try lra; field; lra.
Qed.
(** With the first Sommerfeld number every coefficient is the difference quotient times 2 mu R^3 L w / (pi cr^2), a force. *)
Theorem C85_first_number : forall (F : R -> R -> R -> R -> R * R) t w eq, 0 < th_cr t -> 0 < th_rj t -> 0 < th_len t -> w <> 0 -> cos (snd eq) <> 0 -> sin (snd eq) <> 0 -> th_somm t = Sommerfeld1 -> (th_wx t, th_wy t) <> (0, 0) ->
  let x := xeq t eq in let y := yeq t eq in let ex := ex_of t eq in let ey := ey_of t eq in let vx := vx_of t w eq in let vy := vy_of t w eq in
  let f := 2 * (th_mu t * th_rj t ^ 3 * th_len t * w) / (PI * th_cr t ^ 2) in
  thd_perturbation (fun x y vx vy => Ok (F x y vx vy)) t w eq = Ok
    ([Some (f * - slope (fun u => fst (F u y 0 0)) x ex); Some (f * - slope (fun u => fst (F x u 0 0)) y ey); Some (f * - slope (fun u => snd (F u y 0 0)) x ex); Some (f * - slope (fun u => snd (F x u 0 0)) y ey)],
     [Some (f * - slope (fun u => fst (F x y u 0)) 0 vx); Some (f * - slope (fun u => fst (F x y 0 u)) 0 vy); Some (f * - slope (fun u => snd (F x y u 0)) 0 vx); Some (f * - slope (fun u => snd (F x y 0 u)) 0 vy)]).
Proof.
  intros F t w eq Hcr Hrj Hlen Hw Hc Hs HS HL x y ex ey vx vy f. destruct (steps_pos t w eq Hcr Hrj Hw Hc Hs) as (Px & Py & Pvx & Pvy).
  assert (L : 0 < thd_load t) by (apply norm_pos; exact HL). pose proof PI_RGT_0 as Hpi.
  assert (V : forall a b, thd_S t w a b = Some (th_mu t * th_rj t ^ 3 * th_len t * w / (PI * th_cr t ^ 2 * thd_load t))).
  { intros a b. unfold thd_S. rewrite HS. apply fdiv_ok. assert (0 < th_cr t ^ 2) by (apply pow_lt; exact Hcr). assert (0 < PI * th_cr t ^ 2) by (apply Rmult_lt_0_compat; assumption). apply Rgt_not_eq, Rmult_lt_0_compat; assumption. }
  assert (K : forall a b d e, 0 < e -> oscale (thd_load t / th_cr t) (omul (oscale (-1) (thd_S t w a b)) (fdiv d (e / th_cr t))) = Some (f * - (d / (2 * e)))).
  { intros a b d e He. rewrite V, fdiv_ok by (apply Rgt_not_eq, Rdiv_lt_0_compat; assumption). cbn [oscale omul]. f_equal. unfold f. field. repeat split; lra. }
  assert (C : forall a b d e, 0 < e -> oscale (thd_load t / (th_cr t * w)) (omul (oscale (-1) (thd_S t w a b)) (fdiv d (e / th_cr t / w))) = Some (f * - (d / (2 * e)))).
  { intros a b d e He. rewrite V, fdiv_ok. 2:{ unfold Rdiv. repeat apply Rmult_integral_contrapositive_currified; try (apply Rinv_neq_0_compat); lra. } cbn [oscale omul]. f_equal. unfold f. field. repeat split; lra. }
  unfold slope. rewrite !Rplus_0_l, !Rminus_0_l. unfold thd_perturbation, thd_steps. cbn [bind]. fold (xeq t eq) (yeq t eq) (ex_of t eq) (ey_of t eq) (vx_of t w eq) (vy_of t w eq). fold x y ex ey vx vy.
  rewrite !K by assumption. rewrite !C by assumption. reflexivity.
Qed.
(** An equilibrium straight below, above or beside the centre: a step is zero, and coefficients are not numbers, whatever the film. *)
Theorem C85_straight_refuted : forall (F : R -> R -> R -> R -> R * R) t w eq k c, thd_perturbation (fun x y vx vy => Ok (F x y vx vy)) t w eq = Ok (k, c) ->
  (cos (snd eq) = 0 -> nth 0 k (Some 0) = None /\ nth 2 k (Some 0) = None /\ nth 1 c (Some 0) = None /\ nth 3 c (Some 0) = None) /\
  (sin (snd eq) = 0 -> nth 1 k (Some 0) = None /\ nth 3 k (Some 0) = None /\ nth 0 c (Some 0) = None /\ nth 2 c (Some 0) = None).
Proof.
  intros F t w eq k c H. unfold thd_perturbation, thd_steps in H. cbn [bind] in H. injection H as <- <-. cbn [nth].
  assert (Z : forall S d, omul S (fdiv d 0) = None) by (intros S d; rewrite fdiv_0 by reflexivity; destruct S; reflexivity).
  split; intros E; rewrite E, ?Rmult_0_r, ?Rabs_R0, ?Rmult_0_r; unfold Rdiv; rewrite ?Rmult_0_l; rewrite ?Z; repeat split.
Qed.
(** an instance of the hypotheses of C85_affine, with a square bearing and a balanced load along y *)
Definition ex_pert : thd := mkThd 2 1 1 11 3 2 176 0 Circular 50 0 (-10) (GList [52 / 100; 48 / 100]) 3 Sommerfeld2 ByPerturbation Flooded (2 / 100).
Definition ex_F (x y vx vy : R) : R * R := (0 - 3 * (x - xeq ex_pert (1 / 2, PI / 4)) - 1 * (y - yeq ex_pert (1 / 2, PI / 4)) - 2 * vx - 0 * vy, 10 - - 1 * (x - xeq ex_pert (1 / 2, PI / 4)) - 4 * (y - yeq ex_pert (1 / 2, PI / 4)) - 0 * vx - 2 * vy).
Example C85_instance : exists kxx kxy kyx kyy cs, thd_perturbation (fun x y vx vy => Ok (ex_F x y vx vy)) ex_pert 100 (1 / 2, PI / 4) = Ok ([Some kxx; Some kxy; Some kyx; Some kyy], cs) /\ 2 * kyy ^ 2 <= 4 ^ 2.
Proof.
  assert (C4 : 0 < cos (PI / 4)) by (rewrite cos_PI4; apply Rdiv_lt_0_compat; [lra|apply sqrt_lt_R0; lra]). assert (S4 : 0 < sin (PI / 4)) by (rewrite sin_PI4; apply Rdiv_lt_0_compat; [lra|apply sqrt_lt_R0; lra]).
  assert (B : cos (PI / 4) <= 1 /\ sin (PI / 4) <= 1) by (split; [apply COS_bound|apply SIN_bound]).
  assert (X : 0 < ex_of ex_pert (1 / 2, PI / 4) <= 1 / 1000). { unfold ex_of. cbn [th_cr ex_pert snd]. rewrite Rabs_right by lra. lra. }
  assert (Y : 0 < ey_of ex_pert (1 / 2, PI / 4) <= 1 / 1000). { unfold ey_of. cbn [th_cr ex_pert snd]. rewrite Rabs_right by lra. lra. }
  assert (V : 0 < vy_of ex_pert 100 (1 / 2, PI / 4) <= 1 / 1000). { unfold vy_of. cbn [th_rj ex_pert snd]. rewrite Rabs_right by lra. lra. }
  do 5 eexists. split; [apply (C85_affine ex_F ex_pert 100 (1 / 2, PI / 4) 0 10 3 1 (-1) 4 2 0 0 2); cbn [th_cr th_rj th_len ex_pert snd th_somm]; try lra; try reflexivity; try (intros E; injection E as E1 E2; lra); intros ? ? ? ?; unfold ex_F; f_equal; ring|].
  pose proof (C85_kyy_refuted ex_pert 4 (ey_of ex_pert (1 / 2, PI / 4))) as Q. cbn [th_rj th_len th_wx th_wy ex_pert] in Q. cbv zeta in Q. replace (- -10) with 10 in Q by ring. replace ((2 / (2 * 1)) ^ 2) with 1 in Q by field. rewrite Rmult_1_l in Q. apply Q; lra.
Qed.

(** ** C86: mixing *)
Lemma upstream_prev len n : prev_idx len n = upstream len n. Proof. destruct n; reflexivity. Qed.
Lemma sum_prev len (f : vec) : (0 < len)%nat -> sumn len (fun n => f (upstream len n)) = sumn len f.
Proof.
  intros H. destruct len as [|m]; [lia|]. clear H. transitivity (f m + sumn m f).
  - assert (G : forall k, (k <= m)%nat -> sumn (S k) (fun n => f (upstream (S m) n)) = f m + sumn k f).
    { induction k as [|k IH]; intros Hk. - simpl. replace (m - 0)%nat with m by lia. ring. - change (sumn (S k) (fun n => f (upstream (S m) n)) + f k = f m + (sumn k f + f k)). rewrite IH by lia. ring. }
    apply G. lia.
  - simpl. ring.
Qed.
(** Starved: the supplied oil is shared out completely. *)
Theorem C86_supply_shared : forall len qe qs, (0 < len)%nat -> sumn len qe + sumn len qs <> 0 -> sumn len (geometry_factor len qe qs) = 1.
Proof.
  intros len qe qs H N. unfold geometry_factor. rewrite (sumn_ext len _ (fun n => / (sumn len qe + sumn len qs) * (qe n + qs (upstream len n)))) by (intros; rewrite upstream_prev; unfold Rdiv; ring).
  rewrite sumn_scal, sumn_plus, (sum_prev len qs H). field. exact N.
Qed.
(** Starved: the heat that enters pad n is that of the oil carried over from the pad upstream and of its share of the supply; its temperature lies between theirs; the groove is never more than full. *)
Theorem C86_starved : forall len tref oil qe qs tend n, (n < len)%nat -> 0 < oil -> (forall k, (k < len)%nat -> 0 < qe k /\ 0 < qs k) ->
  let share := geometry_factor len qe qs n * oil in let carried := qs (upstream len n) in let T := mix_starved len tref oil qe qs tend n in
  0 < share /\ T * (share + carried) = tref * share + tend (upstream len n) * carried /\ between T tref (tend (upstream len n)) /\
  0 < groove_filling len oil qe qs n <= 1 /\ groove_filling len oil qe qs n = Rmin 1 (8 / 10 * (share + carried) / qe n).
Proof.
  intros len tref oil qe qs tend n Hn Ho Hq share carried T. assert (Hu : (upstream len n < len)%nat) by (unfold upstream; destruct n; lia).
  assert (Pe : 0 < sumn len qe + sumn len qs).
  { assert (G : forall f : vec, (forall k, (k < len)%nat -> 0 < f k) -> 0 < sumn len f). { intros f Hf. destruct len as [|m]; [lia|]. clear - Hf. induction m as [|m IH]; [simpl; pose proof (Hf 0%nat ltac:(lia)); lra|]. change (0 < sumn (S m) f + f (S m)). pose proof (Hf (S m) ltac:(lia)). assert (0 < sumn (S m) f) by (apply IH; intros; apply Hf; lia). lra. }
    pose proof (G qe (fun k Hk => proj1 (Hq k Hk))). pose proof (G qs (fun k Hk => proj2 (Hq k Hk))). lra. }
  assert (Pg : 0 < geometry_factor len qe qs n). { unfold geometry_factor. rewrite upstream_prev. destruct (Hq n Hn), (Hq _ Hu). apply Rdiv_lt_0_compat; lra. }
  assert (Ps : 0 < share) by (apply Rmult_lt_0_compat; assumption). destruct (Hq _ Hu) as (_ & Pc). fold carried in Pc. destruct (Hq n Hn) as (Pq & _).
  assert (E : T * (share + carried) = tref * share + tend (upstream len n) * carried). { unfold T, mix_starved. rewrite upstream_prev. fold carried. fold share. replace (tref * geometry_factor len qe qs n * oil) with (tref * share) by (unfold share; ring). field. lra. }
  split; [exact Ps|]. split; [exact E|]. split.
  - unfold between. set (u := tend (upstream len n)) in *. clearbody u T. split.
    + destruct (Rle_dec tref u); [rewrite Rmin_left by assumption|rewrite Rmin_right by lra]; nra.
    + destruct (Rle_dec tref u); [rewrite Rmax_right by assumption|rewrite Rmax_left by lra]; nra.
  - assert (V : 0 < 8 / 10 * (share + carried) / qe n) by (apply Rdiv_lt_0_compat; nra). unfold groove_filling. rewrite upstream_prev. fold share carried. cbv zeta. destruct (Rlt_dec 1 _) as [L|L].
    + split; [lra|]. rewrite Rmin_left by lra. reflexivity.
    + split; [lra|]. rewrite Rmin_right by lra. reflexivity.
Qed.
(** Flooded: after a pass over all pads, the oil that enters pad k is a mixture of fresh oil and of the oil that leaves the pad downstream of it. *)
Lemma flooded_pass len tref fac tend tm m : (m <= len)%nat -> (0 < len)%nat -> forall n, (n < m)%nat ->
  fold_left (fun tm n => mix_flooded len tref fac tend tm n) (seq 0 m) tm (upstream len n) = fac n * tref + (1 - fac n) * tend n.
Proof.
  intros Hm Hl. induction m as [|m IH]; intros n Hn; [lia|]. rewrite seq_S, fold_left_app. cbn [fold_left Nat.add].
  match goal with |- mix_flooded _ _ _ _ ?tm' _ _ = _ => set (tmm := tm') in * end. unfold mix_flooded. change (prev_idx len m) with (upstream len m).
  destruct (Nat.eqb_spec (upstream len n) (upstream len m)) as [E|E].
  - assert (n = m) as -> by (unfold upstream in E; destruct n, m; lia). reflexivity.
  - assert (n <> m) by (intros ->; contradiction). unfold tmm. apply IH; lia.
Qed.
Theorem C86_flooded : forall len tref fac tend tm n, (n < len)%nat -> 0 <= fac n <= 1 ->
  mix_flooded_all len tref fac tend tm (upstream len n) = fac n * tref + (1 - fac n) * tend n /\ between (mix_flooded_all len tref fac tend tm (upstream len n)) tref (tend n).
Proof.
  intros len tref fac tend tm n Hn Hf. assert (E : mix_flooded_all len tref fac tend tm (upstream len n) = fac n * tref + (1 - fac n) * tend n) by (unfold mix_flooded_all; apply flooded_pass; lia).
  split; [exact E|]. rewrite E. unfold between. split.
  - destruct (Rle_dec tref (tend n)); [rewrite Rmin_left by assumption|rewrite Rmin_right by lra]; nra.
  - destruct (Rle_dec tref (tend n)); [rewrite Rmax_right by assumption|rewrite Rmax_left by lra]; nra.
Qed.
(** With one or two pads that is the pad upstream; with three or more it is not. *)
Theorem C86_flooded_two : forall len tref fac tend tm n, (len <= 2)%nat -> (n < len)%nat -> mix_flooded_all len tref fac tend tm n = fac (upstream len n) * tref + (1 - fac (upstream len n)) * tend (upstream len n).
Proof.
  intros len tref fac tend tm n Hl Hn. assert (E : n = upstream len (upstream len n)) by (unfold upstream; destruct len as [|[|[|]]], n as [|[|]]; lia || reflexivity). rewrite E at 1. unfold mix_flooded_all. apply flooded_pass; unfold upstream; destruct n; lia.
Qed.
Theorem C86_flooded_upstream_refuted : forall len tref tm, (3 <= len)%nat -> exists fac tend, (forall n, 0 <= fac n <= 1) /\ ~ between (mix_flooded_all len tref fac tend tm 0%nat) tref (tend (upstream len 0%nat)).
Proof.
  intros len tref tm H. exists (fun _ => 1 / 2), (fun n => if Nat.eqb n 1 then tref + 10 else tref). split; [intros; lra|].
  assert (E : mix_flooded_all len tref (fun _ => 1 / 2) (fun n => if Nat.eqb n 1 then tref + 10 else tref) tm 0%nat = tref + 5).
  { unfold mix_flooded_all. pose proof (flooded_pass len tref (fun _ => 1 / 2) (fun n => if Nat.eqb n 1 then tref + 10 else tref) tm len (le_n _) ltac:(lia) 1%nat ltac:(lia)) as P. cbn [upstream Nat.eqb] in P. rewrite P. field. }
  rewrite E. cbn [upstream]. assert (Nat.eqb (len - 1) 1 = false) as -> by (apply Nat.eqb_neq; lia). unfold between. rewrite Rmax_left by lra. lra.
Qed.
Example C86_instance : let qe := fun _ : nat => 2 in let qs := fun _ : nat => 1 in mix_starved 3 50 6 qe qs (fun _ => 80) 1%nat = 60 /\ groove_filling 3 6 qe qs 1%nat = 1.
Proof.
  cbv zeta. assert (G : forall n, geometry_factor 3 (fun _ => 2) (fun _ => 1) n = / 3) by (intros; unfold geometry_factor; simpl sumn; field). unfold mix_starved, groove_filling. rewrite G. split; [field|]. cbv zeta. destruct (Rlt_dec 1 _) as [L|L]; [reflexivity|lra].
Qed.

Print Assumptions C83_element.
Print Assumptions C83_several_speeds_refuted.
Print Assumptions C83_no_speeds_refuted.
Print Assumptions C83_default_oil_flow_refuted.
Print Assumptions C83_number_as_speed_refuted.
Print Assumptions C83_matches_iff.
Print Assumptions C83_units_refuted.
Print Assumptions C83_instance.
Print Assumptions C85_differences.
Print Assumptions C85_affine.
Print Assumptions C85_kyy_refuted.
Print Assumptions C85_load_along_x_refuted.
Print Assumptions C85_first_number.
Print Assumptions C85_straight_refuted.
Print Assumptions C85_instance.
Print Assumptions C86_supply_shared.
Print Assumptions C86_starved.
Print Assumptions C86_flooded.
Print Assumptions C86_flooded_two.
Print Assumptions C86_flooded_upstream_refuted.
Print Assumptions C86_instance.
