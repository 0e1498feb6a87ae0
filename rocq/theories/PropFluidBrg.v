(** C88: a bearing computed from the fluid film *)
From Coq Require Import Reals String List Arith Bool Lia Lra.
From Coquelicot Require Import Coquelicot.
From Verif Require Import PyBase MatBase SpecMat CMat MDynamics MBearing SpecBearing LBearing LBearing2 LDynEx MFluid PropFluid PropFluid3 PropFluid4 MFluidBrg SpecBrgTable LBrgTable.
Import ListNotations.
Open Scope string_scope.
Open Scope list_scope.
Open Scope R_scope.

(** FluidFlow at the speed [w], with these data and nothing else given, and its stiffness and damping coefficients *)
Definition film_gives (fl : fluidlib) (p : filmargs) (w : R) (e : eight) : Prop :=
  exists f, ff_init fl (mkFfArgs (fb_nz p) (fb_nt p) (fb_length p) w (fb_pin p) (fb_pout p) (fb_rr p) (fb_rs p) (fb_mu p) None (fb_ecc p) (fb_load p) None true None "cylindrical" (2 / 5) 0 None) = Ok f /\
    stiffness_damping fl f = Ok ([e_kxx e; e_kxy e; e_kyx e; e_kyy e], [e_cxx e; e_cxy e; e_cyx e; e_cyy e]).
Definition pick (es : list eight) (c : cname) : list R :=
  match c with kxx => map e_kxx es | kxy => map e_kxy es | kyx => map e_kyx es | kyy => map e_kyy es
  | cxx => map e_cxx es | cxy => map e_cxy es | cyx => map e_cyx es | cyy => map e_cyy es | _ => [] end.
Definition of_eight (e : eight) : list R * list R := ([e_kxx e; e_kxy e; e_kyx e; e_kyy e], [e_cxx e; e_cxy e; e_cyx e; e_cyy e]).
Lemma film_columns fl p ws es : Forall2 (film_gives fl p) ws es -> mapM (film_column fl p) ws = Ok (map of_eight es).
Proof.
  induction 1 as [|w e ws es (f & E1 & E2) _ IH]; [reflexivity|]. cbn [mapM map]. unfold film_column at 1, film_flow. rewrite E1. cbn [bind]. rewrite E2. cbn [bind]. rewrite IH. reflexivity.
Qed.
Lemma film_build fl n p ws es tag link sc col : Forall2 (film_gives fl p) ws es -> fluid_bearing fl n p ws tag link sc col = bearing_init (tb_args n (pick es) ws tag link sc col).
Proof.
  intros F. unfold fluid_bearing. rewrite (film_columns fl p ws es F). cbn [bind]. f_equal. unfold tb_args, film_row, pick. rewrite !map_map.
  reflexivity.
Qed.
Lemma film_length fl p ws es : Forall2 (film_gives fl p) ws es -> List.length ws = List.length es.
Proof. induction 1; cbn; auto. Qed.
Lemma pick_length es c : massc c = false -> List.length (pick es c) = List.length es.
Proof. destruct c; intros H; try discriminate; apply map_length. Qed.

(** The film gives coefficients at every speed of an increasing list: the element is built. It is at the node and tied to the node it was given, it holds one
    value of every coefficient for each speed, and it has no mass. *)
Theorem C88_element : forall fl n p ws es tag link sc col, ws <> [] -> increasing ws -> Forall2 (film_gives fl p) ws es ->
  exists b, fluid_bearing fl n p ws tag link sc col = Ok b /\ b_n b = n /\ b_n_link b = link /\ b_tag b = tag /\ b_scale_factor b = sc /\ b_color b = col /\ b_frequency b = Some ws /\
    fst (b_coef b kxx) = map e_kxx es /\ fst (b_coef b kxy) = map e_kxy es /\ fst (b_coef b kyx) = map e_kyx es /\ fst (b_coef b kyy) = map e_kyy es /\
    fst (b_coef b cxx) = map e_cxx es /\ fst (b_coef b cxy) = map e_cxy es /\ fst (b_coef b cyx) = map e_cyx es /\ fst (b_coef b cyy) = map e_cyy es /\
    forall spl w, smoothing_spline spl -> exists A, bearing_M spl b w = Ok A /\ couples link 0 0 0 0 A.
Proof.
  intros fl n p ws es tag link sc col N I F. rewrite (film_build _ _ _ _ _ _ _ _ _ F).
  destruct (tb_ok n (pick es) ws tag link sc col I N) as (b & E). { intros c M. rewrite pick_length by exact M. symmetry. exact (film_length _ _ _ _ F). }
  exists b. split; [exact E|]. destruct (tb_fields _ _ _ _ _ _ _ _ E) as (H1 & H2 & H3 & H4 & H5 & H6). repeat (split; [assumption|]).
  repeat match goal with |- fst (b_coef b ?c) = _ /\ _ => split; [exact (tb_fst _ _ _ _ _ _ _ _ c E eq_refl)|] end. intros spl w S. exact (tb_mass _ _ _ _ _ _ _ _ spl w S I N E).
Qed.
(** Up to four speeds: at each of them the matrices of the element are those of the film. *)
Theorem C88_short : forall fl n p ws es tag link sc col b spl i w e, increasing ws -> (1 <= List.length ws <= 4)%nat -> Forall2 (film_gives fl p) ws es ->
  fluid_bearing fl n p ws tag link sc col = Ok b -> smoothing_spline spl -> nth_error ws i = Some w -> nth_error es i = Some e ->
  (exists A, bearing_K spl b w = Ok A /\ couples link (e_kxx e) (e_kxy e) (e_kyx e) (e_kyy e) A) /\
  (exists A, bearing_C spl b w = Ok A /\ couples link (e_cxx e) (e_cxy e) (e_cyx e) (e_cyy e) A).
Proof.
  intros fl n p ws es tag link sc col b spl i w e I L F E S Hw He. rewrite (film_build _ _ _ _ _ _ _ _ _ F) in E.
  apply (tb_short n (pick es) ws tag link sc col b spl i w); auto; unfold pick; apply map_nth_error; exact He.
Qed.
(** More speeds: only to within the smoothing of the table. *)
Theorem C88_long : forall fl n p ws es tag link sc col b spl i w e, increasing ws -> (5 <= List.length ws)%nat -> Forall2 (film_gives fl p) ws es ->
  fluid_bearing fl n p ws tag link sc col = Ok b -> smoothing_spline spl -> nth_error ws i = Some w -> nth_error es i = Some e -> let near := close (List.length ws) in
  (exists A k1 k2 k3 k4, bearing_K spl b w = Ok A /\ couples link k1 k2 k3 k4 A /\ near k1 (e_kxx e) /\ near k2 (e_kxy e) /\ near k3 (e_kyx e) /\ near k4 (e_kyy e)) /\
  (exists A k1 k2 k3 k4, bearing_C spl b w = Ok A /\ couples link k1 k2 k3 k4 A /\ near k1 (e_cxx e) /\ near k2 (e_cxy e) /\ near k3 (e_cyx e) /\ near k4 (e_cyy e)).
Proof.
  intros fl n p ws es tag link sc col b spl i w e I L F E S Hw He near. rewrite (film_build _ _ _ _ _ _ _ _ _ F) in E.
  apply (tb_long n (pick es) ws tag link sc col b spl i w); auto; unfold pick; apply map_nth_error; exact He.
Qed.
(** One speed: the same matrices at every frequency, whatever the spline. *)
Theorem C88_one_speed : forall fl n p w0 e tag link sc col, film_gives fl p w0 e ->
  exists b, fluid_bearing fl n p [w0] tag link sc col = Ok b /\ forall spl w,
  (exists A, bearing_K spl b w = Ok A /\ couples link (e_kxx e) (e_kxy e) (e_kyx e) (e_kyy e) A) /\
  (exists A, bearing_C spl b w = Ok A /\ couples link (e_cxx e) (e_cxy e) (e_cyx e) (e_cyy e) A).
Proof.
  intros fl n p w0 e tag link sc col G. assert (F : Forall2 (film_gives fl p) [w0] [e]) by (constructor; [exact G|constructor]).
  destruct (C88_element fl n p [w0] [e] tag link sc col) as (b & E & _); [discriminate|exact Logic.I|exact F|]. exists b. split; [exact E|]. intros spl w.
  rewrite (film_build _ _ _ _ _ _ _ _ _ F) in E. apply (tb_one n (pick [e]) w0 tag link sc col b spl w); auto.
Qed.
(** The first speed at which the film fails decides the exception; no element is built. *)
Theorem C88_first_failure : forall fl n p before es w after tag link sc col x, Forall2 (film_gives fl p) before es ->
  bind (ff_init fl (film_flow p w)) (stiffness_damping fl) = Err x -> fluid_bearing fl n p (before ++ w :: after) tag link sc col = Err x.
Proof.
  intros fl n p before es w after tag link sc col x F X. unfold fluid_bearing.
  assert (G : mapM (film_column fl p) (before ++ w :: after) = Err x); [|rewrite G; reflexivity].
  induction F as [|w0 e ws es (f & E1 & E2) _ IH]; cbn [app mapM].
  - unfold film_column at 1. rewrite X. reflexivity.
  - unfold film_column at 1, film_flow. rewrite E1. cbn [bind]. rewrite E2. cbn [bind]. rewrite IH. reflexivity.
Qed.
(** Neither load nor eccentricity: the interpreter is left. The same with an eccentricity and no load when the length is more than a quarter of the diameter. *)
Theorem C88_exit_refuted : forall fl n p w ws tag link sc col, fb_load p = None -> fb_ecc p = None \/ 1 / 4 < fb_length p / (2 * fb_rs p) ->
  fluid_bearing fl n p (w :: ws) tag link sc col = Err SystemExit.
Proof.
  intros fl n p w ws tag link sc col HL H. change (w :: ws) with ([] ++ w :: ws). apply (C88_first_failure fl n p [] [] w ws); [constructor|].
  unfold ff_init. cbn [film_flow fa_shape fa_ecc fa_load fa_att]. rewrite HL. destruct (_ && _)%bool eqn:B; [|reflexivity].
  destruct (fb_ecc p); [|reflexivity]. destruct H as [H|H]; [discriminate|]. exfalso. apply andb_prop in B. destruct B as (B & _). revert B. unfold bearing_type. cbn [film_flow fa_type fa_length fa_rs].
  destruct (Rle_dec _ _); [lra|]. destruct (Rlt_dec _ _); discriminate.
Qed.
(** An empty list of speeds is an IndexError. *)
Theorem C88_no_speeds : forall fl n p tag link sc col, fluid_bearing fl n p [] tag link sc col = Err IndexError.
Proof. reflexivity. Qed.
(** Four or more speeds out of order: the element is built, and its matrices cannot be evaluated. *)
Theorem C88_unordered_refuted : forall fl n p ws es tag link sc col, (4 <= List.length ws)%nat -> nondecreasing ws = false -> Forall2 (film_gives fl p) ws es ->
  exists b, fluid_bearing fl n p ws tag link sc col = Ok b /\ forall spl w, bearing_K spl b w = Err TypeError /\ bearing_C spl b w = Err TypeError.
Proof.
  intros fl n p ws es tag link sc col L O F. rewrite (film_build _ _ _ _ _ _ _ _ _ F). pose proof (film_length _ _ _ _ F) as Le.
  assert (P : forall c, process_coefficient (Some ws) (resolve (tb_args n (pick es) ws tag link sc col) c) = Ok (if massc c then repeat 0 (List.length ws) else pick es c, INone)).
  { intros c. rewrite tb_resolve. unfold process_coefficient.
    assert (W : forall l, List.length l = List.length ws -> (if Nat.ltb 1 (List.length l) then if spline_accepts ws l then Ok (l, ISpline ws l) else if (Nat.eqb (List.length ws) 2 || Nat.eqb (List.length ws) 3)%bool then
              if interp1d_accepts ws l then Ok (l, ILagr ws l) else Err ValueError else Ok (l, INone) else match l with c0 :: _ => Ok (l, IConst c0) | [] => Err IndexError end) = Ok (l, INone)).
    { intros l H. replace (Nat.ltb 1 (List.length l)) with true by (symmetry; apply Nat.ltb_lt; lia). unfold spline_accepts. rewrite O, !andb_false_r.
      replace (Nat.eqb (List.length ws) 2) with false by (symmetry; apply Nat.eqb_neq; lia). replace (Nat.eqb (List.length ws) 3) with false by (symmetry; apply Nat.eqb_neq; lia). reflexivity. }
    destruct (massc c) eqn:M; apply W; [apply repeat_length|rewrite pick_length by exact M; symmetry; exact Le]. }
  assert (E : is_ok (bearing_init (tb_args n (pick es) ws tag link sc col))).
  { apply bearing_init_iff. intros c. rewrite P. eexists; split; [reflexivity|]. destruct (massc c) eqn:M; cbn; [apply repeat_length|rewrite pick_length by exact M; symmetry; exact Le]. }
  destruct E as (b & E). exists b. split; [exact E|]. destruct (bearing_init_ok _ _ E) as (_ & _ & _ & _ & _ & _ & Q).
  intros spl w. unfold bearing_K, bearing_C, block2, eval_coef. pose proof (Q kxx) as Qk. pose proof (Q cxx) as Qc. cbn [ba_frequency tb_args] in Qk, Qc. rewrite P in Qk, Qc. injection Qk as <-. injection Qc as <-. split; reflexivity.
Qed.

(** ** When the film gives coefficients *)
(** A short bearing whose rotor stands inside the clearance, by at least one part in ten thousand of it. *)
Lemma film_ok fl p w ratio ecc att load : linalg_ok (fl_la fl) -> (2 <= fb_nz p)%nat -> (4 <= fb_nt p)%nat -> 0 < fb_mu p -> fb_length p <> 0 -> w <> 0 ->
  0 < fb_rs p - fb_rr p <= fb_rr p -> 0 <= ecc < (fb_rs p - fb_rr p) * (1 - 1 / 10000) ->
  ff_init fl (film_flow p w) = bind (geometry_description (ff_base (film_flow p w) load ratio ecc att)) (fun f => pressure_numerical fl f None) -> exists e, film_gives fl p w e.
Proof.
  intros Hla Hz Ht Hmu HL Hw Hc He Hi. set (f0 := ff_base (film_flow p w) load ratio ecc att) in *. destruct (cyl_geometry f0 eq_refl) as [g Hg]. rewrite Hg in Hi. cbn [bind] in Hi.
  pose proof (geometry_keeps f0 g Hg) as (G1 & G2 & G3 & G4 & G5 & G6 & G7 & G8 & G9 & _). change (ff_nz f0) with (fb_nz p) in G1. change (ff_nt f0) with (fb_nt p) in G2. change (ff_length f0) with (fb_length p) in G3.
  change (ff_mu f0) with (fb_mu p) in G5. change (ff_rr f0) with (fb_rr p) in G6. change (ff_rs f0) with (fb_rs p) in G7. change (ff_ecc f0) with ecc in G8.
  destruct (C46_pressure fl g None Hla) as (c1 & c2 & c0 & h & q & Ec & Ep & _); [lia|lia|lra|congruence| |].
  { intros i j _ _. apply (C46_cylindrical f0 g eq_refl Hg); rewrite G6, ?G7, G8; lra. }
  rewrite Ep in Hi. assert (Hh : exists pn, h = set_press g (ff_pana g) pn).
  { revert Ep. unfold pressure_numerical. rewrite Ec. cbn [bind]. destruct (mounting_matrix (ff_nz g) (ff_nt g) (ff_dz g) (ff_dt g) (ff_pin g) (ff_pout g) c1 c2 c0). destruct (la_solve _ _ _ _); cbn [bind]; [|discriminate]. intros E. injection E as <-. eexists. reflexivity. }
  destruct Hh as (pn & ->). assert (Gx : ff_shape g = "cylindrical" /\ ff_omegap g = w /\ ff_xi g = ecc * cos (3 * PI / 2 + att) /\ ff_yi g = ecc * sin (3 * PI / 2 + att)).
  { revert Hg. unfold geometry_description. destruct (external_radius _ _ _ _ _ _ _); [|discriminate]. intros E. injection E as <-. repeat split; reflexivity. }
  destruct Gx as (X1 & X2 & X3 & X4).
  destruct (C69_succeeds fl (set_press g (ff_pana g) pn) Hla) as (K & D & E).
  1: exact X1. 1: change (2 <= ff_nz g)%nat; lia. 1: change (4 <= ff_nt g)%nat; lia. 1: change (0 < ff_mu g); lra. 1: change (ff_length g <> 0); congruence. 1: change (ff_omegap g <> 0); congruence.
  1: change (0 < ff_rs g - ff_rr g <= ff_rr g); lra.
  1: { change (sqrt (ff_xi g ^ 2 + ff_yi g ^ 2) < ff_rs g - ff_rr g - (ff_rs g - ff_rr g) * / 10000). rewrite X3, X4, G6, G7.
    replace ((ecc * cos (3 * PI / 2 + att)) ^ 2 + (ecc * sin (3 * PI / 2 + att)) ^ 2) with (ecc ^ 2); [rewrite sqrt_pow2 by lra; lra|].
    pose proof (sin2_cos2 (3 * PI / 2 + att)) as P. unfold Rsqr in P. transitivity (ecc ^ 2 * (sin (3 * PI / 2 + att) * sin (3 * PI / 2 + att) + cos (3 * PI / 2 + att) * cos (3 * PI / 2 + att))); [rewrite P; ring|ring]. }
  assert (G : exists k1 k2 k3 k4 d1 d2 d3 d4, (K, D) = ([k1; k2; k3; k4], [d1; d2; d3; d4])).
  { revert E. unfold stiffness_damping. cbv zeta. destruct (all_instants _ _ _) as [ms|]; cbn [bind]; [|discriminate].
    do 4 (destruct (least_squares3 _ _ _) at 1; cbn [bind]; [|discriminate]). intros E. injection E as <- <-. do 8 eexists. reflexivity. }
  destruct G as (k1 & k2 & k3 & k4 & d1 & d2 & d3 & d4 & G). injection G as -> ->. exists (mkEight k1 k2 k3 k4 d1 d2 d3 d4). exists (set_press g (ff_pana g) pn). split; [exact Hi|exact E].
Qed.
Lemma short_type p w : fb_length p / (2 * fb_rs p) <= 1 / 4 -> bearing_type (film_flow p w) = "short_bearing".
Proof. intros H. unfold bearing_type. cbn [film_flow fa_type fa_length fa_rs]. destruct (Rle_dec _ _); [reflexivity|contradiction]. Qed.
(** With an eccentricity and no load: a short bearing, not turning at zero speed, is built for every increasing list of speeds. *)
Theorem C88_from_eccentricity : forall fl n p ecc ws tag link sc col, linalg_ok (fl_la fl) -> (2 <= fb_nz p)%nat -> (4 <= fb_nt p)%nat -> 0 < fb_mu p -> 0 < fb_length p <= fb_rs p / 2 ->
  fb_ecc p = Some ecc -> fb_load p = None -> 0 < fb_rs p - fb_rr p <= fb_rr p -> 0 <= ecc < (fb_rs p - fb_rr p) * (1 - 1 / 10000) ->
  ws <> [] -> increasing ws -> List.Forall (fun w => w <> 0) ws ->
  exists es b, Forall2 (film_gives fl p) ws es /\ fluid_bearing fl n p ws tag link sc col = Ok b.
Proof.
  intros fl n p ecc ws tag link sc col Hla Hz Ht Hmu HL Ee El Hc He N I F.
  assert (G : exists es, Forall2 (film_gives fl p) ws es).
  { clear N I. induction F as [|w ws Hw _ (es & IH)]; [exists []; constructor|].
    destruct (film_ok fl p w (ecc / (fb_rs p - fb_rr p)) ecc (attitude_angle (ecc / (fb_rs p - fb_rr p))) (Some (rotor_load (fb_rs p) w (fb_mu p) (fb_length p) (fb_rs p - fb_rr p) (ecc / (fb_rs p - fb_rr p))))) as (e & G); auto; [lra| |exists (e :: es); constructor; assumption].
    unfold ff_init. rewrite short_type. 2: { apply Rmult_le_reg_r with (2 * fb_rs p); [lra|]. replace (fb_length p / (2 * fb_rs p) * (2 * fb_rs p)) with (fb_length p) by (field; lra). lra. }
    cbn [film_flow fa_shape fa_ecc fa_load fa_now fa_att fa_rs fa_rr fa_omega fa_mu fa_length String.eqb Ascii.eqb Bool.eqb andb default]. rewrite Ee, El. reflexivity. }
  destruct G as (es & G). destruct (C88_element fl n p ws es tag link sc col N I G) as (b & E & _). exists es, b. split; assumption.
Qed.
(** With a load: the same when the eccentricity ratio found for the load at every speed leaves the rotor inside the clearance. *)
Theorem C88_from_load : forall fl n p W ws tag link sc col, linalg_ok (fl_la fl) -> (2 <= fb_nz p)%nat -> (4 <= fb_nt p)%nat -> 0 < fb_mu p -> 0 < fb_length p <= fb_rs p / 2 ->
  fb_ecc p = None -> fb_load p = Some W -> 0 < fb_rs p - fb_rr p <= fb_rr p ->
  ws <> [] -> increasing ws -> List.Forall (fun w => w <> 0 /\ exists eps, eccentricity_ratio fl (modified_sommerfeld (fb_rs p) w (fb_mu p) (fb_length p) W (fb_rs p - fb_rr p)) = Ok eps /\ 0 <= eps < 1 - 1 / 10000) ws ->
  exists es b, Forall2 (film_gives fl p) ws es /\ fluid_bearing fl n p ws tag link sc col = Ok b.
Proof.
  intros fl n p W ws tag link sc col Hla Hz Ht Hmu HL Ee El Hc N I F.
  assert (G : exists es, Forall2 (film_gives fl p) ws es).
  { clear N I. induction F as [|w ws (Hw & eps & Eps & He) _ (es & IH)]; [exists []; constructor|].
    destruct (film_ok fl p w eps (eps * (fb_rs p - fb_rr p)) (attitude_angle eps) (Some W)) as (e & G); auto; [lra|split; [apply Rmult_le_pos; lra|rewrite Rmult_comm; apply Rmult_lt_compat_l; lra]| |exists (e :: es); constructor; assumption].
    unfold ff_init. rewrite short_type. 2: { apply Rmult_le_reg_r with (2 * fb_rs p); [lra|]. replace (fb_length p / (2 * fb_rs p) * (2 * fb_rs p)) with (fb_length p) by (field; lra). lra. }
    cbn [film_flow fa_shape fa_ecc fa_load fa_now fa_att fa_rs fa_rr fa_omega fa_mu fa_length String.eqb Ascii.eqb Bool.eqb andb default]. rewrite Ee, El, Eps. reflexivity. }
  destruct G as (es & G). destruct (C88_element fl n p ws es tag link sc col N I G) as (b & E & _). exists es, b. split; assumption.
Qed.

(** ** The hypotheses can be met *)
Definition fl1 : fluidlib := mkFluidLib (fun _ => []) (fun _ x => x) (fun _ => (0, 0)) (fun _ _ => 0) la0.
Definition film1 : filmargs := mkFilmArgs 8 8 (1 / 100) 0 0 (9 / 100) (1 / 10) (1 / 10) (Some (1 / 200)) None.
Lemma film1_gives w : w <> 0 -> exists e, film_gives fl1 film1 w e.
Proof.
  intros Hw. destruct (C88_from_eccentricity fl1 0 film1 (1 / 200) [w] None None 1 "") as (es & b & F & _); cbn; try lra; try lia; try reflexivity; try discriminate; auto.
  - exact la0_ok.
  - inversion F; subst. eauto.
Qed.
Example C88_instance : exists e1 e2, Forall2 (film_gives fl1 film1) [100; 200] [e1; e2] /\ increasing [100; 200].
Proof. destruct (film1_gives 100 ltac:(lra)) as (e1 & G1). destruct (film1_gives 200 ltac:(lra)) as (e2 & G2). exists e1, e2. split; [repeat constructor; assumption|cbn; lra]. Qed.
Example C88_unordered_instance : exists es, Forall2 (film_gives fl1 film1) [400; 300; 200; 100] es /\ nondecreasing [400; 300; 200; 100] = false.
Proof.
  destruct (film1_gives 400 ltac:(lra)) as (e1 & G1). destruct (film1_gives 300 ltac:(lra)) as (e2 & G2). destruct (film1_gives 200 ltac:(lra)) as (e3 & G3). destruct (film1_gives 100 ltac:(lra)) as (e4 & G4). exists [e1; e2; e3; e4].
  split; [repeat constructor; assumption|]. cbn. destruct (Rle_dec 400 300); [lra|reflexivity].
Qed.

Print Assumptions C88_element.
Print Assumptions C88_short.
Print Assumptions C88_long.
Print Assumptions C88_one_speed.
Print Assumptions C88_first_failure.
Print Assumptions C88_exit_refuted.
Print Assumptions C88_no_speeds.
Print Assumptions C88_unordered_refuted.
Print Assumptions C88_from_eccentricity.
Print Assumptions C88_from_load.
Print Assumptions C88_instance.
