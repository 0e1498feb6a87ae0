(** Theorems about the time response of rotors (C81). *)
From Coq Require Import Reals String List Arith Bool Lia Lra ZArith.
From Coquelicot Require Import Coquelicot.
From Verif Require Import PyBase MatBase SpecMat LMat CMat LCMat MShaft MBearing MRotor SpecRotor LRotorEx PropRotor MDynamics SpecDynamics LDynamics LTransfer LStability
  LDynEx LDynEx2 PropDynamics MTime MPseudo MTable MLsim SpecLsim LExpm LExpm2 LLsim LLsim2 LLsim3 LStoch LRotor LRotor2 LRotor3 LRotor5 LRotor7.
Import ListNotations.
Open Scope list_scope.
Open Scope R_scope.

(** * C81: the default time response is the exact motion under linearly interpolated forces *)
(** Where the speed is a number and the method is not Newmark: at every sampling time, yout holds the displacements and xout the displacements and velocities
    of every motion M q'' + (C + speed G) q' + K q = f that starts at the first sampling time in the first state, f joining the sampled forces by straight lines.
    The first state is ic (zero if not given) if the first sampling time is 0, and else the state of the free motion started from ic at time 0. *)
Theorem C81_exact : forall expm eigh la spl r w F nrow t ic method o nm gv extra t' yout xout h,
  linalg_ok la -> expm_ok expm -> lower method <> "newmark"%string ->
  time_response expm eigh la spl r (SNum w) F nrow t ic method o nm gv extra = Ok (t', yout, xout) ->
  nrow = length t -> 0 < h -> equally_spaced h t ->
  let n := r_ndof r in let x0 := match ic with Some x => x | None => fun _ => 0 end in
  exists M K D G, rotor_M spl r (Some w) = Ok M /\ rotor_K spl r w [] = Ok K /\ rotor_C spl r w [] = Ok D /\ rotor_G spl r = Ok G /\ nonsingular n M /\
    t' = t /\ length yout = length t /\ length xout = length t /\
    (forall q v, motion n M (damp_gyro D G w) K (fun _ _ => 0) 0 (hd 0 t) q v -> (forall i, (i < n)%nat -> q 0 i = x0 i /\ v 0 i = x0 (n + i)%nat) ->
      forall i, (i < n)%nat -> nth 0 xout vzero i = q (hd 0 t) i /\ nth 0 xout vzero (n + i)%nat = v (hd 0 t) i) /\
    (forall f q v, linear_between t F f -> motion n M (damp_gyro D G w) K f (hd 0 t) (last t 0) q v ->
      (forall i, (i < n)%nat -> q (hd 0 t) i = nth 0 xout vzero i /\ v (hd 0 t) i = nth 0 xout vzero (n + i)%nat) ->
      forall k i, (k < length t)%nat -> (i < n)%nat ->
        nth k yout vzero i = q (nth k t 0) i /\ nth k xout vzero i = q (nth k t 0) i /\ nth k xout vzero (n + i)%nat = v (nth k t 0) i).
Proof.
  intros expm eigh la spl r w F nrow t ic method o nm gv extra t' yout xout h L HE Hm H HN Hh Sp n x0. unfold time_response in H.
  rewrite (proj2 (String.eqb_neq _ _) Hm) in H. apply bind_ok in H as (sys & Hs & H). apply bind_ok in H as ([ys xs] & Hl & H). cbn [fst snd] in H. injection H as <- <- <-.
  destruct (lti_facts la spl r w sys L Hs) as (M & K & D & G & X & Y & MI & HM & HK & HD & HG & NS & HX & HY & HI & EA & EB & HC & HZ). fold n in Hl, NS, HX, HY, HI, EA, EB, HC, HZ.
  rewrite double in Hl, HC. destruct (lsim_shape _ _ _ _ _ _ _ _ _ _ Hl HN) as (Ly & Lx & Oy & T0 & _ & _).
  pose proof (first_state _ _ _ _ _ _ _ _ _ _ Hl HN) as F0.
  assert (Hd0 : hd 0 t = nth 0 t 0) by (destruct t; reflexivity). pose proof (last_nth0 t) as Hlast.
  exists M, K, D, G. do 5 (split; [assumption|]). split; [reflexivity|]. split; [exact Ly|]. split; [exact Lx|]. split.
  - intros q v Hmo Hi0 i Hi.
    assert (E : forall j, (j < n + n)%nat -> nth 0 xs vzero j = stack n (q (hd 0 t)) (v (hd 0 t)) j).
    { intros j Hj. assert (FL := flow (n + n) (lti_A sys) (fun s => stack n (q s) (v s)) 0 (hd 0 t)).
      assert (Fd : forall s i, 0 <= s <= hd 0 t -> (i < n + n)%nat -> is_derive (fun x => stack n (q x) (v x) i) s (mulv (n + n) (lti_A sys) (stack n (q s) (v s)) i)).
      { intros s l Hs' Hl'. rewrite EA. eapply derive_val; [|apply (motion_state n M (damp_gyro D G w) K X Y MI NS HX HY HI (fun _ _ => 0) 0 (hd 0 t) q v Hmo s l Hs' Hl')].
        assert (Z : mulv n (input_matrix n MI) (fun _ => 0) l = 0) by (unfold mulv; apply sumn_0; intros; ring). rewrite Z. ring. }
      rewrite (FL Fd (hd 0 t) j) by (auto; lra). rewrite F0.
      assert (S0 : forall l, (l < n + n)%nat -> x0 l = stack n (q 0) (v 0) l).
      { intros l Hl'. destruct (Nat.lt_ge_cases l n) as [Q|Q]; [rewrite stack_lo by auto; symmetry; apply Hi0; auto|].
        replace l with (n + (l - n))%nat by lia. rewrite stack_hi. symmetry. apply Hi0. lia. }
      rewrite (mulv_ext (n + n) _ (phi (n + n) (lti_A sys) (hd 0 t)) _ x0); [| |intros; symmetry; apply S0; auto]; [|intros; replace (hd 0 t - 0) with (hd 0 t) by ring; reflexivity].
      assert (Fr : rowmul (n + n) x0 (expm (n + n)%nat (mscale (hd 0 t) (mtrans (lti_A sys)))) j = mulv (n + n) (phi (n + n) (lti_A sys) (hd 0 t)) x0 j) by (apply (free_step_flow expm (n + n) (lti_A sys) (hd 0 t) 0 x0 j HE Hj)).
      destruct (Req_EM_T (hd 0 t) 0) as [E0|N0].
      - rewrite E0. rewrite (mulv_ext (n + n) _ mid _ x0); [|intros; apply phi_0; auto|reflexivity]. rewrite mulv_mid by auto. unfold x0. destruct ic; reflexivity.
      - rewrite <- Fr. unfold x0. destruct ic; reflexivity. }
    rewrite !E by lia. rewrite stack_lo, stack_hi by auto. split; reflexivity.
  - intros f q v Lb Hmo Hi0.
    assert (E : forall k j, (k < length t)%nat -> (j < n + n)%nat -> nth k xs vzero j = stack n (q (nth k t 0)) (v (nth k t 0)) j).
    { apply (lsim_exact expm sys (n + n) n F nrow t ic ys xs h (fun s => stack n (q s) (v s)) f HE Hl HN Hh Sp Lb).
      - intros s i Hs' Hi. rewrite EA, EB. rewrite Hd0, Hlast in Hmo. apply (motion_state n M (damp_gyro D G w) K X Y MI NS HX HY HI f _ _ q v Hmo s i Hs' Hi).
      - intros i Hi. rewrite <- Hd0. destruct (Nat.lt_ge_cases i n) as [Q|Q]; [rewrite stack_lo by auto; symmetry; apply Hi0; auto|].
        replace i with (n + (i - n))%nat by lia. rewrite stack_hi. symmetry. apply Hi0. lia. }
    intros k i Hk Hi. rewrite Oy by auto. rewrite HC by auto. rewrite HZ, Rplus_0_r, !E by (auto; lia). rewrite stack_lo, stack_hi by auto. repeat split; reflexivity.
Qed.
(** Such a force and such a motion always exist, whatever the initial displacements and velocities. *)
Theorem C81_motion_exists : forall n M D K t F h q0 v0, nonsingular n M -> 0 < h -> equally_spaced h t ->
  exists f q v, linear_between t F f /\ (forall b, motion n M D K f (hd 0 t) b q v) /\ forall i, (i < n)%nat -> q (hd 0 t) i = q0 i /\ v (hd 0 t) i = v0 i.
Proof.
  intros n M D K t F h q0 v0 NS Hh Sp. destruct (motion_exists n M D K (interp t h F) (hd 0 t) q0 v0 NS) as (q & v & H & H0); [intros; apply interp_continuous|].
  exists (interp t h F), q, v. split; [apply interp_linear; auto|]. split; [exact H|exact H0].
Qed.
(** Responses add up: a combination of forces and initial states gives the same combination of responses. *)
Theorem C81_superposition : forall expm eigh la spl r w F F1 F2 t ic ic1 ic2 c d method o nm gv extra y y1 y2 x x1 x2 s s1 s2 h,
  linalg_ok la -> expm_ok expm -> lower method <> "newmark"%string -> 0 < h -> equally_spaced h t ->
  (forall k i, F k i = c * F1 k i + d * F2 k i) -> (forall i, ic i = c * ic1 i + d * ic2 i) ->
  time_response expm eigh la spl r (SNum w) F (length t) t (Some ic) method o nm gv extra = Ok (s, y, x) ->
  time_response expm eigh la spl r (SNum w) F1 (length t) t (Some ic1) method o nm gv extra = Ok (s1, y1, x1) ->
  time_response expm eigh la spl r (SNum w) F2 (length t) t (Some ic2) method o nm gv extra = Ok (s2, y2, x2) ->
  forall k i, (k < length t)%nat -> (i < r_ndof r)%nat -> nth k y vzero i = c * nth k y1 vzero i + d * nth k y2 vzero i /\
    nth k x vzero (r_ndof r + i)%nat = c * nth k x1 vzero (r_ndof r + i)%nat + d * nth k x2 vzero (r_ndof r + i)%nat.
Proof.
  intros expm eigh la spl r w F F1 F2 t ic ic1 ic2 c d method o nm gv extra y y1 y2 x x1 x2 s s1 s2 h L HE Hm Hh Sp HF Hic H H1 H2. unfold time_response in *.
  rewrite (proj2 (String.eqb_neq _ _) Hm) in *. destruct (rotor_lti la spl r w None) as [sys|] eqn:Hs; [|discriminate]. cbn [bind] in *.
  apply bind_ok in H as ([a b] & H & E). apply bind_ok in H1 as ([a1 b1] & H1 & E1). apply bind_ok in H2 as ([a2 b2] & H2 & E2). cbn [fst snd] in *.
  injection E as _ -> ->. injection E1 as _ -> ->. injection E2 as _ -> ->.
  destruct (lti_facts la spl r w sys L Hs) as (M & K & D & G & X & Y & MI & _ & _ & _ & _ & _ & _ & _ & _ & _ & _ & HC & HZ).
  destruct (lsim_shape _ _ _ _ _ _ _ _ _ _ H eq_refl) as (_ & _ & Oy & _). destruct (lsim_shape _ _ _ _ _ _ _ _ _ _ H1 eq_refl) as (_ & _ & Oy1 & _). destruct (lsim_shape _ _ _ _ _ _ _ _ _ _ H2 eq_refl) as (_ & _ & Oy2 & _).
  pose proof (lsim_superposition expm sys _ _ F F1 F2 t ic ic1 ic2 c d y y1 y2 x x1 x2 h HE Hh Sp H H1 H2 HF Hic) as E.
  intros k i Hk Hi. rewrite Oy, Oy1, Oy2, !HC, !HZ, !Rplus_0_r by auto. split; apply E; auto; lia.
Qed.
(** Without forces, the response of a passive rotor never gains energy. *)
Theorem C81_energy : forall expm eigh la spl shafts disks brgs pms r w t ic method o nm gv extra t' yout xout h M K,
  linalg_ok la -> expm_ok expm -> lower method <> "newmark"%string -> rotor_init shafts disks brgs pms = Ok r -> regular r -> passive spl w r ->
  0 < h -> equally_spaced h t -> rotor_M spl r (Some w) = Ok M -> rotor_K spl r w [] = Ok K ->
  time_response expm eigh la spl r (SNum w) (fun _ _ => 0) (length t) t ic method o nm gv extra = Ok (t', yout, xout) ->
  let n := r_ndof r in let vel := fun k i => nth k xout vzero (n + i)%nat in let pos := fun k => nth k yout vzero in
  forall k l, (k <= l < length t)%nat -> bform n M (vel l) (vel l) + bform n K (pos l) (pos l) <= bform n M (vel k) (vel k) + bform n K (pos k) (pos k).
Proof.
  intros expm eigh la spl shafts disks brgs pms r w t ic method o nm gv extra t' yout xout h M K L HE Hm Hr Rg P Hh Sp HM HK H n vel pos k l Hkl.
  destruct (C81_exact _ _ _ _ _ _ _ _ _ _ _ _ _ _ _ _ _ _ _ L HE Hm H eq_refl Hh Sp) as (M' & K' & D & G & HM' & HK' & HD & HG & NS & _ & _ & _ & _ & Ex).
  assert (M' = M) by congruence. assert (K' = K) by congruence. subst M' K'. fold n in NS, Ex.
  destruct (motion_exists n M (damp_gyro D G w) K (fun _ _ => 0) (hd 0 t) (nth 0 xout vzero) (fun i => nth 0 xout vzero (n + i)%nat) NS) as (q & v & Hmo & H0); [intros; apply continuous_const|].
  assert (Z : linear_between t (fun _ _ => 0) (fun _ _ => 0)) by (intros k' s i _ _; cbv beta; ring).
  assert (E := fun k i => Ex (fun _ _ => 0) q v Z (Hmo _) H0 k i).
  assert (Tn : forall j, (j < length t)%nat -> nth j t 0 = hd 0 t + INR j * h) by (intros j Hj; rewrite (spaced_nth h t j Sp Hj); destruct t; reflexivity).
  pose proof (rotor_facts _ _ _ _ _ Hr) as Fa.
  destruct (C19_symmetry spl _ _ _ _ r (Some w) M Hr) as [SM _]. destruct (C19_symmetry spl _ _ _ _ r None G Hr) as [_ SG].
  destruct (rotor_C_sympsd _ _ _ _ Fa (reg_pm_dof _ Rg) P HD) as [SC PC].
  destruct (rotor_K_sympsd _ _ _ _ Fa (reg_pm_dof _ Rg) (pas_load _ _ _ P) (fun e He => proj2 (pas_K _ _ _ P e He)) HK) as [PK SK].
  assert (SM' : symmetric n M) by (apply SM; auto; intros e He; apply (pas_M _ _ _ P); auto).
  assert (SK' : symmetric n K) by (apply SK; intros e He; apply (pas_K _ _ _ P); auto).
  assert (PD : pos_semidef n (damp_gyro D G w)).
  { intros x. unfold damp_gyro. rewrite (bform_plus n D (fun i j => w * G i j)), bform_scal, (bform_skew_0 n G x (SG HG)), Rmult_0_r, Rplus_0_r. apply PC. }
  assert (Mo : motion n M (damp_gyro D G w) K (fun _ _ => 0) (nth k t 0) (nth l t 0) q v).
  { destruct (Hmo (nth l t 0)) as [A1 A2]. assert (0 <= INR k * h) by (apply Rmult_le_pos; [apply pos_INR|lra]). pose proof (Tn k ltac:(lia)).
    split; intros s; intros; [apply A1|apply A2]; auto; lra. }
  assert (Le : nth k t 0 <= nth l t 0).
  { rewrite !Tn by lia. assert (INR k * h <= INR l * h) by (apply Rmult_le_compat_r; [lra|apply le_INR; lia]). lra. }
  pose proof (free_energy n M (damp_gyro D G w) K _ _ q v SM' SK' PD Mo Le) as En.
  assert (Ev : forall j, (j < length t)%nat -> forall i, (i < n)%nat -> vel j i = v (nth j t 0) i) by (intros j Hj i Hi; apply (E j i Hj Hi)).
  assert (Ep : forall j, (j < length t)%nat -> forall i, (i < n)%nat -> pos j i = q (nth j t 0) i) by (intros j Hj i Hi; apply (E j i Hj Hi)).
  rewrite (bform_vext n M (vel l) (v (nth l t 0)) (vel l) (v (nth l t 0))), (bform_vext n K (pos l) (q (nth l t 0)) (pos l) (q (nth l t 0))),
    (bform_vext n M (vel k) (v (nth k t 0)) (vel k) (v (nth k t 0))), (bform_vext n K (pos k) (q (nth k t 0)) (pos k) (q (nth k t 0))); try apply Ev; try apply Ep; try lia.
  exact En.
Qed.

(** The default method answers for every regular rotor with positive inertia whose bearings can be evaluated. *)
Theorem C81_succeeds : forall expm eigh la spl shafts disks brgs pms r w F t ic method o nm gv extra, linalg_ok la -> rotor_init shafts disks brgs pms = Ok r ->
  regular r -> links_ok r -> (forall e, In e (r_brg r) -> is_ok (el_M spl w e) /\ is_ok (el_K spl w e) /\ is_ok (el_C spl w e) /\ is_ok (el_K spl 0 e)) ->
  (forall e, In e (r_elements r) -> good_inertia (el_M spl w) e) -> lower method <> "newmark"%string ->
  t <> [] -> 0 <= hd 0 t -> (forall k, (S k < length t)%nat -> Rabs (nth (S k) t 0 - nth k t 0 - (nth 1 t 0 - nth 0 t 0)) <= 1 / 10 ^ 8 + 1 / 10 ^ 5 * Rabs (nth 1 t 0 - nth 0 t 0)) ->
  is_ok (time_response expm eigh la spl r (SNum w) F (length t) t ic method o nm gv extra).
Proof.
  intros expm eigh la spl shafts disks brgs pms r w F t ic method o nm gv extra L H G Hl Hb Hg Hm Hne H0 Sp.
  assert (HL : is_ok (rotor_lti la spl r w None)).
  { destruct (C24_state_matrix_exists la spl _ _ _ _ r w (Some w) L H G Hl Hb Hg) as [A HA].
    destruct (C19_matrices_exist spl _ _ _ _ r (Some w) [] H G Hl) as (EM & EK & EC & EG).
    destruct EM as [M HM]; [intros e He; apply Hb; auto|]. destruct (EK w) as [K HK]; [intros e He; apply Hb; auto|]. destruct (EC w) as [D HD]; [intros e He; apply Hb; auto|].
    assert (NS : nonsingular (r_ndof r) M) by (apply pos_def_nonsingular, (rotor_M_pd spl (Some w) r M (rotor_facts _ _ _ _ _ H) G Hg HM)).
    destruct (solve_exists la _ _ mid L NS) as [X HX]. destruct (solve_exists la _ _ K L NS) as [Y HY]. destruct (solve_exists la _ _ D L NS) as [Z HZ].
    unfold rotor_lti. cbn [default]. rewrite HA. cbn [bind]. rewrite HM. cbn [bind]. rewrite HX. cbn [bind]. rewrite HK. cbn [bind]. rewrite HY. cbn [bind]. rewrite HD. cbn [bind]. rewrite HZ.
    eexists. reflexivity. }
  destruct HL as [sys Hs]. unfold time_response. rewrite (proj2 (String.eqb_neq _ _) Hm), Hs. cbn [bind].
  enough (HY : exists p, lsim expm sys (2 * r_ndof r) (r_ndof r) F (length t) t ic = Ok p) by (destruct HY as [p ->]; eexists; reflexivity).
  destruct t as [|t0 ts]; [congruence|]. cbn [hd] in H0. unfold lsim. cbv zeta.
  assert (HF : exists first, (if Req_EM_T t0 0 then Ok match ic with Some x => x | None => vzero end else
    if Rlt_dec 0 t0 then Ok (rowmul (2 * r_ndof r) match ic with Some x => x | None => vzero end (expm (2 * r_ndof r)%nat (mscale t0 (mtrans (lti_A sys))))) else Err ValueError) = Ok first).
  { destruct (Req_EM_T t0 0); [eexists; reflexivity|]. destruct (Rlt_dec 0 t0); [eexists; reflexivity|lra]. }
  destruct HF as [first ->]. cbn [bind]. destruct ts as [|t1 ts].
  - cbn [length Nat.eqb]. destruct (no_input F 1 (r_ndof r)); eexists; reflexivity.
  - assert (SC : steps_close (t0 :: t1 :: ts) (t1 - t0) = true).
    { unfold steps_close. apply forallb_forall. intros k Hk. apply in_seq in Hk. unfold close.
      specialize (Sp k ltac:(cbn [length] in *; lia)). cbn [nth] in Sp |- *. destruct (Rle_dec _ _) as [|Q]; [reflexivity|contradiction (Q Sp)]. }
    rewrite SC. cbn [negb]. destruct (no_input _ _ _); [eexists; reflexivity|]. rewrite Nat.eqb_refl. cbn [negb]. eexists. reflexivity.
Qed.
(** Sampling times that begin before 0, forces that are not all zero and not one for every sampling time, and steps that differ from the first one
    by more than 1e-8 + 1e-5 |first step| are refused. *)
Theorem C81_refused : forall expm eigh la spl r w F nrow t ic method o nm gv extra p, lower method <> "newmark"%string ->
  time_response expm eigh la spl r (SNum w) F nrow t ic method o nm gv extra = Ok p ->
  t <> [] /\ 0 <= hd 0 t /\ (nrow = length t \/ forall k i, (k < nrow)%nat -> (i < r_ndof r)%nat -> F k i = 0) /\
  forall k, (S k < length t)%nat -> Rabs (nth (S k) t 0 - nth k t 0 - (nth 1 t 0 - nth 0 t 0)) <= 1 / 10 ^ 8 + 1 / 10 ^ 5 * Rabs (nth 1 t 0 - nth 0 t 0).
Proof.
  intros expm eigh la spl r w F nrow t ic method o nm gv extra p Hm H. unfold time_response in H. rewrite (proj2 (String.eqb_neq _ _) Hm) in H.
  apply bind_ok in H as (sys & Hs & H). apply bind_ok in H as (yx & Hl & H). clear H. unfold lsim in Hl. cbv zeta in Hl.
  destruct t as [|t0 ts]; [discriminate|]. apply bind_ok in Hl as (first & Hf & Hl). split; [discriminate|]. cbn [hd].
  split; [destruct (Req_EM_T t0 0); [lra|destruct (Rlt_dec 0 t0); [lra|discriminate]]|].
  destruct ts as [|t1 ts].
  - split; [|intros k Hk; cbn in Hk; lia]. destruct (no_input F nrow (r_ndof r)) eqn:En; [right; apply no_input_zero; exact En|].
    left. destruct (Nat.eqb_spec nrow 1); [auto|discriminate].
  - destruct (steps_close (t0 :: t1 :: ts) (t1 - t0)) eqn:Es; cbn [negb] in Hl; [|discriminate]. split.
    + destruct (no_input F nrow (r_ndof r)) eqn:En; [right; apply no_input_zero; exact En|]. left. destruct (Nat.eqb_spec nrow (length (t0 :: t1 :: ts))); [auto|discriminate].
    + intros k Hk. unfold steps_close in Es. rewrite forallb_forall in Es. specialize (Es k). rewrite in_seq in Es. specialize (Es ltac:(cbn [length] in *; lia)).
      unfold close in Es. cbn [nth] in Es |- *. destruct (Rle_dec _ _) as [Q|]; [exact Q|discriminate].
Qed.
(** It is false that the sampling times are used as they are given: only the first two are. *)
Theorem C81_only_first_step : forall expm eigh la spl r w F nrow t u ic method o nm gv extra y x y' x' t' u', lower method <> "newmark"%string ->
  length t = length u -> nth 0 t 0 = nth 0 u 0 -> nth 1 t 0 = nth 1 u 0 ->
  time_response expm eigh la spl r (SNum w) F nrow t ic method o nm gv extra = Ok (t', y, x) ->
  time_response expm eigh la spl r (SNum w) F nrow u ic method o nm gv extra = Ok (u', y', x') -> y = y' /\ x = x'.
Proof.
  intros expm eigh la spl r w F nrow t u ic method o nm gv extra y x y' x' t' u' Hm Hlen E0 E1 H H'. unfold time_response in *.
  rewrite (proj2 (String.eqb_neq _ _) Hm) in *. destruct (rotor_lti la spl r w None) as [sys|]; [|discriminate]. cbn [bind] in *.
  apply bind_ok in H as (p & Hp & H). apply bind_ok in H' as (p' & Hp' & H'). injection H as _ <- <-. injection H' as _ <- <-.
  enough (p = p') by (subst; split; reflexivity). unfold lsim in Hp, Hp'. cbv zeta in Hp, Hp'. destruct t as [|t0 ts]; [discriminate|]. destruct u as [|u0 us]; [discriminate|]. cbn [nth] in E0. subst u0.
  apply bind_ok in Hp as (a & Ha & Hp). apply bind_ok in Hp' as (a' & Ha' & Hp'). assert (a' = a) by congruence. subst a'.
  destruct ts as [|t1 ts]; destruct us as [|u1 us]; try discriminate; [congruence|]. cbn [nth] in E1. subst u1.
  assert (Ls : length (t1 :: ts) = length (t1 :: us)) by (cbn in *; lia). rewrite <- Hlen, <- Ls in Hp'.
  destruct (steps_close (t0 :: t1 :: ts) (t1 - t0)); [|discriminate]. destruct (steps_close (t0 :: t1 :: us) (t1 - t0)); [|discriminate]. cbn [negb] in Hp, Hp'. congruence.
Qed.

(** A rotor at rest under the constant forces that hold it there stays there. *)
Theorem C81_equilibrium : forall expm eigh la spl r w F t q0 method o nm gv extra t' yout xout h K,
  linalg_ok la -> expm_ok expm -> lower method <> "newmark"%string -> 0 < h -> equally_spaced h t -> hd 0 t = 0 ->
  rotor_K spl r w [] = Ok K -> (forall k i, (i < r_ndof r)%nat -> F k i = mulv (r_ndof r) K q0 i) ->
  time_response expm eigh la spl r (SNum w) F (length t) t (Some (fun i => if (i <? r_ndof r)%nat then q0 i else 0)) method o nm gv extra = Ok (t', yout, xout) ->
  forall k i, (k < length t)%nat -> (i < r_ndof r)%nat -> nth k yout vzero i = q0 i /\ nth k xout vzero (r_ndof r + i)%nat = 0.
Proof.
  intros expm eigh la spl r w F t q0 method o nm gv extra t' yout xout h K L HE Hm Hh Sp H0 HK HF H k i Hk Hi. set (n := r_ndof r) in *.
  destruct (C81_exact _ _ _ _ _ _ _ _ _ _ _ _ _ _ _ _ _ _ _ L HE Hm H eq_refl Hh Sp) as (M & K' & D & G & HM & HK' & HD & HG & NS & _ & _ & _ & Fs & Ex).
  assert (K' = K) by congruence. subst K'. fold n in Fs, Ex, NS. rewrite H0 in Fs, Ex.
  assert (Z0 : forall A j, mulv n A (fun _ => 0) j = 0) by (intros A j; unfold mulv; apply sumn_0; intros; ring).
  assert (St : forall f a b, (forall s j, (j < n)%nat -> f s j = mulv n K q0 j) -> motion n M (damp_gyro D G w) K f a b (fun _ => q0) (fun _ _ => 0)).
  { intros f a b Hf. split.
    - intros s j _ _. apply (is_derive_const (q0 j : R_NormedModule)).
    - intros s _. exists (fun _ => 0). split; [intros j _; apply (is_derive_const (0 : R_NormedModule))|]. intros j Hj. rewrite !Z0, Hf by auto. ring. }
  assert (F0 : forall j, (j < n)%nat -> nth 0 xout vzero j = q0 j /\ nth 0 xout vzero (n + j)%nat = 0).
  { destruct (motion_exists n M (damp_gyro D G w) K (fun _ _ => 0) 0 q0 (fun _ => 0) NS) as (q & v & Hmo & Hi0); [intros; apply continuous_const|].
    intros j Hj. destruct (Fs q v (Hmo 0)) with (i := j) as [E1 E2]; auto.
    - intros l Hl. destruct (Hi0 l Hl) as [-> ->]. rewrite (proj2 (Nat.ltb_lt l n) Hl). replace (n + l <? n)%nat with false by (symmetry; apply Nat.ltb_ge; lia). split; reflexivity.
    - rewrite E1, E2. apply Hi0; auto. }
  destruct (Ex (interp t h F) (fun _ => q0) (fun _ _ => 0)) with (k := k) (i := i) as (E1 & _ & E2); auto.
  - apply interp_linear; auto.
  - apply St. intros s j Hj. unfold interp. rewrite sumn_0; [rewrite HF by auto; ring|]. intros m _. rewrite !HF by auto. ring.
  - intros j Hj. destruct (F0 j Hj) as [-> ->]. split; reflexivity.
Qed.

(** With an array of speeds, or with method 'newmark' in any case, the response is that of integrate_system: the initial state is ignored, and xout is empty. *)
Theorem C81_newmark : forall expm eigh la spl r speed F nrow t ic method o nm gv extra, (match speed with SArr _ => True | SNum _ => lower method = "newmark"%string end) ->
  time_response expm eigh la spl r speed F nrow t ic method o nm gv extra = bind (integrate_with eigh la spl r o nm gv speed F nrow t extra) (fun yout => Ok (t, yout, [])) /\
  forall ic', time_response expm eigh la spl r speed F nrow t ic method o nm gv extra = time_response expm eigh la spl r speed F nrow t ic' method o nm gv extra.
Proof.
  intros expm eigh la spl r speed F nrow t ic method o nm gv extra H. unfold time_response. destruct speed as [w|l]; [|split; reflexivity].
  rewrite H. cbn [String.eqb]. split; reflexivity.
Qed.
(** With the default method, the keyword arguments of integrate_system (also add_to_RHS and num_modes) have no effect. *)
Theorem C81_keywords_ignored : forall expm eigh eigh' la spl r w F nrow t ic method method' o o' nm nm' gv gv' extra extra', lower method <> "newmark"%string -> lower method' <> "newmark"%string ->
  time_response expm eigh la spl r (SNum w) F nrow t ic method o nm gv extra = time_response expm eigh' la spl r (SNum w) F nrow t ic method' o' nm' gv' extra'.
Proof.
  intros. unfold time_response. rewrite (proj2 (String.eqb_neq (lower method) _)), (proj2 (String.eqb_neq (lower method') _)) by auto. reflexivity.
Qed.
Example C81_method_names : lower "Newmark" = "newmark"%string /\ lower "NEWMARK" = "newmark"%string /\ lower "newmark " <> "newmark"%string.
Proof. repeat split; try reflexivity; try discriminate. Qed.

(** * Instances *)
Lemma spaced_close h t : equally_spaced h t -> forall k, (S k < length t)%nat ->
  Rabs (nth (S k) t 0 - nth k t 0 - (nth 1 t 0 - nth 0 t 0)) <= 1 / 10 ^ 8 + 1 / 10 ^ 5 * Rabs (nth 1 t 0 - nth 0 t 0).
Proof.
  intros Sp k Hk. rewrite (Sp k Hk), (Sp 0%nat) by lia. replace (_ - _ - _) with 0 by ring. rewrite Rabs_R0. pose proof (Rabs_pos (nth 0 t 0 + h - nth 0 t 0)). lra.
Qed.
Lemma ex_succeeds expm eigh spl six w F t ic : t <> [] -> 0 <= hd 0 t ->
  (forall k, (S k < length t)%nat -> Rabs (nth (S k) t 0 - nth k t 0 - (nth 1 t 0 - nth 0 t 0)) <= 1 / 10 ^ 8 + 1 / 10 ^ 5 * Rabs (nth 1 t 0 - nth 0 t 0)) ->
  exists r, rotor_init (exS six) (exD six) (exB six) (exP six) = Ok r /\ regular r /\ passive spl w r /\
  is_ok (time_response expm eigh la0 spl r (SNum w) F (length t) t ic "default" default_opts None nothing None).
Proof.
  intros Ht H0 Hc. destruct (ex_rotor six) as (r & H & X). exists r. pose proof (rotor_facts _ _ _ _ _ H) as Fa. split; [exact H|]. split; [apply X|].
  split; [apply (ex_passive spl w six r X Fa)|].
  apply (C81_succeeds expm eigh la0 spl _ _ _ _ r w F t ic "default" default_opts None nothing None la0_ok H (xf_reg _ _ X) (xf_links _ _ X)); auto; [| |discriminate].
  - rewrite (xf_brg _ _ X). intros e He. cases_in; repeat split; apply ex_coef_psd.
  - intros e He. eapply ex_inertia; eauto.
Qed.
Example C81_expm_exists : expm_ok (fun n X => phi n X 1).
Proof. intros n X. apply expm_exists. Qed.
(** the rotor of the examples, any forces, any initial state, any number of equal steps *)
Example C81_instance : forall expm eigh spl six w F ic h N, 0 < h -> exists r out, let t := map (fun k => INR k * h) (seq 0 (S N)) in
  rotor_init (exS six) (exD six) (exB six) (exP six) = Ok r /\ regular r /\ passive spl w r /\ equally_spaced h t /\ linalg_ok la0 /\ lower "default" <> "newmark"%string /\
  time_response expm eigh la0 spl r (SNum w) F (length t) t ic "default" default_opts None nothing None = Ok out.
Proof.
  intros expm eigh spl six w F ic h N Hh. set (t := map (fun k => INR k * h) (seq 0 (S N))).
  assert (Nt : forall k, (k < length t)%nat -> nth k t 0 = INR k * h).
  { intros k Hk. unfold t in *. rewrite map_length, seq_length in Hk. rewrite (nth_indep _ 0 (INR 0 * h)) by (rewrite map_length, seq_length; auto).
    rewrite (map_nth (fun k => INR k * h)), seq_nth by auto. reflexivity. }
  assert (Sp : equally_spaced h t) by (intros k Hk; rewrite !Nt by lia; rewrite S_INR; ring).
  destruct (ex_succeeds expm eigh spl six w F t ic) as (r & H & Rg & P & [out Ho]).
  - unfold t. cbn. discriminate.
  - unfold t. cbn. lra.
  - apply (spaced_close h); auto.
  - exists r, out. cbv zeta. fold t. repeat (split; [assumption|]). split; [apply la0_ok|]. split; [discriminate|exact Ho].
Qed.
(** Unequal steps of a few nanoseconds are accepted and taken as equal. *)
Example C81_equal_steps_refuted : forall expm eigh spl six w F ic, exists r y x t' u', rotor_init (exS six) (exD six) (exB six) (exP six) = Ok r /\
  time_response expm eigh la0 spl r (SNum w) F 3 [0; 1 / 10 ^ 9; 5 / 10 ^ 9] ic "default" default_opts None nothing None = Ok (t', y, x) /\
  time_response expm eigh la0 spl r (SNum w) F 3 [0; 1 / 10 ^ 9; 2 / 10 ^ 9] ic "default" default_opts None nothing None = Ok (u', y, x).
Proof.
  intros expm eigh spl six w F ic.
  assert (C : forall a, (a = 5 \/ a = 2) -> forall k, (S k < 3)%nat -> Rabs (nth (S k) [0; 1 / 10 ^ 9; a / 10 ^ 9] 0 - nth k [0; 1 / 10 ^ 9; a / 10 ^ 9] 0 - (1 / 10 ^ 9 - 0)) <= 1 / 10 ^ 8 + 1 / 10 ^ 5 * Rabs (1 / 10 ^ 9 - 0)).
  { intros a Ha k Hk. pose proof (Rabs_pos (1 / 10 ^ 9 - 0)). apply Rle_trans with (1 / 10 ^ 8); [|lra].
    destruct k as [|[|k]]; [| |lia]; cbn [nth]; apply Rabs_le; destruct Ha as [-> | ->]; lra. }
  destruct (ex_succeeds expm eigh spl six w F [0; 1 / 10 ^ 9; 5 / 10 ^ 9] ic) as (r & H & _ & _ & [[[t' y] x] Ho]); [discriminate|cbn; lra|apply (C 5); auto|].
  destruct (ex_succeeds expm eigh spl six w F [0; 1 / 10 ^ 9; 2 / 10 ^ 9] ic) as (r' & H' & _ & _ & [[[u' y'] x'] Ho']); [discriminate|cbn; lra|apply (C 2); auto|].
  assert (r' = r) by congruence. subst r'. cbn [length] in Ho, Ho'. exists r, y, x, t', u'. split; [exact H|]. split; [exact Ho|].
  destruct (C81_only_first_step expm eigh la0 spl r w F 3 [0; 1 / 10 ^ 9; 5 / 10 ^ 9] [0; 1 / 10 ^ 9; 2 / 10 ^ 9] ic "default" default_opts None nothing None y x y' x' t' u') as [E1 E2]; auto; [discriminate|].
  rewrite E1, E2. exact Ho'.
Qed.

Print Assumptions C81_exact.
Print Assumptions C81_motion_exists.
Print Assumptions C81_superposition.
Print Assumptions C81_energy.
Print Assumptions C81_succeeds.
Print Assumptions C81_refused.
Print Assumptions C81_only_first_step.
Print Assumptions C81_equilibrium.
Print Assumptions C81_newmark.
Print Assumptions C81_keywords_ignored.
Print Assumptions C81_method_names.
Print Assumptions C81_expm_exists.
Print Assumptions C81_instance.
Print Assumptions C81_equal_steps_refuted.
