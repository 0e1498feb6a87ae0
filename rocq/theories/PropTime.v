(** Theorems about integration in time (C28-C30, C62). *)
From Coq Require Import Reals String List Arith Bool Lia Lra ZArith FunctionalExtensionality.
From Coquelicot Require Import Coquelicot.
From Verif Require Import PyBase MatBase SpecMat LMat CMat LCMat MShaft SpecShaft MDisk MBearing MRotor SpecRotor LAssembly LRotor LRotor2 LRotor3 LRotor5 LRotorInit LRotorInit2 LRotor6 LRotorEx PropRotor
  MDynamics SpecDynamics LDynamics LStability LTransfer LDynEx LDynEx2 MTime SpecTime LTime LTime2 LTime3.
Import ListNotations.
Open Scope list_scope.
Open Scope R_scope.

(** * C28: Newmark's method *)
(** One state for every instant, the first at rest; every later one is related to the one before by Newmark's formulas and
    satisfies the equation of motion of that step up to the tolerance. *)
Theorem C28_step_equations : forall la n o func t l, newmark_states la n o func t = Ok l ->
  length l = length t /\ (forall i, n_y (nth 0 l s_nil) i = 0 /\ n_v (nth 0 l s_nil) i = 0 /\ n_a (nth 0 l s_nil) i = 0) /\
  newmark la n o func t = Ok (map n_y l) /\
  forall k, (S k < length t)%nat -> let dt := nth (S k) t 0 - nth k t 0 in
    exists Sy, func (S k) dt (nth k l s_nil) = Ok Sy /\ newmark_formulas (o_gamma o) (o_beta o) dt (nth k l s_nil) (nth (S k) l s_nil) /\
      motion_within n (o_tol o) Sy (nth (S k) l s_nil).
Proof.
  intros la n o func t l H. assert (H' := H). unfold newmark_states in H. destruct t as [|t0 ts]; [discriminate|]. apply bind_ok in H as (l' & Hl & H). injection H as <-.
  destruct (loop_spec _ _ _ _ _ _ _ _ _ Hl) as [E1 E2]. split; [simpl; lia|]. split; [intros i; repeat split; reflexivity|]. split; [unfold newmark; rewrite H'; reflexivity|].
  intros k Hk. simpl in Hk. destruct (E2 k ltac:(lia)) as (Sy & H1 & H2 & H3). exists Sy. auto.
Qed.
(** If the matrix M + gamma dt C + beta dt^2 K is nonsingular at every step the run succeeds, and every new state satisfies the
    equation of motion exactly, unless the state extrapolated with zero acceleration already meets the tolerance. *)
Theorem C28_linear_solution : forall la n o func t, linalg_ok la -> 0 < o_tol o -> t <> [] ->
  (forall k dt s, (0 < k < length t)%nat -> is_ok (func k dt s)) ->
  (forall k s M C K F, (S k < length t)%nat -> let dt := nth (S k) t 0 - nth k t 0 in func (S k) dt s = Ok (M, C, K, F) ->
     nonsingular n (fun i j => M i j + C i j * o_gamma o * dt + K i j * o_beta o * dt ^ 2)) ->
  exists l, newmark_states la n o func t = Ok l /\
  forall k, (S k < length t)%nat -> let dt := nth (S k) t 0 - nth k t 0 in
    exists Sy, func (S k) dt (nth k l s_nil) = Ok Sy /\
      (motion_exact n Sy (nth (S k) l s_nil) \/ (forall i, n_a (nth (S k) l s_nil) i = 0) /\ motion_within n (o_tol o) Sy (nth (S k) l s_nil)).
Proof.
  intros la n o func t L Ht Hne Hf Hn. destruct t as [|t0 ts]; [congruence|].
  destruct (loop_exact la n o func ts L Ht 1%nat t0 at_rest) as (l & Hl & Hk).
  - intros k dt s Hk. apply Hf. simpl. lia.
  - intros k s Sy Hk dt HS. destruct Sy as [[[M C] K] F]. exact (Hn k s M C K F ltac:(simpl; lia) HS).
  - exists (at_rest :: l). split; [unfold newmark_states; rewrite Hl; reflexivity|]. intros k Hlt dt. simpl in Hlt.
    destruct (Hk k ltac:(lia)) as (Sy & HS & Hc). exists Sy. split; [exact HS|]. destruct Hc as [Hc|[Hc Hn']]; [left; exact Hc|right].
    split; [intros i; cbn [nth]; rewrite Hc; reflexivity|apply residual_within, Hn'].
Qed.
(** It is nonsingular when M is positive definite and C, K are positive semidefinite. *)
Theorem C28_solvable : forall n gamma beta dt M C K, pos_def n M -> pos_semidef n C -> pos_semidef n K -> 0 <= gamma * dt -> 0 <= beta ->
  nonsingular n (fun i j => M i j + C i j * gamma * dt + K i j * beta * dt ^ 2).
Proof. intros n g b dt M C K PM PC PK Hg Hb. exact (pos_def_nonsingular n _ (iteration_pd n (mkOpts g b 0) dt M C K (fun _ => 0) PM PC PK Hg Hb)). Qed.
(** A force whose norm stays below the tolerance produces no motion at all; in particular no force, no motion. *)
Theorem C28_small_forces_ignored : forall la n o func t, t <> [] -> 0 < o_tol o ->
  (forall k dt s, (0 < k < length t)%nat -> exists M C K F, func k dt s = Ok (M, C, K, F) /\ sumn n (fun i => F i ^ 2) < o_tol o ^ 2) ->
  exists l, newmark la n o func t = Ok l /\ length l = length t /\ forall y, In y l -> forall i, y i = 0.
Proof.
  intros la n o func t Hne Ht Hf. destruct t as [|t0 ts]; [congruence|].
  destruct (loop_small la n o func ts 1%nat t0 at_rest) as (l & Hl & Hz).
  - intros i. repeat split; reflexivity.
  - intros k dt s Hk. destruct (Hf k dt s ltac:(simpl; lia)) as (M & C & K & F & E & HF). exists M, C, K, F. split; [exact E|]. apply norm_lt_iff; auto.
  - exists (map n_y (at_rest :: l)). unfold newmark, newmark_states. rewrite Hl. cbn [bind]. split; [reflexivity|].
    destruct (loop_spec _ _ _ _ _ _ _ _ _ Hl) as [El _]. split; [rewrite map_length; simpl; lia|].
    intros y Hy i. apply in_map_iff in Hy as (s & <- & [<-|Hs]); [reflexivity|apply (Hz s Hs i)].
Qed.
(** The matrices and the force of the first instant have no influence on the result. *)
Theorem C28_first_instant_unused : forall la n o f g t, (forall k dt s, (0 < k)%nat -> f k dt s = g k dt s) ->
  newmark_states la n o f t = newmark_states la n o g t.
Proof. intros la n o f g t H. destruct t as [|t0 ts]; [reflexivity|]. unfold newmark_states. rewrite (loop_ext la n o f g); [reflexivity|]. intros; apply H; lia. Qed.
(** So the initial acceleration (zero) does not balance the initial force: a free unit mass under the constant force c
    moves c dt^2 / 4 in the first step instead of c dt^2 / 2. *)
Theorem C28_constant_acceleration_refuted : forall la c dt, linalg_ok la -> 0 < dt -> 1 <= c ->
  let func := fun (k : nat) (dt : R) (s : nstate) => Ok (fun _ _ => 1, fun _ _ => 0, fun _ _ => 0, fun _ => c) : res sysm in
  exists y0 y1, newmark la 1 default_opts func [0; dt] = Ok [y0; y1] /\ y0 0%nat = 0 /\ y1 0%nat = c * dt ^ 2 / 4 /\ y1 0%nat <> c * dt ^ 2 / 2.
Proof.
  intros la c dt L Hdt Hc func.
  destruct (C28_linear_solution la 1 default_opts func [0; dt] L) as (l & Hl & Hk).
  - simpl. lra.
  - discriminate.
  - intros. eexists. reflexivity.
  - intros k s M C K F Hk d E. injection E as <- <- <- <-. apply C28_solvable.
    + intros x (i & Hi & Hx). replace i with 0%nat in Hx by lia. unfold bform; simpl. assert (0 < x 0%nat * x 0%nat) by nra. nra.
    + intros x. unfold bform; simpl. lra.
    + intros x. unfold bform; simpl. lra.
    + simpl. unfold d. destruct k as [|k]; simpl; [lra|]. simpl in Hk. lia.
    + simpl. lra.
  - destruct (C28_step_equations _ _ _ _ _ _ Hl) as (Hlen & H0 & Hy & Hs).
    destruct (Hk 0%nat ltac:(simpl; lia)) as (Sy & ES & Hx). destruct (Hs 0%nat ltac:(simpl; lia)) as (Sy' & ES' & HF & _).
    destruct l as [|s0 [|s1 [|s2 l]]]; try discriminate Hlen. cbn [nth] in *. cbv zeta in *. injection ES as <-. clear ES' Sy'.
    assert (Ha : n_a s1 0%nat = c).
    { destruct Hx as [Hx|[Ha Hx]].
      - specialize (Hx 0%nat ltac:(lia)). unfold mulv in Hx. simpl in Hx. lra.
      - exfalso. unfold motion_within, mulv in Hx. simpl in Hx. rewrite Ha in Hx.
        replace ((c - (0 + 1 * 0 + (0 + 0 * n_v s1 0%nat) + (0 + 0 * n_y s1 0%nat))) * ((c - (0 + 1 * 0 + (0 + 0 * n_v s1 0%nat) + (0 + 0 * n_y s1 0%nat))) * 1)) with (c * c) in Hx by ring.
        assert (1 / (10 * (10 * (10 * (10 * (10 * (10 * 1)))))) <= 1) by lra. nra. }
    exists (n_y s0), (n_y s1). split; [exact Hy|]. split; [apply H0|].
    destruct (HF 0%nat) as [_ Hyy]. destruct (H0 0%nat) as (Z1 & Z2 & Z3). rewrite Z1, Z2, Z3, Ha in Hyy. simpl in Hyy.
    assert (E : n_y s1 0%nat = c * dt ^ 2 / 4) by (rewrite Hyy; simpl; field). split; [exact E|]. rewrite E.
    assert (0 < dt * dt) by nra. simpl. intros X. nra.
Qed.
(** Energy balance of one step of the default method (gamma 1/2, beta 1/4) for constant symmetric M and K. *)
Theorem C28_energy_balance : forall n M C K dt s0 s1 F0 F1, symmetric n M -> symmetric n K -> newmark_formulas (1 / 2) (1 / 4) dt s0 s1 ->
  motion_exact n (M, C, K, F0) s0 -> motion_exact n (M, C, K, F1) s1 ->
  let w i := n_v s0 i + n_v s1 i in
  energy n M K s1 - energy n M K s0 = dt / 4 * sumn n (fun i => w i * (F0 i + F1 i)) - dt / 4 * bform n C w w.
Proof.
  intros n M C K dt s0 s1 F0 F1 SM SK NF H0 H1 w. pose proof (energy_step n M C K dt s0 s1 SM SK NF) as E. cbv zeta in E. rewrite E. f_equal. f_equal. unfold dot.
  apply sumn_ext. intros i Hi. unfold w. rewrite (H0 i Hi), (H1 i Hi). reflexivity.
Qed.
(** Without force and with a damping matrix that dissipates, the energy never grows. *)
Theorem C28_energy_decay : forall n M C K dt s0 s1, symmetric n M -> symmetric n K -> pos_semidef n C -> 0 <= dt -> newmark_formulas (1 / 2) (1 / 4) dt s0 s1 ->
  motion_exact n (M, C, K, fun _ => 0) s0 -> motion_exact n (M, C, K, fun _ => 0) s1 -> energy n M K s1 <= energy n M K s0.
Proof.
  intros n M C K dt s0 s1 SM SK PC Hdt NF H0 H1. pose proof (C28_energy_balance n M C K dt s0 s1 _ _ SM SK NF H0 H1) as E. cbv zeta in E.
  rewrite sumn_0 in E by (intros; ring). specialize (PC (fun i => n_v s0 i + n_v s1 i)).
  assert (0 <= dt / 4 * bform n C (fun i => n_v s0 i + n_v s1 i) (fun i => n_v s0 i + n_v s1 i)) by (apply Rmult_le_pos; [lra|exact PC]). lra.
Qed.

(** * C62: the system Rotor.integrate_system solves *)
(** At every step: M(0), C(w) + w G and K(w) + a K2 with the instantaneous speed w and angular acceleration a (in particular,
    tabulated bearings follow the speed), and the row of the force array of that step. *)
Theorem C62_system_matrices : forall spl shafts disks brgs pms r sp F nrow t extra func step dt s M C K f,
  rotor_init shafts disks brgs pms = Ok r -> (forall e, In e (r_brg r) -> built e) -> speed_given sp step ->
  rotor_system spl r sp F nrow t extra = Ok func -> func step dt s = Ok (M, C, K, f) ->
  let w := speed_at sp step in let a := accel_at sp t step in
  rotor_M spl r None = Ok M /\
  exists Cw Kw G K2, rotor_C spl r w [] = Ok Cw /\ rotor_K spl r w [] = Ok Kw /\ rotor_G spl r = Ok G /\ rotor_Ksdt r = Ok K2 /\
    (forall i j, C i j = Cw i j + w * G i j /\ K i j = Kw i j + a * K2 i j) /\
    (step < nrow)%nat /\ (forall i, f i = F step i + match extra with None => 0 | Some g => g step dt s i end).
Proof. intros until 1. intros Bu Sg H1 H2. eapply rotor_system_spec; eauto. eapply rotor_facts; eauto. Qed.
(** The displacements returned: for some velocities and accelerations they follow Newmark's formulas from rest and satisfy the
    equation of motion with those matrices at every instant after the first. *)
Theorem C62_integrate_system : forall la spl shafts disks brgs pms r o sp F nrow t extra out,
  rotor_init shafts disks brgs pms = Ok r -> (forall e, In e (r_brg r) -> built e) -> (forall k, (k < length t)%nat -> speed_given sp k) ->
  integrate_system la spl r o sp F nrow t extra = Ok out ->
  exists l, out = map n_y l /\ length l = length t /\ (forall i, n_y (nth 0 l s_nil) i = 0 /\ n_v (nth 0 l s_nil) i = 0 /\ n_a (nth 0 l s_nil) i = 0) /\
  forall k, (S k < length t)%nat -> let dt := nth (S k) t 0 - nth k t 0 in let w := speed_at sp (S k) in let a := accel_at sp t (S k) in
    exists M Cw Kw G K2, rotor_M spl r None = Ok M /\ rotor_C spl r w [] = Ok Cw /\ rotor_K spl r w [] = Ok Kw /\ rotor_G spl r = Ok G /\ rotor_Ksdt r = Ok K2 /\
    newmark_formulas (o_gamma o) (o_beta o) dt (nth k l s_nil) (nth (S k) l s_nil) /\
    motion_within (r_ndof r) (o_tol o)
      (M, fun i j => Cw i j + w * G i j, fun i j => Kw i j + a * K2 i j,
       fun i => F (S k) i + match extra with None => 0 | Some g => g (S k) dt (nth k l s_nil) i end) (nth (S k) l s_nil).
Proof.
  intros la spl shafts disks brgs pms r o sp F nrow t extra out H Bu Sg Ho. unfold integrate_system in Ho. apply bind_ok in Ho as (func & Hf & Ho).
  assert (Ho' := Ho). unfold newmark in Ho'. apply bind_ok in Ho' as (l & Hl & E). injection E as <-. exists l. split; [reflexivity|].
  destruct (C28_step_equations _ _ _ _ _ _ Hl) as (Hlen & H0 & _ & Hs). split; [exact Hlen|]. split; [exact H0|]. intros k Hk dt w a.
  destruct (Hs k Hk) as ([[[M C] K] f] & ES & NF & MW). fold dt in ES, NF.
  destruct (C62_system_matrices _ _ _ _ _ _ _ _ _ _ _ _ _ _ _ _ _ _ _ H Bu (Sg (S k) Hk) Hf ES) as (HM & Cw & Kw & G & K2 & HC & HK & HG & HK2 & Eq & _ & Hff).
  exists M, Cw, Kw, G, K2. repeat (split; [assumption|]). unfold motion_within in *. erewrite sumn_ext; [exact MW|]. intros i _. cbv beta.
  assert (EC : forall v, mulv (r_ndof r) C v i = mulv (r_ndof r) (fun i j => Cw i j + w * G i j) v i) by (intros v; unfold mulv; apply sumn_ext; intros j _; rewrite (proj1 (Eq i j)); reflexivity).
  assert (EK : forall v, mulv (r_ndof r) K v i = mulv (r_ndof r) (fun i j => Kw i j + a * K2 i j) v i) by (intros v; unfold mulv; apply sumn_ext; intros j _; rewrite (proj2 (Eq i j)); reflexivity).
  rewrite Hff, EC, EK. reflexivity.
Qed.
(** It succeeds for a passive rotor at constant speed. *)
Theorem C62_integration_succeeds : forall la spl shafts disks brgs pms r o w F nrow t,
  linalg_ok la -> rotor_init shafts disks brgs pms = Ok r -> regular r -> links_ok r -> passive spl w r ->
  (forall e, In e (r_elements r) -> good_inertia (el_M spl 0) e) ->
  (forall e, In e (r_brg r) -> is_ok (el_M spl 0 e) /\ is_ok (el_K spl w e) /\ is_ok (el_C spl w e) /\ is_ok (el_K spl 0 e)) ->
  0 < o_tol o -> 0 <= o_gamma o -> 0 <= o_beta o -> t <> [] -> (length t <= nrow)%nat -> (forall k, (S k < length t)%nat -> nth k t 0 <= nth (S k) t 0) ->
  exists out, integrate_system la spl r o (SNum w) F nrow t None = Ok out /\ length out = length t.
Proof.
  intros la spl shafts disks brgs pms r o w F nrow t L H Rg Hl P Hg Hb Ht Hga Hbe Hne Hrow Hinc. pose proof (rotor_facts _ _ _ _ _ H) as Fr.
  destruct (C19_matrices_exist spl _ _ _ _ r None [] H Rg Hl) as (EM & EK & EC & EG).
  destruct EM as [M HM]; [intros e He; apply Hb; auto|]. destruct (EK w) as [K HK]; [intros e He; apply Hb; auto|].
  destruct (EC w) as [D HD]; [intros e He; apply Hb; auto|]. destruct EG as [G HG]; [intros e He; apply Hb; auto|].
  destruct (Ksdt_exists spl r w K Fr HK) as [K2 HK2].
  pose proof (rotor_M_pd spl None r M Fr Rg Hg HM) as PM.
  destruct (rotor_C_sympsd _ _ _ _ Fr (reg_pm_dof _ Rg) P HD) as [_ PC].
  destruct (rotor_K_sympsd _ _ _ _ Fr (reg_pm_dof _ Rg) (pas_load _ _ _ P) (fun e He => proj2 (pas_K _ _ _ P e He)) HK) as [PK _].
  destruct (C08_rotor_gyroscopic_no_work spl _ _ _ _ r G H HG) as [_ GW].
  assert (PCG : pos_semidef (r_ndof r) (madd D (mscale w G))).
  { intros x. assert (E : bform (r_ndof r) (madd D (mscale w G)) x x = bform (r_ndof r) D x x + w * bform (r_ndof r) G x x).
    { unfold bform. rewrite <- sumn_scal, <- sumn_plus. apply sumn_ext. intros i _. transitivity (x i * (sumn (r_ndof r) (fun j => D i j * x j) + w * sumn (r_ndof r) (fun j => G i j * x j))); [|ring].
      f_equal. rewrite <- sumn_scal, <- sumn_plus. apply sumn_ext. intros; unfold madd, mscale; ring. }
    rewrite E, GW. specialize (PC x). lra. }
  unfold integrate_system, rotor_system. rewrite HM. cbn [bind]. rewrite HG. cbn [bind]. rewrite HK2. cbn [bind]. rewrite HD. cbn [bind]. rewrite HK. cbn [bind].
  set (func := fun (step : nat) (dt : R) (s : nstate) => bind (forces_at F nrow None step dt s) (fun f => Ok (M, madd D (mscale w G), K, f))).
  destruct (C28_linear_solution la (r_ndof r) o func t L Ht Hne) as (l & Hs & _).
  - intros k dt s Hk. unfold func, forces_at. destruct (Nat.ltb_spec k nrow); [|lia]. eexists. reflexivity.
  - intros k s M' C' K' F' Hk dt E. unfold func, forces_at in E. destruct (Nat.ltb_spec (S k) nrow); [|discriminate]. injection E as <- <- <- <-.
    apply C28_solvable; auto. apply Rmult_le_pos; auto. unfold dt. specialize (Hinc k Hk). lra.
  - destruct (C28_step_equations _ _ _ _ _ _ Hs) as (Hlen & _ & Hn & _). exists (map n_y l). split; [exact Hn|]. rewrite map_length. exact Hlen.
Qed.
(** The acceleration is exact for a linear speed profile, and inside the time range for a quadratic one. *)
Theorem C62_acceleration : forall l t a b c, length l = length t -> (2 <= length l)%nat -> (forall i j, (i < j < length t)%nat -> nth i t 0 < nth j t 0) ->
  ((forall i, (i < length l)%nat -> nth i l 0 = a + b * nth i t 0) -> forall k, (k < length l)%nat -> gradient l t k = b) /\
  ((forall i, (i < length l)%nat -> nth i l 0 = a + b * nth i t 0 + c * nth i t 0 ^ 2) -> forall k, (0 < k)%nat -> (S k < length l)%nat -> gradient l t k = b + 2 * c * nth k t 0).
Proof.
  intros l t a b c E H2 Inc. split; intros Hf k; [intros Hk; eapply gradient_linear; eauto|intros H0 Hk; eapply gradient_quadratic; eauto].
Qed.
(** Instances: the example rotor at constant speed, and a rotor with a tabulated bearing that speeds up. *)
Lemma ex_built six e : In e [EBrg "b0" (ex_brg six 0 (Some 3%nat) "b0"); EBrg "b1" (ex_brg six 2 None "b1"); EBrg "b2" (ex_brg six 3 None "b2")] -> built e.
Proof.
  set (ar n l tg := mkBArgs n (CScal 1000) (CScal 1) None None (CScal 0) (CScal 0) None (CScal 0) (CScal 0) None (CScal 0) (CScal 0) None (Some tg) l 1 "#355d7a").
  assert (X : forall n l tg, bearing_init (ar n l tg) = Ok (ex_bearing n l tg)).
  { intros n l tg. cbv -[IZR]. f_equal. f_equal. apply functional_extensionality. intros []; reflexivity. }
  assert (Y : forall i n l tg, built (EBrg i (ex_brg six n l tg))).
  { intros i n l tg. destruct six; simpl.
    - exists (ar n l tg), (CScal 500), (CScal 0), (CScal 0). unfold bearing6_init. rewrite X. reflexivity.
    - exists (ar n l tg). apply X. }
  intros He. cases_in; apply Y.
Qed.
Example C62_constant_instance : forall six spl w F, exists r out, rotor_init (exS six) (exD six) (exB six) (exP six) = Ok r /\ (forall e, In e (r_brg r) -> built e) /\
  linalg_ok la0 /\ integrate_system la0 spl r default_opts (SNum w) F 3 [0; 1; 3] None = Ok out /\ length out = 3%nat.
Proof.
  intros six spl w F. destruct (ex_rotor six) as (r & H & X). exists r. pose proof (rotor_facts _ _ _ _ _ H) as Fr.
  destruct (C62_integration_succeeds la0 spl _ _ _ _ r default_opts w F 3 [0; 1; 3] la0_ok H (xf_reg _ _ X) (xf_links _ _ X)) as (out & Ho & El).
  - apply (ex_passive spl w six r X Fr).
  - intros e He. eapply ex_inertia; eauto.
  - rewrite (xf_brg _ _ X). intros e He. cases_in; repeat split; apply ex_coef_psd.
  - simpl. lra.
  - simpl. lra.
  - simpl. lra.
  - discriminate.
  - simpl. lia.
  - intros [|[|k]] Hk; simpl in *; try lra. lia.
  - exists out. split; [exact H|]. split; [rewrite (xf_brg _ _ X); apply ex_built|]. split; [exact la0_ok|]. split; [exact Ho|exact El].
Qed.
Definition tab_args : bargs := mkBArgs 0 (CArr [1000; 2000]) (CScal 1) None None (CScal 0) (CScal 0) None (CScal 0) (CScal 0) None (CScal 0) (CScal 0) (Some [0; 100]) (Some "b0"%string) None 1 "#355d7a".
Definition tab_brg : bearing := match bearing_init tab_args with Ok b => b | Err _ => ex_bearing 0 None "b0" end.
Definition tabB : list rbrg := [RB4 false tab_brg; ex_brg false 2 None "b1"].
Lemma tab_wf : well_formed (exS false) [] tabB [] 1.
Proof.
  constructor.
  - exists ["s0"; "s1"; "b0"; "b1"]%string. split; [reflexivity|]. apply tags_unique_iff. reflexivity.
  - exists false. repeat split; unfold exS, tabB; intros x Hx; cases_in; reflexivity.
  - unfold exS. intros s Hs; cases_in; [exists 0%nat|exists 1%nat]; split; try reflexivity; lia.
  - unfold exS. intros [|[|k]] Hk; [|exists (ex_rshaft false 1 "s1")|lia]; [exists (ex_rshaft false 0 "s0")|]; split; simpl; auto.
  - unfold exS. intros s s' Hs Hs'; cases_in; reflexivity.
  - unfold exS. intros s Hs; cases_in; simpl; lra.
  - intros d [].
  - unfold tabB. cbn. repeat (constructor; [simpl; lia|]). constructor.
  - unfold tabB. intros b Hb; cases_in; left; [replace (brg_n (RB4 false tab_brg)) with 0%nat by reflexivity|rewrite brg_n_ex]; lia.
  - unfold tabB. intros b m Hb; cases_in; intros [=].
  - intros p [].
Qed.
Example C62_varying_instance : forall spl F, exists r func M C K f, rotor_init (exS false) [] tabB [] = Ok r /\ (forall e, In e (r_brg r) -> built e) /\
  varies [0; 10; 30] = true /\ var_brgs r <> [] /\
  rotor_system spl r (SArr [0; 10; 30]) F 3 [0; 1; 3] None = Ok func /\ func 1%nat 1 at_rest = Ok (M, C, K, f).
Proof.
  intros spl F. destruct (init_ok _ _ _ _ _ tab_wf) as (r & H & E & Hl & Hc & _). exists r.
  pose proof (rotor_facts _ _ _ _ _ H) as Fr.
  destruct (rotor_init_lists _ _ _ _ _ H) as (Es & Ed & Eb & Ep).
  assert (Eb' : r_brg r = [EBrg "b0" (RB4 false tab_brg); EBrg "b1" (ex_brg false 2 None "b1")]) by (rewrite Eb; reflexivity).
  assert (Es' : r_shaft r = [EShaft false 0 "s0" (ex_shaft 0 "s0"); EShaft false 1 "s1" (ex_shaft 1 "s1")]) by (rewrite Es; reflexivity).
  assert (Hnd : r_nd r = 4%nat) by (apply (el_fam_nd r false 0 "s0" (ex_shaft 0 "s0")); [exact Fr|rewrite Es'; left; reflexivity]).
  assert (V : varies [0; 10; 30] = true).
  { unfold varies. cbn [hd existsb]. destruct (Req_EM_T 0 0); [|lra]. destruct (Req_EM_T 10 0); [lra|reflexivity]. }
  assert (Vb : var_brgs r = [EBrg "b0" (RB4 false tab_brg)]) by (unfold var_brgs; rewrite Eb'; reflexivity).
  assert (Hn := rf_ndof _ Fr). rewrite Hnd, E, Ep in Hn. cbn in Hn.
  unfold rotor_system, rotor_M, rotor_G, rotor_Ksdt, rotor_C, rotor_K, assemble_C_K. rewrite V, Vb, Hn, Hnd. cbn [Nat.eqb length negb].
  unfold r_dofs, r_elements. rewrite Hnd, E, Es', Eb', Ed, Ep.
  eexists _, _, _, _, _. split; [exact H|]. split.
  - rewrite <- Eb'. rewrite Eb'. intros e He. cases_in; [exists tab_args; reflexivity|]. apply (ex_built false). simpl. auto.
  - split; [reflexivity|]. split; [discriminate|]. split; reflexivity.
Qed.

(** * C29: the Runge-Kutta integrators of the fault module *)
(** One column for the initial state and one for every whole step in the interval; every column is one step of the method from the
    column before; the integrator object is left at the last instant reached. *)
Theorem C29_columns : forall f x0 y0 x h, 0 < h -> x0 <= x ->
  (exists l x', rk4 f x0 y0 24 x h = Ok (l, x') /\ exists n, length l = S n /\ INR n * h <= x - x0 < (INR n + 1) * h /\ x' = x0 + INR n * h /\ nth 0 l vzero = y0 /\
     forall k, (k < n)%nat -> nth (S k) l vzero = rk4_step f h (x0 + INR k * h) (nth k l vzero) (S k)) /\
  (exists l x', rk45 f x0 y0 24 x h = Ok (l, x') /\ exists n, length l = S n /\ INR n * h <= x - x0 < (INR n + 1) * h /\ x' = x0 + INR n * h /\ nth 0 l vzero = y0 /\
     forall k, (k < n)%nat -> nth (S k) l vzero = rk45_step f h (x0 + INR k * h) (nth k l vzero) (S k)).
Proof.
  intros f x0 y0 x h Hh Hx.
  assert (X : forall step, exists l x', integrate step x0 y0 24 x h = Ok (l, x') /\ exists n, length l = S n /\ INR n * h <= x - x0 < (INR n + 1) * h /\ x' = x0 + INR n * h /\ nth 0 l vzero = y0 /\
     forall k, (k < n)%nat -> nth (S k) l vzero = step (x0 + INR k * h) (nth k l vzero) (S k)).
  { intros step. destruct (integrate_runs step x0 y0 x h Hh Hx) as [[l x'] H]. exists l, x'. split; [exact H|].
    destruct (integrate_ok _ _ _ _ _ _ _ Hh Hx H) as (n & E1 & E2 & E3 & E4 & E5). exists n. split; [exact E1|]. split; [|auto].
    destruct E2 as [A B]. assert (Q : x - x0 = (x - x0) / h * h) by (field; lra). rewrite Q. split; [apply Rmult_le_compat_r; lra|apply Rmult_lt_compat_r; lra]. }
  split; apply X.
Qed.
(** Linear systems y' = A y: the fourth-order Taylor polynomial of the exponential, and for the Cash-Karp method the fifth-order one
    with the additional term (h A)^6 / 800. *)
Theorem C29_linear_systems : forall n A h x y i j,
  rk4_step (fun _ y _ => mulv n A y) h x y i j =
    y j + h * mpow n A 1 y j + h ^ 2 / 2 * mpow n A 2 y j + h ^ 3 / 6 * mpow n A 3 y j + h ^ 4 / 24 * mpow n A 4 y j /\
  rk45_step (fun _ y _ => mulv n A y) h x y i j =
    y j + h * mpow n A 1 y j + h ^ 2 / 2 * mpow n A 2 y j + h ^ 3 / 6 * mpow n A 3 y j + h ^ 4 / 24 * mpow n A 4 y j + h ^ 5 / 120 * mpow n A 5 y j + h ^ 6 / 800 * mpow n A 6 y j.
Proof. intros. split; [apply rk4_linear|apply rk45_linear]. Qed.
(** Right-hand sides that are polynomials of the time, of degree 3 (rk4) or 4 (rk45), are integrated exactly over the whole run. *)
Theorem C29_exact_for_polynomials : forall f x0 y0 x h j c0 c1 c2 c3 c4, 0 < h -> x0 <= x ->
  (forall u z k, f u z k j = c0 + c1 * u + c2 * u ^ 2 + c3 * u ^ 3 + c4 * u ^ 4) ->
  (c4 = 0 -> forall l x', rk4 f x0 y0 24 x h = Ok (l, x') -> forall k, (k < length l)%nat ->
     is_RInt (fun u => c0 + c1 * u + c2 * u ^ 2 + c3 * u ^ 3) x0 (x0 + INR k * h) (nth k l vzero j - y0 j)) /\
  (forall l x', rk45 f x0 y0 24 x h = Ok (l, x') -> forall k, (k < length l)%nat ->
     is_RInt (fun u => c0 + c1 * u + c2 * u ^ 2 + c3 * u ^ 3 + c4 * u ^ 4) x0 (x0 + INR k * h) (nth k l vzero j - y0 j)).
Proof.
  intros f x0 y0 x h j c0 c1 c2 c3 c4 Hh Hx Hf.
  set (P a b := c0 * (b - a) + c1 * (b ^ 2 - a ^ 2) / 2 + c2 * (b ^ 3 - a ^ 3) / 3 + c3 * (b ^ 4 - a ^ 4) / 4 + c4 * (b ^ 5 - a ^ 5) / 5).
  assert (X : forall step l x', (forall x y i, step x y i j = y j + P x (x + h)) -> integrate step x0 y0 24 x h = Ok (l, x') ->
    forall k, (k < length l)%nat -> nth k l vzero j - y0 j = P x0 (x0 + INR k * h)).
  { intros step l x' Hs H. destruct (integrate_ok _ _ _ _ _ _ _ Hh Hx H) as (n & E1 & _ & _ & E4 & E5). rewrite E1. induction k as [|k IH]; intros Hk.
    - rewrite E4. unfold P. simpl. field.
    - rewrite E5, Hs by lia. specialize (IH ltac:(lia)). rewrite S_INR. replace (nth k l vzero j) with (y0 j + P x0 (x0 + INR k * h)) by lra. unfold P. field. }
  split.
  - intros E0 l x' H k Hk. assert (Hs : forall x y i, rk4_step f h x y i j = y j + P x (x + h)).
    { intros. rewrite (rk4_quad c0 c1 c2 c3); [unfold P; rewrite E0; field|]. intros. rewrite Hf, E0. ring. }
    rewrite (X _ l x' Hs H k Hk). subst c4.
    apply (is_RInt_ext (fun u => c0 + c1 * u + c2 * u ^ 2 + c3 * u ^ 3 + 0 * u ^ 4)); [intros; simpl; ring|]. apply poly_integral.
  - intros l x' H k Hk. assert (Hs : forall x y i, rk45_step f h x y i j = y j + P x (x + h)) by (intros; rewrite (rk45_quad c0 c1 c2 c3 c4); auto).
    rewrite (X _ l x' Hs H k Hk). apply poly_integral.
Qed.
(** A second run of the same integrator object starts where the first one ended and returns only its initial state. *)
Theorem C29_second_run : forall step x0 y0 x h l x', 0 < h -> x0 <= x -> integrate step x0 y0 24 x h = Ok (l, x') -> integrate step x' y0 24 x h = Ok ([y0], x').
Proof.
  intros step x0 y0 x h l x' Hh Hx H. destruct (integrate_ok _ _ _ _ _ _ _ Hh Hx H) as (n & _ & E2 & E3 & _).
  assert (T : trunc ((x - x') / h) = 0%Z).
  { apply trunc_unique; [lia|]. assert (Q : (x - x') / h = (x - x0) / h - INR n) by (rewrite E3; field; lra). rewrite Q. lra. }
  unfold integrate. destruct (Req_EM_T h 0); [lra|]. rewrite T. reflexivity.
Qed.
Example C29_instance : exists l x', rk4 (fun u _ _ _ => u) 0 vzero 24 1 (1 / 4) = Ok (l, x') /\ length l = 5%nat /\ nth 4 l vzero 0%nat = 1 / 2.
Proof.
  destruct (C29_columns (fun u _ _ _ => u) 0 vzero 1 (1 / 4)) as [(l & x' & H & n & E1 & E2 & _) _]; [lra|lra|].
  exists l, x'. split; [exact H|]. assert (n = 4%nat) by (apply INR_eq; destruct E2; assert (3 < INR n) by lra; assert (INR n <= 4) by lra;
    replace (INR 4) with 4 by (simpl; ring); destruct (Nat.le_gt_cases n 3) as [L|L]; [apply le_INR in L; simpl in L; lra|]; apply Rle_antisym; [lra|]; apply le_INR in L; simpl in L; lra).
  subst n. split; [exact E1|].
  destruct (C29_exact_for_polynomials (fun u _ _ _ => u) 0 vzero 1 (1 / 4) 0%nat 0 1 0 0 0) as [X _]; [lra|lra|intros; ring|].
  specialize (X eq_refl l x' H 4%nat ltac:(lia)). unfold vzero at 2 in X. rewrite Rminus_0_r in X.
  pose proof (poly_integral 0 1 0 0 0 0 (0 + INR 4 * (1 / 4))) as Y.
  apply (is_RInt_ext (fun u => 0 + 1 * u + 0 * u ^ 2 + 0 * u ^ 3) (fun u => 0 + 1 * u + 0 * u ^ 2 + 0 * u ^ 3 + 0 * u ^ 4)) in X; [|intros; simpl; ring].
  pose proof (is_RInt_unique _ _ _ _ X) as E. rewrite (is_RInt_unique _ _ _ _ Y) in E. rewrite <- E. simpl. field.
Qed.

(** * C30: time stamps and samples of the fault analyses *)
Theorem C30_time_stamps : forall step y0 tI tF dt l x', 0 < dt -> tI <= tF -> integrate step tI y0 24 tF dt = Ok (l, x') ->
  (length (t_eval tI tF dt) = length l <-> exists n, tF - tI = INR n * dt) /\
  (length (t_eval tI tF dt) = length l \/ length (t_eval tI tF dt) = S (length l)) /\
  forall k, (k < length (t_eval tI tF dt))%nat -> nth k (t_eval tI tF dt) 0 = tI + INR k * dt.
Proof.
  intros step y0 tI tF dt l x' Hd Ht H. destruct (integrate_ok _ _ _ _ _ _ _ Hd Ht H) as (n & E1 & E2 & _).
  set (q := (tF - tI) / dt) in *. assert (Eq : tF - tI = q * dt) by (unfold q; field; lra).
  assert (C := ceil_bounds ((tF + dt - tI) / dt)). replace ((tF + dt - tI) / dt) with (q + 1) in C by (unfold q; field; lra).
  assert (Len : length (t_eval tI tF dt) = Z.to_nat (ceil (q + 1))) by (unfold t_eval, arange; rewrite map_length, seq_length; f_equal; f_equal; unfold q; field; lra).
  assert (B : (Z.of_nat n + 1 <= ceil (q + 1) <= Z.of_nat n + 2)%Z).
  { split; [apply Z.lt_succ_r; apply lt_IZR; rewrite succ_IZR, plus_IZR, <- INR_IZR_INZ; lra|]. apply Z.lt_succ_r. apply lt_IZR. rewrite succ_IZR, plus_IZR, <- INR_IZR_INZ. lra. }
  rewrite Len, E1. split; [|split; [lia|]].
  - split.
    + intros E. exists n. rewrite Eq. f_equal. assert (Ec : ceil (q + 1) = (Z.of_nat n + 1)%Z) by lia. rewrite Ec, plus_IZR, <- INR_IZR_INZ in C. lra.
    + intros [m Em]. assert (q = INR m) by (apply (Rmult_eq_reg_r dt); lra).
      assert (m = n) by (destruct E2; apply le_antisym; [apply Nat.lt_succ_r; apply INR_lt; rewrite S_INR; lra|apply INR_le; lra]). subst m.
      assert (ceil (q + 1) < Z.of_nat n + 2)%Z by (apply lt_IZR; rewrite plus_IZR, <- INR_IZR_INZ; lra). lia.
  - intros k Hk. rewrite <- Len in Hk. unfold t_eval, arange in *. rewrite map_length, seq_length in Hk.
    rewrite (nth_indep _ 0 (tI + INR 0 * dt)) by (rewrite map_length, seq_length; auto). rewrite (map_nth (fun k => tI + INR k * dt)), seq_nth by auto. reflexivity.
Qed.
Theorem C30_same_length_refuted : forall step y0, exists tI tF dt l x', 0 < dt /\ tI <= tF /\ integrate step tI y0 24 tF dt = Ok (l, x') /\ length (t_eval tI tF dt) <> length l.
Proof.
  intros step y0. exists 0, 1, (2 / 5). destruct (integrate_runs step 0 y0 1 (2 / 5)) as [[l x'] H]; [lra|lra|]. exists l, x'. repeat (split; [first [lra|exact H]|]).
  intros E. apply (C30_time_stamps step y0 0 1 (2 / 5) l x' ltac:(lra) ltac:(lra) H) in E as [n En].
  destruct (Nat.le_gt_cases n 2) as [L|L]; apply le_INR in L; simpl in L; lra.
Qed.

Print Assumptions C28_step_equations.
Print Assumptions C28_linear_solution.
Print Assumptions C28_solvable.
Print Assumptions C28_small_forces_ignored.
Print Assumptions C28_first_instant_unused.
Print Assumptions C28_constant_acceleration_refuted.
Print Assumptions C28_energy_balance.
Print Assumptions C28_energy_decay.
Print Assumptions C62_system_matrices.
Print Assumptions C62_integrate_system.
Print Assumptions C62_integration_succeeds.
Print Assumptions C62_acceleration.
Print Assumptions C29_columns.
Print Assumptions C29_linear_systems.
Print Assumptions C29_exact_for_polynomials.
Print Assumptions C29_second_run.
Print Assumptions C30_time_stamps.
Print Assumptions C30_same_length_refuted.
