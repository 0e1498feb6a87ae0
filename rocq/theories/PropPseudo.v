(** Theorems about the pseudo-modal method and about matrices given to Rotor.integrate_system (C80). *)
From Coq Require Import Reals String List Arith Bool Lia Lra ZArith Classical.
From Verif Require Import PyBase MatBase SpecMat LMat CMat LCMat MShaft MBearing MRotor SpecRotor LAssembly LRotor LRotor2 LRotor3 LRotor5 LRotorInit LRotorInit2 LRotor6 LRotor7 LRotorEx PropRotor
  MDynamics SpecDynamics LDynamics LStability LTransfer LStoch LDynEx LDynEx2 MTime SpecTime LTime LTime2 LTime3 PropTime MPseudo SpecPseudo LPseudo LPseudo2 LSpectral.
Import ListNotations.
Open Scope list_scope.
Open Scope R_scope.

(** Without num_modes, or when it is not positive, nothing changes. *)
Theorem C80_direct : forall eigh la spl r o nm sp F nrow t extra, (forall z, nm = Some z -> (z <= 0)%Z) ->
  integrate_with eigh la spl r o nm nothing sp F nrow t extra = integrate_system la spl r o sp F nrow t extra.
Proof.
  intros eigh la spl r o nm sp F nrow t extra H. unfold integrate_with.
  assert (E : match nm with Some z => if (0 <? z)%Z then bind (pseudo_modal eigh spl r (match sp with SNum s => s | SArr l => suml l / INR (length l) end) (Z.to_nat z)) (fun mV => Ok (fst mV, modal (r_ndof r) (fst mV) (snd mV))) else Ok (r_ndof r, direct) | None => Ok (r_ndof r, direct) end = Ok (r_ndof r, direct)).
  { destruct nm as [z|]; [|reflexivity]. specialize (H z eq_refl). destruct (Z.ltb_spec 0 z); [lia|reflexivity]. }
  rewrite E. cbn [bind fst snd]. rewrite system_direct. unfold integrate_system. destruct (rotor_system spl r sp F nrow t extra) as [func|]; [|reflexivity]. cbn [bind].
  destruct (newmark la (r_ndof r) o func t) as [l|]; [|reflexivity]. cbn [bind direct t_from]. rewrite map_id. reflexivity.
Qed.

(** The basis: as many vectors as requested, at most one per degree of freedom, M-orthonormal, with increasing values of the stiffness of the rotor without
    cross-coupling in the bearings; every direction that is left out is stiffer than all those that are kept. *)
Theorem C80_basis : forall eigh spl shafts disks brgs pms r w k m V, eigh_ok eigh -> rotor_init shafts disks brgs pms = Ok r -> regular r ->
  (forall e, In e (r_elements r) -> good_inertia (el_M spl w) e) ->
  (forall e, In e (r_brg r) -> symmetric (el_size (el_M spl w) e) (el_mat (el_M spl w) e)) ->
  pseudo_modal eigh spl r w k = Ok (m, V) ->
  m = Nat.min k (r_ndof r) /\ exists M A lam, rotor_M spl r (Some w) = Ok M /\ sum_of (direct_K spl w) r (r_elements r) A /\
    eigenpairs (r_ndof r) (lower A) M lam V /\
    ((forall e, In e (r_shaft r) -> no_torque e) -> forall i j, (i < r_ndof r)%nat -> (j < r_ndof r)%nat -> lower A i j = A i j) /\
    (forall y, (m < r_ndof r)%nat -> (forall j, (j < m)%nat -> bform (r_ndof r) M (fun i => V i j) y = 0) ->
       forall j, (j < m)%nat -> lam j * bform (r_ndof r) M y y <= bform (r_ndof r) (lower A) y y).
Proof.
  intros eigh spl shafts disks brgs pms r w k m V HE H Rg Hg Hs P. pose proof (rotor_facts _ _ _ _ _ H) as F. unfold pseudo_modal in P. apply bind_ok in P as (M & HM & P). apply bind_ok in P as (A & HA & P).
  apply bind_ok in P as ([lam V'] & HV & P). injection P as <- <-. cbn [snd].
  assert (PM := rotor_M_pd spl (Some w) r M F Rg Hg HM). assert (SM := proj1 (C19_symmetry spl _ _ _ _ r (Some w) M H) HM Hs).
  assert (EP := HE _ _ _ _ _ SM PM HV). split; [reflexivity|]. exists M, A, lam. split; [exact HM|]. split; [apply aux_sum; [exact F|apply Rg|exact HA]|]. split; [exact EP|]. split.
  - intros NT i j Hi Hj. apply (lower_sym (r_ndof r)); auto. eapply aux_sym; eauto. apply Rg.
  - intros y Lm O j Hj. assert (L := left_out _ _ _ _ _ EP _ y Lm O). assert (W := ep_order _ _ _ _ _ EP j _ (conj (Nat.lt_le_incl _ _ Hj) Lm)).
    destruct (classic_nonzero (r_ndof r) y) as [N|Z].
    + assert (P := PM y N). apply Rmult_le_compat_r with (r := bform (r_ndof r) M y y) in W; lra.
    + rewrite (bform_vext _ M y (fun _ => 0) y (fun _ => 0) Z Z), (bform_vext _ (lower A) y (fun _ => 0) y (fun _ => 0) Z Z). unfold bform. rewrite !sumn_0 by (intros; ring). lra.
Qed.
(** A bearing on a support makes the method fail. *)
Theorem C80_support_raises : forall eigh la spl shafts disks brgs pms r o z gv sp F nrow t extra e, rotor_init shafts disks brgs pms = Ok r -> (0 < z)%Z ->
  In e (r_brg r) -> el_link e <> None -> forall out, integrate_with eigh la spl r o (Some z) gv sp F nrow t extra <> Ok out.
Proof.
  intros eigh la spl shafts disks brgs pms r o z gv sp F nrow t extra e H Hz He N out Ho. unfold integrate_with in Ho. destruct (Z.ltb_spec 0 z); [|lia]. apply bind_ok in Ho as (nT & HT & _).
  apply bind_ok in HT as (mV & HP & _). unfold pseudo_modal in HP. apply bind_ok in HP as (M & _ & HP). apply bind_ok in HP as (A & HA & _).
  apply N. exact (aux_grounded spl r _ A e (rotor_facts _ _ _ _ _ H) HA He).
Qed.
(** More modes than degrees of freedom are the same as all modes. *)
Theorem C80_more_modes : forall eigh la spl r o z gv sp F nrow t extra, (0 < r_ndof r)%nat -> (Z.of_nat (r_ndof r) <= z)%Z ->
  integrate_with eigh la spl r o (Some z) gv sp F nrow t extra = integrate_with eigh la spl r o (Some (Z.of_nat (r_ndof r))) gv sp F nrow t extra.
Proof.
  intros eigh la spl r o z gv sp F nrow t extra H0 H. unfold integrate_with. destruct (Z.ltb_spec 0 z); [|lia]. destruct (Z.ltb_spec 0 (Z.of_nat (r_ndof r))); [|lia].
  assert (E : forall w, pseudo_modal eigh spl r w (Z.to_nat z) = pseudo_modal eigh spl r w (Z.to_nat (Z.of_nat (r_ndof r)))).
  { intros w. unfold pseudo_modal. rewrite Nat2Z.id, Nat.min_id, Nat.min_r by lia. reflexivity. }
  rewrite E. reflexivity.
Qed.

(** ** the motion *)
Lemma lifted_run eigh la spl r o z gv sp F nrow t extra out : (0 < z)%Z -> integrate_with eigh la spl r o (Some z) gv sp F nrow t extra = Ok out ->
  exists m V func l, pseudo_modal eigh spl r (mean_speed sp) (Z.to_nat z) = Ok (m, V) /\ system_in direct gv spl r sp F nrow t extra = Ok func /\ out = map n_y l /\ length l = length t /\
  (forall i, n_y (nth 0 l s_nil) i = 0 /\ n_v (nth 0 l s_nil) i = 0 /\ n_a (nth 0 l s_nil) i = 0) /\
  (forall k, (k < length t)%nat -> spanned (r_ndof r) m V (n_y (nth k l s_nil)) /\ spanned (r_ndof r) m V (n_v (nth k l s_nil)) /\ spanned (r_ndof r) m V (n_a (nth k l s_nil))) /\
  forall k, (S k < length t)%nat -> let dt := nth (S k) t 0 - nth k t 0 in exists Sy, func (S k) dt (nth k l s_nil) = Ok Sy /\
    newmark_formulas (o_gamma o) (o_beta o) dt (nth k l s_nil) (nth (S k) l s_nil) /\
    sumn m (fun j => (sumn (r_ndof r) (fun i => V i j * unbalanced (r_ndof r) Sy (nth (S k) l s_nil) i)) ^ 2) < o_tol o ^ 2.
Proof.
  intros Hz Ho. unfold integrate_with in Ho. destruct (Z.ltb_spec 0 z); [|lia]. apply bind_ok in Ho as (nT & HT & Ho). fold (mean_speed sp) in HT. apply bind_ok in HT as ([m V] & HP & HT). injection HT as <-. cbn [fst snd] in Ho.
  set (T := modal (r_ndof r) m V) in *. assert (LT : linear T) by (split; intros; [apply modal_lin|apply modal_vadd]).
  apply bind_ok in Ho as (func' & Hf' & Ho). apply bind_ok in Ho as (ys & Hy & Ho). injection Ho as <-.
  destruct (proj1 (system_lift T gv spl r sp F nrow t extra LT) func' Hf') as (func & Hf & [Rel _]).
  unfold newmark in Hy. apply bind_ok in Hy as (l' & Hl & E). injection E as <-. destruct (C28_step_equations _ _ _ _ _ _ Hl) as (Hlen & H0 & _ & Hs).
  assert (Nt : forall k, (k < length t)%nat -> nth k (map (lift T) l') s_nil = lift T (nth k l' s_nil)).
  { intros k Hk. rewrite (nth_indep _ s_nil (lift T s_nil)) by (rewrite map_length; lia). apply map_nth. }
  assert (Pt : (0 < length t)%nat) by (unfold newmark_states in Hl; destruct t; [discriminate|simpl; lia]).
  exists m, V, func, (map (lift T) l'). split; [exact HP|]. split; [exact Hf|]. split; [rewrite !map_map; reflexivity|]. split; [rewrite map_length; exact Hlen|]. split.
  { intros i. rewrite Nt by exact Pt. cbn [lift n_y n_v n_a T modal t_from]. assert (Z : forall x, (forall j, x j = 0) -> mulv m V x i = 0) by (intros x Hx; unfold mulv; apply sumn_0; intros; rewrite Hx; ring). repeat split; apply Z; intros j; apply H0. }
  split.
  { intros k Hk. rewrite Nt by exact Hk. repeat split; eexists; intros i Hi; cbn [lift n_y n_v n_a T modal t_from]; reflexivity. }
  intros k Hk dt. destruct (Hs k Hk) as ([[[M' C'] K'] f'] & ES & NF & MW). fold dt in ES, NF. destruct (Rel _ _ _ _ _ _ _ ES) as (M & C & K & f & EF & E1 & E2 & E3 & E4).
  exists (M, C, K, f). rewrite !Nt by lia. split; [exact EF|]. split; [apply lift_formulas; exact NF|].
  rewrite (sumn_ext m _ (fun j => (residual m (M', C', K', f') (nth (S k) l' s_nil) j) ^ 2)); [unfold motion_within in MW; erewrite sumn_ext; [exact MW|]; intros j _; cbv beta; unfold residual; f_equal; ring|]. intros j Hj. rewrite (lift_residual (r_ndof r) m V M C K f M' C' K' f') by assumption. reflexivity.
Qed.
(** The displacements returned belong to a motion inside the span of the basis that starts at rest, follows Newmark's formulas, and leaves of the equation of motion
    of the whole rotor (with cross-coupling, damping, gyroscopic effect, current speed and acceleration) nothing, up to the tolerance, that acts along the basis. *)
Theorem C80_motion : forall eigh la spl shafts disks brgs pms r o z sp F nrow t extra out, eigh_ok eigh -> rotor_init shafts disks brgs pms = Ok r -> regular r ->
  (forall e, In e (r_elements r) -> good_inertia (el_M spl (mean_speed sp)) e) ->
  (forall e, In e (r_brg r) -> symmetric (el_size (el_M spl (mean_speed sp)) e) (el_mat (el_M spl (mean_speed sp)) e)) ->
  (forall e, In e (r_brg r) -> built e) -> (forall k, (k < length t)%nat -> speed_given sp k) -> (0 < z)%Z ->
  integrate_with eigh la spl r o (Some z) nothing sp F nrow t extra = Ok out ->
  let n := r_ndof r in
  exists m V Mw A lam l, m = Nat.min (Z.to_nat z) n /\ rotor_M spl r (Some (mean_speed sp)) = Ok Mw /\ sum_of (direct_K spl (mean_speed sp)) r (r_elements r) A /\
  eigenpairs n (lower A) Mw lam V /\ out = map n_y l /\ length l = length t /\ (forall i, n_y (nth 0 l s_nil) i = 0 /\ n_v (nth 0 l s_nil) i = 0 /\ n_a (nth 0 l s_nil) i = 0) /\
  (forall k, (k < length t)%nat -> spanned n m V (n_y (nth k l s_nil)) /\ spanned n m V (n_v (nth k l s_nil)) /\ spanned n m V (n_a (nth k l s_nil))) /\
  forall k, (S k < length t)%nat -> let dt := nth (S k) t 0 - nth k t 0 in let w := speed_at sp (S k) in let a := accel_at sp t (S k) in
    exists M Cw Kw G K2, rotor_M spl r None = Ok M /\ rotor_C spl r w [] = Ok Cw /\ rotor_K spl r w [] = Ok Kw /\ rotor_G spl r = Ok G /\ rotor_Ksdt r = Ok K2 /\
    newmark_formulas (o_gamma o) (o_beta o) dt (nth k l s_nil) (nth (S k) l s_nil) /\
    let u := unbalanced n (M, fun i j => Cw i j + w * G i j, fun i j => Kw i j + a * K2 i j,
       fun i => F (S k) i + match extra with None => 0 | Some g => g (S k) dt (nth k l s_nil) i end) (nth (S k) l s_nil) in
    forall x, spanned n m V x -> (dot n x u) ^ 2 <= o_tol o ^ 2 * bform n Mw x x.
Proof.
  intros eigh la spl shafts disks brgs pms r o z sp F nrow t extra out HE H Rg Hg Hs Bu Sg Hz Ho n. pose proof (rotor_facts _ _ _ _ _ H) as Fr.
  destruct (lifted_run _ _ _ _ _ _ _ _ _ _ _ _ _ Hz Ho) as (m & V & func & l & HP & Hf & E & Hlen & H0 & Sp & St).
  destruct (C80_basis eigh spl _ _ _ _ r _ _ m V HE H Rg Hg Hs HP) as (Em & Mw & A & lam & HM & HA & EP & _). rewrite system_direct in Hf.
  exists m, V, Mw, A, lam, l. split; [exact Em|]. split; [exact HM|]. split; [exact HA|]. split; [exact EP|]. split; [exact E|]. split; [exact Hlen|]. split; [exact H0|]. split; [exact Sp|].
  intros k Hk dt w a. destruct (St k Hk) as ([[[M C] K] f] & ES & NF & MW). fold dt in ES, NF.
  destruct (C62_system_matrices _ _ _ _ _ _ _ _ _ _ _ _ _ _ _ _ _ _ _ H Bu (Sg (S k) Hk) Hf ES) as (HM0 & Cw & Kw & G & K2 & HC & HK & HG & HK2 & Eq & _ & Hff).
  exists M, Cw, Kw, G, K2. repeat (split; [assumption|]). intros u x Hx. eapply (tested n (lower A) Mw lam V EP m); [rewrite Em; apply Nat.le_min_r| |exact Hx].
  erewrite sumn_ext; [exact MW|]. intros j _. cbv beta. f_equal. apply sumn_ext. intros i _. f_equal. unfold u, unbalanced.
  assert (EC : forall v, mulv n C v i = mulv n (fun i j => Cw i j + w * G i j) v i) by (intros v; unfold mulv; apply sumn_ext; intros j' _; rewrite (proj1 (Eq i j')); reflexivity).
  assert (EK : forall v, mulv n K v i = mulv n (fun i j => Kw i j + a * K2 i j) v i) by (intros v; unfold mulv; apply sumn_ext; intros j' _; rewrite (proj2 (Eq i j')); reflexivity).
  fold n. rewrite Hff, EC, EK. reflexivity.
Qed.
(** With all modes every motion is in the span, so nothing at all is left of the equation of motion. *)
Theorem C80_all_modes : forall eigh spl shafts disks brgs pms r w k m V, eigh_ok eigh -> rotor_init shafts disks brgs pms = Ok r -> regular r ->
  (forall e, In e (r_elements r) -> good_inertia (el_M spl w) e) ->
  (forall e, In e (r_brg r) -> symmetric (el_size (el_M spl w) e) (el_mat (el_M spl w) e)) ->
  pseudo_modal eigh spl r w k = Ok (m, V) -> (r_ndof r <= k)%nat -> forall x, spanned (r_ndof r) m V x.
Proof.
  intros eigh spl shafts disks brgs pms r w k m V HE H Rg Hg Hs HP Hk x. destruct (C80_basis _ _ _ _ _ _ _ _ _ _ _ HE H Rg Hg Hs HP) as (Em & Mw & A & lam & _ & _ & EP & _).
  rewrite Nat.min_r in Em by exact Hk. subst m. destruct (basis_all _ _ _ _ _ EP x) as (q & Q). exists q. exact Q.
Qed.

(** ** matrices given by the caller *)
(** M, C, K, G and Ksdt replace the matrices of the rotor at the mean speed; those that are not given are the rotor's own. *)
Theorem C80_given : forall gv spl r sp F nrow t extra func step dt s M C K f, (match sp with SNum _ => True | SArr l => varies l = false \/ var_brgs r = [] end) ->
  system_in direct gv spl r sp F nrow t extra = Ok func -> func step dt s = Ok (M, C, K, f) ->
  exists M0 C0 K0 G0 Ks0, rotor_M spl r None = Ok M0 /\ rotor_C spl r (mean_speed sp) [] = Ok C0 /\ rotor_K spl r (mean_speed sp) [] = Ok K0 /\ rotor_G spl r = Ok G0 /\ rotor_Ksdt r = Ok Ks0 /\
    M = match g_M gv with Some X => X | None => M0 end /\
    (forall i j, C i j = match g_C gv with Some X => X i j | None => C0 i j end +
       (match sp with SNum w => w | SArr l => if varies l then nth step l 0 else mean_speed sp end) * match g_G gv with Some X => X i j | None => G0 i j end) /\
    (forall i j, K i j = match g_K gv with Some X => X i j | None => K0 i j end + accel_at sp t step * match g_Ksdt gv with Some X => X i j | None => Ks0 i j end) /\
    (step < nrow)%nat /\ forall i, f i = F step i + match extra with None => 0 | Some g => g step dt s i end.
Proof.
  intros gv spl r sp F nrow t extra func step dt s M C K f Hv H Hs. unfold system_in in H. apply bind_ok in H as (M0 & HM & H). apply bind_ok in H as (G0 & HG & H). apply bind_ok in H as (Ks0 & HK2 & H).
  fold (mean_speed sp) in H.
  assert (Fo : forall f', forces_in direct F nrow extra step dt s = Ok f' -> (step < nrow)%nat /\ forall i, f' i = F step i + match extra with None => 0 | Some g => g step dt s i end).
  { unfold forces_in. destruct (Nat.ltb_spec step nrow); [|discriminate]. intros f' [= <-]. split; [assumption|]. intros i. destruct extra as [g|]; cbn; [destruct s; reflexivity|ring]. }
  set (opt3 := bind (bind (rotor_C spl r (mean_speed sp) []) (fun C0 => bind (rotor_K spl r (mean_speed sp) []) (fun K0 => Ok (t_mat direct (default C0 (g_C gv)), t_mat direct (default K0 (g_K gv))))))
    (fun CK => Ok (fun step dt s => bind (forces_in direct F nrow extra step dt s) (fun f => Ok (t_mat direct (default M0 (g_M gv)), madd (fst CK) (mscale (mean_speed sp) (t_mat direct (default G0 (g_G gv)))), snd CK, f))))) in H.
  assert (O3 : opt3 = Ok func -> exists C0 K0, rotor_C spl r (mean_speed sp) [] = Ok C0 /\ rotor_K spl r (mean_speed sp) [] = Ok K0 /\ M = default M0 (g_M gv) /\
    (forall i j, C i j = default C0 (g_C gv) i j + mean_speed sp * default G0 (g_G gv) i j) /\ (forall i j, K i j = default K0 (g_K gv) i j) /\ (step < nrow)%nat /\ forall i, f i = F step i + match extra with None => 0 | Some g => g step dt s i end).
  { intros H3. unfold opt3 in H3. apply bind_ok in H3 as (CK & HCK & H3). apply bind_ok in HCK as (C0 & HC & HCK). apply bind_ok in HCK as (K0 & HK & HCK). injection HCK as <-. injection H3 as <-.
    apply bind_ok in Hs as (f' & Hff & Hs). injection Hs as <- <- <- <-. exists C0, K0. destruct (Fo _ Hff) as [Fa Fb]. repeat (split; [solve [assumption|reflexivity]|]). exact Fb. }
  assert (D : forall (X Y : mat) (o : option mat) i j, default X o i j = match o with Some Z => Z i j | None => X i j end) by (intros X Y o i j; destruct o; reflexivity).
  assert (Fin : opt3 = Ok func -> (match sp with SNum w => w | SArr l => if varies l then nth step l 0 else mean_speed sp end) = mean_speed sp -> accel_at sp t step = 0 ->
    exists M0' C0 K0 G0' Ks0', rotor_M spl r None = Ok M0' /\ rotor_C spl r (mean_speed sp) [] = Ok C0 /\ rotor_K spl r (mean_speed sp) [] = Ok K0 /\ rotor_G spl r = Ok G0' /\ rotor_Ksdt r = Ok Ks0' /\
    M = match g_M gv with Some X => X | None => M0' end /\
    (forall i j, C i j = match g_C gv with Some X => X i j | None => C0 i j end +
       (match sp with SNum w => w | SArr l => if varies l then nth step l 0 else mean_speed sp end) * match g_G gv with Some X => X i j | None => G0' i j end) /\
    (forall i j, K i j = match g_K gv with Some X => X i j | None => K0 i j end + accel_at sp t step * match g_Ksdt gv with Some X => X i j | None => Ks0' i j end) /\
    (step < nrow)%nat /\ forall i, f i = F step i + match extra with None => 0 | Some g => g step dt s i end).
  { intros H3 W A0. destruct (O3 H3) as (C0 & K0 & HC & HK & EM & EC & EK & Fa & Fb). exists M0, C0, K0, G0, Ks0. do 5 (split; [assumption|]).
    split; [rewrite EM; destruct (g_M gv); reflexivity|]. split; [intros i j; rewrite EC, W, !D by exact C0; reflexivity|]. split; [intros i j; rewrite EK, A0, D by exact C0; ring|]. auto. }
  destruct sp as [w|lw]; [apply Fin; [exact H|reflexivity|reflexivity]|].
  cbn [accel_at] in *. destruct (varies lw) eqn:EV; [|apply Fin; [exact H|reflexivity|reflexivity]].
  destruct Hv as [Hv|Hv]; [discriminate|]. rewrite Hv in H. destruct (negb _); [discriminate|]. apply bind_ok in H as (CK & HCK & H). apply bind_ok in HCK as (C0 & HC & HCK). apply bind_ok in HCK as (K0 & HK & HCK). injection HCK as <-. injection H as <-.
  apply bind_ok in Hs as (f' & Hff & Hs). injection Hs as <- <- <- <-. destruct (Fo _ Hff) as [Fa Fb]. exists M0, C0, K0, G0, Ks0. do 5 (split; [assumption|]).
  split; [destruct (g_M gv); reflexivity|]. split; [intros i j; unfold madd, mscale; cbn; rewrite !D by exact C0; reflexivity|]. split; [intros i j; unfold madd, mscale; cbn; rewrite !D by exact C0; reflexivity|]. auto.
Qed.
(** With tabulated bearings and a varying speed, C and K cannot be given. *)
Theorem C80_given_refused : forall eigh la spl r o nm gv l F nrow t extra out, varies l = true -> var_brgs r <> [] -> (g_C gv <> None \/ g_K gv <> None) ->
  integrate_with eigh la spl r o nm gv (SArr l) F nrow t extra <> Ok out.
Proof.
  intros eigh la spl r o nm gv l F nrow t extra out Hv Hb Hg H. unfold integrate_with in H. apply bind_ok in H as (nT & _ & H). apply bind_ok in H as (func & Hf & _).
  unfold system_in in Hf. apply bind_ok in Hf as (M0 & _ & Hf). apply bind_ok in Hf as (G0 & _ & Hf). apply bind_ok in Hf as (K0 & _ & Hf). rewrite Hv in Hf. destruct (negb _); [discriminate|].
  destruct (var_brgs r); [congruence|]. destruct (g_C gv), (g_K gv); try discriminate. destruct Hg; congruence.
Qed.

(** ** success *)
(** The eigenvectors exist: for every symmetric A and positive definite B some function with the contract of eigh returns a result. *)
Theorem C80_eigenvectors_exist : forall n A B, symmetric n B -> pos_def n B -> exists eigh w V, eigh_ok eigh /\ eigh n A B = Ok (w, V).
Proof.
  intros n A B SB PB. assert (SL : symmetric n (lower A)) by (intros i j Hi Hj; unfold lower; rewrite Nat.max_comm, Nat.min_comm; reflexivity).
  destruct (spectral n (lower A) B SL SB PB) as (w & V & EP).
  set (same := fun X Y : mat => forallb (fun i => forallb (fun j => if Req_EM_T (X i j) (Y i j) then true else false) (seq 0 n)) (seq 0 n)).
  assert (Sm : forall X Y, same X Y = true <-> forall i j, (i < n)%nat -> (j < n)%nat -> X i j = Y i j).
  { intros X Y. unfold same. rewrite forallb_forall. split.
    - intros Hx i j Hi Hj. specialize (Hx i ltac:(apply in_seq; lia)). rewrite forallb_forall in Hx. specialize (Hx j ltac:(apply in_seq; lia)). destruct (Req_EM_T _ _); [assumption|discriminate].
    - intros Hx i Hi. apply forallb_forall. intros j Hj. apply in_seq in Hi. apply in_seq in Hj. destruct (Req_EM_T _ _) as [|N]; [reflexivity|]. exfalso. apply N, Hx; lia. }
  exists (fun n' A' B' => if (Nat.eqb n' n && same A' A && same B' B)%bool then Ok (w, V) else Err LinAlgError), w, V. split.
  - intros n' A' B' w' V' _ _ H. destruct (Nat.eqb_spec n' n) as [-> |]; [|discriminate]. destruct (same A' A) eqn:EA; [|discriminate]. destruct (same B' B) eqn:EB; [|discriminate]. injection H as <- <-.
    rewrite Sm in EA, EB. destruct EP as [O N G]. constructor; [exact O| |].
    + intros i j Hi Hj. rewrite <- (N i j Hi Hj). apply bform_ext. exact EB.
    + intros i j Hi Hj. assert (E1 : mulv n (lower A') (fun k => V k j) i = mulv n (lower A) (fun k => V k j) i) by (apply sumn_ext; intros k Hk; f_equal; unfold lower; apply EA; lia).
      assert (E2 : mulv n B' (fun k => V k j) i = mulv n B (fun k => V k j) i) by (apply sumn_ext; intros k Hk; f_equal; apply EB; assumption). rewrite E1, E2. apply G; assumption.
  - rewrite Nat.eqb_refl. rewrite (proj2 (Sm A A)), (proj2 (Sm B B)) by reflexivity. reflexivity.
Qed.
(** A passive rotor whose bearings have no supports: once eigh has returned, the integration succeeds at constant speed, with any number of modes. *)
Theorem C80_succeeds : forall eigh la spl shafts disks brgs pms r o z w F nrow t mV, eigh_ok eigh ->
  linalg_ok la -> rotor_init shafts disks brgs pms = Ok r -> regular r -> links_ok r -> passive spl w r ->
  (forall e, In e (r_elements r) -> good_inertia (el_M spl 0) e) ->
  (forall e, In e (r_brg r) -> is_ok (el_M spl 0 e) /\ is_ok (el_K spl w e) /\ is_ok (el_C spl w e) /\ is_ok (el_K spl 0 e)) ->
  0 < o_tol o -> 0 <= o_gamma o -> 0 <= o_beta o -> t <> [] -> (length t <= nrow)%nat -> (forall k, (S k < length t)%nat -> nth k t 0 <= nth (S k) t 0) ->
  (0 < z)%Z -> pseudo_modal eigh spl r w (Z.to_nat z) = Ok mV ->
  exists out, integrate_with eigh la spl r o (Some z) nothing (SNum w) F nrow t None = Ok out /\ length out = length t.
Proof.
  intros eigh la spl shafts disks brgs pms r o z w F nrow t [m V] HE L H Rg Hl P Hg Hb Ht Hga Hbe Hne Hrow Hinc Hz HP. pose proof (rotor_facts _ _ _ _ _ H) as Fr.
  destruct (C80_basis eigh spl _ _ _ _ r _ _ m V HE H Rg (pas_inertia _ _ _ P) (pas_M _ _ _ P) HP) as (Em & Mw & A & lam & _ & _ & EP & _).
  assert (Hm : (m <= r_ndof r)%nat) by (rewrite Em; apply Nat.le_min_r). clear Em.
  destruct (C19_matrices_exist spl _ _ _ _ r None [] H Rg Hl) as (EM & EK & EC & EG).
  destruct EM as [M HM]; [intros e He; apply Hb; auto|]. destruct (EK w) as [K HK]; [intros e He; apply Hb; auto|].
  destruct (EC w) as [D HD]; [intros e He; apply Hb; auto|]. destruct EG as [G HG]; [intros e He; apply Hb; auto|].
  destruct (Ksdt_exists spl r w K Fr HK) as [K2 HK2].
  pose proof (rotor_M_pd spl None r M Fr Rg Hg HM) as PM.
  destruct (rotor_C_sympsd _ _ _ _ Fr (reg_pm_dof _ Rg) P HD) as [_ PC].
  destruct (rotor_K_sympsd _ _ _ _ Fr (reg_pm_dof _ Rg) (pas_load _ _ _ P) (fun e He => proj2 (pas_K _ _ _ P e He)) HK) as [PK _].
  destruct (C08_rotor_gyroscopic_no_work spl _ _ _ _ r G H HG) as [_ GW].
  set (T := modal (r_ndof r) m V).
  assert (PM' : pos_def m (t_mat T M)) by (intros q Q; unfold T; rewrite reduced_form; apply PM; eapply reduced_nonzero; eauto).
  assert (PK' : pos_semidef m (t_mat T K)) by (intros q; unfold T; rewrite reduced_form; apply PK).
  assert (PC' : pos_semidef m (madd (t_mat T D) (mscale w (t_mat T G)))).
  { intros q. assert (E : bform m (madd (t_mat T D) (mscale w (t_mat T G))) q q = bform m (t_mat T D) q q + w * bform m (t_mat T G) q q) by (rewrite <- bform_scal; apply bform_plus).
    rewrite E. unfold T. rewrite !reduced_form, GW. specialize (PC (mulv m V q)). lra. }
  unfold integrate_with. destruct (Z.ltb_spec 0 z); [|lia]. rewrite HP. cbn [bind fst snd]. fold T. unfold system_in. rewrite HM. cbn [bind]. rewrite HG. cbn [bind]. rewrite HK2. cbn [bind]. rewrite HD. cbn [bind]. rewrite HK. cbn [bind nothing g_M g_C g_K g_G g_Ksdt default fst snd].
  set (func := fun (step : nat) (dt : R) (s : nstate) => bind (forces_in T F nrow None step dt s) (fun f => Ok (t_mat T M, madd (t_mat T D) (mscale w (t_mat T G)), t_mat T K, f))).
  destruct (C28_linear_solution la m o func t L Ht Hne) as (l & Hs & _).
  - intros k dt s Hk. unfold func, forces_in. destruct (Nat.ltb_spec k nrow); [|lia]. eexists. reflexivity.
  - intros k s M' C' K' F' Hk dt E. unfold func, forces_in in E. destruct (Nat.ltb_spec (S k) nrow); [|discriminate]. injection E as <- <- <- <-.
    apply C28_solvable; auto. apply Rmult_le_pos; auto. unfold dt. specialize (Hinc k Hk). lra.
  - destruct (C28_step_equations _ _ _ _ _ _ Hs) as (Hlen & _ & Hn & _). rewrite Hn. cbn [bind]. eexists. split; [reflexivity|]. rewrite !map_length. exact Hlen.
Qed.
(** The modes of a rotor whose bearings have no supports exist. *)
Theorem C80_modes_exist : forall spl shafts disks brgs pms r w, rotor_init shafts disks brgs pms = Ok r -> regular r -> links_ok r ->
  (forall e, In e (r_elements r) -> good_inertia (el_M spl w) e) ->
  (forall e, In e (r_brg r) -> symmetric (el_size (el_M spl w) e) (el_mat (el_M spl w) e) /\ is_ok (el_M spl w e) /\ is_ok (el_K spl w e) /\ el_link e = None) ->
  exists eigh, eigh_ok eigh /\ forall k, is_ok (pseudo_modal eigh spl r w k).
Proof.
  intros spl shafts disks brgs pms r w H Rg Hl Hg Hb. pose proof (rotor_facts _ _ _ _ _ H) as F. destruct (C19_matrices_exist spl _ _ _ _ r (Some w) [] H Rg Hl) as (EM & EK & _).
  destruct EM as [M HM]; [intros e He; apply Hb; auto|]. specialize (EK w (fun e He => proj1 (proj2 (proj2 (Hb e He))))). destruct (aux_exists spl r w F EK (fun e He => proj2 (proj2 (proj2 (Hb e He))))) as [A HA].
  assert (PM := rotor_M_pd spl (Some w) r M F Rg Hg HM). assert (SM := proj1 (C19_symmetry spl _ _ _ _ r (Some w) M H) HM (fun e He => proj1 (Hb e He))).
  destruct (C80_eigenvectors_exist (r_ndof r) A M SM PM) as (eigh & lam & V & HE & EV). exists eigh. split; [exact HE|]. intros k. unfold pseudo_modal. rewrite HM. cbn [bind]. rewrite HA. cbn [bind]. rewrite EV. eexists. reflexivity.
Qed.
(** Instances: two shaft elements, a disk and two bearings on the ground; and the example rotor with a support. *)
Definition psB six : list rbrg := [ex_brg six 0 None "b0"; ex_brg six 2 None "b1"].
Lemma ps_wf six : well_formed (exS six) (exD six) (psB six) [] 1.
Proof.
  constructor.
  - exists ["s0"; "s1"; "d0"; "b0"; "b1"]%string. split.
    + unfold given_tags, psB. cbn [map exS exD app]. rewrite !brg_tag_ex. reflexivity.
    + apply tags_unique_iff. reflexivity.
  - exists six. repeat split; unfold exS, exD, psB; intros x Hx; cases_in; try reflexivity; apply brg_six_ex.
  - unfold exS. intros s Hs; cases_in; [exists 0%nat|exists 1%nat]; split; try reflexivity; lia.
  - unfold exS. intros [|[|k]] Hk; [|exists (ex_rshaft six 1 "s1")|lia]; [exists (ex_rshaft six 0 "s0")|]; split; simpl; auto.
  - unfold exS. intros s s' Hs Hs'; cases_in; reflexivity.
  - unfold exS. intros s Hs; cases_in; simpl; lra.
  - unfold exD. intros s Hs; cases_in; simpl; lia.
  - unfold psB. cbn [map]. rewrite !brg_n_ex. repeat (constructor; [simpl; lia|]). constructor.
  - unfold psB. intros b Hb; cases_in; rewrite brg_n_ex; left; lia.
  - unfold psB. intros b m Hb; cases_in; rewrite brg_link_ex; intros [=].
  - intros p [].
Qed.
Lemma ps_built six i n l tg : built (EBrg i (ex_brg six n l tg)).
Proof.
  set (a := mkBArgs n (CScal 1000) (CScal 1) None None (CScal 0) (CScal 0) None (CScal 0) (CScal 0) None (CScal 0) (CScal 0) None (Some tg) l 1 "#355d7a").
  assert (X : bearing_init a = Ok (ex_bearing n l tg)) by (cbv -[IZR]; f_equal; f_equal; apply FunctionalExtensionality.functional_extensionality; intros []; reflexivity).
  destruct six; simpl; [|exists a; exact X]. exists a, (CScal 500), (CScal 0), (CScal 0). unfold bearing6_init. rewrite X. reflexivity.
Qed.
Example C80_instance : forall six spl w F z, (0 < z)%Z -> exists eigh r out, eigh_ok eigh /\ rotor_init (exS six) (exD six) (psB six) [] = Ok r /\ regular r /\ links_ok r /\ passive spl w r /\
  (forall e, In e (r_shaft r) -> no_torque e) /\ (forall e, In e (r_brg r) -> built e) /\
  integrate_with eigh la0 spl r default_opts (Some z) nothing (SNum w) F 3 [0; 1; 3] None = Ok out /\ length out = 3%nat.
Proof.
  intros six spl w F z Hz. destruct (init_ok _ _ _ _ _ (ps_wf six)) as (r & H & E & Hl & Hc & _). pose proof (rotor_facts _ _ _ _ _ H) as Fr.
  destruct (rotor_init_lists _ _ _ _ _ H) as (Es & Ed & Eb & Ep).
  assert (Es' : r_shaft r = [EShaft six 0 "s0" (ex_shaft 0 "s0"); EShaft six 1 "s1" (ex_shaft 1 "s1")]) by (rewrite Es; reflexivity).
  assert (Ed' : r_disk r = [EDisk six "d0" (rd_d (ex_disk six 1 "d0"))]) by (rewrite Ed; reflexivity).
  assert (Eb' : r_brg r = [EBrg "b0" (ex_brg six 0 None "b0"); EBrg "b1" (ex_brg six 2 None "b1")]) by (rewrite Eb; destruct six; reflexivity).
  assert (Ep' : r_pm r = []) by (rewrite Ep; reflexivity).
  assert (Rg : regular r).
  { constructor; auto; [rewrite Ep'; constructor|]. intros x t p Hin. rewrite Ep' in Hin. destruct Hin. }
  assert (Lk : links_ok r) by (intros e m Hin Hm; rewrite Eb' in Hin; cases_in; destruct six; discriminate Hm).
  assert (In0 : forall w e, In e (r_elements r) -> good_inertia (el_M spl w) e).
  { intros w0 e He. unfold r_elements in He. rewrite Es', Ed', Eb', Ep' in He. simpl in He. repeat (destruct He as [<-|He]); try destruct He; try (apply ex_brg_psd).
    - simpl. eexists. split; [apply ex_shaft_init|apply ex_sargs_good].
    - simpl. eexists. split; [apply ex_shaft_init|apply ex_sargs_good].
    - simpl. lra. }
  assert (Pa : passive spl w r).
  { split.
    - apply In0.
    - rewrite Es'. intros e He; cases_in; simpl; eexists; (split; [apply ex_shaft_init|]); (split; [apply ex_sargs_good|]); simpl; repeat split; lra.
    - intros six' n t s He. rewrite Es' in He. simpl in He. destruct He as [X|[X|[]]]; injection X as <- <- <- <-; cbn; lra.
    - rewrite Eb'. intros e He. cases_in; apply ex_brg_syms.
    - rewrite Eb'. intros e He. cases_in; (split; [apply ex_brg_syms|apply ex_brg_psd]).
    - rewrite Eb'. intros e He. cases_in; (split; [apply ex_brg_syms|]); intros x; rewrite ex_brg_C; cbv zeta;
        match goal with |- 0 <= ?a ^ 2 + ?b ^ 2 => pose proof (pow2_ge_0 a); pose proof (pow2_ge_0 b); lra end. }
  destruct (C80_modes_exist spl _ _ _ _ r w H Rg Lk (In0 w)) as (eigh & HE & HP).
  { rewrite Eb'. intros e He. cases_in; (split; [apply ex_brg_syms|]); (split; [apply ex_coef_psd|]); (split; [apply ex_coef_psd|]); destruct six; reflexivity. }
  destruct (HP (Z.to_nat z)) as [mV HmV].
  destruct (C80_succeeds eigh la0 spl _ _ _ _ r default_opts z w F 3 [0; 1; 3] mV HE la0_ok H Rg Lk Pa (In0 0)) as (out & Ho & Lo); auto.
  - rewrite Eb'. intros e He. cases_in; repeat split; apply ex_coef_psd.
  - simpl. lra.
  - simpl. lra.
  - simpl. lra.
  - discriminate.
  - intros [|[|k]] Hk; simpl in *; try lra. lia.
  - exists eigh, r, out. repeat (split; [assumption|]). split; [rewrite Es'; intros e He; cases_in; reflexivity|]. split; [|split; assumption].
    rewrite Eb'. intros e He. cases_in;    apply ps_built.
Qed.
Example C80_support_instance : forall six, exists r e, rotor_init (exS six) (exD six) (exB six) (exP six) = Ok r /\ In e (r_brg r) /\ el_link e <> None.
Proof.
  intros six. destruct (ex_rotor six) as (r & H & X). exists r, (EBrg "b0" (ex_brg six 0 (Some 3%nat) "b0")). split; [exact H|]. split; [rewrite (xf_brg _ _ X); simpl; auto|]. destruct six; discriminate.
Qed.
(** C and K given to a rotor with a tabulated bearing that speeds up *)
Example C80_given_instance : exists r, rotor_init (exS false) [] tabB [] = Ok r /\ varies [0; 10; 30] = true /\ var_brgs r <> [].
Proof. destruct (C62_varying_instance (fun _ _ _ => 0) (fun _ _ => 0)) as (r & func & M & C & K & f & H & _ & V & B & _). exists r. auto. Qed.

Print Assumptions C80_direct.
Print Assumptions C80_basis.
Print Assumptions C80_motion.
Print Assumptions C80_all_modes.
Print Assumptions C80_given.
Print Assumptions C80_succeeds.
Print Assumptions C80_modes_exist.
Print Assumptions C80_instance.
