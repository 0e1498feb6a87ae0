(** The state space form of a rotor; energy of free motions. *)
From Coq Require Import Reals String List Arith Bool Lia Lra.
From Coquelicot Require Import Coquelicot.
From Verif Require Import PyBase MatBase SpecMat LMat CMat LCMat MRotor MDynamics SpecDynamics LDynamics LTransfer MTime MPseudo MLsim SpecLsim LExpm LExpm2 LLsim LLsim2 LStoch.
Import ListNotations.
Open Scope R_scope.

Lemma lti_facts la spl r w sys : linalg_ok la -> rotor_lti la spl r w None = Ok sys ->
  exists M K D G X Y MI, rotor_M spl r (Some w) = Ok M /\ rotor_K spl r w [] = Ok K /\ rotor_C spl r w [] = Ok D /\ rotor_G spl r = Ok G /\
    nonsingular (r_ndof r) M /\ meq (r_ndof r) (mulm (r_ndof r) (mscale (-1) M) X) K /\
    meq (r_ndof r) (mulm (r_ndof r) (mscale (-1) M) Y) (damp_gyro D G w) /\ meq (r_ndof r) (mulm (r_ndof r) M MI) mid /\
    lti_A sys = block (r_ndof r) mzero mid X Y /\ lti_B sys = input_matrix (r_ndof r) MI /\
    (forall x i, (i < r_ndof r)%nat -> mulv (2 * r_ndof r) (lti_C sys) x i = x i) /\ (forall x i, mulv (r_ndof r) (lti_D sys) x i = 0).
Proof.
  intros L H. unfold rotor_lti in H. cbn [default] in H. set (n := r_ndof r) in *.
  apply bind_ok in H as (A & HA & H). apply bind_ok in H as (M' & HM' & H).
  apply bind_ok in H as (MI & HMI & H). apply bind_ok in H as (K0 & _ & H). apply bind_ok in H as (MK & _ & H).
  apply bind_ok in H as (D0 & _ & H). apply bind_ok in H as (MD & _ & H). injection H as <-.
  apply (rotor_A_inv la spl r w (Some w) false A L) in HA. destruct HA as (M & K & D & G & X & Y & HM & HK & HD & HG & NM & HX & HY & ->). cbn [default] in *.
  assert (M' = M) by congruence. subst M'. apply (solve_sol la L) in HMI as [_ HMI].
  exists M, K, D, G, X, Y, MI. do 8 (split; [assumption|]). split; [reflexivity|]. split; [reflexivity|]. cbn [lti_C lti_D]. split.
  - intros x i Hi. unfold mulv. rewrite (sumn_single (2 * n) _ i); [| lia |].
    + rewrite (proj2 (Nat.ltb_lt i n) Hi). unfold msub, mid. rewrite Nat.eqb_refl. unfold mulm, mzero. rewrite sumn_0 by (intros; ring). ring.
    + intros j Hj Hne. unfold msub, mulm, mid. destruct (j <? n)%nat; [rewrite (proj2 (Nat.eqb_neq i j)) by auto|]; unfold mzero; rewrite sumn_0 by (intros; ring); ring.
  - intros x i. unfold mulv. apply sumn_0. intros j _. unfold mulm, mzero. rewrite sumn_0 by (intros; ring). ring.
Qed.
Lemma double n : (2 * n = n + n)%nat.
Proof. lia. Qed.

Lemma last_nth0 (l : list R) : last l 0 = nth (length l - 1) l 0.
Proof. induction l as [|x l IH]; [reflexivity|]. destruct l as [|y l]; [reflexivity|]. change (last (x :: y :: l) 0) with (last (y :: l) 0). rewrite IH. cbn [length]. rewrite !Nat.sub_succ, !Nat.sub_0_r. reflexivity. Qed.
(** ** energy *)
Lemma derive_bform n A (x : R -> vec) (d : vec) s : symmetric n A -> (forall i, (i < n)%nat -> is_derive (fun y => x y i) s (d i)) ->
  is_derive (fun y => bform n A (x y) (x y)) s (2 * dot n (x s) (mulv n A d)).
Proof.
  intros SA H. apply (derive_val _ s (sumn n (fun i => sumn n (fun j => A i j * (d i * x s j + x s i * d j))))).
  - transitivity (bform n A d (x s) + bform n A (x s) d).
    + unfold bform. rewrite <- sumn_plus. apply sumn_ext. intros i _. rewrite <- !sumn_scal, <- sumn_plus. apply sumn_ext. intros; ring.
    + rewrite (bform_sym n A d (x s) SA), bform_mulv. ring.
  - apply (is_derive_ext (fun y => sumn n (fun i => sumn n (fun j => A i j * (x y i * x y j))))).
    { intros y. unfold bform. apply sumn_ext; intros i _. rewrite <- sumn_scal. apply sumn_ext; intros; ring. }
    apply (is_derive_sumn n (fun i y => sumn n (fun j => A i j * (x y i * x y j))) (fun i => sumn n (fun j => A i j * (d i * x s j + x s i * d j))) s). intros i Hi.
    apply (is_derive_sumn n (fun j y => A i j * (x y i * x y j)) (fun j => A i j * (d i * x s j + x s i * d j)) s). intros j Hj.
    apply (is_derive_scal (fun y => x y i * x y j) s (A i j) (d i * x s j + x s i * d j)).
    apply (is_derive_mult_R (fun y => x y i) (fun y => x y j) s (d i) (d j)); auto.
Qed.
Lemma decreasing (f : R -> R) (d : R -> R) a b : a <= b -> (forall s, a <= s <= b -> is_derive f s (d s)) -> (forall s, a <= s <= b -> d s <= 0) -> f b <= f a.
Proof.
  intros [Hab| ->] Hd Hn; [|lra]. destruct (MVT_gen f a b d) as (c & Hc & E).
  - intros x Hx. rewrite Rmin_left, Rmax_right in Hx by lra. apply Hd. lra.
  - intros x Hx. rewrite Rmin_left, Rmax_right in Hx by lra. apply continuity_pt_filterlim. apply (ex_derive_continuous f x). exists (d x). apply Hd. lra.
  - rewrite Rmin_left, Rmax_right in Hc by lra. specialize (Hn c Hc). assert (d c * (b - a) <= 0) by (apply Rmult_le_0_r; lra). lra.
Qed.
Lemma dot_add3 n (x a b c : vec) : (forall i, (i < n)%nat -> a i + b i + c i = 0) -> dot n x a = - dot n x b - dot n x c.
Proof. intros H. unfold dot. unfold Rminus. rewrite <- !sumn_opp, <- sumn_plus. apply sumn_ext. intros i Hi. specialize (H i Hi). replace (a i) with (- b i - c i) by lra. ring. Qed.
Lemma free_energy n M D K a b q v : symmetric n M -> symmetric n K -> pos_semidef n D -> motion n M D K (fun _ _ => 0) a b q v -> a <= b ->
  bform n M (v b) (v b) + bform n K (q b) (q b) <= bform n M (v a) (v a) + bform n K (q a) (q a).
Proof.
  intros SM SK PD [H1 H2] Hab.
  apply (decreasing (fun s => bform n M (v s) (v s) + bform n K (q s) (q s)) (fun s => - 2 * bform n D (v s) (v s)) a b Hab).
  - intros s Hs. destruct (H2 s Hs) as (acc & Ha & He).
    apply (derive_val _ s (2 * dot n (v s) (mulv n M acc) + 2 * dot n (q s) (mulv n K (v s)))).
    + rewrite (dot_add3 n (v s) (mulv n M acc) (mulv n D (v s)) (mulv n K (q s))) by exact He. rewrite <- !bform_mulv. rewrite (bform_sym n K (q s) (v s) SK). ring.
    + apply (is_derive_plus (fun s => bform n M (v s) (v s)) (fun s => bform n K (q s) (q s)) s (2 * dot n (v s) (mulv n M acc)) (2 * dot n (q s) (mulv n K (v s)))); apply derive_bform; auto.
  - intros s Hs. specialize (PD (v s)). lra.
Qed.

(** ** two inputs at once *)
Lemma rowmul_lin n x y c d A j : rowmul n (fun i => c * x i + d * y i) A j = c * rowmul n x A j + d * rowmul n y A j.
Proof. unfold rowmul. rewrite <- !sumn_scal, <- sumn_plus. apply sumn_ext. intros; ring. Qed.
Lemma mulv_lin n A x y c d j : mulv n A (fun i => c * x i + d * y i) j = c * mulv n A x j + d * mulv n A y j.
Proof. unfold mulv. rewrite <- !sumn_scal, <- sumn_plus. apply sumn_ext. intros; ring. Qed.
Lemma first_state expm sys ns ni U nrow T X0 yout xout : lsim expm sys ns ni U nrow T X0 = Ok (yout, xout) -> nrow = length T -> forall i,
  nth 0 xout vzero i = (match X0, Req_EM_T (hd 0 T) 0 with Some x, left _ => x | None, left _ => vzero
    | _, right _ => rowmul ns (match X0 with Some x => x | None => vzero end) (expm ns (mscale (hd 0 T) (mtrans (lti_A sys)))) end) i.
Proof. intros H HN i. destruct (lsim_shape _ _ _ _ _ _ _ _ _ _ H HN) as (_ & _ & _ & _ & _ & rest & ->). reflexivity. Qed.
Lemma lsim_superposition expm sys ns ni U U1 U2 T ic ic1 ic2 c d y y1 y2 x x1 x2 h : expm_ok expm -> 0 < h -> equally_spaced h T ->
  lsim expm sys ns ni U (length T) T (Some ic) = Ok (y, x) -> lsim expm sys ns ni U1 (length T) T (Some ic1) = Ok (y1, x1) -> lsim expm sys ns ni U2 (length T) T (Some ic2) = Ok (y2, x2) ->
  (forall k i, U k i = c * U1 k i + d * U2 k i) -> (forall i, ic i = c * ic1 i + d * ic2 i) ->
  forall k i, (k < length T)%nat -> (i < ns)%nat -> nth k x vzero i = c * nth k x1 vzero i + d * nth k x2 vzero i.
Proof.
  intros HE Hh Sp H H1 H2 HU Hic.
  pose proof (first_state _ _ _ _ _ _ _ _ _ _ H eq_refl) as F. pose proof (first_state _ _ _ _ _ _ _ _ _ _ H1 eq_refl) as F1. pose proof (first_state _ _ _ _ _ _ _ _ _ _ H2 eq_refl) as F2.
  assert (F0 : forall i, nth 0 x vzero i = c * nth 0 x1 vzero i + d * nth 0 x2 vzero i).
  { intros i. rewrite F, F1, F2. destruct (Req_EM_T (hd 0 T) 0); [apply Hic|]. rewrite <- rowmul_lin. unfold rowmul. apply sumn_ext. intros j _. rewrite Hic. reflexivity. }
  clear F F1 F2. assert (Ct : forall V s i, (i < ns)%nat -> continuous (fun x => mulv ni (lti_B sys) (interp T h V x) i) s).
  { intros V s i Hi. unfold mulv. apply (continuous_sumn ni (fun j x => lti_B sys i j * interp T h V x j)). intros l Hl.
    apply (continuous_mult (fun _ => lti_B sys i l) (fun x => interp T h V x l)); [apply continuous_const|apply interp_continuous]. }
  destruct (forced_solution ns (lti_A sys) (fun s => mulv ni (lti_B sys) (interp T h U1 s)) (nth 0 T 0) (nth 0 x1 vzero) (Ct U1)) as (z1 & Z1 & D1).
  destruct (forced_solution ns (lti_A sys) (fun s => mulv ni (lti_B sys) (interp T h U2 s)) (nth 0 T 0) (nth 0 x2 vzero) (Ct U2)) as (z2 & Z2 & D2).
  assert (E1 := lsim_exact expm sys ns ni U1 _ T _ y1 x1 h z1 (interp T h U1) HE H1 eq_refl Hh Sp (interp_linear T h U1 Hh Sp) (fun s i Hs Hi => D1 s i (proj1 Hs) Hi) (fun i Hi => eq_sym (Z1 i Hi))).
  assert (E2 := lsim_exact expm sys ns ni U2 _ T _ y2 x2 h z2 (interp T h U2) HE H2 eq_refl Hh Sp (interp_linear T h U2 Hh Sp) (fun s i Hs Hi => D2 s i (proj1 Hs) Hi) (fun i Hi => eq_sym (Z2 i Hi))).
  intros k i Hk Hi. rewrite E1, E2 by auto.
  apply (lsim_exact expm sys ns ni U _ T _ y x h (fun s i => c * z1 s i + d * z2 s i) (fun s i => c * interp T h U1 s i + d * interp T h U2 s i) HE H eq_refl Hh Sp); auto.
  - intros m s j Hm Hs. rewrite (interp_linear T h U1 Hh Sp m s j Hm Hs), (interp_linear T h U2 Hh Sp m s j Hm Hs), !HU. ring.
  - intros s j Hs Hj. eapply derive_val; [|apply (is_derive_plus (fun y => c * z1 y j) (fun y => d * z2 y j)); apply is_derive_scal; [apply D1|apply D2]; [exact (proj1 Hs)|exact Hj|exact (proj1 Hs)|exact Hj]].
    rewrite !mulv_lin. unfold plus; cbn. ring.
  - intros j Hj. rewrite F0, Z1, Z2 by auto. reflexivity.
Qed.
