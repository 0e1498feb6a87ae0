(** Lemmas on the pseudo-modal method. *)
From Coq Require Import Reals String List Arith Bool Lia Lra ZArith FunctionalExtensionality.
From Verif Require Import PyBase MatBase SpecMat LMat LCMat LDynamics MBearing MRotor MDynamics MTime SpecTime LTime LTime2 LStoch LAssembly LRotor LRotor2 LRotor5 MPseudo SpecPseudo.
Import ListNotations.
Open Scope list_scope.
Open Scope R_scope.

(** ** sums *)
Lemma sumn_sq_nonneg n f : 0 <= sumn n (fun i => f i ^ 2).
Proof. apply sumn_nonneg. intros. apply pow2_ge_0. Qed.
Lemma quad_disc a b c : 0 <= a -> (forall x, 0 <= a * x ^ 2 + 2 * b * x + c) -> b ^ 2 <= a * c.
Proof.
  intros Ha H. destruct (Req_dec a 0) as [-> |N].
  - destruct (Req_dec b 0) as [-> |Nb]; [lra|]. specialize (H (- (c + 1) / (2 * b))). replace (0 * (- (c + 1) / (2 * b)) ^ 2 + 2 * b * (- (c + 1) / (2 * b)) + c) with (- 1) in H by (field; auto). lra.
  - specialize (H (- b / a)). replace (a * (- b / a) ^ 2 + 2 * b * (- b / a) + c) with ((a * c - b ^ 2) / a) in H by (field; auto).
    assert (P : 0 < a) by lra. apply Rmult_le_compat_r with (r := a) in H; [|lra]. unfold Rdiv in H. rewrite Rmult_0_l, Rmult_assoc, Rinv_l, Rmult_1_r in H by auto. lra.
Qed.
Lemma cauchy n p q : (sumn n (fun i => p i * q i)) ^ 2 <= sumn n (fun i => p i ^ 2) * sumn n (fun i => q i ^ 2).
Proof.
  apply quad_disc; [apply sumn_sq_nonneg|]. intros x.
  replace (sumn n (fun i => p i ^ 2) * x ^ 2 + 2 * sumn n (fun i => p i * q i) * x + sumn n (fun i => q i ^ 2)) with (sumn n (fun i => (p i * x + q i) ^ 2)).
  - apply sumn_sq_nonneg.
  - rewrite <- sumn_scal_r, Rmult_assoc, (Rmult_comm _ x), <- Rmult_assoc, <- sumn_scal, <- !sumn_plus. apply sumn_ext. intros; ring.
Qed.

(** ** the transformation *)
Lemma reduced_mulv n m V A q j : mulv m (t_mat (modal n m V) A) q j = sumn n (fun i => V i j * mulv n A (mulv m V q) i).
Proof.
  unfold mulv. cbn [modal t_mat]. unfold mulm, mtrans.
  transitivity (sumn m (fun k => sumn n (fun l => sumn n (fun i => V i j * A i l) * V l k * q k))).
  { apply sumn_ext. intros k _. rewrite <- sumn_scal_r. reflexivity. }
  rewrite sumn_swap. transitivity (sumn n (fun l => sumn n (fun i => V i j * A i l) * sumn m (fun k => V l k * q k))).
  { apply sumn_ext. intros l _. rewrite <- sumn_scal. apply sumn_ext. intros; ring. }
  transitivity (sumn n (fun l => sumn n (fun i => V i j * (A i l * sumn m (fun k => V l k * q k))))).
  { apply sumn_ext. intros l _. rewrite <- sumn_scal_r. apply sumn_ext. intros; ring. }
  rewrite sumn_swap. apply sumn_ext. intros i _. rewrite sumn_scal. reflexivity.
Qed.
Lemma mulm_lin_r n A B D c i j : mulm n A (madd B (mscale c D)) i j = mulm n A B i j + c * mulm n A D i j.
Proof. unfold mulm, madd, mscale. rewrite <- sumn_scal, <- sumn_plus. apply sumn_ext. intros; ring. Qed.
Lemma modal_lin n m V A c B i j : t_mat (modal n m V) (madd A (mscale c B)) i j = t_mat (modal n m V) A i j + c * t_mat (modal n m V) B i j.
Proof.
  cbn [modal t_mat]. unfold mulm at 1 3 5. rewrite <- sumn_scal, <- sumn_plus. apply sumn_ext. intros k _. rewrite mulm_lin_r. ring.
Qed.
Lemma modal_vadd n m V x y i : t_to (modal n m V) (vadd x y) i = t_to (modal n m V) x i + t_to (modal n m V) y i.
Proof. cbn [modal t_to]. unfold mulv, vadd. rewrite <- sumn_plus. apply sumn_ext. intros; ring. Qed.
Lemma reduced_form n m V A p q : bform m (t_mat (modal n m V) A) p q = bform n A (mulv m V p) (mulv m V q).
Proof.
  rewrite bform_mulv. unfold dot. transitivity (sumn m (fun j => sumn n (fun i => p j * (V i j * mulv n A (mulv m V q) i)))).
  { apply sumn_ext. intros j _. rewrite reduced_mulv, sumn_scal. reflexivity. }
  rewrite sumn_swap, bform_mulv. unfold dot. apply sumn_ext. intros i _. unfold mulv at 3. rewrite <- sumn_scal_r. apply sumn_ext. intros; ring.
Qed.

(** physical states *)
Definition lift (T : transform) (s : nstate) : nstate := mkN (t_from T (n_y s)) (t_from T (n_v s)) (t_from T (n_a s)).
Lemma lift_direct s : lift direct s = s.
Proof. destruct s. reflexivity. Qed.
Lemma mulv_lin3 m V (a b c : vec) x y i : mulv m V (fun j => a j + x * b j + y * c j) i = mulv m V a i + x * mulv m V b i + y * mulv m V c i.
Proof. unfold mulv. rewrite <- !sumn_scal, <- !sumn_plus. apply sumn_ext. intros; ring. Qed.
Lemma mulv_ext' m V x y i : (forall j, x j = y j) -> mulv m V x i = mulv m V y i.
Proof. intros H. apply rmulv_ext. auto. Qed.
Lemma lift_formulas n m V g b dt s0 s1 : newmark_formulas g b dt s0 s1 -> newmark_formulas g b dt (lift (modal n m V) s0) (lift (modal n m V) s1).
Proof.
  intros H i. cbn [lift modal t_from n_y n_v n_a]. split.
  - rewrite (mulv_ext' m V (n_v s1) (fun j => n_v s0 j + dt * (1 - g) * n_a s0 j + dt * g * n_a s1 j)) by (intros j; rewrite (proj1 (H j)); ring). rewrite mulv_lin3. ring.
  - rewrite (mulv_ext' m V (n_y s1) (fun j => (n_y s0 j + dt * n_v s0 j) + dt ^ 2 * (1 / 2 - b) * n_a s0 j + dt ^ 2 * b * n_a s1 j)) by (intros j; rewrite (proj2 (H j)); ring). rewrite mulv_lin3, mulv_comb. ring.
Qed.
(** what the reduced system leaves is the projection of what the full one leaves *)
Lemma lift_residual n m V M C K f M' C' K' f' s j : M' = t_mat (modal n m V) M -> (forall i k, C' i k = t_mat (modal n m V) C i k) -> (forall i k, K' i k = t_mat (modal n m V) K i k) ->
  (forall i, f' i = t_to (modal n m V) f i) -> residual m (M', C', K', f') s j = sumn n (fun i => V i j * unbalanced n (M, C, K, f) (lift (modal n m V) s) i).
Proof.
  intros -> EC EK Ef. unfold residual, unbalanced. rewrite Ef.
  assert (E : forall A A' x, (forall i k, A' i k = A i k) -> mulv m A' x j = mulv m A x j) by (intros A A' x H; apply sumn_ext; intros; rewrite H; reflexivity).
  rewrite (E _ C' _ EC), (E _ K' _ EK), !reduced_mulv. cbn [modal t_to lift n_y n_v n_a t_from]. unfold mulv at 1. unfold mtrans.
  rewrite <- !sumn_plus, <- !sumn_minus. apply sumn_ext. intros; ring.
Qed.

(** ** the system function *)
Definition linear (T : transform) : Prop := (forall A c B i j, t_mat T (madd A (mscale c B)) i j = t_mat T A i j + c * t_mat T B i j) /\ (forall x y i, t_to T (vadd x y) i = t_to T x i + t_to T y i).
Definition related (T : transform) (func func' : nat -> R -> nstate -> res sysm) : Prop :=
  (forall step dt s M' C' K' f', func' step dt s = Ok (M', C', K', f') -> exists M C K f, func step dt (lift T s) = Ok (M, C, K, f) /\
     M' = t_mat T M /\ (forall i j, C' i j = t_mat T C i j) /\ (forall i j, K' i j = t_mat T K i j) /\ (forall i, f' i = t_to T f i)) /\
  (forall step dt s, is_ok (func step dt (lift T s)) -> is_ok (func' step dt s)).
Lemma forces_lift T F nrow extra step dt s : linear T -> (forall f', forces_in T F nrow extra step dt s = Ok f' -> exists f, forces_in direct F nrow extra step dt (lift T s) = Ok f /\ forall i, f' i = t_to T f i) /\
  (is_ok (forces_in direct F nrow extra step dt (lift T s)) -> is_ok (forces_in T F nrow extra step dt s)).
Proof.
  intros [_ L]. unfold forces_in. destruct (Nat.ltb step nrow); [|split; [discriminate|intros [? ?]; discriminate]]. split; [|intros _; eexists; reflexivity].
  intros f' [= <-]. eexists. split; [reflexivity|]. intros i. destruct extra; [|reflexivity]. rewrite L. reflexivity.
Qed.
Lemma system_lift T gv spl r sp F nrow t extra : linear T ->
  (forall func', system_in T gv spl r sp F nrow t extra = Ok func' -> exists func, system_in direct gv spl r sp F nrow t extra = Ok func /\ related T func func') /\
  (forall func, system_in direct gv spl r sp F nrow t extra = Ok func -> exists func', system_in T gv spl r sp F nrow t extra = Ok func' /\ related T func func').
Proof.
  intros L. destruct L as [Lm Lv]. assert (FL := fun step dt s => forces_lift T F nrow extra step dt s (conj Lm Lv)).
  unfold system_in. destruct (rotor_M spl r None) as [M0|]; [|split; intros ? H; discriminate H]. destruct (rotor_G spl r) as [G0|]; [|split; intros ? H; discriminate H].
  destruct (rotor_Ksdt r) as [K0|]; [|split; intros ? H; discriminate H]. cbn [bind]. set (ref := match sp with SNum s => s | SArr l => suml l / INR (length l) end).
  set (MG := default M0 (g_M gv)). set (GG := default G0 (g_G gv)). set (KG := default K0 (g_Ksdt gv)).
  assert (Steady : forall (a b : nat -> R),
    let go := fun T : transform => bind (bind (rotor_C spl r ref []) (fun C0 => bind (rotor_K spl r ref []) (fun K0 => Ok (t_mat T (default C0 (g_C gv)), t_mat T (default K0 (g_K gv))))))
      (fun CK => Ok (fun step dt s => bind (forces_in T F nrow extra step dt s) (fun f => Ok (t_mat T MG, madd (fst CK) (mscale (a step) (t_mat T GG)), madd (snd CK) (mscale (b step) (t_mat T KG)), f)))) in
    (forall func', go T = Ok func' -> exists func, go direct = Ok func /\ related T func func') /\ (forall func, go direct = Ok func -> exists func', go T = Ok func' /\ related T func func')).
  { intros a b go. unfold go. destruct (rotor_C spl r ref []) as [C0|]; [|split; intros ? H; discriminate H]. destruct (rotor_K spl r ref []) as [K1|]; [|split; intros ? H; discriminate H]. cbn [bind fst snd].
    match goal with |- (forall func', Ok ?f1 = Ok func' -> exists func, Ok ?f0 = Ok func /\ _) /\ _ => assert (Rl : related T f0 f1) end.
    { split.
      - intros step dt s M' C' K' f' H. apply bind_ok in H as (f1 & Hf & H). injection H as <- <- <- <-. destruct (proj1 (FL step dt s) f1 Hf) as (f & Hf' & Ef). rewrite Hf'. cbn [bind].
        do 4 eexists. split; [reflexivity|]. split; [reflexivity|]. split; [intros i j; rewrite Lm; reflexivity|]. split; [intros i j; rewrite Lm; reflexivity|exact Ef].
      - intros step dt s [x H]. apply bind_ok in H as (f1 & Hf & _). destruct (proj2 (FL step dt s) (ex_intro _ f1 Hf)) as [f' Hf']. rewrite Hf'. eexists. reflexivity. }
    split; intros ? [= <-]; eexists; (split; [reflexivity|exact Rl]). }
  assert (Steady3 : 
    let go := fun T : transform => bind (bind (rotor_C spl r ref []) (fun C0 => bind (rotor_K spl r ref []) (fun K0 => Ok (t_mat T (default C0 (g_C gv)), t_mat T (default K0 (g_K gv))))))
      (fun CK => Ok (fun step dt s => bind (forces_in T F nrow extra step dt s) (fun f => Ok (t_mat T MG, madd (fst CK) (mscale ref (t_mat T GG)), snd CK, f)))) in
    (forall func', go T = Ok func' -> exists func, go direct = Ok func /\ related T func func') /\ (forall func, go direct = Ok func -> exists func', go T = Ok func' /\ related T func func')).
  { intros go. unfold go. destruct (rotor_C spl r ref []) as [C0|]; [|split; intros ? H; discriminate H]. destruct (rotor_K spl r ref []) as [K1|]; [|split; intros ? H; discriminate H]. cbn [bind fst snd].
    match goal with |- (forall func', Ok ?f1 = Ok func' -> exists func, Ok ?f0 = Ok func /\ _) /\ _ => assert (Rl : related T f0 f1) end.
    { split.
      - intros step dt s M' C' K' f' H. apply bind_ok in H as (f1 & Hf & H). injection H as <- <- <- <-. destruct (proj1 (FL step dt s) f1 Hf) as (f & Hf' & Ef). rewrite Hf'. cbn [bind].
        do 4 eexists. split; [reflexivity|]. split; [reflexivity|]. split; [intros i j; rewrite Lm; reflexivity|]. split; [reflexivity|exact Ef].
      - intros step dt s [x H]. apply bind_ok in H as (f1 & Hf & _). destruct (proj2 (FL step dt s) (ex_intro _ f1 Hf)) as [f' Hf']. rewrite Hf'. eexists. reflexivity. }
    split; intros ? [= <-]; eexists; (split; [reflexivity|exact Rl]). }
  destruct sp as [w|l]; [exact Steady3|]. destruct (varies l); [|exact Steady3]. destruct (negb _); [split; intros ? H; discriminate H|].
  destruct (var_brgs r) as [|v0 vb]; [exact (Steady (fun step => nth step l 0) (fun step => gradient l t step))|].
  destruct (g_C gv); [split; intros ? H; discriminate H|]. destruct (g_K gv); [split; intros ? H; discriminate H|].
  destruct (rotor_C spl r ref (map el_tag (v0 :: vb))) as [C0|]; [|split; intros ? H; discriminate H]. cbn [bind]. destruct (rotor_K spl r ref (map el_tag (v0 :: vb))) as [K1|]; [|split; intros ? H; discriminate H]. cbn [bind].
  match goal with |- (forall func', Ok ?f1 = Ok func' -> exists func, Ok ?f0 = Ok func /\ _) /\ _ => assert (Rl : related T f0 f1) end.
  { split.
    - intros step dt s M' C' K' f' H. apply bind_ok in H as (CK & HCK & H). apply bind_ok in H as (f1 & Hf & H). injection H as <- <- <- <-. destruct (proj1 (FL step dt s) f1 Hf) as (f & Hf' & Ef).
      rewrite HCK. cbn [bind]. rewrite Hf'. cbn [bind]. do 4 eexists. split; [reflexivity|]. split; [reflexivity|]. split; [intros i j; rewrite Lm; reflexivity|]. split; [intros i j; rewrite Lm; reflexivity|exact Ef].
    - intros step dt s [x H]. apply bind_ok in H as (CK & HCK & H). apply bind_ok in H as (f1 & Hf & _). rewrite HCK. cbn [bind]. destruct (proj2 (FL step dt s) (ex_intro _ f1 Hf)) as [f' Hf']. rewrite Hf'. eexists. reflexivity. }
  split; intros ? [= <-]; eexists; (split; [reflexivity|exact Rl]).
Qed.
(** the direct method without given matrices is the system of MTime.v *)
Lemma system_direct spl r sp F nrow t extra : system_in direct nothing spl r sp F nrow t extra = rotor_system spl r sp F nrow t extra.
Proof.
  unfold system_in, rotor_system. destruct (rotor_M spl r None) as [M0|]; [|reflexivity]. destruct (rotor_G spl r) as [G0|]; [|reflexivity]. destruct (rotor_Ksdt r) as [K0|]; [|reflexivity].
  cbn [bind nothing g_M g_C g_K g_G g_Ksdt default direct t_mat].
  assert (E : forall step dt s, forces_in direct F nrow extra step dt s = forces_at F nrow extra step dt s) by (intros step dt [y v a]; reflexivity).
  set (ref := match sp with SNum s => s | SArr l => suml l / INR (length l) end).
  assert (S3 : bind (bind (rotor_C spl r ref []) (fun C0 => bind (rotor_K spl r ref []) (fun K0 => Ok (C0, K0))))
      (fun CK => Ok (fun step dt s => bind (forces_in direct F nrow extra step dt s) (fun f => Ok (M0, madd (fst CK) (mscale ref G0), snd CK, f)))) =
     bind (rotor_C spl r ref []) (fun C1 => bind (rotor_K spl r ref []) (fun K1 => Ok (fun step dt s => bind (forces_at F nrow extra step dt s) (fun f => Ok (M0, madd C1 (mscale ref G0), K1, f)))))).
  { destruct (rotor_C spl r ref []); [|reflexivity]. destruct (rotor_K spl r ref []); [|reflexivity]. cbn [bind fst snd]. f_equal. do 3 (apply functional_extensionality; intros ?). rewrite E. reflexivity. }
  destruct sp as [w|l]; [exact S3|]. destruct (varies l); [|exact S3]. destruct (negb _); [reflexivity|]. destruct (var_brgs r) as [|v0 vb].
  - destruct (rotor_C spl r ref []); [|reflexivity]. destruct (rotor_K spl r ref []); [|reflexivity]. cbn [bind fst snd]. f_equal. do 3 (apply functional_extensionality; intros ?). rewrite E. reflexivity.
  - destruct (rotor_C spl r ref (map el_tag (v0 :: vb))); [|reflexivity]. cbn [bind]. destruct (rotor_K spl r ref (map el_tag (v0 :: vb))); [|reflexivity]. cbn [bind]. f_equal. do 3 (apply functional_extensionality; intros ?). destruct (assemble_C_K _ _ _ _ _ _); [|reflexivity]. cbn [bind]. rewrite E. reflexivity.
Qed.
