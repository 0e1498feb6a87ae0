(** Lemmas on the modal equations of motion of the fault analyses. *)
From Coq Require Import Reals List Arith Bool ZArith Lia Lra.
From Verif Require Import PyBase MatBase SpecMat LMat CMat LCMat MRotor MDynamics MTime MFault SpecFault LFault.
Import ListNotations.
Open Scope list_scope.
Open Scope R_scope.

Lemma mulv_ext n A x y i : (forall j, (j < n)%nat -> x j = y j) -> mulv n A x i = mulv n A y i.
Proof. intros H. apply sumn_ext. intros j Hj. now rewrite H. Qed.
Lemma mulv_0 n A x i : (forall j, (j < n)%nat -> x j = 0) -> mulv n A x i = 0.
Proof. intros H. apply sumn_0. intros j Hj. rewrite H by auto. ring. Qed.
Lemma mulv_mulm n m A B x i : mulv m (mulm n A B) x i = mulv n A (mulv m B x) i.
Proof.
  unfold mulv, mulm.
  transitivity (sumn m (fun j => sumn n (fun k => A i k * B k j * x j))).
  - apply sumn_ext. intros. rewrite <- sumn_scal_r. apply sumn_ext. intros; ring.
  - rewrite sumn_swap. apply sumn_ext. intros k _. rewrite <- sumn_scal. apply sumn_ext. intros; ring.
Qed.
Lemma proj_mulv n m V A q k : mulv m (proj n V A) q k = mulv n (mtrans V) (mulv n A (mulv m V q)) k.
Proof. unfold proj. rewrite mulv_mulm, mulv_mulm. reflexivity. Qed.
Lemma mulv_lin n A B c x i : mulv n (madd A (mscale c B)) x i = mulv n A x i + c * mulv n B x i.
Proof. unfold mulv, madd, mscale. rewrite <- sumn_scal, <- sumn_plus. apply sumn_ext. intros; ring. Qed.
Lemma proj_sym n m V A : symmetric n A -> symmetric m (proj n V A).
Proof.
  intros S i j _ _. unfold proj, mulm, mtrans.
  transitivity (sumn n (fun k => sumn n (fun l => V l i * A l k * V k j))).
  - apply sumn_ext. intros. rewrite <- sumn_scal_r. reflexivity.
  - rewrite sumn_swap. apply sumn_ext. intros l Hl. rewrite <- sumn_scal_r. apply sumn_ext. intros k Hk. rewrite (S l k) by auto. ring.
Qed.
Lemma proj_pd n m V A : pos_def n A -> independent n m V -> pos_def m (proj n V A).
Proof.
  intros P I q Hq. rewrite bform_mulv. unfold dot.
  assert (E : sumn m (fun i => q i * mulv m (proj n V A) q i) = bform n A (mulv m V q) (mulv m V q)).
  { rewrite bform_mulv. unfold dot. set (y := mulv m V q). set (z := mulv n A y).
    transitivity (sumn m (fun i => sumn n (fun k => V k i * z k * q i))).
    - apply sumn_ext. intros i Hi. rewrite proj_mulv. fold y z. unfold mulv, mtrans. rewrite <- sumn_scal. apply sumn_ext. intros; ring.
    - rewrite sumn_swap. apply sumn_ext. intros k Hk. unfold y, mulv. rewrite <- sumn_scal_r. apply sumn_ext. intros; ring. }
  rewrite E. apply P. destruct (classic_nonzero n (mulv m V q)) as [N|Z]; [exact N|].
  destruct Hq as (j & Hj & Hn). exfalso. apply Hn. exact (I q Z j Hj).
Qed.
(** the orthonormality of the modes implies their independence *)
Lemma orthonormal_independent n M V : m_orthonormal n M V -> independent n 12 V.
Proof.
  intros O q Hq j Hj.
  assert (E : mulv 12 (proj n V M) q j = 0).
  { rewrite proj_mulv. apply mulv_0. intros i Hi. apply mulv_0. intros k Hk. apply Hq; auto. }
  unfold mulv in E. rewrite (sumn_single 12 _ j Hj) in E.
  - unfold proj in E. rewrite (O j j Hj Hj) in E. unfold mid in E. rewrite Nat.eqb_refl in E. lra.
  - intros k Hk N. unfold proj. rewrite (O j k Hj Hk). unfold mid. destruct (Nat.eqb_spec j k); [congruence|]. ring.
Qed.
(** the modal accelerations solve the projected equations *)
Lemma accel_solves lib s om ac f1 f2 q v : pinv_ok lib -> symmetric (f_n s) (f_M s) -> pos_def (f_n s) (f_M s) -> independent (f_n s) 12 (f_V s) ->
  forall k, (k < 12)%nat -> mulv 12 (proj (f_n s) (f_V s) (f_M s)) (modal_accel lib s om ac f1 f2 q v) k =
    mulv (f_n s) (mtrans (f_V s)) f1 k + mulv (f_n s) (mtrans (f_V s)) f2 k
    - mulv 12 (madd (proj (f_n s) (f_V s) (f_C s)) (mscale om (proj (f_n s) (f_V s) (f_G s)))) v k
    - mulv 12 (madd (proj (f_n s) (f_V s) (f_K s)) (mscale ac (proj (f_n s) (f_V s) (f_Ks s)))) q k.
Proof.
  intros L Sy Pd In k Hk. set (P := proj (f_n s) (f_V s) (f_M s)).
  assert (NS : nonsingular 12 P) by (apply pos_def_nonsingular, proj_pd; auto).
  destruct (L 12%nat P NS) as [_ R]. unfold modal_accel. fold P.
  match goal with |- mulv 12 P (fun j => sumn 12 (fun i => @?g i * _)) k = _ => set (G := g) end.
  transitivity (G k); [|reflexivity].
  unfold mulv at 1.
  transitivity (sumn 12 (fun i => G i * mulm 12 (eig_pinv lib 12 P) P i k)).
  - transitivity (sumn 12 (fun j => sumn 12 (fun i => G i * (eig_pinv lib 12 P i j * P j k)))).
    + apply sumn_ext. intros j Hj. rewrite <- sumn_scal. apply sumn_ext. intros i Hi. pose proof (proj_sym (f_n s) 12 (f_V s) (f_M s) Sy k j Hk Hj) as PS. fold P in PS. rewrite PS. unfold G. ring.
    + rewrite sumn_swap. apply sumn_ext. intros i Hi. unfold mulm. rewrite <- sumn_scal. reflexivity.
  - rewrite (sumn_single 12 _ k Hk).
    + rewrite (R k k Hk Hk). unfold mid. rewrite Nat.eqb_refl. ring.
    + intros i Hi N. rewrite (R i k Hi Hk). unfold mid. destruct (Nat.eqb_spec i k); [congruence|]. ring.
Qed.
(** the residual of the full equations is orthogonal to the modes used *)
Lemma residual_orthogonal lib s om ac f1 f2 q v : pinv_ok lib -> symmetric (f_n s) (f_M s) -> pos_def (f_n s) (f_M s) -> independent (f_n s) 12 (f_V s) ->
  let V := mulv 12 (f_V s) in
  forall j, (j < 12)%nat -> sumn (f_n s) (fun i => f_V s i j * unbalanced s om ac (fun k => f1 k + f2 k) (V q) (V v) (V (modal_accel lib s om ac f1 f2 q v)) i) = 0.
Proof.
  intros L Sy Pd In V j Hj. pose proof (accel_solves lib s om ac f1 f2 q v L Sy Pd In j Hj) as E.
  set (a := modal_accel lib s om ac f1 f2 q v) in *. rewrite !mulv_lin, !proj_mulv in E. fold V in E. unfold unbalanced.
  set (VT := mulv (f_n s) (mtrans (f_V s))) in E.
  transitivity (VT (mulv (f_n s) (f_M s) (V a)) j + (VT (mulv (f_n s) (f_C s) (V v)) j + om * VT (mulv (f_n s) (f_G s) (V v)) j)
     + (VT (mulv (f_n s) (f_K s) (V q)) j + ac * VT (mulv (f_n s) (f_Ks s) (V q)) j) - (VT f1 j + VT f2 j)); [|rewrite E; ring].
  assert (D : forall z, VT z j = sumn (f_n s) (fun i => f_V s i j * z i)) by reflexivity. rewrite !D.
  rewrite <- !sumn_scal, <- !sumn_plus, <- sumn_minus. apply sumn_ext. intros i Hi.
  change (mulv (f_n s) (fun i0 j0 => f_C s i0 j0 + om * f_G s i0 j0) (V v) i) with (mulv (f_n s) (madd (f_C s) (mscale om (f_G s))) (V v) i).
  change (mulv (f_n s) (fun i0 j0 => f_K s i0 j0 + ac * f_Ks s i0 j0) (V q) i) with (mulv (f_n s) (madd (f_K s) (mscale ac (f_Ks s))) (V q) i).
  rewrite !mulv_lin. ring.
Qed.
(** ** motion from rest *)
Lemma rk45_rest f h x y i : (forall u z, (forall k, (k < 24)%nat -> z k = 0) -> forall k, (k < 24)%nat -> f u z i k = 0) ->
  (forall k, (k < 24)%nat -> y k = 0) -> forall k, (k < 24)%nat -> rk45_step f h x y i k = 0.
Proof.
  intros Hf Hy k Hk. unfold rk45_step. cbv zeta.
  assert (K1 : forall k, (k < 24)%nat -> f x y i k = 0) by (intros; apply Hf; auto). set (k1 := f x y i) in *.
  match goal with |- context [f ?u ?z i] => assert (K2 : forall k, (k < 24)%nat -> f u z i k = 0) by (intros; apply Hf; [intros l Hl; rewrite ?Hy, ?K1 by auto; ring|auto]); set (k2 := f u z i) in * end.
  match goal with |- context [f ?u ?z i] => assert (K3 : forall k, (k < 24)%nat -> f u z i k = 0) by (intros; apply Hf; [intros l Hl; rewrite ?Hy, ?K1, ?K2 by auto; ring|auto]); set (k3 := f u z i) in * end.
  match goal with |- context [f ?u ?z i] => assert (K4 : forall k, (k < 24)%nat -> f u z i k = 0) by (intros; apply Hf; [intros l Hl; rewrite ?Hy, ?K1, ?K2, ?K3 by auto; ring|auto]); set (k4 := f u z i) in * end.
  match goal with |- context [f ?u ?z i] => assert (K5 : forall k, (k < 24)%nat -> f u z i k = 0) by (intros; apply Hf; [intros l Hl; rewrite ?Hy, ?K1, ?K2, ?K3, ?K4 by auto; ring|auto]); set (k5 := f u z i) in * end.
  match goal with |- context [f ?u ?z i] => assert (K6 : forall k, (k < 24)%nat -> f u z i k = 0) by (intros; apply Hf; [intros l Hl; rewrite ?Hy, ?K1, ?K2, ?K3, ?K4, ?K5 by auto; ring|auto]); set (k6 := f u z i) in * end.
  rewrite Hy, K1, K3, K4, K6 by auto. field.
Qed.
Lemma rk_loop_inv step h (Q : vec -> Prop) : (forall x y i, Q y -> Q (step x y i)) -> forall k i x y, Q y -> forall z, In z (fst (rk_loop step h k i x y)) -> Q z.
Proof.
  intros H k. induction k as [|k IH]; intros i x y Hy z Hz; simpl in Hz; [contradiction|].
  destruct (rk_loop step h k (S i) (x + h) (step x y i)) as [l x'] eqn:E. simpl in Hz. destruct Hz as [<-|Hz]; [apply H, Hy|].
  apply (IH (S i) (x + h) (step x y i)); [apply H, Hy|]. rewrite E. exact Hz.
Qed.
Lemma rk45_inv f x0 y0 size x h (Q : vec -> Prop) l x' : (forall x y i, Q y -> Q (rk45_step f h x y i)) -> Q y0 -> rk45 f x0 y0 size x h = Ok (l, x') -> forall z, In z l -> Q z.
Proof.
  intros H H0 E z Hz. unfold rk45, integrate in E. destruct (Req_EM_T h 0); [discriminate|].
  destruct (_ <? 0)%Z; [discriminate|]. destruct (_ =? 0)%Z; [discriminate|]. destruct (negb _); [discriminate|].
  destruct (rk_loop _ _ _ _ _ _) as [l0 x0'] eqn:EL. injection E as <- <-. destruct Hz as [<-|Hz]; [exact H0|].
  eapply (rk_loop_inv (rk45_step f h) h Q H _ 1 x0 y0 H0). rewrite EL. exact Hz.
Qed.
Lemma eom_rest lib s a b ts unb force T Y i : (forall x v, (forall k, x k = 0) -> (forall k, v k = 0) -> forall k, force i x v k = 0) ->
  (forall u, In u unb -> fst (snd u) = 0) -> (forall k, (k < 24)%nat -> Y k = 0) -> forall k, (k < 24)%nat -> eom lib s a b ts unb force T Y i k = 0.
Proof.
  intros Hf Hu HY k Hk. unfold eom. destruct (Nat.ltb_spec k 12); [unfold lower; apply HY; lia|].
  assert (HF : forall k, FFunb unb a b (nth i ts 0) k = 0).
  { intros j. unfold FFunb, suml. revert Hu. clear. induction unb as [|u l IH]; intros Hu; [reflexivity|]. cbn [map fold_right]. rewrite IH by (intros; apply Hu; simpl; auto).
    unfold unb_xy. rewrite (Hu u) by (simpl; auto). cbn [fst snd]. destruct (Nat.eqb _ _), (Nat.eqb _ _); ring. }
  assert (HQ : forall j, mulv 12 (f_V s) Y j = 0) by (intros; apply mulv_0; intros; apply HY; lia).
  assert (HV : forall j, mulv 12 (f_V s) (lower Y) j = 0) by (intros; apply mulv_0; intros; unfold lower; apply HY; lia).
  unfold modal_accel. apply sumn_0. intros j Hj.
  rewrite (mulv_0 (f_n s) (mtrans (f_V s)) (force i (mulv 12 (f_V s) Y) (mulv 12 (f_V s) (lower Y)))) by (intros; apply Hf; auto).
  rewrite (mulv_0 (f_n s) (mtrans (f_V s)) (FFunb unb a b (nth i ts 0))) by (intros; apply HF).
  rewrite (mulv_0 12 _ (lower Y)) by (intros; unfold lower; apply HY; lia). rewrite (mulv_0 12 _ Y) by (intros; apply HY; lia). ring.
Qed.
(** a pseudo-inverse that meets the contract *)
Definition inv_of (n : nat) (A : mat) : mat :=
  match real_solve n A with
  | inl (exist f _) => fun i j => f (fun k => mid k j) i
  | inr _ => mzero
  end.
Lemma inv_of_ok n A : nonsingular n A ->
  (forall i j, (i < n)%nat -> (j < n)%nat -> mulm n A (inv_of n A) i j = mid i j) /\ (forall i j, (i < n)%nat -> (j < n)%nat -> mulm n (inv_of n A) A i j = mid i j).
Proof.
  intros NS. unfold inv_of. destruct (real_solve n A) as [[f Hf]|[x [(i & Hi & Hx) Hz]]].
  - assert (R : forall i j, (i < n)%nat -> (j < n)%nat -> mulm n A (fun i j => f (fun k => mid k j) i) i j = mid i j).
    { intros i j Hi Hj. change (mulv n A (f (fun k => mid k j)) i = mid i j). now rewrite Hf. }
    split; [exact R|]. intros i j Hi Hj.
    set (B := fun i j => f (fun k => mid k j) i) in *.
    (* A (B A - 1) e_j = 0 *)
    assert (Z : forall k, (k < n)%nat -> mulv n A (fun l => mulm n B A l j - mid l j) k = 0).
    { intros k Hk. unfold mulv. transitivity (sumn n (fun l => A k l * mulm n B A l j) - sumn n (fun l => A k l * mid l j)); [rewrite <- sumn_minus; apply sumn_ext; intros; ring|].
      rewrite (sumn_single n (fun l => A k l * mid l j) j Hj).
      2:{ intros l Hl N. unfold mid. destruct (Nat.eqb_spec l j); [congruence|ring]. }
      unfold mid at 1. rewrite Nat.eqb_refl.
      change (mulv n A (mulv n B (fun l => A l j)) k - A k j * 1 = 0). rewrite <- mulv_mulm. unfold mulv.
      rewrite (sumn_single n _ k Hk).
      + rewrite R by auto. unfold mid. rewrite Nat.eqb_refl. ring.
      + intros l Hl N. rewrite R by auto. unfold mid. destruct (Nat.eqb_spec k l); [congruence|ring]. }
    pose proof (NS _ Z i Hi) as E. cbv beta in E. lra.
  - exfalso. apply Hx. apply (NS x Hz i Hi).
Qed.
Definition lib0 : eiglib := mkEig (fun n K M => Ok (vzero, mid)) inv_of.
Lemma lib0_ok : pinv_ok lib0. Proof. intros n A. apply inv_of_ok. Qed.
Lemma mid_independent n m : (m <= n)%nat -> independent n m mid.
Proof.
  intros H q Hq j Hj. specialize (Hq j ltac:(lia)). unfold mulv in Hq. rewrite (sumn_single m _ j Hj) in Hq.
  - unfold mid in Hq. rewrite Nat.eqb_refl in Hq. lra.
  - intros i Hi N. unfold mid. destruct (Nat.eqb_spec j i); [congruence|ring].
Qed.
