(** Lemmas on complex sums, vectors and matrices, and on solving linear systems. *)
From Coq Require Import Reals List Arith Lia Lra Field.
From Coquelicot Require Import Complex.
From Verif Require Import PyBase MatBase SpecMat LMat LSolve CMat.
Open Scope C_scope.

Lemma csumn_ext n (f g : nat -> C) : (forall i, (i < n)%nat -> f i = g i) -> csumn n f = csumn n g.
Proof. induction n; intros H; simpl; auto. rewrite IHn, H; auto. Qed.
Lemma csumn_plus n (f g : nat -> C) : csumn n (fun i => f i + g i) = csumn n f + csumn n g.
Proof. induction n; simpl; [ring|]. rewrite IHn. ring. Qed.
Lemma csumn_scal n (c : C) (f : nat -> C) : csumn n (fun i => c * f i) = c * csumn n f.
Proof. induction n; simpl; [ring|]. rewrite IHn. ring. Qed.
Lemma csumn_scal_r n (c : C) (f : nat -> C) : csumn n (fun i => f i * c) = csumn n f * c.
Proof. induction n; simpl; [ring|]. rewrite IHn. ring. Qed.
Lemma csumn_opp n (f : nat -> C) : csumn n (fun i => - f i) = - csumn n f.
Proof. induction n; simpl; [ring|]. rewrite IHn. ring. Qed.
Lemma csumn_0 n (f : nat -> C) : (forall i, (i < n)%nat -> f i = 0) -> csumn n f = 0.
Proof. induction n; intros H; simpl; auto. rewrite IHn, H; auto. ring. Qed.
Lemma csumn_swap n m (f : nat -> nat -> C) : csumn n (fun i => csumn m (fun j => f i j)) = csumn m (fun j => csumn n (fun i => f i j)).
Proof. induction n; simpl. - symmetry. apply csumn_0. auto. - rewrite IHn, <- csumn_plus. reflexivity. Qed.
Lemma csumn_single n (f : nat -> C) k : (k < n)%nat -> (forall i, (i < n)%nat -> i <> k -> f i = 0) -> csumn n f = f k.
Proof.
  induction n; intros Hk H; [lia|]. simpl. destruct (Nat.eq_dec k n) as [->|Hn].
  - rewrite csumn_0; [ring|]. intros; apply H; lia.
  - rewrite IHn; [|lia|intros; apply H; lia]. rewrite (H n); [ring|lia|auto].
Qed.
Lemma csumn_split n m (f : nat -> C) : csumn (n + m) f = csumn n f + csumn m (fun i => f (n + i)%nat).
Proof. induction m; simpl; [rewrite Nat.add_0_r; ring|]. rewrite Nat.add_succ_r. simpl. rewrite IHm. ring. Qed.
Lemma csumn_R n f : csumn n (fun i => RtoC (f i)) = RtoC (sumn n f).
Proof. induction n; simpl; auto. rewrite IHn, RtoC_plus. reflexivity. Qed.
Lemma csumn_Re n f : Re (csumn n f) = sumn n (fun i => Re (f i)).
Proof. induction n; simpl; auto. rewrite <- IHn. reflexivity. Qed.
Lemma csumn_Im n f : Im (csumn n f) = sumn n (fun i => Im (f i)).
Proof. induction n; simpl; auto. rewrite <- IHn. reflexivity. Qed.
Lemma C_eq (x y : C) : Re x = Re y -> Im x = Im y -> x = y.
Proof. destruct x, y. simpl. intros -> ->. reflexivity. Qed.

Lemma cmulm_assoc n m A B D i j : cmulm n A (cmulm m B D) i j = cmulm m (cmulm n A B) D i j.
Proof.
  unfold cmulm.
  rewrite (csumn_ext n _ (fun k => csumn m (fun l => A i k * B k l * D l j))).
  2:{ intros. rewrite <- csumn_scal. apply csumn_ext. intros. ring. }
  rewrite csumn_swap. apply csumn_ext. intros l _. rewrite <- csumn_scal_r. reflexivity.
Qed.
Lemma cmulv_mulm n m A B x i : cmulv n A (cmulv m B x) i = cmulv m (cmulm n A B) x i.
Proof. exact (cmulm_assoc n m A B (fun l _ => x l) i 0%nat). Qed.
Lemma cmulm_ext n A B A' B' i j : (forall k, (k < n)%nat -> A i k = A' i k) -> (forall k, (k < n)%nat -> B k j = B' k j) ->
  cmulm n A B i j = cmulm n A' B' i j.
Proof. intros H H'. apply csumn_ext. intros k Hk. rewrite H, H'; auto. Qed.
Lemma cmulm_id_l n A i j : (i < n)%nat -> cmulm n cid A i j = A i j.
Proof.
  intros Hi. unfold cmulm. etransitivity; [apply (csumn_single n _ i Hi)|cbv beta; unfold cid; rewrite Nat.eqb_refl; ring].
  intros k _ Hk. unfold cid. rewrite (proj2 (Nat.eqb_neq i k)); auto. ring.
Qed.
Lemma cmulm_id_r n A i j : (j < n)%nat -> cmulm n A cid i j = A i j.
Proof.
  intros Hi. unfold cmulm. etransitivity; [apply (csumn_single n _ j Hi)|cbv beta; unfold cid; rewrite Nat.eqb_refl; ring].
  intros k _ Hk. unfold cid. rewrite (proj2 (Nat.eqb_neq k j)); auto. ring.
Qed.
Lemma cmulm_add_l n A B D i j : cmulm n (cadd A B) D i j = cmulm n A D i j + cmulm n B D i j.
Proof. unfold cmulm, cadd. rewrite <- csumn_plus. apply csumn_ext. intros; ring. Qed.
Lemma cmulm_add_r n A B D i j : cmulm n D (cadd A B) i j = cmulm n D A i j + cmulm n D B i j.
Proof. unfold cmulm, cadd. rewrite <- csumn_plus. apply csumn_ext. intros; ring. Qed.
Lemma cmulm_scale_l n (c : C) A D i j : cmulm n (cscale c A) D i j = c * cmulm n A D i j.
Proof. unfold cmulm, cscale. rewrite <- csumn_scal. apply csumn_ext. intros; ring. Qed.
Lemma cmulm_scale_r n (c : C) A D i j : cmulm n A (cscale c D) i j = c * cmulm n A D i j.
Proof. unfold cmulm, cscale. rewrite <- csumn_scal. apply csumn_ext. intros; ring. Qed.
Lemma cmulm_of n A B i j : cmulm n (of_mat A) (of_mat B) i j = RtoC (mulm n A B i j).
Proof. unfold cmulm, of_mat, mulm. rewrite <- csumn_R. apply csumn_ext. intros. rewrite RtoC_mult. reflexivity. Qed.
Lemma cmulv_add n A (x y : cvec) i : cmulv n A (fun j => x j + y j) i = cmulv n A x i + cmulv n A y i.
Proof. unfold cmulv. rewrite <- csumn_plus. apply csumn_ext. intros; ring. Qed.
Lemma cmulv_scal n A (c : C) (x : cvec) i : cmulv n A (fun j => c * x j) i = c * cmulv n A x i.
Proof. unfold cmulv. rewrite <- csumn_scal. apply csumn_ext. intros; ring. Qed.
Lemma cmulv_ext n A x y i : (forall j, (j < n)%nat -> x j = y j) -> cmulv n A x i = cmulv n A y i.
Proof. intros H. apply csumn_ext. intros j Hj. rewrite H; auto. Qed.
Lemma cmulv_Re n A x i : Re (cmulv n (of_mat A) x i) = mulv n A (fun j => Re (x j)) i.
Proof. unfold cmulv, mulv, of_mat. rewrite csumn_Re. apply sumn_ext. intros. unfold Re, Im, Cmult, RtoC. cbn [fst snd]. ring. Qed.
Lemma cmulv_Im n A x i : Im (cmulv n (of_mat A) x i) = mulv n A (fun j => Im (x j)) i.
Proof. unfold cmulv, mulv, of_mat. rewrite csumn_Im. apply sumn_ext. intros. unfold Re, Im, Cmult, RtoC. cbn [fst snd]. ring. Qed.

(** ** Solving *)
Lemma sumn_fsum n g : fsum R 0%R Rplus n g = sumn n g.
Proof. induction n; simpl; congruence. Qed.
Lemma csumn_fsum n g : fsum C 0 Cplus n g = csumn n g.
Proof. induction n; simpl; congruence. Qed.
Lemma real_solve n (A : mat) : {f : vec -> vec | forall b i, (i < n)%nat -> mulv n A (f b) i = b i} + {x | nonzero n x /\ forall i, (i < n)%nat -> mulv n A x i = 0%R}.
Proof.
  destruct (gauss R 0%R 1%R Rplus Rmult Rminus Ropp Rdiv Rinv Rfield Req_EM_T n A) as [[f H]|[x [H H']]].
  - left. exists f. intros b i Hi. unfold mulv. rewrite <- sumn_fsum. apply H; auto.
  - right. exists x. split; [exact H|]. intros i Hi. unfold mulv. rewrite <- sumn_fsum. apply H'; auto.
Qed.
Lemma complex_solve n (A : cmat) : {f : cvec -> cvec | forall b i, (i < n)%nat -> cmulv n A (f b) i = b i} + {x | cnonzero n x /\ forall i, (i < n)%nat -> cmulv n A x i = 0}.
Proof.
  destruct (gauss C (RtoC 0) (RtoC 1) Cplus Cmult Cminus Copp Cdiv Cinv C_field_theory Ceq_dec n A) as [[f H]|[x [H H']]].
  - left. exists f. intros b i Hi. unfold cmulv. rewrite <- csumn_fsum. apply H; auto.
  - right. exists x. split; [exact H|]. intros i Hi. unfold cmulv. rewrite <- csumn_fsum. apply H'; auto.
Qed.
Lemma nonsingular_solve n A : nonsingular n A -> forall B, exists X, meq n (mulm n A X) B.
Proof.
  intros H B. destruct (real_solve n A) as [[f Hf]|[x [(i & Hi & Hx) H']]].
  - exists (fun i j => f (fun k => B k j) i). intros i j Hi Hj. exact (Hf (fun k => B k j) i Hi).
  - contradict Hx. apply (H x); auto.
Qed.
Lemma cnonsingular_solve n A : cnonsingular n A -> forall b : cvec, exists x, forall i, (i < n)%nat -> cmulv n A x i = b i.
Proof.
  intros H b. destruct (complex_solve n A) as [[f Hf]|[x [(i & Hi & Hx) H']]].
  - exists (f b). intros i Hi. apply Hf; auto.
  - contradict Hx. apply (H x); auto.
Qed.
Lemma real_surj_nonsingular n A (f : vec -> vec) : (forall b i, (i < n)%nat -> mulv n A (f b) i = b i) -> nonsingular n A.
Proof.
  intros Hf x Hx.
  apply (surj_inj R 0%R 1%R Rplus Rmult Rminus Ropp Rdiv Rinv Rfield Req_EM_T n A f).
  - intros b i Hi. unfold fmv. rewrite sumn_fsum. apply Hf; auto.
  - intros i Hi. unfold fmv. rewrite sumn_fsum. apply Hx; auto.
Qed.
Lemma complex_surj_nonsingular n A (f : cvec -> cvec) : (forall b i, (i < n)%nat -> cmulv n A (f b) i = b i) -> cnonsingular n A.
Proof.
  intros Hf x Hx.
  apply (surj_inj C (RtoC 0) (RtoC 1) Cplus Cmult Cminus Copp Cdiv Cinv C_field_theory Ceq_dec n A f).
  - intros b i Hi. unfold fmv. rewrite csumn_fsum. apply Hf; auto.
  - intros i Hi. unfold fmv. rewrite csumn_fsum. apply Hx; auto.
Qed.
Lemma right_inverse_nonsingular n (A B : cmat) : ceq n n (cmulm n A B) cid -> cnonsingular n A.
Proof.
  intros H. apply (complex_surj_nonsingular n A (fun b => cmulv n B b)). intros b i Hi. rewrite cmulv_mulm.
  unfold cmulv. rewrite (csumn_ext n _ (fun j => cid i j * b j)) by (intros; rewrite H; auto).
  exact (cmulm_id_l n (fun k _ => b k) i 0%nat Hi).
Qed.
Lemma pos_def_nonsingular n A : pos_def n A -> nonsingular n A.
Proof.
  intros H x Hx i Hi. destruct (Req_EM_T (x i) 0%R) as [E|E]; auto. exfalso.
  specialize (H x (ex_intro _ i (conj Hi E))). unfold bform in H.
  rewrite sumn_0 in H; [lra|]. intros k Hk. fold (mulv n A x k). rewrite Hx by auto. ring.
Qed.
Lemma nonsingular_cnonsingular n A : nonsingular n A -> cnonsingular n (of_mat A).
Proof.
  intros H x Hx i Hi. apply C_eq; simpl.
  - apply (H (fun j => Re (x j))); auto. intros k Hk. rewrite <- cmulv_Re, Hx; auto.
  - apply (H (fun j => Im (x j))); auto. intros k Hk. rewrite <- cmulv_Im, Hx; auto.
Qed.
