(** The transfer matrix is the inverse of the dynamic stiffness. *)
From Coq Require Import Reals List Arith Bool Lia Lra Permutation.
From Coquelicot Require Import Complex.
From Verif Require Import PyBase MatBase SpecMat LMat CMat LCMat MRotor MDynamics SpecDynamics LDynamics.
Import ListNotations.
Open Scope list_scope.
Open Scope C_scope.

(** ** the sorting of the eigenvalues is a permutation *)
Lemma insert_idx_perm ev i l : Permutation (insert_idx ev i l) (i :: l).
Proof.
  induction l as [|j l IH]; simpl; auto. destruct (lex_le (ev i) (ev j)); auto.
  rewrite IH. constructor.
Qed.
Lemma lexsort_perm ev n : Permutation (lexsort ev n) (seq 0 n).
Proof. unfold lexsort. induction (seq 0 n) as [|a l IH]; simpl; auto. rewrite insert_idx_perm, IH. reflexivity. Qed.
Lemma index_perm ev n idx : index ev n = Ok idx -> Permutation idx (seq 0 n) /\ idx = skipn (n / 2) (lexsort ev n) ++ firstn (n / 2) (lexsort ev n).
Proof.
  unfold index. destruct (Nat.eqb _ _); [|discriminate]. intros H. injection H as <-. split; [|reflexivity].
  rewrite Permutation_app_comm, firstn_skipn. apply lexsort_perm.
Qed.
Lemma index_even ev n : exists idx, index ev (2 * n) = Ok idx.
Proof.
  unfold index. rewrite skipn_length, firstn_length, (Permutation_length (lexsort_perm ev (2 * n))), seq_length.
  assert (E : (2 * n / 2 = n)%nat) by (rewrite Nat.mul_comm; apply Nat.div_mul; lia).
  rewrite E. rewrite (proj2 (Nat.eqb_eq _ _)) by lia. eexists. reflexivity.
Qed.

Lemma bind_ok {A B} (r : res A) (f : A -> res B) b : bind r f = Ok b -> exists a, r = Ok a /\ f a = Ok b.
Proof. destruct r; simpl; intros H; [eauto|discriminate]. Qed.

(** ** the parts of the state matrix *)
Lemma opp_nonsingular n M : nonsingular n (mscale (-1) M) -> nonsingular n M.
Proof.
  intros H x Hx. apply H. intros i Hi. unfold mulv, mscale.
  rewrite (sumn_ext n _ (fun j => - (M i j * x j))%R) by (intros; ring). rewrite sumn_opp. fold (mulv n M x i). rewrite Hx by auto. ring.
Qed.
Lemma rotor_A_inv la spl r speed freq sync A : linalg_ok la -> rotor_A la spl r speed freq sync = Ok A ->
  exists M K D G X Y, (if sync then rotor_M_sync spl r (Some (default speed freq)) else rotor_M spl r (Some (default speed freq))) = Ok M /\
    rotor_K spl r (default speed freq) [] = Ok K /\ rotor_C spl r (default speed freq) [] = Ok D /\ rotor_G spl r = Ok G /\
    nonsingular (r_ndof r) M /\ meq (r_ndof r) (mulm (r_ndof r) (mscale (-1) M) X) K /\
    meq (r_ndof r) (mulm (r_ndof r) (mscale (-1) M) Y) (damp_gyro D G speed) /\ A = block (r_ndof r) mzero mid X Y.
Proof.
  intros L H. unfold rotor_A in H.
  apply bind_ok in H as (M & HM & H). apply bind_ok in H as (K & HK & H). apply bind_ok in H as (X & HX & H).
  apply bind_ok in H as (D & HD & H). apply bind_ok in H as (G & HG & H). apply bind_ok in H as (Y & HY & H).
  injection H as <-. apply (solve_sol la L) in HX as [N HX]. apply (solve_sol la L) in HY as [_ HY].
  exists M, K, D, G, X, Y. split; [exact HM|]. split; [exact HK|]. split; [exact HD|]. split; [exact HG|].
  split; [exact (opp_nonsingular _ _ N)|]. split; [exact HX|]. split; [exact HY|reflexivity].
Qed.

(** ** resolvent *)
Section Resolvent.
Variables (N m : nat) (A : mat) (lam : nat -> C) (V W : cmat) (B : mat) (s : C).
Hypothesis HV : forall i j, (i < N)%nat -> (j < N)%nat -> cmulv N (of_mat A) (fun k => V k j) i = lam j * V i j.
Hypothesis HW : ceq N N (cmulm N V W) cid.
Hypothesis Hs : forall j, (j < N)%nat -> s <> lam j.
Definition dg : cmat := fun a b => if Nat.eqb a b then Cdiv 1 (Cminus s (lam a)) else RtoC 0.
(** V diag(1/(s - lam)) W B *)
Definition resolv : cmat := cmulm N (cmulm N (cmulm N V dg) W) (of_mat B).

Lemma V_dg i k : (k < N)%nat -> cmulm N V dg i k = V i k / (s - lam k).
Proof.
  intros Hk. unfold cmulm. rewrite (csumn_single N _ k Hk).
  - unfold dg. rewrite Nat.eqb_refl. unfold Cdiv. ring.
  - intros j _ Hj. unfold dg. rewrite (proj2 (Nat.eqb_neq j k)) by auto. ring.
Qed.
Lemma A_V i k : (i < N)%nat -> (k < N)%nat -> cmulm N (of_mat A) V i k = lam k * V i k.
Proof. intros Hi Hk. rewrite <- HV by auto. reflexivity. Qed.
Lemma resolv_ok i j : (i < N)%nat -> (j < m)%nat -> s * resolv i j - cmulm N (of_mat A) resolv i j = RtoC (B i j).
Proof.
  intros Hi Hj.
  assert (E : s * resolv i j - cmulm N (of_mat A) resolv i j = cmulm N (cmulm N V W) (of_mat B) i j).
  { assert (E0 : cmulm N (of_mat A) resolv i j = cmulm N (cmulm N (cmulm N (of_mat A) (cmulm N V dg)) W) (of_mat B) i j).
    { unfold resolv. rewrite cmulm_assoc. apply cmulm_ext; [intros; apply cmulm_assoc|reflexivity]. }
    assert (E1 : forall l, (l < N)%nat -> cmulm N (of_mat A) (cmulm N V dg) i l = lam l * V i l / (s - lam l)).
    { intros l Hl. rewrite cmulm_assoc. unfold cmulm at 1. rewrite (csumn_single N _ l Hl).
      - unfold dg. rewrite Nat.eqb_refl, A_V by auto. unfold Cdiv. ring.
      - intros q _ Hq. unfold dg. rewrite (proj2 (Nat.eqb_neq q l)) by auto. ring. }
    assert (E2 : forall k, (k < N)%nat -> s * cmulm N (cmulm N V dg) W i k - cmulm N (cmulm N (of_mat A) (cmulm N V dg)) W i k = cmulm N V W i k).
    { intros k Hk. transitivity (csumn N (fun l => s * (cmulm N V dg i l * W l k) + - (cmulm N (of_mat A) (cmulm N V dg) i l * W l k))).
      - rewrite csumn_plus, csumn_scal, csumn_opp. reflexivity.
      - apply csumn_ext. intros l Hl. rewrite E1, V_dg by auto. field. intros Q. apply (Hs l Hl). replace s with (s - lam l + lam l) by ring. rewrite Q. ring. }
    rewrite E0. unfold resolv.
    transitivity (csumn N (fun k => s * (cmulm N (cmulm N V dg) W i k * of_mat B k j) + - (cmulm N (cmulm N (of_mat A) (cmulm N V dg)) W i k * of_mat B k j))).
    - rewrite csumn_plus, csumn_scal, csumn_opp. reflexivity.
    - apply csumn_ext. intros k Hk. rewrite <- E2 by auto. ring. }
  rewrite E. rewrite (cmulm_ext N _ _ cid (of_mat B)) by (intros; try reflexivity; apply HW; auto).
  rewrite cmulm_id_l by auto. reflexivity.
Qed.
End Resolvent.

Lemma right_inverse_both n (A B : cmat) : cnonsingular n A -> ceq n n (cmulm n A B) cid -> inverse n A B.
Proof.
  intros H E. split; [exact E|]. intros i j Hi Hj.
  apply (cnonsingular_eq n A (fun i => cmulm n B A i j) (fun i => cid i j) H); auto. intros k Hk.
  change (cmulm n A (cmulm n B A) k j = cmulm n A cid k j). rewrite cmulm_assoc, cmulm_id_r by auto.
  rewrite (cmulm_ext n _ A cid A) by (intros; try reflexivity; apply E; auto). apply cmulm_id_l; auto.
Qed.
Lemma inverse_unique n A B B' : inverse n A B -> inverse n A B' -> ceq n n B B'.
Proof.
  intros [H1 H2] [H1' H2'] i j Hi Hj.
  rewrite <- (cmulm_id_r n B i j) by auto. rewrite (cmulm_ext n B cid B (cmulm n A B')) by (intros; try reflexivity; symmetry; apply H1'; auto).
  rewrite cmulm_assoc. rewrite (cmulm_ext n _ B' cid B') by (intros; try reflexivity; apply H2; auto). apply cmulm_id_l; auto.
Qed.

Lemma mzero_mulm n B i j : mulm n mzero B i j = 0%R.
Proof. unfold mulm, mzero. apply sumn_0. intros; ring. Qed.

Section Transfer.
Variables (n : nat) (M D K X Y MI : mat) (lam : nat -> C) (V W : cmat) (s : C) (Cm : mat).
Hypothesis HM : nonsingular n M.
Hypothesis HX : meq n (mulm n (mscale (-1) M) X) K.
Hypothesis HY : meq n (mulm n (mscale (-1) M) Y) D.
Variable M' : mat.
Hypothesis HMI : meq n (mulm n M' MI) mid.
Let A := block n mzero mid X Y.
Let N := (n + n)%nat.
Hypothesis HV : forall i j, (i < N)%nat -> (j < N)%nat -> cmulv N (of_mat A) (fun k => V k j) i = lam j * V i j.
Hypothesis HW1 : ceq N N (cmulm N V W) cid.
Hypothesis HW2 : ceq N N (cmulm N W V) cid.
Hypothesis HS : cnonsingular n (dyn M D K s).
Let B : mat := fun i j => if (i <? n)%nat then 0%R else MI (i - n)%nat j.

Lemma not_eigen j : (j < N)%nat -> s <> lam j.
Proof.
  intros Hj E.
  assert (P : eigenpair (n + n) A s (fun k => V k j)).
  { split; [|intros i Hi; rewrite E; apply HV; auto].
    apply Classical_Prop.NNPP. intros Q. specialize (HW2 j j Hj Hj). unfold cid in HW2. rewrite Nat.eqb_refl in HW2.
    unfold cmulm in HW2. rewrite csumn_0 in HW2.
    - injection HW2. intros. lra.
    - intros k Hk. replace (V k j) with (RtoC 0); [ring|]. destruct (Ceq_dec (V k j) 0) as [Z|Z]; auto. contradict Q. exists k. split; auto. }
  unfold A in P. apply (state_eigen n M D K X Y HM HX HY) in P. destruct P as ((i & Hi & Hz) & _ & P). apply Hz.
  apply (HS (fun k => V k j)); auto.
Qed.
Lemma transfer_core i j : (i < n)%nat -> (j < n)%nat ->
  cmulm n (dyn M D K s) (resolv N lam V W B s) i j = cmulm n (of_mat M) (of_mat MI) i j.
Proof.
  intros Hi Hj.
  pose proof (fun i j Hi Hj => resolv_ok N N A lam V W B s HV HW1 not_eigen i j Hi Hj) as R.
  set (Y0 := resolv N lam V W B s) in *.
  assert (P := proj1 (state_forced n M D K X Y HM HX HY s (fun i => Y0 i j) (fun i => RtoC (MI i j)))).
  destruct P as [_ P2].
  - split; intros k Hk.
    + etransitivity; [apply (R k j); unfold N; lia|]. unfold B. rewrite (proj2 (Nat.ltb_lt k n)) by auto. reflexivity.
    + etransitivity; [apply (R (n + k)%nat j); unfold N; lia|]. unfold B. rewrite (proj2 (Nat.ltb_ge (n + k) n)) by lia.
      replace (n + k - n)%nat with k by lia. reflexivity.
  - exact (P2 i Hi).
Qed.
End Transfer.

Lemma idx_bound ev n idx j : index ev n = Ok idx -> (j < n)%nat -> (nth j idx 0 < n)%nat.
Proof.
  intros H Hj. apply index_perm in H as [P _].
  assert (I : In (nth j idx 0%nat) (seq 0 n)).
  { apply (Permutation_in _ P), nth_In. rewrite (Permutation_length P), seq_length. exact Hj. }
  apply in_seq in I. lia.
Qed.

Lemma transfer_inv la spl r w freq H : linalg_ok la -> transfer_matrix la spl r w freq None = Ok H ->
  let f := default w freq in let n := r_ndof r in
  exists M K D G Mw MI, rotor_M spl r (Some f) = Ok M /\ rotor_K spl r f [] = Ok K /\ rotor_C spl r f [] = Ok D /\ rotor_G spl r = Ok G /\
    rotor_M spl r (Some w) = Ok Mw /\ nonsingular n M /\ nonsingular n Mw /\ meq n (mulm n Mw MI) mid /\
    (cnonsingular n (dyn M (damp_gyro D G w) K (0%R, w)) ->
     ceq n n (cmulm n (dyn M (damp_gyro D G w) K (0%R, w)) H) (cmulm n (of_mat M) (of_mat MI))).
Proof.
  intros L HH f n. unfold transfer_matrix in HH.
  apply bind_ok in HH as (sys & Hsys & HH). apply bind_ok in HH as ([evals psi] & Heig & HH).
  apply bind_ok in HH as (W & HW & HH). apply bind_ok in HH as (ix & Hix & HH). injection Hix as <-. injection HH as <-.
  unfold rotor_lti in Hsys. apply bind_ok in Hsys as (A0 & _ & Hsys). apply bind_ok in Hsys as (Mw & HMw & Hsys).
  apply bind_ok in Hsys as (MI & HMI & Hsys). apply bind_ok in Hsys as (K0 & _ & Hsys). apply bind_ok in Hsys as (MK & _ & Hsys).
  apply bind_ok in Hsys as (D0 & _ & Hsys). apply bind_ok in Hsys as (MD & _ & Hsys). injection Hsys as <-.
  apply (solve_sol la L) in HMI as [NMw HMI].
  unfold eigen in Heig. apply bind_ok in Heig as (A & HA & Heig).
  pose proof (eig_sol la L (2 * n) A) as HE. fold n in Heig. destruct (la_eig la (2 * n) A) as [lam V]. cbn [fst snd] in HE.
  apply bind_ok in Heig as (idx & Hidx & Heig). injection Heig as <- <-.
  apply (rotor_A_inv la spl r w freq false A L) in HA. destruct HA as (M & K & D & G & X & Y & HM & HK & HD & HG & NM & HX & HY & ->).
  fold f in HM, HK, HD. fold n in NM, HX, HY, HMI, NMw, HW, Hidx, HE |- *.
  exists M, K, D, G, Mw, MI. split; [exact HM|]. split; [exact HK|]. split; [exact HD|]. split; [exact HG|]. split; [exact HMw|].
  split; [exact NM|]. split; [exact NMw|]. split; [exact HMI|].
  intros HS i j Hi Hj.
  assert (T2 : (2 * n = n + n)%nat) by lia. rewrite T2 in *.
  apply (inv_sol la L) in HW as [HW1 HW2].
  set (B := fun i j => if (i <? n)%nat then 0%R else MI (i - n)%nat j).
  set (V' := fun i k => V i (nth k idx 0%nat)) in *. set (lam' := fun k => lam (nth k idx 0%nat)) in *.
  assert (HV' : forall i j, (i < n + n)%nat -> (j < n + n)%nat -> cmulv (n + n) (of_mat (block n mzero mid X Y)) (fun k => V' k j) i = lam' j * V' i j).
  { intros a b Ha Hb. apply HE; auto. apply (idx_bound _ _ _ _ Hidx Hb). }
  rewrite <- (transfer_core n M (damp_gyro D G w) K X Y MI lam' V' W (0%R, w) NM HX HY HV' HW1 HW2 HS i j Hi Hj). fold B.
  apply cmulm_ext; [intros; reflexivity|]. intros k Hk. unfold cadd. cbn [lti_C lti_B lti_D]. rewrite seq_length.
  change (r_ndof r) with n. replace (n + (n + 0))%nat with (n + n)%nat by lia.
  assert (Sq : forall a, (a < n + n)%nat -> nth a (seq 0 (n + n)) 0%nat = a) by (intros; rewrite seq_nth; lia).
  replace (of_mat (mulm n mzero MI) k j) with (RtoC 0) by (unfold of_mat; rewrite mzero_mulm; reflexivity).
  rewrite Cplus_0_r. unfold resolv. apply cmulm_ext; [|intros; reflexivity].
  intros a Ha. apply cmulm_ext; [|intros b Hb; rewrite Sq by auto; reflexivity].
  intros b Hb. apply cmulm_ext.
  - intros c Hc. unfold cmulm. etransitivity.
    + apply (csumn_single (n + n) _ k); [lia|]. intros e He Hne. rewrite Sq by auto. unfold of_mat.
      destruct (Nat.ltb_spec e n).
      * unfold msub. rewrite mzero_mulm. unfold mid. rewrite (proj2 (Nat.eqb_neq k e)) by auto. rewrite Rminus_0_r. ring.
      * unfold msub. rewrite mzero_mulm. unfold mzero. rewrite Rminus_0_r. ring.
    + cbv beta. rewrite Sq by auto. unfold of_mat. rewrite (proj2 (Nat.ltb_lt k n)) by auto. unfold msub. rewrite mzero_mulm. unfold mid. rewrite Nat.eqb_refl, Rminus_0_r. apply Cmult_1_l.
  - intros c Hc. unfold dg. rewrite Sq by auto. reflexivity.
Qed.
