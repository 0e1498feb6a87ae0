(** Lemmas on the state matrix, stability and the transfer matrix. *)
From Coq Require Import Reals List Arith Bool Lia Lra Psatz Permutation.
From Coquelicot Require Import Complex.
From Verif Require Import PyBase MatBase SpecMat LMat CMat LCMat MRotor MDynamics SpecDynamics.
Import ListNotations.
Open Scope list_scope.
Open Scope C_scope.

Ltac cring := apply C_eq; unfold Re, Im, Cplus, Cmult, Copp, Cminus, RtoC; cbn [fst snd]; ring.

(** ** Block form of the state matrix *)
Lemma block_top n X Y (z : cvec) i : (i < n)%nat -> cmulv (n + n) (of_mat (block n mzero mid X Y)) z i = z (n + i)%nat.
Proof.
  intros Hi. unfold cmulv. rewrite csumn_split. rewrite csumn_0.
  - rewrite (csumn_single n _ i Hi).
    + unfold of_mat, block. rewrite (proj2 (Nat.ltb_lt i n) Hi), (proj2 (Nat.ltb_ge (n + i) n)) by lia.
      replace (n + i - n)%nat with i by lia. unfold mid. rewrite Nat.eqb_refl. ring.
    + intros k Hk Hn. unfold of_mat, block. rewrite (proj2 (Nat.ltb_lt i n) Hi), (proj2 (Nat.ltb_ge (n + k) n)) by lia.
      replace (n + k - n)%nat with k by lia. unfold mid. rewrite (proj2 (Nat.eqb_neq i k)) by auto. ring.
  - intros k Hk. unfold of_mat, block. rewrite (proj2 (Nat.ltb_lt i n) Hi), (proj2 (Nat.ltb_lt k n) Hk). unfold mzero. ring.
Qed.
Lemma block_bot n X Y (z : cvec) i : (i < n)%nat -> cmulv (n + n) (of_mat (block n mzero mid X Y)) z (n + i)%nat =
  cmulv n (of_mat X) z i + cmulv n (of_mat Y) (fun j => z (n + j)%nat) i.
Proof.
  intros Hi. unfold cmulv. rewrite csumn_split. f_equal; apply csumn_ext; intros k Hk; unfold of_mat, block.
  - rewrite (proj2 (Nat.ltb_ge (n + i) n)), (proj2 (Nat.ltb_lt k n) Hk) by lia. replace (n + i - n)%nat with i by lia. reflexivity.
  - rewrite (proj2 (Nat.ltb_ge (n + i) n)), (proj2 (Nat.ltb_ge (n + k) n)) by lia.
    replace (n + i - n)%nat with i by lia. replace (n + k - n)%nat with k by lia. reflexivity.
Qed.

Lemma dyn_mulv n M D K s (y : cvec) i : cmulv n (dyn M D K s) y i =
  s * s * cmulv n (of_mat M) y i + s * cmulv n (of_mat D) y i + cmulv n (of_mat K) y i.
Proof. unfold cmulv, dyn, of_mat. rewrite <- !csumn_scal, <- !csumn_plus. apply csumn_ext. intros; ring. Qed.
Lemma cnonsingular_eq n A (x y : cvec) : cnonsingular n A -> (forall i, (i < n)%nat -> cmulv n A x i = cmulv n A y i) ->
  forall i, (i < n)%nat -> x i = y i.
Proof.
  intros H E i Hi. assert (X : x i + (- (1)) * y i = 0).
  { apply (H (fun j => x j + (- (1)) * y j)); auto. intros k Hk. rewrite cmulv_add, cmulv_scal, E by auto. ring. }
  replace (x i) with (x i + (- (1)) * y i + y i) by ring. rewrite X. ring.
Qed.

Section State.
Variables (n : nat) (M D K X Y : mat).
Hypothesis HM : nonsingular n M.
Hypothesis HX : meq n (mulm n (mscale (-1) M) X) K.
Hypothesis HY : meq n (mulm n (mscale (-1) M) Y) D.

Lemma solved (B Z : mat) (y : cvec) i : meq n (mulm n (mscale (-1) M) Z) B -> (i < n)%nat ->
  cmulv n (of_mat M) (cmulv n (of_mat Z) y) i = - cmulv n (of_mat B) y i.
Proof.
  intros H Hi. rewrite cmulv_mulm. unfold cmulv. rewrite <- csumn_opp. apply csumn_ext. intros k Hk.
  rewrite cmulm_of. unfold of_mat. rewrite <- (H i k) by auto.
  replace (mulm n (mscale (-1) M) Z i k) with (- mulm n M Z i k)%R; [rewrite RtoC_opp; ring|].
  unfold mulm, mscale. rewrite <- sumn_opp. apply sumn_ext. intros; ring.
Qed.
Lemma state_forced (s : C) (y g : cvec) :
  ((forall i, (i < n)%nat -> s * y i - cmulv (n + n) (of_mat (block n mzero mid X Y)) y i = 0) /\
   (forall i, (i < n)%nat -> s * y (n + i)%nat - cmulv (n + n) (of_mat (block n mzero mid X Y)) y (n + i)%nat = g i)) <->
  ((forall i, (i < n)%nat -> y (n + i)%nat = s * y i) /\
   (forall i, (i < n)%nat -> cmulv n (dyn M D K s) y i = cmulv n (of_mat M) g i)).
Proof.
  assert (A1 : (forall i, (i < n)%nat -> s * y i - cmulv (n + n) (of_mat (block n mzero mid X Y)) y i = 0) <->
               (forall i, (i < n)%nat -> y (n + i)%nat = s * y i)).
  { split; intros H i Hi; specialize (H i Hi); rewrite ?block_top in * by auto.
    - replace (y (n + i)%nat) with (s * y i - (s * y i - y (n + i)%nat)) by ring. rewrite H. ring.
    - rewrite H. ring. }
  assert (A2 : (forall i, (i < n)%nat -> y (n + i)%nat = s * y i) -> forall i, (i < n)%nat ->
     cmulv n (of_mat M) (fun i => s * y (n + i)%nat - cmulv (n + n) (of_mat (block n mzero mid X Y)) y (n + i)%nat) i = cmulv n (dyn M D K s) y i).
  { intros Hp i Hi. rewrite dyn_mulv.
    rewrite (cmulv_ext n _ _ (fun i => s * s * y i + ((- (1)) * cmulv n (of_mat X) y i + (- s) * cmulv n (of_mat Y) y i))).
    2:{ intros j Hj. rewrite block_bot by auto. rewrite (cmulv_ext n (of_mat Y) _ (fun j => s * y j)) by auto. rewrite cmulv_scal, Hp by auto. ring. }
    rewrite !cmulv_add, !cmulv_scal, (solved K X), (solved D Y) by auto. ring. }
  split.
  - intros [H1 H2]. assert (Hp := proj1 A1 H1). split; auto. intros i Hi. rewrite <- A2 by auto. apply cmulv_ext. auto.
  - intros [H1 H2]. split; [apply A1; auto|]. intros i Hi.
    apply (cnonsingular_eq n (of_mat M) (fun i => s * y (n + i)%nat - cmulv (n + n) (of_mat (block n mzero mid X Y)) y (n + i)%nat) g); auto.
    + apply nonsingular_cnonsingular, HM.
    + intros k Hk. rewrite A2, H2; auto.
Qed.
Lemma state_eigen (s : C) (z : cvec) : eigenpair (n + n) (block n mzero mid X Y) s z <->
  cnonzero n z /\ (forall i, (i < n)%nat -> z (n + i)%nat = s * z i) /\ (forall i, (i < n)%nat -> cmulv n (dyn M D K s) z i = 0).
Proof.
  pose proof (state_forced s z (fun _ => 0)) as S.
  assert (Z0 : forall i, cmulv n (of_mat M) (fun _ => 0) i = 0) by (intros; apply csumn_0; intros; ring).
  unfold eigenpair. split.
  - intros [(k & Hk & Hz) H]. destruct (proj1 S) as [S1 S2].
    { split; intros i Hi; rewrite H by lia; ring. }
    split; [|split; auto].
    + destruct (lt_dec k n) as [L|L]; [exists k; auto|]. exists (k - n)%nat. split; [lia|]. intros E. apply Hz.
      replace k with (n + (k - n))%nat by lia. rewrite S1, E by lia. ring.
    + intros i Hi. rewrite S2, Z0; auto.
  - intros [(k & Hk & Hz) [H1 H2]]. split; [exists k; split; [lia|auto]|]. destruct (proj2 S) as [S1 S2].
    { split; auto. intros i Hi. rewrite H2, Z0; auto. }
    intros i Hi. destruct (lt_dec i n) as [L|L].
    + specialize (S1 i L). replace (s * z i) with (s * z i - cmulv (n + n) (of_mat (block n mzero mid X Y)) z i + cmulv (n + n) (of_mat (block n mzero mid X Y)) z i) by ring.
      rewrite S1. ring.
    + specialize (S2 (i - n)%nat ltac:(lia)). replace (n + (i - n))%nat with i in S2 by lia.
      replace (s * z i) with (s * z i - cmulv (n + n) (of_mat (block n mzero mid X Y)) z i + cmulv (n + n) (of_mat (block n mzero mid X Y)) z i) by ring.
      rewrite S2. ring.
Qed.
End State.

(** ** the first-order form over the reals *)
Lemma nonsingular_opp n M : nonsingular n M -> nonsingular n (mscale (-1) M).
Proof.
  intros H x Hx. apply H. intros i Hi. specialize (Hx i Hi). unfold mulv, mscale in Hx.
  rewrite (sumn_ext n _ (fun j => - (M i j * x j))%R) in Hx by (intros; ring). rewrite sumn_opp in Hx. unfold mulv. lra.
Qed.
Lemma rmulv_mulm n A B (x : vec) i : mulv n A (mulv n B x) i = mulv n (mulm n A B) x i.
Proof.
  unfold mulv, mulm. rewrite (sumn_ext n (fun j => A i j * sumn n (fun j0 => B j j0 * x j0))%R (fun j => sumn n (fun k => A i j * B j k * x k))%R).
  - rewrite sumn_swap. apply sumn_ext. intros k _. rewrite <- sumn_scal_r. reflexivity.
  - intros j _. rewrite <- sumn_scal. apply sumn_ext. intros; ring.
Qed.
Lemma rmulv_ext n A (x y : vec) i : (forall j, (j < n)%nat -> x j = y j) -> mulv n A x i = mulv n A y i.
Proof. intros H. apply sumn_ext. intros j Hj. rewrite H; auto. Qed.
Lemma block_mulv n X Y (x : vec) i : (i < n)%nat ->
  mulv (n + n) (block n mzero mid X Y) x i = x (n + i)%nat /\
  mulv (n + n) (block n mzero mid X Y) x (n + i)%nat = (mulv n X x i + mulv n Y (fun j => x (n + j)%nat) i)%R.
Proof.
  intros Hi. unfold mulv. rewrite !sumn_split. split.
  - rewrite (sumn_0 n). 2:{ intros j Hj. unfold block, mzero. rewrite (proj2 (Nat.ltb_lt i n)), (proj2 (Nat.ltb_lt j n)) by auto. ring. }
    rewrite (sumn_ext n _ (fun j => mid i j * x (n + j)%nat)%R).
    + rewrite (sumn_single n _ i Hi); [unfold mid; rewrite Nat.eqb_refl; ring|]. intros j Hj Hne. unfold mid. rewrite (proj2 (Nat.eqb_neq i j)) by auto. ring.
    + intros j Hj. unfold block. rewrite (proj2 (Nat.ltb_lt i n)), (proj2 (Nat.ltb_ge (n + j) n)) by lia. replace (n + j - n)%nat with j by lia. reflexivity.
  - f_equal; apply sumn_ext; intros j Hj; unfold block; rewrite (proj2 (Nat.ltb_ge (n + i) n)) by lia.
    + rewrite (proj2 (Nat.ltb_lt j n)) by auto. replace (n + i - n)%nat with i by lia. reflexivity.
    + rewrite (proj2 (Nat.ltb_ge (n + j) n)) by lia. replace (n + i - n)%nat with i by lia. replace (n + j - n)%nat with j by lia. reflexivity.
Qed.
Lemma state_real n M D K X Y (x y : vec) : nonsingular n M -> meq n (mulm n (mscale (-1) M) X) K -> meq n (mulm n (mscale (-1) M) Y) D ->
  (forall i, (i < n + n)%nat -> y i = mulv (n + n) (block n mzero mid X Y) x i) <->
  (forall i, (i < n)%nat -> y i = x (n + i)%nat) /\
  (forall i, (i < n)%nat -> mulv n M (fun j => y (n + j)%nat) i + mulv n D (fun j => x (n + j)%nat) i + mulv n K x i = 0)%R.
Proof.
  intros NS HX HY.
  assert (E : forall P Q (z : vec) i, meq n (mulm n (mscale (-1) M) P) Q -> (i < n)%nat -> mulv n Q z i = (- mulv n M (mulv n P z) i)%R).
  { intros P Q z i HP Hi. transitivity (mulv n (mulm n (mscale (-1) M) P) z i).
    - unfold mulv. apply sumn_ext. intros j Hj. rewrite HP by auto. reflexivity.
    - rewrite <- rmulv_mulm. unfold mulv at 1. unfold mscale. rewrite (sumn_ext n _ (fun j => - (M i j * mulv n P z j))%R) by (intros; ring). rewrite sumn_opp. reflexivity. }
  split.
  - intros H. split; [intros i Hi; rewrite H by lia; apply block_mulv; auto|]. intros i Hi. rewrite (E Y D _ i HY Hi), (E X K _ i HX Hi).
    rewrite (rmulv_ext n M (fun j => y (n + j)%nat) (fun j => mulv n X x j + mulv n Y (fun l => x (n + l)%nat) j)%R).
    + unfold mulv at 1. rewrite (sumn_ext n _ (fun j => M i j * mulv n X x j + M i j * mulv n Y (fun l => x (n + l)%nat) j)%R) by (intros; ring). rewrite sumn_plus. unfold mulv. ring.
    + intros j Hj. rewrite H by lia. apply block_mulv; auto.
  - intros [H1 H2] k Hk. destruct (Nat.lt_ge_cases k n) as [L|L].
    + rewrite H1 by auto. symmetry. apply block_mulv; auto.
    + replace k with (n + (k - n))%nat by lia. rewrite (proj2 (block_mulv n X Y x (k - n) ltac:(lia))).
      assert (Z : forall i, (i < n)%nat -> (fun j => y (n + j)%nat - (mulv n X x j + mulv n Y (fun l => x (n + l)%nat) j))%R i = 0%R).
      { apply NS. intros i Hi. specialize (H2 i Hi). rewrite (E Y D _ i HY Hi), (E X K _ i HX Hi) in H2. unfold mulv at 1.
        rewrite (sumn_ext n _ (fun j => M i j * y (n + j)%nat + - (M i j * mulv n X x j + M i j * mulv n Y (fun l => x (n + l)%nat) j))%R) by (intros; ring).
        rewrite sumn_plus, sumn_opp, sumn_plus. unfold mulv at 1 2 4 in H2. unfold mulv in *. lra. }
      specialize (Z (k - n)%nat ltac:(lia)). cbv beta in Z. lra.
Qed.
