(** Least squares fit of the measured film forces. *)
From Coq Require Import Reals List Arith Bool Lia Lra.
From Coquelicot Require Import Coquelicot.
From Verif Require Import PyBase MatBase LMat CMat LCMat MDynamics MFluid.
Import ListNotations.
Open Scope R_scope.

Definition lsq_X (rows : list (R * R)) : mat := fun i j => let '(d, v) := nth i rows (0, 0) in nth j [1; d; v] 0.
Lemma csum_Re n f : Re (csumn n f) = sumn n (fun k => Re (f k)).
Proof. induction n as [|n IH]; [reflexivity|]. cbn [csumn sumn]. rewrite <- IH. reflexivity. Qed.
Lemma lsq_normal la rows F P : linalg_ok la -> least_squares3 la rows F = Ok P -> let n := length rows in let X := lsq_X rows in
  nonsingular 3 (mulm n (mtrans X) X) /\ forall i, (i < 3)%nat -> sumn n (fun k => X k i * (nth k F 0 - sumn 3 (fun j => X k j * P j))) = 0.
Proof.
  intros Hla E n X. unfold least_squares3, bind in E. fold (lsq_X rows) in E. fold n in E. fold X in E. set (N := mulm n (mtrans X) X) in *. destruct (la_inv la 3 (of_mat N)) as [I|e] eqn:EI; [|discriminate]. injection E as <-.
  apply (inv_sol _ Hla) in EI. destruct EI as [E1 E2]. split.
  - intros x Hx i Hi. pose proof (right_inverse_nonsingular 3 (of_mat N) I E1) as NS. specialize (NS (fun k => RtoC (x k))).
    assert (Z : RtoC (x i) = RtoC 0); [|injection Z; auto]. apply NS; [|exact Hi]. intros j Hj. apply injective_projections.
    + transitivity (mulv 3 N x j); [exact (cmulv_Re 3 N (fun k => RtoC (x k)) j)|apply Hx; exact Hj].
    + change (snd (cmulv 3 (of_mat N) (fun k => RtoC (x k)) j)) with (Im (cmulv 3 (of_mat N) (fun k => RtoC (x k)) j)). rewrite cmulv_Im. unfold mulv. apply sumn_0. intros k _. simpl. ring.
  - set (Rr := fun i j => fst (I i j)). assert (NR : forall i l, (i < 3)%nat -> (l < 3)%nat -> sumn 3 (fun j => N i j * Rr j l) = if Nat.eqb i l then 1 else 0).
    { intros i l Hi Hl. pose proof (f_equal Re (E1 i l Hi Hl)) as X1. unfold cmulm in X1. rewrite csum_Re in X1. transitivity (Re (cid i l)); [|unfold cid; destruct (Nat.eqb i l); reflexivity]. rewrite <- X1. apply sumn_ext. intros k _. unfold of_mat, Rr. simpl. ring. }
    set (g := fun l => sumn n (fun k => X k l * nth k F 0)).
    set (P := mulv n (mulm 3 (fun i j => fst (I i j)) (mtrans X)) (fun i => nth i F 0)).
    assert (HP : forall j, P j = sumn 3 (fun l => Rr j l * g l)).
    { intros j. unfold P, mulv, mulm, g. rewrite (sumn_ext n _ (fun k => sumn 3 (fun l => Rr j l * X k l * nth k F 0))) by (intros k _; rewrite sumn_scal_r; reflexivity). rewrite sumn_swap. apply sumn_ext. intros l _. rewrite <- sumn_scal. apply sumn_ext. intros k _. ring. }
    intros i Hi. rewrite (sumn_ext n _ (fun k => X k i * nth k F 0 - X k i * sumn 3 (fun j => X k j * P j))) by (intros; apply Rmult_minus_distr_l). rewrite sumn_minus. fold (g i).
    assert (NP : sumn n (fun k => X k i * sumn 3 (fun j => X k j * P j)) = g i).
    { transitivity (sumn 3 (fun j => N i j * P j)).
      - unfold N, mulm, mtrans. rewrite (sumn_ext n _ (fun k => sumn 3 (fun j => X k i * X k j * P j))) by (intros k _; rewrite <- sumn_scal; apply sumn_ext; intros; ring). rewrite sumn_swap. apply sumn_ext. intros j _. rewrite sumn_scal_r. reflexivity.
      - rewrite (sumn_ext 3 _ (fun j => sumn 3 (fun l => N i j * Rr j l * g l))) by (intros j _; rewrite HP, <- sumn_scal; apply sumn_ext; intros; ring). rewrite sumn_swap.
        rewrite (sumn_ext 3 _ (fun l => (if Nat.eqb i l then 1 else 0) * g l)) by (intros l Hl; rewrite sumn_scal_r, NR by assumption; reflexivity). rewrite (sumn_single 3 _ i Hi); [rewrite Nat.eqb_refl; ring|]. intros l _ Hl. replace (Nat.eqb i l) with false by (symmetry; apply Nat.eqb_neq; auto). ring. }
    rewrite NP. ring.
Qed.
Lemma lsq_ok la rows F : linalg_ok la -> nonsingular 3 (mulm (length rows) (mtrans (lsq_X rows)) (lsq_X rows)) -> exists P, least_squares3 la rows F = Ok P.
Proof.
  intros Hla NS. unfold least_squares3, bind. fold (lsq_X rows). destruct (la_inv la 3 _) as [I|e] eqn:EI; [eexists; reflexivity|]. exfalso. apply (inv_err _ Hla) in EI. destruct EI as [_ C]. apply C. apply nonsingular_cnonsingular. exact NS.
Qed.

(** sum of squared errors of the affine fit a + k d + c v *)
Definition sq_err (rows : list (R * R)) (F : list R) (a k c : R) : R :=
  sumn (length rows) (fun i => (nth i F 0 - (a + k * fst (nth i rows (0, 0)) + c * snd (nth i rows (0, 0)))) ^ 2).
Lemma lsq_best la rows F P : linalg_ok la -> least_squares3 la rows F = Ok P ->
  forall a k c, sq_err rows F a k c = sq_err rows F (P 0%nat) (P 1%nat) (P 2%nat) + sumn (length rows) (fun i => ((a - P 0%nat) + (k - P 1%nat) * fst (nth i rows (0, 0)) + (c - P 2%nat) * snd (nth i rows (0, 0))) ^ 2).
Proof.
  intros Hla E a k c. destruct (lsq_normal la rows F P Hla E) as [_ H].
  assert (X0 : forall i, lsq_X rows i 0%nat = 1) by (intros i; unfold lsq_X; destruct (nth i rows (0, 0)); reflexivity).
  assert (X1 : forall i, lsq_X rows i 1%nat = fst (nth i rows (0, 0))) by (intros i; unfold lsq_X; destruct (nth i rows (0, 0)); reflexivity).
  assert (X2 : forall i, lsq_X rows i 2%nat = snd (nth i rows (0, 0))) by (intros i; unfold lsq_X; destruct (nth i rows (0, 0)); reflexivity).
  set (e := fun i => nth i F 0 - (P 0%nat + P 1%nat * fst (nth i rows (0, 0)) + P 2%nat * snd (nth i rows (0, 0)))). set (n := length rows) in *.
  assert (H' : forall i, (i < 3)%nat -> sumn n (fun k => lsq_X rows k i * e k) = 0).
  { intros i Hi. rewrite <- (H i Hi). apply sumn_ext. intros j _. cbn [sumn]. rewrite X0, X1, X2. unfold e. ring. }
  pose proof (H' 0%nat ltac:(lia)) as H0. pose proof (H' 1%nat ltac:(lia)) as H1. pose proof (H' 2%nat ltac:(lia)) as H2. unfold sq_err. fold n.
  set (dl := fun i => (a - P 0%nat) + (k - P 1%nat) * fst (nth i rows (0, 0)) + (c - P 2%nat) * snd (nth i rows (0, 0))).
  rewrite (sumn_ext n _ (fun i => e i ^ 2 + dl i ^ 2 - 2 * (dl i * e i))) by (intros i _; unfold e, dl; ring). rewrite sumn_minus, sumn_plus, sumn_scal.
  enough (Z : sumn n (fun i => dl i * e i) = 0) by (rewrite Z, Rmult_0_r, Rminus_0_r; reflexivity).
  rewrite (sumn_ext n _ (fun i => (a - P 0%nat) * (lsq_X rows i 0%nat * e i) + (k - P 1%nat) * (lsq_X rows i 1%nat * e i) + (c - P 2%nat) * (lsq_X rows i 2%nat * e i))) by (intros i _; rewrite X0, X1, X2; unfold dl; ring).
  rewrite !sumn_plus, !sumn_scal, H0, H1, H2. ring.
Qed.

(** one instant measures the forces at the displaced positions of the given centre *)
Definition upto (f g : fluid) : Prop := exists t e r a, g = set_pos (set_pert f t (ff_xp f) (ff_yp f)) (ff_xi f) (ff_yi f) e r a.
Definition at_x (f : fluid) (t : R) : fluid := move_abs (set_pert f t (ff_xp f) (ff_yp f)) (ff_xi f + ff_xp f * sin (ff_omegap f * t)) (ff_yi f).
Definition at_y (f : fluid) (t : R) : fluid := move_abs (set_pert f t (ff_xp f) (ff_yp f)) (ff_xi f) (ff_yi f + ff_yp f * sin (ff_omegap f * t)).
Lemma upto_refl f : upto f f.
Proof. exists (ff_t f), (ff_ecc f), (ff_ratio f), (ff_att f). destruct f; reflexivity. Qed.
Lemma one_instant_eq fl f g t : upto f g -> exists h, upto f h /\ one_instant fl g t =
  bind (pert_force fl (at_x f t) DirX) (fun '(fxx, fyx) => bind (pert_force fl (at_y f t) DirY) (fun '(fxy, fyy) =>
    Ok (h, (ff_xp f * sin (ff_omegap f * t), ff_omegap f * ff_xp f * cos (ff_omegap f * t), (- fxx, - fyx), (- fxy, - fyy))))).
Proof.
  intros (t0 & e & r & a & ->). unfold one_instant, move_center, move_abs, at_x, at_y, move_abs. cbn [set_pos set_pert ff_xp ff_yp ff_omegap ff_xi ff_yi].
  replace (ff_yi f + 0) with (ff_yi f) by ring. set (dx := ff_xp f * sin (ff_omegap f * t)). set (dy := ff_yp f * sin (ff_omegap f * t)).
  replace (ff_xi f + dx + - dx) with (ff_xi f) by ring. replace (ff_xi f + 0) with (ff_xi f) by ring. replace (ff_yi f + 0 + dy) with (ff_yi f + dy) by ring. replace (ff_yi f + dy + - dy) with (ff_yi f) by ring. replace (ff_yi f + 0 + dy + - dy) with (ff_yi f) by ring. replace (ff_xi f + 0) with (ff_xi f) by ring.
  eexists. split; [|reflexivity]. eexists. eexists. eexists. eexists. reflexivity.
Qed.
Lemma all_instants_eq fl f : forall l g ms, upto f g -> all_instants fl g l = Ok ms ->
  length ms = length l /\ forall k, (k < length l)%nat -> let t := nth k l 0 in exists fxx fyx fxy fyy,
    pert_force fl (at_x f t) DirX = Ok (fxx, fyx) /\ pert_force fl (at_y f t) DirY = Ok (fxy, fyy) /\
    nth k ms (0, 0, (0, 0), (0, 0)) = (ff_xp f * sin (ff_omegap f * t), ff_omegap f * ff_xp f * cos (ff_omegap f * t), (- fxx, - fyx), (- fxy, - fyy)).
Proof.
  induction l as [|t l IH]; intros g ms U E.
  - injection E as <-. split; [reflexivity|]. intros k Hk. simpl in Hk. lia.
  - cbn [all_instants] in E. destruct (one_instant_eq fl f g t U) as (h & Uh & Eo). rewrite Eo in E. unfold bind in E.
    destruct (pert_force fl (at_x f t) DirX) as [[fxx fyx]|] eqn:E1; [|discriminate]. destruct (pert_force fl (at_y f t) DirY) as [[fxy fyy]|] eqn:E2; [|discriminate].
    destruct (all_instants fl h l) as [ms'|] eqn:E3; [|discriminate]. injection E as <-. destruct (IH h ms' Uh E3) as [L H]. split; [cbn [length]; rewrite L; reflexivity|].
    intros [|k] Hk.
    + cbn [nth]. exists fxx, fyx, fxy, fyy. rewrite E1, E2. repeat split; reflexivity.
    + cbn [nth]. apply H. cbn [length] in Hk. lia.
Qed.
Lemma all_instants_ok fl f : forall l g, upto f g -> (forall t, In t l -> (exists a, pert_force fl (at_x f t) DirX = Ok a) /\ (exists a, pert_force fl (at_y f t) DirY = Ok a)) -> exists ms, all_instants fl g l = Ok ms.
Proof.
  induction l as [|t l IH]; intros g U H; [eexists; reflexivity|]. cbn [all_instants]. destruct (one_instant_eq fl f g t U) as (h & Uh & ->). destruct (H t (or_introl eq_refl)) as [[[a1 a2] E1] [[b1 b2] E2]]. rewrite E1, E2. cbn [bind].
  destruct (IH h Uh) as [ms E]; [intros t' Ht'; apply H; right; exact Ht'|]. rewrite E. eexists. reflexivity.
Qed.

(** the instants are not collinear *)
Lemma instants_nth om k : (k < 6)%nat -> nth k (instants om) 0 = INR k * (2 * PI / om / 5).
Proof. intros H. unfold instants. rewrite (nth_indep _ 0 (INR 0 * (2 * PI / om / 5))) by (rewrite map_length, seq_length; lia). rewrite (map_nth (fun i => INR i * (2 * PI / om / 5))), seq_nth by lia. reflexivity. Qed.
Lemma five_arith : cos (2 * PI / 5) < 1 /\ 0 < sin (2 * PI / 5).
Proof.
  pose proof PI_RGT_0. assert (S : 0 < sin (2 * PI / 5)) by (apply sin_gt_0; lra). split; [|exact S]. pose proof (sin2_cos2 (2 * PI / 5)) as E. unfold Rsqr in E. pose proof (COS_bound (2 * PI / 5)). nra.
Qed.
Lemma instants_free xp om a k c : xp <> 0 -> om <> 0 -> (forall i, (i < 6)%nat -> let t := nth i (instants om) 0 in a + k * (xp * sin (om * t)) + c * (om * xp * cos (om * t)) = 0) -> a = 0 /\ k = 0 /\ c = 0.
Proof.
  intros Hx Ho H. destruct five_arith as [C1 S1]. pose proof (H 0%nat ltac:(lia)) as H0. pose proof (H 1%nat ltac:(lia)) as H1. pose proof (H 4%nat ltac:(lia)) as H4. cbv zeta in *. rewrite !instants_nth in * by lia.
  replace (om * (INR 0 * (2 * PI / om / 5))) with 0 in H0 by (simpl; ring). replace (om * (INR 1 * (2 * PI / om / 5))) with (2 * PI / 5) in H1 by (simpl; field; exact Ho).
  replace (om * (INR 4 * (2 * PI / om / 5))) with (- (2 * PI / 5) + 2 * INR 1 * PI) in H4 by (simpl; field; exact Ho). rewrite sin_period, cos_period, sin_neg, cos_neg in H4. rewrite sin_0, cos_0 in H0. set (s := sin (2 * PI / 5)) in *. set (q := cos (2 * PI / 5)) in *.
  assert (K : k = 0). { assert (X : k * (xp * s) = 0) by lra. apply Rmult_integral in X. destruct X as [X|X]; [exact X|]. apply Rmult_integral in X. destruct X; lra. }
  subst k. assert (Cc : c = 0). { assert (X : c * (om * xp) * (1 - q) = 0) by lra. apply Rmult_integral in X. destruct X as [X|X]; [|lra]. apply Rmult_integral in X. destruct X as [X|X]; [exact X|]. apply Rmult_integral in X. destruct X; contradiction. }
  subst c. repeat split; lra.
Qed.
