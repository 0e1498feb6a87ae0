(** Cases that meet the hypotheses of the theorems on the dynamics. *)
From Coq Require Import Reals String List Arith Bool Lia Lra Permutation.
From Coquelicot Require Import Complex.
From Verif Require Import PyBase MatBase SpecMat LMat CMat LCMat MMaterial MShaft SpecShaft LShaftEx MDisk MBearing MRotor SpecRotor LAssembly LRotor LRotor2 LRotor5 LBearing2 LRotorEx MDynamics SpecDynamics LDynamics LStability LTransfer LDynEx LResponse.
Import ListNotations.
Open Scope list_scope.
Open Scope R_scope.

(** ** the example rotor is passive *)
Lemma sym2 a b : symmetric 2 (lmat [[a; 0]; [0; b]]).
Proof. intros i j Hi Hj. lt2 i Hi; lt2 j Hj; reflexivity. Qed.
Lemma sym3 a b c : symmetric 3 (lmat [[a; 0; 0]; [0; b; 0]; [0; 0; c]]).
Proof. intros i j Hi Hj. destruct i as [|[|[|i]]]; [| | |exfalso; lia]; (destruct j as [|[|[|j]]]; [| | |exfalso; lia]); reflexivity. Qed.
Lemma linked_sym' h A : symmetric h A -> symmetric (2 * h) (linked h A).
Proof.
  intros H i j Hi Hj. unfold linked. destruct (Nat.ltb_spec i h), (Nat.ltb_spec j h); cbn; rewrite H by lia; reflexivity.
Qed.
Lemma ex_brg_syms spl w six n l t i : let e := EBrg i (ex_brg six n l t) in
  symmetric (el_size (el_M spl w) e) (el_mat (el_M spl w) e) /\ symmetric (el_size (el_K spl w) e) (el_mat (el_K spl w) e) /\
  symmetric (el_size (el_C spl w) e) (el_mat (el_C spl w) e).
Proof.
  cbv zeta. destruct six, l as [m|]; (split; [|split]).
  - exact (linked_sym' 3 _ (sym3 0 0 0)).
  - exact (linked_sym' 3 _ (sym3 1000 1000 500)).
  - exact (linked_sym' 3 _ (sym3 1 1 0)).
  - exact (sym3 0 0 0).
  - exact (sym3 1000 1000 500).
  - exact (sym3 1 1 0).
  - exact (linked_sym' 2 _ (sym2 0 0)).
  - exact (linked_sym' 2 _ (sym2 1000 1000)).
  - exact (linked_sym' 2 _ (sym2 1 1)).
  - exact (sym2 0 0).
  - exact (sym2 1000 1000).
  - exact (sym2 1 1).
Qed.
Lemma ex_brg_C spl w six n l t i x :
  let e := EBrg i (ex_brg six n l t) in
  let v j := match l with None => x j | Some _ => x j - x ((if six then 3 else 2) + j)%nat end in
  bform (el_size (el_C spl w) e) (el_mat (el_C spl w) e) x x = v 0%nat ^ 2 + v 1%nat ^ 2.
Proof.
  cbv zeta. destruct six, l as [m|].
  - change (bform (2 * 3) (linked 3 (lmat [[1; 0; 0]; [0; 1; 0]; [0; 0; 0]])) x x = (x 0%nat - x 3%nat) ^ 2 + (x 1%nat - x 4%nat) ^ 2).
    rewrite linked_bform, diag3. cbn [Nat.add]. ring.
  - change (bform 3 (lmat [[1; 0; 0]; [0; 1; 0]; [0; 0; 0]]) x x = (x 0%nat) ^ 2 + (x 1%nat) ^ 2). rewrite diag3. ring.
  - change (bform (2 * 2) (linked 2 (lmat [[1; 0]; [0; 1]])) x x = (x 0%nat - x 2%nat) ^ 2 + (x 1%nat - x 3%nat) ^ 2).
    rewrite linked_bform, diag2. cbn [Nat.add]. ring.
  - change (bform 2 (lmat [[1; 0]; [0; 1]]) x x = (x 0%nat) ^ 2 + (x 1%nat) ^ 2). rewrite diag2. ring.
Qed.
Lemma ex_passive spl w six r : ex_facts six r -> rfacts r -> passive spl w r.
Proof.
  intros X F. split.
  - intros e He. eapply ex_inertia; eauto.
  - intros e He. pose proof (xf_load _ _ X e He) as N. destruct e; auto. destruct N as (a & H1 & H2 & H3 & H4). exists a. rewrite H4. repeat (split; auto). lra.
  - intros six' n t s He. rewrite (xf_shaft _ _ X) in He. simpl in He. destruct He as [E|[E|[]]]; injection E as <- <- <- <-; cbn; lra.
  - rewrite (xf_brg _ _ X). intros e He. cases_in; apply ex_brg_syms.
  - rewrite (xf_brg _ _ X). intros e He. cases_in; (split; [apply ex_brg_syms|apply ex_brg_psd]).
  - rewrite (xf_brg _ _ X). intros e He. cases_in; (split; [apply ex_brg_syms|]); intros x; rewrite ex_brg_C; cbv zeta;
      match goal with |- 0 <= ?a ^ 2 + ?b ^ 2 => pose proof (pow2_ge_0 a); pose proof (pow2_ge_0 b); lra end.
Qed.

(** ** the transfer matrix of the small system *)
Lemma diag_nonsingular d A : d <> 0 -> diag_mat 2 d A -> nonsingular 2 A.
Proof.
  intros Hd H x Hx i Hi. specialize (Hx i Hi). unfold mulv in Hx. cbn [sumn] in Hx. rewrite !H in Hx by lia.
  lt2 i Hi; cbn [Nat.eqb] in Hx; [assert (E : d * x 0%nat = 0) by lra|assert (E : d * x 1%nat = 0) by lra]; apply Rmult_integral in E; tauto.
Qed.
Lemma diag_opp A : diag_mat 2 1 A -> diag_mat 2 (-1) (mscale (-1) A).
Proof. intros H i j Hi Hj. unfold mscale. rewrite H by auto. destruct (Nat.eqb i j); ring. Qed.
Lemma diag_sol d A B X : diag_mat 2 (-1) A -> diag_mat 2 d B -> (forall i j, (i < 2)%nat -> (j < 2)%nat -> mulm 2 A X i j = B i j) -> diag_mat 2 (- d) X.
Proof.
  intros HA HB H i j Hi Hj. specialize (H i j Hi Hj). rewrite HB in H by auto. unfold mulm in H. cbn [sumn] in H. rewrite !HA in H by lia.
  lt2 i Hi; lt2 j Hj; cbn [Nat.eqb] in *; lra.
Qed.
Lemma tiny_A_ok spl w freq : exists A, rotor_A la1 spl tiny w freq false = Ok A /\ is_tiny 4 A = true.
Proof.
  destruct (tiny_system spl (default w freq)) as (M & K & D & G & HM & HK & HD & HG & dM & dK & dD & dG).
  assert (NS : nonsingular 2 (mscale (-1) M)) by (apply (diag_nonsingular (-1)); [lra|apply diag_opp; auto]).
  destruct (solve_exists la1 2 (mscale (-1) M) K la1_ok NS) as [X HX].
  destruct (solve_exists la1 2 (mscale (-1) M) (madd D (mscale w G)) la1_ok NS) as [Y HY].
  exists (block 2 mzero mid X Y). split.
  - unfold rotor_A. cbv zeta. rewrite HM, HK. cbn [bind]. change (r_ndof tiny) with 2%nat. rewrite HX. cbn [bind]. rewrite HD. cbn [bind]. rewrite HG. cbn [bind]. rewrite HY. reflexivity.
  - apply is_tiny_spec. split; [reflexivity|].
    pose proof (diag_sol 2 _ _ _ (diag_opp M dM) dK (proj2 (solve_sol la1 la1_ok _ _ _ _ HX))) as EX.
    assert (dY : diag_mat 2 3 (madd D (mscale w G))).
    { intros i j Hi Hj. unfold madd, mscale. rewrite dD, dG by auto. destruct (Nat.eqb i j); ring. }
    pose proof (diag_sol 3 _ _ _ (diag_opp M dM) dY (proj2 (solve_sol la1 la1_ok _ _ _ _ HY))) as EY.
    intros i j Hi Hj. unfold block, tiny_A, lmat.
    lt4 i Hi; lt4 j Hj; cbn [Nat.ltb Nat.leb Nat.sub]; try reflexivity; rewrite ?EX, ?EY by lia; cbn; ring.
Qed.
Lemma tiny_W_V i j : (i < 4)%nat -> (j < 4)%nat -> cmulm 4 (of_mat tiny_W) (of_mat tiny_V) i j = cid i j.
Proof.
  intros Hi Hj. rewrite cmulm_of. unfold mulm, tiny_W, tiny_V, lmat, cid. lt4 i Hi; lt4 j Hj; cbn; unfold RtoC; f_equal; ring.
Qed.
Lemma tiny_eigen spl w freq : exists ev psi, eigen la1 spl tiny w freq = Ok (ev, psi) /\ cnonsingular 4 psi.
Proof.
  destruct (tiny_A_ok spl w freq) as (A & HA & HT). destruct (index_even tiny_lam 2) as [idx Hidx].
  eexists _, _. split.
  - unfold eigen. rewrite HA. cbn [bind]. change (2 * r_ndof tiny)%nat with 4%nat. change (la_eig la1 4 A) with (if is_tiny 4 A then (tiny_lam, of_mat tiny_V) else (fun _ => RtoC 0, czero)).
    rewrite HT. change (2 * 2)%nat with 4%nat in Hidx. rewrite Hidx. cbn [bind]. reflexivity.
  - intros x Hx k Hk. change (2 * 2)%nat with 4%nat in Hidx. pose proof (index_perm _ _ _ Hidx) as [P _].
    assert (Eq : forall j, (j < 4)%nat -> exists k, (k < 4)%nat /\ nth k idx 0%nat = j).
    { intros j Hj. destruct (In_nth idx j 0%nat) as (k' & H1 & H2); [apply (Permutation_in _ (Permutation_sym P)), in_seq; lia|].
      exists k'. rewrite (Permutation_length P), seq_length in H1. auto. }
    (* W (V P x) = P x *)
    assert (ND : NoDup idx) by (apply (Permutation_NoDup (Permutation_sym P)), seq_NoDup).
    assert (Li : length idx = 4%nat) by (rewrite (Permutation_length P), seq_length; auto).
    pose proof (fun a => idx_bound _ _ _ a Hidx) as B.
    assert (E : cmulv 4 (of_mat tiny_W) (cmulv 4 (fun i k => of_mat tiny_V i (nth k idx 0%nat)) x) (nth k idx 0%nat) = RtoC 0).
    { unfold cmulv at 1. apply csumn_0. intros i Hi. rewrite Hx by auto. ring. }
    rewrite cmulv_mulm in E. unfold cmulv in E. rewrite (csumn_single 4 _ k Hk) in E.
    + change (cmulm 4 (of_mat tiny_W) (of_mat tiny_V) (nth k idx 0%nat) (nth k idx 0%nat) * x k = RtoC 0)%C in E.
      rewrite tiny_W_V in E by (apply B; auto). unfold cid in E. rewrite Nat.eqb_refl in E. rewrite <- E. ring.
    + intros i Hi Hne. change (cmulm 4 (of_mat tiny_W) (of_mat tiny_V) (nth k idx 0%nat) (nth i idx 0%nat) * x i = RtoC 0)%C.
      rewrite tiny_W_V by (apply B; auto). unfold cid. destruct (Nat.eqb_spec (nth k idx 0%nat) (nth i idx 0%nat)) as [E2|E2]; [|ring].
      exfalso. apply Hne. symmetry. apply (proj1 (NoDup_nth idx 0%nat) ND); auto; lia.
Qed.
Lemma inv_exists la n A : linalg_ok la -> cnonsingular n A -> is_ok (la_inv la n A).
Proof. intros L H. destruct (la_inv la n A) as [X|e] eqn:E; [exists X; auto|]. apply (inv_err la L) in E. tauto. Qed.
Lemma tiny_transfer spl w freq : is_ok (transfer_matrix la1 spl tiny w freq None).
Proof.
  destruct (tiny_eigen spl w freq) as (ev & psi & He & Hp). destruct (inv_exists la1 4 psi la1_ok Hp) as [W HW].
  destruct (tiny_A_ok spl w None) as (A & HA & _).
  destruct (tiny_system spl w) as (M & K & D & G & HM & HK & HD & HG & dM & dK & dD & dG).
  assert (NS : nonsingular 2 M) by (apply (diag_nonsingular 1); [lra|auto]).
  destruct (solve_exists la1 2 M mid la1_ok NS) as [MI HMI]. destruct (solve_exists la1 2 M K la1_ok NS) as [MK HMK]. destruct (solve_exists la1 2 M D la1_ok NS) as [MD HMD].
  unfold transfer_matrix, rotor_lti. cbn [default]. change (rotor_A la1 spl tiny w (Some w) false) with (rotor_A la1 spl tiny w None false).
  rewrite HA. cbn [bind]. rewrite HM. cbn [bind]. change (r_ndof tiny) with 2%nat. rewrite HMI. cbn [bind]. rewrite HK. cbn [bind]. rewrite HMK. cbn [bind]. rewrite HD. cbn [bind]. rewrite HMD. cbn [bind].
  rewrite He. cbn [bind]. change (2 * 2)%nat with 4%nat. rewrite HW. cbn [bind]. eexists. reflexivity.
Qed.
(** i w is never an eigenvalue of it *)
Lemma tiny_regular spl w M K D G : rotor_M spl tiny (Some w) = Ok M -> rotor_K spl tiny w [] = Ok K -> rotor_C spl tiny w [] = Ok D -> rotor_G spl tiny = Ok G ->
  cnonsingular 2 (dyn M (damp_gyro D G w) K (0, w)).
Proof.
  intros HM HK HD HG. destruct (tiny_system spl w) as (M' & K' & D' & G' & HM' & HK' & HD' & HG' & dM & dK & dD & dG).
  rewrite HM in HM'. injection HM' as <-. rewrite HK in HK'. injection HK' as <-. rewrite HD in HD'. injection HD' as <-. rewrite HG in HG'. injection HG' as <-.
  intros x Hx i Hi. specialize (Hx i Hi). unfold cmulv, dyn, damp_gyro in Hx. cbn [csumn] in Hx. rewrite !dM, !dK, !dD, !dG in Hx by lia.
  set (d := (2 - w * w, 3 * w)%R : C).
  assert (E : Cmult d (x i) = RtoC 0).
  { rewrite <- Hx. unfold d. lt2 i Hi; cbn [Nat.eqb]; destruct (x 0%nat), (x 1%nat); unfold Cmult, Cplus, RtoC; cbn [fst snd]; f_equal; ring. }
  assert (Hd : d <> RtoC 0).
  { intros E2. unfold d in E2. injection E2 as E3 E4. assert (w = 0) by lra. subst w. lra. }
  destruct (Ceq_dec (x i) (RtoC 0)) as [|N]; auto. exfalso. apply (Cmult_neq_0 d (x i) Hd N E).
Qed.
