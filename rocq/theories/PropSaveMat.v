(** C92: what the matrices saved to a .mat file determine. *)
From Coq Require Import Reals String List Bool Arith Lia Lra.
From Verif Require Import PyBase MatBase SpecMat LMat CMat MDisk MBearing MRotor MDynamics MSaveMat SpecRotor SpecDynamics SpecSaveMat LRotor LRotorEx LTransfer LDynEx LDynEx2 PropRotor PropDynamics.
Import ListNotations.
Open Scope R_scope.

(** The file holds M, K and C at the frequency given, or at the speed when none is given, the matrix G, and the positions of the nodes. *)
Theorem C92_holds spl r speed frequency d : save_mat spl r speed frequency = Ok d ->
  let f := match frequency with Some f => f | None => speed end in
  rotor_M spl r (Some f) = Ok (mf_M d) /\ rotor_K spl r f [] = Ok (mf_K d) /\ rotor_C spl r f [] = Ok (mf_C d) /\ rotor_G spl r = Ok (mf_G d) /\ mf_nodes d = r_nodes_pos r.
Proof.
  unfold save_mat. change (match frequency with Some f => f | None => speed end) with (default speed frequency). intros H. cbv zeta.
  apply bind_ok in H as (M & HM & H). apply bind_ok in H as (K & HK & H). apply bind_ok in H as (D & HD & H). apply bind_ok in H as (G & HG & H).
  injection H as <-. cbn. auto.
Qed.
(** It can be written for every regular rotor whose bearings can be evaluated there. *)
Theorem C92_saved spl shafts disks brgs pms r speed frequency : rotor_init shafts disks brgs pms = Ok r -> regular r -> links_ok r ->
  let f := match frequency with Some f => f | None => speed end in
  (forall e, In e (r_brg r) -> is_ok (el_M spl f e) /\ is_ok (el_K spl f e) /\ is_ok (el_C spl f e) /\ is_ok (el_K spl 0 e)) ->
  is_ok (save_mat spl r speed frequency).
Proof.
  intros H G Hl f Hb. change f with (default speed frequency) in Hb. clear f. set (f := default speed frequency) in *.
  destruct (C19_matrices_exist spl _ _ _ _ r (Some f) [] H G Hl) as (EM & EK & EC & EG).
  destruct EM as [M HM]; [intros e He; apply Hb; auto|]. destruct (EK f) as [K HK]; [intros e He; apply Hb; auto|].
  destruct (EC f) as [D HD]; [intros e He; apply Hb; auto|]. destruct EG as [Gm HG]; [intros e He; apply Hb; auto|].
  unfold save_mat. fold f. rewrite HM. cbn [bind]. rewrite HK. cbn [bind]. rewrite HD. cbn [bind]. rewrite HG. eexists. reflexivity.
Qed.

Lemma A_nonsingular la spl r speed frequency d w A : linalg_ok la -> save_mat spl r speed frequency = Ok d ->
  rotor_A la spl r w (Some (match frequency with Some f => f | None => speed end)) false = Ok A -> nonsingular (r_ndof r) (mf_M d).
Proof.
  intros L S H. destruct (C92_holds _ _ _ _ _ S) as (HM & _). destruct (rotor_A_inv _ _ _ _ _ _ _ L H) as (M & K & D & G & X & Y & HM' & _ & _ & _ & NS & _).
  cbn [default] in HM'. rewrite HM in HM'. injection HM' as <-. exact NS.
Qed.
(** The state matrix of the rotor at any speed of rotation, and the frequency of the file, is a state matrix of the equations with the matrices of the file. *)
Theorem C92_state_matrix la spl r speed frequency d w A : linalg_ok la -> save_mat spl r speed frequency = Ok d ->
  rotor_A la spl r w (Some (match frequency with Some f => f | None => speed end)) false = Ok A -> state_matrix (r_ndof r) d w A.
Proof.
  intros L S H. destruct (C92_holds _ _ _ _ _ S) as (HM & HK & HD & HG & _).
  destruct (C24_first_order_form _ _ _ _ _ _ _ L H) as (M & K & D & G & HM' & HK' & HD' & HG' & E). cbn [default] in *.
  rewrite HM in HM'. rewrite HK in HK'. rewrite HD in HD'. rewrite HG in HG'. injection HM' as <-. injection HK' as <-. injection HD' as <-. injection HG' as <-.
  intros x. destruct (proj1 (E x (mulv (r_ndof r + r_ndof r) A x)) (fun i _ => eq_refl)) as (E1 & E2). split; [exact E1|exact E2].
Qed.

Definition unit_vec (k : nat) : vec := fun j => if Nat.eqb j k then 1 else 0.
Lemma sumn_unit n k f : (k < n)%nat -> sumn n (fun j => f j * unit_vec k j) = f k.
Proof.
  intros Hk. rewrite (sumn_single n _ k Hk); unfold unit_vec.
  - rewrite Nat.eqb_refl. ring.
  - intros i _ Hi. destruct (Nat.eqb_spec i k); [contradiction|ring].
Qed.
(** There is no other: whoever solves the equations of the file gets the state matrix of the rotor. *)
Lemma state_unique n d w A B : nonsingular n (mf_M d) -> state_matrix n d w A -> state_matrix n d w B ->
  forall i j, (i < n + n)%nat -> (j < n + n)%nat -> A i j = B i j.
Proof.
  intros NS HA HB i j Hi Hj. destruct (HA (unit_vec j)) as (A1 & A2). destruct (HB (unit_vec j)) as (B1 & B2).
  destruct (Nat.lt_ge_cases i n) as [Hlt|Hge].
  - specialize (A1 i Hlt). specialize (B1 i Hlt). rewrite (sumn_unit _ j (fun k => A i k) Hj) in A1. rewrite (sumn_unit _ j (fun k => B i k) Hj) in B1. congruence.
  - replace i with (n + (i - n))%nat by lia. set (m := (i - n)%nat). assert (Hm : (m < n)%nat) by (unfold m; lia).
    assert (Z : (fun k => A (n + k)%nat j - B (n + k)%nat j) m = 0); [|cbv beta in Z; lra].
    apply (NS (fun k => A (n + k)%nat j - B (n + k)%nat j)); [|exact Hm]. clear m Hm. intros m Hm. specialize (A2 m Hm). specialize (B2 m Hm). unfold mulv.
    rewrite (sumn_ext n _ (fun k => mf_M d m k * A (n + k)%nat j - mf_M d m k * B (n + k)%nat j)) by (intros; ring). rewrite sumn_minus.
    rewrite (sumn_ext n _ (fun k => mf_M d m k * A (n + k)%nat j)) in A2 by (intros k Hk; rewrite (sumn_unit _ j (fun l => A (n + k)%nat l) Hj); reflexivity).
    rewrite (sumn_ext n _ (fun k => mf_M d m k * B (n + k)%nat j)) in B2 by (intros k Hk; rewrite (sumn_unit _ j (fun l => B (n + k)%nat l) Hj); reflexivity).
    lra.
Qed.
Theorem C92_rebuild la spl r speed frequency d w A B : linalg_ok la -> save_mat spl r speed frequency = Ok d ->
  rotor_A la spl r w (Some (match frequency with Some f => f | None => speed end)) false = Ok A -> state_matrix (r_ndof r) d w B ->
  forall i j, (i < r_ndof r + r_ndof r)%nat -> (j < r_ndof r + r_ndof r)%nat -> B i j = A i j.
Proof.
  intros L S H HB i j Hi Hj. symmetry. eapply state_unique; eauto using A_nonsingular, C92_state_matrix.
Qed.
(** Rotors with as many degrees of freedom and the same numbers in their files have the same state matrix at every speed of rotation. *)
Theorem C92_determines la spl r r' speed speed' frequency frequency' d d' w A A' : linalg_ok la ->
  save_mat spl r speed frequency = Ok d -> save_mat spl r' speed' frequency' = Ok d' -> r_ndof r = r_ndof r' -> same_file (r_ndof r) d d' ->
  rotor_A la spl r w (Some (match frequency with Some f => f | None => speed end)) false = Ok A ->
  rotor_A la spl r' w (Some (match frequency' with Some f => f | None => speed' end)) false = Ok A' ->
  forall i j, (i < r_ndof r + r_ndof r)%nat -> (j < r_ndof r + r_ndof r)%nat -> A i j = A' i j.
Proof.
  intros L S S' N (_ & Q) H H' i j Hi Hj. symmetry. apply (C92_rebuild _ _ _ _ _ _ _ _ _ L S H); [|exact Hi|exact Hj].
  pose proof (C92_state_matrix _ _ _ _ _ _ _ _ L S' H') as X. rewrite <- N in X. intros x. destruct (X x) as (X1 & X2). split; [exact X1|].
  intros m Hm. rewrite <- (X2 m Hm). f_equal; [f_equal|]; apply sumn_ext; intros k Hk; destruct (Q m k Hm Hk) as (E1 & E2 & E3 & E4); rewrite ?E1, ?E2, ?E3, ?E4; reflexivity.
Qed.

Lemma differ_or_same n (a b : vec) : (exists k, (k < n)%nat /\ a k <> b k) \/ (forall k, (k < n)%nat -> a k = b k).
Proof.
  induction n as [|m [(k & Hk & E)|IH]]; [right; intros; lia|left; exists k; split; [lia|exact E]|].
  destruct (Req_EM_T (a m) (b m)) as [E|E]; [|left; exists m; split; [lia|exact E]].
  right. intros k Hk. destruct (Nat.eq_dec k m); [subst; exact E|apply IH; lia].
Qed.
(** With a frequency the speed is not used: the file is the same for every speed ... *)
Theorem C92_speed_unused spl r speed speed' f : save_mat spl r speed (Some f) = save_mat spl r speed' (Some f).
Proof. reflexivity. Qed.
(** ... so it is NOT the file of a rotor spinning at that speed: a rotor with gyroscopic effect has different state matrices at any two speeds. *)
Theorem C92_spinning_refuted la spl r f d w w' A A' : linalg_ok la -> save_mat spl r w (Some f) = Ok d -> w <> w' ->
  (exists i j, (i < r_ndof r)%nat /\ (j < r_ndof r)%nat /\ mf_G d i j <> 0) ->
  rotor_A la spl r w (Some f) false = Ok A -> rotor_A la spl r w' (Some f) false = Ok A' ->
  save_mat spl r w' (Some f) = Ok d /\ exists i j, (i < r_ndof r + r_ndof r)%nat /\ (j < r_ndof r + r_ndof r)%nat /\ A i j <> A' i j.
Proof.
  intros L S Nw (i & j & Hi & Hj & Hg) H H'. split; [exact S|]. set (n := r_ndof r) in *.
  pose proof (C92_state_matrix _ _ _ _ _ _ _ _ L S H) as X. pose proof (C92_state_matrix la spl r w (Some f) d w' A' L S H') as X'. fold n in X, X'.
  destruct (X (unit_vec (n + j))) as (_ & X2). destruct (X' (unit_vec (n + j))) as (_ & X2'). specialize (X2 i Hi). specialize (X2' i Hi).
  assert (U : forall F : nat -> R, sumn n (fun k => F k * unit_vec (n + j) (n + k)%nat) = F j).
  { intros F. rewrite <- (sumn_unit n j F Hj). apply sumn_ext. intros k Hk. unfold unit_vec. f_equal. destruct (Nat.eqb_spec (n + k) (n + j)), (Nat.eqb_spec k j); try reflexivity; lia. }
  rewrite U in X2, X2'.
  rewrite (sumn_ext n _ (fun k => mf_M d i k * A (n + k)%nat (n + j)%nat)) in X2 by (intros k Hk; rewrite (sumn_unit _ (n + j) (fun l => A (n + k)%nat l)) by lia; reflexivity).
  rewrite (sumn_ext n _ (fun k => mf_M d i k * A' (n + k)%nat (n + j)%nat)) in X2' by (intros k Hk; rewrite (sumn_unit _ (n + j) (fun l => A' (n + k)%nat l)) by lia; reflexivity).
  assert (Dec : (exists k, (k < n)%nat /\ A (n + k)%nat (n + j)%nat <> A' (n + k)%nat (n + j)%nat) \/ (forall k, (k < n)%nat -> A (n + k)%nat (n + j)%nat = A' (n + k)%nat (n + j)%nat)).
  { apply (differ_or_same n (fun k => A (n + k)%nat (n + j)%nat) (fun k => A' (n + k)%nat (n + j)%nat)). }
  destruct Dec as [(k & Hk & E)|E]; [exists (n + k)%nat, (n + j)%nat; repeat split; [lia|lia|exact E]|].
  exfalso. rewrite (sumn_ext n _ (fun k => mf_M d i k * A' (n + k)%nat (n + j)%nat)) in X2 by (intros k Hk; rewrite E by exact Hk; reflexivity).
  assert (Z : (w - w') * mf_G d i j = 0) by lra. apply Rmult_integral in Z as [Z|Z]; [apply Nw; lra|contradiction].
Qed.

(** The rotor of the examples can be saved, and its state matrices exist. *)
Example C92_instance : forall six spl w, exists r d A, rotor_init (exS six) (exD six) (exB six) (exP six) = Ok r /\ linalg_ok la0 /\
  save_mat spl r w None = Ok d /\ rotor_A la0 spl r w (Some w) false = Ok A /\ List.length (mf_nodes d) = 3%nat.
Proof.
  intros six spl w. destruct (ex_rotor six) as (r & H & X).
  assert (Hb : forall e, In e (r_brg r) -> is_ok (el_M spl w e) /\ is_ok (el_K spl w e) /\ is_ok (el_C spl w e) /\ is_ok (el_K spl 0 e)).
  { rewrite (xf_brg _ _ X). intros e He. cases_in; repeat split; apply ex_coef_psd. }
  destruct (C92_saved spl _ _ _ _ r w None H (xf_reg _ _ X) (xf_links _ _ X) Hb) as (d & S).
  destruct (C24_state_matrix_exists la0 spl _ _ _ _ r w (Some w) la0_ok H (xf_reg _ _ X) (xf_links _ _ X)) as (A & HA).
  - exact Hb.
  - intros e He. eapply ex_inertia; eauto. apply (rotor_facts _ _ _ _ _ H).
  - exists r, d, A. split; [exact H|]. split; [apply la0_ok|]. split; [exact S|]. split; [exact HA|].
    destruct (C92_holds _ _ _ _ _ S) as (_ & _ & _ & _ & ->). rewrite (rf_pos _ (rotor_facts _ _ _ _ _ H)), (xf_shaft _ _ X). reflexivity.
Qed.
(** A disk alone has gyroscopic effect. *)
Definition lone_disk : rotor := mkRotor [] [EDisk false "d" (rd_d (ex_disk false 0 "d"))] [] [] 4 0 4 [] [] 0 0 0 0 0.
Example C92_spinning_instance : forall spl w f, exists d A, save_mat spl lone_disk w (Some f) = Ok d /\ mf_G d 2%nat 3%nat <> 0 /\ rotor_A la0 spl lone_disk w (Some f) false = Ok A.
Proof.
  intros spl w f. assert (E : exists d, save_mat spl lone_disk w (Some f) = Ok d) by (eexists; reflexivity). destruct E as (d & S).
  destruct (C92_holds _ _ _ _ _ S) as (HM & HK & HD & HG & _). cbv zeta iota in *.
  assert (NS : nonsingular 4 (mscale (-1) (mf_M d))).
  { assert (EM : forall i j, (i < 4)%nat -> (j < 4)%nat -> mf_M d i j = lmat [[5; 0; 0; 0]; [0; 5; 0; 0]; [0; 0; 1; 0]; [0; 0; 0; 1]] i j).
    { injection HM as <-. intros i j Hi Hj. destruct i as [|[|[|[|i]]]]; [..|lia]; (destruct j as [|[|[|[|j]]]]; [..|lia]); cbn; unfold mzero; ring. }
    intros x Hx i Hi.
    assert (E : forall k, (k < 4)%nat -> lmat [[5; 0; 0; 0]; [0; 5; 0; 0]; [0; 0; 1; 0]; [0; 0; 0; 1]] k 0%nat * x 0%nat + lmat [[5; 0; 0; 0]; [0; 5; 0; 0]; [0; 0; 1; 0]; [0; 0; 0; 1]] k 1%nat * x 1%nat
      + lmat [[5; 0; 0; 0]; [0; 5; 0; 0]; [0; 0; 1; 0]; [0; 0; 0; 1]] k 2%nat * x 2%nat + lmat [[5; 0; 0; 0]; [0; 5; 0; 0]; [0; 0; 1; 0]; [0; 0; 0; 1]] k 3%nat * x 3%nat = 0).
    { intros k Hk. specialize (Hx k Hk). unfold mulv, mscale in Hx. cbn [sumn] in Hx. rewrite !EM in Hx by lia. lra. }
    destruct i as [|[|[|[|i]]]]; [specialize (E 0%nat)|specialize (E 1%nat)|specialize (E 2%nat)|specialize (E 3%nat)|lia]; specialize (E ltac:(lia)); cbn in E; lra. }
  destruct (solve_exists la0 4 _ (mf_K d) la0_ok NS) as (X & HX). destruct (solve_exists la0 4 _ (madd (mf_C d) (mscale w (mf_G d))) la0_ok NS) as (Y & HY).
  exists d. eexists. split; [exact S|]. split.
  - injection HG as <-. cbn. unfold mzero. lra.
  - unfold rotor_A. cbn [default]. rewrite HM. cbn [bind]. rewrite HK. cbn [bind]. change (r_ndof lone_disk) with 4%nat. rewrite HX. cbn [bind]. rewrite HD. cbn [bind]. rewrite HG. cbn [bind]. rewrite HY. reflexivity.
Qed.

Print Assumptions C92_state_matrix.
Print Assumptions C92_rebuild.
Print Assumptions C92_determines.
Print Assumptions C92_spinning_refuted.
