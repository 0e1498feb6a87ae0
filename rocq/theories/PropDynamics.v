(** Theorems about the dynamics of rotors (C24-C27, C61). *)
From Coq Require Import Reals String List Arith Bool Lia Lra Permutation.
From Coquelicot Require Import Complex.
From Verif Require Import PyBase MatBase SpecMat LMat CMat LCMat MShaft SpecShaft MDisk MBearing MRotor SpecRotor LAssembly LRotor LRotor2 LRotor3 LRotor5 LRotorEx PropRotor
  MDynamics SpecDynamics LDynamics LStability LTransfer LModes LDynEx LResponse LDynEx2.
Import ListNotations.
Open Scope list_scope.
Open Scope R_scope.

(** * C24: the state matrix *)
(** Every eigenpair of A is (q, s q) with (s^2 M + s (C + speed G) + K) q = 0, and conversely. *)
Theorem C24_state_space : forall la spl r speed freq sync A, linalg_ok la -> rotor_A la spl r speed freq sync = Ok A ->
  let f := default speed freq in let n := r_ndof r in
  exists M K D G, (if sync then rotor_M_sync spl r (Some f) else rotor_M spl r (Some f)) = Ok M /\
    rotor_K spl r f [] = Ok K /\ rotor_C spl r f [] = Ok D /\ rotor_G spl r = Ok G /\
    forall s z, eigenpair (n + n) A s z <->
      cnonzero n z /\ (forall i, (i < n)%nat -> z (n + i)%nat = Cmult s (z i)) /\
      (forall i, (i < n)%nat -> cmulv n (dyn M (damp_gyro D G speed) K s) z i = RtoC 0).
Proof.
  intros la spl r speed freq sync A L H f n. destruct (rotor_A_inv _ _ _ _ _ _ _ L H) as (M & K & D & G & X & Y & HM & HK & HD & HG & NS & HX & HY & ->).
  exists M, K, D, G. split; [exact HM|]. split; [exact HK|]. split; [exact HD|]. split; [exact HG|].
  intros s z. apply (state_eigen n M (damp_gyro D G speed) K X Y NS HX HY).
Qed.
(** In the time domain: A (q, v) = (v, a) where M a + (C + speed G) v + K q = 0. *)
Theorem C24_first_order_form : forall la spl r speed freq sync A, linalg_ok la -> rotor_A la spl r speed freq sync = Ok A ->
  let f := default speed freq in let n := r_ndof r in
  exists M K D G, (if sync then rotor_M_sync spl r (Some f) else rotor_M spl r (Some f)) = Ok M /\
    rotor_K spl r f [] = Ok K /\ rotor_C spl r f [] = Ok D /\ rotor_G spl r = Ok G /\
    forall x y : vec, (forall i, (i < n + n)%nat -> y i = mulv (n + n) A x i) <->
      (forall i, (i < n)%nat -> y i = x (n + i)%nat) /\
      (forall i, (i < n)%nat -> mulv n M (fun j => y (n + j)%nat) i + mulv n (damp_gyro D G speed) (fun j => x (n + j)%nat) i + mulv n K x i = 0).
Proof.
  intros la spl r speed freq sync A L H f n. destruct (rotor_A_inv _ _ _ _ _ _ _ L H) as (M & K & D & G & X & Y & HM & HK & HD & HG & NS & HX & HY & ->).
  exists M, K, D, G. split; [exact HM|]. split; [exact HK|]. split; [exact HD|]. split; [exact HG|].
  intros x y. apply state_real; auto.
Qed.
(** It exists for every regular rotor with positive inertia whose bearings can be evaluated. *)
Theorem C24_state_matrix_exists : forall la spl shafts disks brgs pms r speed freq, linalg_ok la -> rotor_init shafts disks brgs pms = Ok r -> regular r -> links_ok r ->
  let f := default speed freq in
  (forall e, In e (r_brg r) -> is_ok (el_M spl f e) /\ is_ok (el_K spl f e) /\ is_ok (el_C spl f e) /\ is_ok (el_K spl 0 e)) ->
  (forall e, In e (r_elements r) -> good_inertia (el_M spl f) e) ->
  is_ok (rotor_A la spl r speed freq false).
Proof.
  intros la spl shafts disks brgs pms r speed freq L H G Hl f Hb Hg.
  destruct (C19_matrices_exist spl _ _ _ _ r (Some f) [] H G Hl) as (EM & EK & EC & EG).
  destruct EM as [M HM]; [intros e He; apply Hb; auto|]. destruct (EK f) as [K HK]; [intros e He; apply Hb; auto|].
  destruct (EC f) as [D HD]; [intros e He; apply Hb; auto|]. destruct EG as [Gm HG]; [intros e He; apply Hb; auto|].
  pose proof (rotor_M_pd spl (Some f) r M (rotor_facts _ _ _ _ _ H) G Hg HM) as PD.
  assert (NS : nonsingular (r_ndof r) (mscale (-1) M)) by (apply nonsingular_opp, pos_def_nonsingular, PD).
  destruct (solve_exists la _ _ K L NS) as [X HX]. destruct (solve_exists la _ _ (madd D (mscale speed Gm)) L NS) as [Y HY].
  unfold rotor_A. fold f. rewrite HM. cbn [bind]. rewrite HK. cbn [bind]. rewrite HX. cbn [bind]. rewrite HD. cbn [bind]. rewrite HG. cbn [bind]. rewrite HY. eexists. reflexivity.
Qed.
Example C24_instance : forall six spl speed, exists r A, rotor_init (exS six) (exD six) (exB six) (exP six) = Ok r /\ linalg_ok la0 /\
  rotor_A la0 spl r speed None false = Ok A.
Proof.
  intros six spl speed. destruct (ex_rotor six) as (r & H & X). exists r. pose proof (rotor_facts _ _ _ _ _ H) as F.
  destruct (C24_state_matrix_exists la0 spl _ _ _ _ r speed None la0_ok H (xf_reg _ _ X) (xf_links _ _ X)) as [A HA].
  - rewrite (xf_brg _ _ X). intros e He. cases_in; repeat split; apply ex_coef_psd.
  - intros e He. eapply ex_inertia; eauto.
  - exists A. split; [exact H|]. split; [apply la0_ok|exact HA].
Qed.

(** * C25: passive rotors are stable *)
Theorem C25_passive_stable : forall la spl shafts disks brgs pms r speed freq A s z, linalg_ok la ->
  rotor_init shafts disks brgs pms = Ok r -> regular r -> passive spl (default speed freq) r ->
  rotor_A la spl r speed freq false = Ok A -> eigenpair (r_ndof r + r_ndof r) A s z ->
  Re s <= 0 /\
  exists K D, rotor_K spl r (default speed freq) [] = Ok K /\ rotor_C spl r (default speed freq) [] = Ok D /\
    (Re s = 0 -> s <> RtoC 0 -> forall i, (i < r_ndof r)%nat -> cmulv (r_ndof r) (of_mat D) z i = RtoC 0) /\
    (pos_def (r_ndof r) D -> pos_def (r_ndof r) K -> Re s < 0).
Proof.
  intros la spl shafts disks brgs pms r speed freq A s z L H Rg P HA Hz. pose proof (rotor_facts _ _ _ _ _ H) as F.
  destruct (C24_state_space la spl r speed freq false A L HA) as (M & K & D & G & HM & HK & HD & HG & E).
  apply E in Hz as (Hq & _ & Hd). clear E.
  pose proof (rotor_M_pd spl (Some (default speed freq)) r M F Rg (pas_inertia _ _ _ P) HM) as PM.
  destruct (C19_symmetry spl _ _ _ _ r (Some (default speed freq)) M H) as [SM _].
  destruct (C19_symmetry spl _ _ _ _ r None G H) as [_ SG].
  destruct (rotor_C_sympsd _ _ _ _ F (reg_pm_dof _ Rg) P HD) as [SC PC].
  destruct (rotor_K_sympsd _ _ _ _ F (reg_pm_dof _ Rg) (pas_load _ _ _ P) (fun e He => proj2 (pas_K _ _ _ P e He)) HK) as [PK SK].
  destruct (dyn_stable (r_ndof r) M D G K speed s z) as (S1 & S2 & S3); auto.
  - apply SM; auto. intros e He. apply (pas_M _ _ _ P); auto.
  - apply SK. intros e He. apply (pas_K _ _ _ P); auto.
  - split; [exact S1|]. exists K, D. split; [exact HK|]. split; [exact HD|]. split; [exact S2|exact S3].
Qed.
Example C25_instance : forall six spl speed, exists r A, rotor_init (exS six) (exD six) (exB six) (exP six) = Ok r /\ regular r /\
  passive spl speed r /\ linalg_ok la0 /\ rotor_A la0 spl r speed None false = Ok A.
Proof.
  intros six spl speed. destruct (C24_instance six spl speed) as (r & A & H & L & HA). destruct (ex_rotor six) as (r' & H' & X).
  assert (r' = r) by congruence. subst r'. exists r, A. split; [exact H|]. split; [apply X|].
  split; [apply (ex_passive spl speed six r X (rotor_facts _ _ _ _ _ H))|]. split; [exact L|exact HA].
Qed.

(** * C61: eigenvalues and eigenvectors are returned in a fixed order *)
Theorem C61_eigen_order : forall la spl r speed freq ev psi, linalg_ok la -> eigen la spl r speed freq = Ok (ev, psi) ->
  let n := r_ndof r in
  exists A perm, rotor_A la spl r speed freq false = Ok A /\ Permutation perm (seq 0 (2 * n)) /\
  (forall k, (k < 2 * n)%nat -> ev k = fst (la_eig la (2 * n) A) (nth k perm 0%nat) /\
     forall i, (i < 2 * n)%nat -> psi i k = snd (la_eig la (2 * n) A) i (nth k perm 0%nat)) /\
  (forall k i, (k < 2 * n)%nat -> (i < 2 * n)%nat -> cmulv (2 * n) (of_mat A) (fun j => psi j k) i = Cmult (ev k) (psi i k)) /\
  (forall j k, (j < k < n)%nat -> key_wd (ev j) < key_wd (ev k) \/ key_wd (ev j) = key_wd (ev k) /\ key_wn (ev j) <= key_wn (ev k)) /\
  (forall j k, (j < n)%nat -> (n <= k < 2 * n)%nat -> key_wd (ev k) <= key_wd (ev j)).
Proof.
  intros la spl r speed freq ev psi L H n. unfold eigen in H. apply bind_ok in H as (A & HA & H).
  fold n in H. destruct (la_eig la (2 * n) A) as [lam V] eqn:EA. apply bind_ok in H as (idx & Hi & H). injection H as <- <-.
  pose proof (index_perm _ _ _ Hi) as [P _]. pose proof (fun k => idx_bound _ _ _ k Hi) as B.
  pose proof (lexsort_sorted lam (2 * n)) as S. pose proof (lexsort_perm lam (2 * n)) as PL.
  assert (LL : length (lexsort lam (2 * n)) = (2 * n)%nat) by (rewrite (Permutation_length PL), seq_length; auto).
  exists A, idx. split; [exact HA|]. split; [exact P|]. split; [|split; [|split]].
  - intros k Hk. rewrite EA. cbn [fst snd]. split; [reflexivity|]. intros; reflexivity.
  - intros k i Hk Hi'. pose proof (eig_sol la L (2 * n) A i (nth k idx 0%nat) Hi' (B k Hk)) as E. rewrite EA in E. exact E.
  - intros j k [Hjk Hk]. rewrite (index_nth lam n idx j Hi), (index_nth lam n idx k Hi) by lia.
    rewrite (proj2 (Nat.ltb_lt j n)), (proj2 (Nat.ltb_lt k n)) by lia.
    apply (sorted_nth _ _ 0%nat (n + j) (n + k) S); lia.
  - intros j k Hj Hk. rewrite (index_nth lam n idx j Hi), (index_nth lam n idx k Hi) by lia.
    rewrite (proj2 (Nat.ltb_lt j n)), (proj2 (Nat.ltb_ge k n)) by lia.
    destruct (sorted_nth _ _ 0%nat (k - n) (n + j) S) as [E|[E _]]; try lia; lra.
Qed.
(** For conjugate pairs with different damped frequencies, position 2n - 1 - k holds the conjugate of position k. *)
Theorem C61_conjugate_pairs : forall la spl r speed freq ev psi A (c : nat -> nat), linalg_ok la -> eigen la spl r speed freq = Ok (ev, psi) ->
  rotor_A la spl r speed freq false = Ok A ->
  let n := r_ndof r in let lam := fst (la_eig la (2 * n) A) in
  (forall i, (i < 2 * n)%nat -> (c i < 2 * n)%nat /\ c (c i) = i /\ lam (c i) = Cconj (lam i)) ->
  (forall i j, (i < 2 * n)%nat -> (j < 2 * n)%nat -> key_wd (lam i) = key_wd (lam j) -> i = j) ->
  forall k, (k < n)%nat -> ev (2 * n - 1 - k)%nat = Cconj (ev k) /\ 0 < key_wd (ev k).
Proof.
  intros la spl r speed freq ev psi A c L H HA n lam Hc Hd k Hk. unfold eigen in H. rewrite HA in H. cbn [bind] in H. fold n in H. subst lam.
  destruct (la_eig la (2 * n) A) as [lam V] eqn:EA. apply bind_ok in H as (idx & Hi & H). injection H as <- <-. cbn [fst] in *.
  pose proof (conjugate_position lam n c idx k Hc Hd Hi Hk) as E. split; [exact E|].
  pose proof (key_wd_conj (lam (nth k idx 0%nat))) as E2. rewrite <- E in E2.
  pose proof (lexsort_sorted lam (2 * n)) as S. pose proof (lexsort_perm lam (2 * n)) as PL.
  assert (LL : length (lexsort lam (2 * n)) = (2 * n)%nat) by (rewrite (Permutation_length PL), seq_length; auto).
  rewrite (index_nth lam n idx k Hi), (index_nth lam n idx (2 * n - 1 - k) Hi) in E2 by lia.
  rewrite (proj2 (Nat.ltb_lt k n)), (proj2 (Nat.ltb_ge (2 * n - 1 - k) n)) in E2 by lia.
  rewrite (index_nth lam n idx k Hi) by lia. rewrite (proj2 (Nat.ltb_lt k n)) by lia.
  assert (Hs : (2 * n - 1 - k - n < n + k)%nat) by lia.
  pose proof (sorted_nth _ _ 0%nat (2 * n - 1 - k - n) (n + k) S Hs ltac:(lia)) as [T|[T _]]; [lra|].
  exfalso. assert (B : forall a, (a < 2 * n)%nat -> (nth a (lexsort lam (2 * n)) 0 < 2 * n)%nat).
  { intros a Ha. assert (I : In (nth a (lexsort lam (2 * n)) 0%nat) (seq 0 (2 * n))) by (apply (Permutation_in _ PL), nth_In; lia). apply in_seq in I. lia. }
  apply Hd in T; [|apply B; lia|apply B; lia].
  assert (ND : NoDup (lexsort lam (2 * n))) by (apply (Permutation_NoDup (Permutation_sym PL)), seq_NoDup).
  apply (proj1 (NoDup_nth _ 0%nat) ND) in T; lia.
Qed.
Example C61_instance : forall spl w, exists ev psi, linalg_ok la1 /\ eigen la1 spl tiny w None = Ok (ev, psi).
Proof. intros spl w. destruct (tiny_eigen spl w None) as (ev & psi & H & _). exists ev, psi. split; [apply la1_ok|exact H]. Qed.

(** * C26: transfer matrix and forced response *)
(** dyn M D K (i w) is K - w^2 M + i w D *)
Lemma dyn_imaginary M D K w i j : dyn M D K (0, w) i j = (K i j - w ^ 2 * M i j, w * D i j).
Proof. unfold dyn, Cplus, Cmult, RtoC. cbn [fst snd]. f_equal; ring. Qed.
Theorem C26_transfer_matrix : forall la spl r w H, linalg_ok la -> transfer_matrix la spl r w None None = Ok H ->
  let n := r_ndof r in
  exists M K D G, rotor_M spl r (Some w) = Ok M /\ rotor_K spl r w [] = Ok K /\ rotor_C spl r w [] = Ok D /\ rotor_G spl r = Ok G /\
    let Z := fun i j => (K i j - w ^ 2 * M i j, w * (D i j + w * G i j)) : C in
    (cnonsingular n Z -> inverse n Z H).
Proof.
  intros la spl r w H L HH n. destruct (transfer_inv la spl r w None H L HH) as (M & K & D & G & Mw & MI & HM & HK & HD & HG & HMw & NS & NSw & HMI & E).
  cbn [default] in *. rewrite HM in HMw. injection HMw as <-.
  exists M, K, D, G. split; [exact HM|]. split; [exact HK|]. split; [exact HD|]. split; [exact HG|]. match goal with |- cnonsingular _ ?z -> _ => set (Z := z) end. intros HZ.
  assert (EZ : forall i j, dyn M (damp_gyro D G w) K (0, w) i j = Z i j) by (intros; apply dyn_imaginary).
  assert (NZ : cnonsingular n (dyn M (damp_gyro D G w) K (0, w))).
  { intros x Hx. apply HZ. intros i Hi. rewrite <- (Hx i Hi). unfold cmulv. apply csumn_ext. intros j _. rewrite EZ. reflexivity. }
  specialize (E NZ). apply right_inverse_both; auto. intros i j Hi Hj. rewrite <- (cmulm_ext n (dyn M (damp_gyro D G w) K (0, w)) H Z H) by (intros; auto).
  rewrite E by auto. rewrite cmulm_of. rewrite HMI by auto. unfold mid, cid. destruct (Nat.eqb i j); reflexivity.
Qed.
Theorem C26_forced_response : forall la spl r force ncol speeds out, linalg_ok la -> run_forced_response la spl r force ncol speeds None = Ok out ->
  let n := r_ndof r in
  length out = length speeds /\
  forall i, (i < length speeds)%nat -> let w := nth i speeds 0 in let u := nth i out cres0 in
  (forall k, velo u k = Cmult (0, w) (disp u k)) /\ (forall k, acce u k = Cmult (RtoC (- w ^ 2)) (disp u k)) /\
  exists M K D G, rotor_M spl r (Some w) = Ok M /\ rotor_K spl r w [] = Ok K /\ rotor_C spl r w [] = Ok D /\ rotor_G spl r = Ok G /\
    let Z := fun i j => (K i j - w ^ 2 * M i j, w * (D i j + w * G i j)) : C in
    (cnonsingular n Z -> forall k, (k < n)%nat -> cmulv n Z (disp u) k = force k i).
Proof.
  intros la spl r force ncol speeds out L H n. split; [apply (proj1 (forced_length _ _ _ _ _ _ _ _ H))|]. intros i Hi w u.
  destruct (forced_nth _ _ _ _ _ _ _ _ i H Hi) as (T & HT & U & V & A). fold w in HT, V, A. fold u in U, V, A.
  split; [exact V|]. split; [exact A|].
  destruct (C26_transfer_matrix la spl r w T L HT) as (M & K & D & G & HM & HK & HD & HG & E).
  exists M, K, D, G. split; [exact HM|]. split; [exact HK|]. split; [exact HD|]. split; [exact HG|]. intros Z HZ k Hk.
  destruct (E HZ) as [E1 _]. fold Z n in E1. rewrite (cmulv_ext n Z (disp u) (cmulv n T (fun k => force k i)) k) by (intros; apply U).
  rewrite cmulv_mulm. unfold cmulv. rewrite (csumn_single n _ k Hk).
  - rewrite (E1 k k Hk Hk). unfold cid. rewrite Nat.eqb_refl. ring.
  - intros j Hj Hne. rewrite (E1 k j Hk Hj). unfold cid. rewrite (proj2 (Nat.eqb_neq k j)) by auto. ring.
Qed.
(** The response is linear in the force, for any choice of modes. *)
Theorem C26_superposition : forall la spl r (F F1 F2 : cmat) (c1 c2 : C) ncol speeds modes out,
  (forall k i, F k i = Cplus (Cmult c1 (F1 k i)) (Cmult c2 (F2 k i))) ->
  run_forced_response la spl r F ncol speeds modes = Ok out ->
  exists out1 out2, run_forced_response la spl r F1 ncol speeds modes = Ok out1 /\ run_forced_response la spl r F2 ncol speeds modes = Ok out2 /\
  forall i k, (i < length speeds)%nat ->
    let u := nth i out cres0 in let u1 := nth i out1 cres0 in let u2 := nth i out2 cres0 in
    disp u k = Cplus (Cmult c1 (disp u1 k)) (Cmult c2 (disp u2 k)) /\ velo u k = Cplus (Cmult c1 (velo u1 k)) (Cmult c2 (velo u2 k)) /\
    acce u k = Cplus (Cmult c1 (acce u1 k)) (Cmult c2 (acce u2 k)).
Proof.
  intros la spl r F F1 F2 c1 c2 ncol speeds modes out HF H.
  destruct (forced_any _ _ _ _ F1 _ _ _ _ H) as [o1 H1]. destruct (forced_any _ _ _ _ F2 _ _ _ _ H) as [o2 H2].
  destruct (forced_any _ _ _ _ (cscale c1 F1) _ _ _ _ H) as [p1 G1]. destruct (forced_any _ _ _ _ (cscale c2 F2) _ _ _ _ H) as [p2 G2].
  exists o1, o2. split; [exact H1|]. split; [exact H2|]. intros i k Hi u u1 u2.
  destruct (forced_linear la spl r F (cscale c1 F1) (cscale c2 F2) ncol speeds modes out p1 p2 i k (fun k _ => HF k i) H G1 G2 Hi) as (A1 & A2 & A3).
  destruct (forced_scaled la spl r (cscale c1 F1) F1 c1 ncol speeds modes p1 o1 i k (fun k _ => eq_refl) G1 H1 Hi) as (B1 & B2 & B3).
  destruct (forced_scaled la spl r (cscale c2 F2) F2 c2 ncol speeds modes p2 o2 i k (fun k _ => eq_refl) G2 H2 Hi) as (D1 & D2 & D3).
  unfold u, u1, u2. rewrite A1, A2, A3, B1, B2, B3, D1, D2, D3. auto.
Qed.
Example C26_instance : forall spl w, exists H, linalg_ok la1 /\ transfer_matrix la1 spl tiny w None None = Ok H /\
  forall M K D G, rotor_M spl tiny (Some w) = Ok M -> rotor_K spl tiny w [] = Ok K -> rotor_C spl tiny w [] = Ok D -> rotor_G spl tiny = Ok G ->
    cnonsingular (r_ndof tiny) (fun i j => (K i j - w ^ 2 * M i j, w * (D i j + w * G i j)) : C).
Proof.
  intros spl w. destruct (tiny_transfer spl w None) as [H HH]. exists H. split; [apply la1_ok|]. split; [exact HH|]. intros M K D G HM HK HD HG.
  pose proof (tiny_regular spl w M K D G HM HK HD HG) as N. intros x Hx. apply N. intros i Hi. rewrite <- (Hx i Hi). apply csumn_ext. intros j _. rewrite dyn_imaginary. reflexivity.
Qed.
Example C26_forced_instance : forall spl force, exists out, run_forced_response la1 spl tiny force 2 [3; 5] None = Ok out.
Proof.
  intros spl force. unfold run_forced_response, run_freq_response, mapM. destruct (tiny_transfer spl 3 None) as [H3 E3]. destruct (tiny_transfer spl 5 None) as [H5 E5].
  rewrite E3, E5. cbn [bind]. eexists. reflexivity.
Qed.
(** The [frequency] argument is not the excitation frequency: with speed-independent coefficients the result is still
    the response at [speed], never the one at a different [frequency]. *)
Theorem C26_frequency_refuted : forall la spl r w f H M K D G, linalg_ok la -> transfer_matrix la spl r w (Some f) None = Ok H ->
  rotor_M spl r (Some w) = Ok M -> rotor_M spl r (Some f) = Ok M -> rotor_K spl r f [] = Ok K -> rotor_C spl r f [] = Ok D -> rotor_G spl r = Ok G ->
  let n := r_ndof r in (0 < n)%nat -> f ^ 2 <> w ^ 2 -> cnonsingular n (dyn M (damp_gyro D G w) K (0, w)) ->
  inverse n (dyn M (damp_gyro D G w) K (0, w)) H /\ ~ inverse n (dyn M (damp_gyro D G w) K (0, f)) H.
Proof.
  intros la spl r w f H M K D G L HH HMw HMf HK HD HG n Hn Hfw NZ.
  destruct (transfer_inv la spl r w (Some f) H L HH) as (M' & K' & D' & G' & Mw & MI & HM' & HK' & HD' & HG' & HMw' & NS & NSw & HMI & E). cbn [default] in *.
  assert (M' = M) by congruence. assert (Mw = M) by congruence. assert (K' = K) by congruence. assert (D' = D) by congruence. assert (G' = G) by congruence. subst M' Mw K' D' G'.
  assert (I : inverse n (dyn M (damp_gyro D G w) K (0, w)) H).
  { apply right_inverse_both; auto. intros i j Hi Hj. rewrite (E NZ) by auto. rewrite cmulm_of, HMI by auto. unfold mid, cid. destruct (Nat.eqb i j); reflexivity. }
  split; [exact I|]. intros I2.
  assert (EQ : forall i j, (i < n)%nat -> (j < n)%nat -> dyn M (damp_gyro D G w) K (0, w) i j = dyn M (damp_gyro D G w) K (0, f) i j).
  { assert (I' : forall Z, inverse n Z H -> inverse n H Z) by (intros Z [a b]; split; auto). intros i j Hi Hj. apply (inverse_unique n H); auto. }
  assert (Z0 : forall i j, (i < n)%nat -> (j < n)%nat -> M i j = 0).
  { intros i j Hi Hj. specialize (EQ i j Hi Hj). rewrite !dyn_imaginary in EQ. injection EQ as EQ _. assert (E0 : (f ^ 2 - w ^ 2) * M i j = 0) by lra.
    apply Rmult_integral in E0 as [E0|E0]; [lra|exact E0]. }
  assert (X : 1 = 0). { apply (NS (fun _ => 1)) with (i := 0%nat); auto. intros i Hi. unfold mulv. apply sumn_0. intros j Hj. rewrite Z0 by auto. ring. }
  lra.
Qed.
Example C26_frequency_instance : forall spl, exists H M K D G, linalg_ok la1 /\ transfer_matrix la1 spl tiny 1 (Some 2) None = Ok H /\
  rotor_M spl tiny (Some 1) = Ok M /\ rotor_M spl tiny (Some 2) = Ok M /\ rotor_K spl tiny 2 [] = Ok K /\ rotor_C spl tiny 2 [] = Ok D /\ rotor_G spl tiny = Ok G /\
  cnonsingular (r_ndof tiny) (dyn M (damp_gyro D G 1) K (0, 1)).
Proof.
  intros spl. destruct (tiny_transfer spl 1 (Some 2)) as [H HH]. destruct (tiny_matrices spl 1) as (H1 & H2 & H3 & H4). destruct (tiny_matrices spl 2) as (G1 & G2 & G3 & G4).
  eexists H, _, _, _, _. split; [apply la1_ok|]. split; [exact HH|]. split; [exact H1|]. split; [exact G1|]. split; [exact G2|]. split; [exact G3|]. split; [exact G4|].
  exact (tiny_regular spl 1 _ _ _ _ H1 H2 H3 H4).
Qed.
(** Selecting modes keeps exactly the chosen modes and their conjugates (position 2n - 1 - k, see C61) iff the chosen
    ones are 0 ... m - 1. *)
Theorem C26_mode_selection : forall n modes idx, mode_index n modes = Ok idx -> modes <> [] -> (length modes <= n)%nat -> (forall k, In k modes -> (k < n)%nat) -> NoDup modes ->
  firstn (length modes) idx = modes /\
  ((forall k, In k modes -> In (2 * n - 1 - k)%nat idx) <-> (forall k, In k modes -> (k < length modes)%nat)).
Proof.
  intros n modes idx H Hne Hl Hk ND. unfold mode_index in H. set (m := length modes) in *.
  assert (Hm : (0 < m)%nat) by (unfold m; destruct modes; [congruence|simpl; lia]).
  destruct m as [|m'] eqn:Em; [lia|]. rewrite <- Em in *. destruct (negb _); [discriminate|]. destruct (existsb _ _); [discriminate|]. injection H as <-.
  rewrite firstn_app, Em, <- Em. fold m. rewrite firstn_all2 by (unfold m; lia). rewrite Nat.sub_diag. cbn [firstn]. rewrite app_nil_r. split; [reflexivity|].
  assert (T : forall x, In x (skipn (2 * n - m) (seq 0 (2 * n))) <-> (2 * n - m <= x < 2 * n)%nat).
  { intros x. rewrite skipn_seq', in_seq. lia. }
  split; intros Hs k Ik.
  - specialize (Hs k Ik). pose proof (Hk k Ik). apply in_app_iff in Hs as [Hs|Hs].
    + apply Hk in Hs. lia.
    + apply T in Hs. lia.
  - apply in_app_iff. right. apply T. specialize (Hs k Ik). specialize (Hk k Ik). lia.
Qed.
Example C26_mode_instance : mode_index 4 [0; 1]%nat = Ok [0; 1; 6; 7]%nat /\ mode_index 4 [2; 3]%nat = Ok [2; 3; 6; 7]%nat /\ mode_index 4 [] = Err ValueError.
Proof. repeat split. Qed.

(** * C27: unbalance *)
Theorem C27_unbalance_force : forall shafts disks brgs pms r l omega F i, rotor_init shafts disks brgs pms = Ok r -> unbalance_sum r l omega czero = Ok F ->
  let w := nth i omega 0 in
  (forall node t, (node <= r_n_last r + 1)%nat -> let d := node_start (r_nd r) (r_n_last r) node in
     signal (F d i) w t = total_x (at_node node l) w t /\ signal (F (d + 1)%nat i) w t = total_y (at_node node l) w t) /\
  (forall k, (forall u, In u l -> k <> (r_nd r * fst u)%nat /\ k <> (r_nd r * fst u + 1)%nat) -> F k i = RtoC 0).
Proof.
  intros shafts disks brgs pms r l omega F i H HF w. pose proof (rotor_facts _ _ _ _ _ H) as Fc.
  assert (N2 : (2 <= r_nd r)%nat) by (destruct (rf_nd _ Fc); lia).
  assert (E : forall k, F k i = csuml (map (ub (r_nd r) w k) l)) by (intros k; rewrite (unbalance_sum_ub r l omega czero F k i N2 HF); apply Cplus_0_l).
  split.
  - intros node t Hn d. assert (Ed : d = (r_nd r * node)%nat) by (unfold d, node_start; destruct (Nat.leb_spec node (r_n_last r + 1)); lia).
    rewrite !E, Ed. split; [apply ub_signal_x|apply ub_signal_y]; auto.
  - intros k Hk. rewrite E. apply ub_zero. exact Hk.
Qed.
(** [run_unbalance_response] solves the equation of motion under that force, at every requested frequency. *)
Theorem C27_unbalance_response : forall la spl r nodes mags phases freqs out, linalg_ok la ->
  run_unbalance_response la spl r nodes mags phases freqs None = Ok out ->
  let n := r_ndof r in
  length nodes = length mags /\ length nodes = length phases /\ length out = length freqs /\
  exists F, unbalance_sum r (combine nodes (combine mags phases)) freqs czero = Ok F /\
  forall i, (i < length freqs)%nat -> let w := nth i freqs 0 in let u := nth i out cres0 in
  exists M K D G, rotor_M spl r (Some w) = Ok M /\ rotor_K spl r w [] = Ok K /\ rotor_C spl r w [] = Ok D /\ rotor_G spl r = Ok G /\
    let Z := fun i j => (K i j - w ^ 2 * M i j, w * (D i j + w * G i j)) : C in
    (cnonsingular n Z -> forall k, (k < n)%nat -> cmulv n Z (disp u) k = F k i).
Proof.
  intros la spl r nodes mags phases freqs out L H n. unfold run_unbalance_response in H. apply bind_ok in H as (F & HF & H).
  destruct (Nat.eqb_spec (length nodes) (length mags)) as [E1|]; [|discriminate]. destruct (Nat.eqb_spec (length nodes) (length phases)) as [E2|]; [|discriminate]. cbn [negb andb] in H.
  destruct (C26_forced_response la spl r F _ freqs out L H) as [EL ER].
  split; [exact E1|]. split; [exact E2|]. split; [exact EL|]. exists F. split; [exact HF|]. intros i Hi w u. destruct (ER i Hi) as (_ & _ & R). exact R.
Qed.
(** Mismatched lists are rejected. *)
Theorem C27_length_mismatch : forall la spl r nodes mags phases freqs modes out,
  run_unbalance_response la spl r nodes mags phases freqs modes = Ok out -> length nodes = length mags /\ length nodes = length phases.
Proof.
  intros la spl r nodes mags phases freqs modes out H. unfold run_unbalance_response in H. apply bind_ok in H as (F & HF & H).
  destruct (Nat.eqb_spec (length nodes) (length mags)) as [E1|]; [|discriminate]. destruct (Nat.eqb_spec (length nodes) (length phases)) as [E2|]; [|discriminate]. auto.
Qed.
(** Several unbalances together: the sum of the responses, in any order. *)
Theorem C27_superposition : forall la spl shafts disks brgs pms r n1 m1 p1 n2 m2 p2 freqs modes out, rotor_init shafts disks brgs pms = Ok r ->
  length n1 = length m1 -> length n1 = length p1 -> length n2 = length m2 -> length n2 = length p2 ->
  run_unbalance_response la spl r (n1 ++ n2) (m1 ++ m2) (p1 ++ p2) freqs modes = Ok out ->
  exists out1 out2, run_unbalance_response la spl r n1 m1 p1 freqs modes = Ok out1 /\ run_unbalance_response la spl r n2 m2 p2 freqs modes = Ok out2 /\
  forall i k, (i < length freqs)%nat ->
    disp (nth i out cres0) k = Cplus (disp (nth i out1 cres0) k) (disp (nth i out2 cres0) k) /\
    velo (nth i out cres0) k = Cplus (velo (nth i out1 cres0) k) (velo (nth i out2 cres0) k) /\
    acce (nth i out cres0) k = Cplus (acce (nth i out1 cres0) k) (acce (nth i out2 cres0) k).
Proof.
  intros la spl shafts disks brgs pms r n1 m1 p1 n2 m2 p2 freqs modes out H A1 B1 A2 B2 HO. pose proof (rotor_facts _ _ _ _ _ H) as Fc.
  assert (N2 : (2 <= r_nd r)%nat) by (destruct (rf_nd _ Fc); lia).
  unfold run_unbalance_response in HO. rewrite (combine_app m1 m2 p1 p2), (combine_app n1 n2) in HO by (rewrite ?combine_length; lia).
  apply bind_ok in HO as (F & HF & HO). destruct (negb _); [discriminate|]. 
  set (l1 := combine n1 (combine m1 p1)) in *. set (l2 := combine n2 (combine m2 p2)) in *.
  assert (OK : is_ok (unbalance_sum r (l1 ++ l2) freqs czero)) by (exists F; exact HF).
  pose proof (proj1 (unbalance_sum_ok _ _ _ _) OK) as U.
  destruct (proj2 (unbalance_sum_ok r l1 freqs czero)) as [F1 HF1]; [intros u Hu; apply U, in_app_iff; auto|].
  destruct (proj2 (unbalance_sum_ok r l2 freqs czero)) as [F2 HF2]; [intros u Hu; apply U, in_app_iff; auto|].
  destruct (forced_any _ _ _ _ F1 _ _ _ _ HO) as [o1 H1]. destruct (forced_any _ _ _ _ F2 _ _ _ _ HO) as [o2 H2].
  exists o1, o2. unfold run_unbalance_response. fold l1 l2. rewrite HF1, HF2. cbn [bind].
  rewrite <- A1, <- B1, <- A2, <- B2, !Nat.eqb_refl. cbn [negb andb]. split; [exact H1|]. split; [exact H2|]. intros i k Hi.
  apply (forced_linear la spl r F F1 F2 (length freqs) freqs modes out o1 o2 i k); auto. intros j _.
  rewrite (unbalance_sum_ub r _ freqs czero F j i N2 HF), (unbalance_sum_ub r _ freqs czero F1 j i N2 HF1), (unbalance_sum_ub r _ freqs czero F2 j i N2 HF2).
  rewrite map_app, csuml_app. unfold czero. rewrite !Cplus_0_l. reflexivity.
Qed.
Theorem C27_order_irrelevant : forall shafts disks brgs pms r l l' omega F, rotor_init shafts disks brgs pms = Ok r -> Permutation l l' -> unbalance_sum r l omega czero = Ok F ->
  exists F', unbalance_sum r l' omega czero = Ok F' /\ forall k i, F k i = F' k i.
Proof.
  intros shafts disks brgs pms r l l' omega F H P HF. pose proof (rotor_facts _ _ _ _ _ H) as Fc.
  assert (N2 : (2 <= r_nd r)%nat) by (destruct (rf_nd _ Fc); lia).
  assert (OK : is_ok (unbalance_sum r l omega czero)) by (exists F; exact HF). pose proof (proj1 (unbalance_sum_ok _ _ _ _) OK) as U.
  destruct (proj2 (unbalance_sum_ok r l' omega czero)) as [F' HF']; [intros u Hu; apply U, (Permutation_in _ (Permutation_sym P)); auto|].
  exists F'. split; [exact HF'|]. intros k i. rewrite (unbalance_sum_ub r l omega czero F k i N2 HF), (unbalance_sum_ub r l' omega czero F' k i N2 HF').
  rewrite (csuml_perm _ _ (Permutation_map (ub (r_nd r) (nth i omega 0) k) P)). reflexivity.
Qed.
(** Every shaft node can carry an unbalance. *)
Theorem C27_shaft_nodes_accepted : forall shafts disks brgs pms r l omega, rotor_init shafts disks brgs pms = Ok r ->
  (forall u, In u l -> (fst u <= r_n_last r + 1)%nat) -> is_ok (unbalance_sum r l omega czero).
Proof.
  intros shafts disks brgs pms r l omega H Hl. pose proof (rotor_facts _ _ _ _ _ H) as Fc. apply unbalance_sum_ok. intros u Hu. right. rewrite (rf_ndof _ Fc).
  specialize (Hl u Hu). assert (r_nd r * (fst u + 1) <= r_nd r * (r_n_last r + 2))%nat by (apply Nat.mul_le_mono_l; lia). lia.
Qed.
(** Support nodes cannot: they have half as many dofs, so the force is rejected or put on another node. *)
Theorem C27_support_node_refuted : forall shafts disks brgs pms r node m p omega, rotor_init shafts disks brgs pms = Ok r -> omega <> [] ->
  (r_n_last r + 2 <= node < r_n_last r + 2 + length (r_pm r))%nat ->
  ((r_n_last r + 2 = node)%nat -> length (r_pm r) = 1%nat -> unbalance_force r node m p omega = Err ValueError) /\
  ((r_n_last r + 2 < node)%nat -> forall F, unbalance_force r node m p omega = Ok F ->
     forall i c, (c < r_nd r / 2)%nat -> F (node_start (r_nd r) (r_n_last r) node + c)%nat i = RtoC 0).
Proof.
  intros shafts disks brgs pms r node m p omega H Ho Hn. pose proof (rotor_facts _ _ _ _ _ H) as Fc.
  assert (Lo : (0 < length omega)%nat) by (destruct omega; [congruence|simpl; lia]). split.
  - intros E1 E2. unfold unbalance_force. rewrite (rf_ndof _ Fc), E2.
    destruct (Nat.ltb_spec 0 (length omega)); [|lia]. cbn [andb].
    destruct (Nat.ltb_spec (r_nd r * (r_n_last r + 2) + r_nd r / 2 * 1) (r_nd r * node + r_nd r)) as [_|N]; [reflexivity|exfalso].
    rewrite <- E1 in N. destruct (rf_nd _ Fc) as [E|E]; rewrite E in N; cbn in N; lia.
  - intros Hlt F HF i c Hc. unfold unbalance_force in HF. destruct (_ && _)%bool; [discriminate|]. injection HF as <-.
    assert (Hx : (node_start (r_nd r) (r_n_last r) node + c < r_nd r * node)%nat).
    { unfold node_start. destruct (Nat.leb_spec node (r_n_last r + 1)); [lia|]. destruct (rf_nd _ Fc) as [E|E]; rewrite E in *; cbn in *; lia. }
    destruct (Nat.leb_spec (r_nd r * node) (node_start (r_nd r) (r_n_last r) node + c)); [lia|]. reflexivity.
Qed.
Example C27_support_instance : forall six, exists r, rotor_init (exS six) (exD six) (exB six) (exP six) = Ok r /\ length (r_pm r) = 1%nat /\ (r_n_last r + 2 = 3)%nat /\
  forall m p, unbalance_force r 3 m p [100] = Err ValueError.
Proof.
  intros six. destruct (ex_rotor six) as (r & H & X). exists r. assert (E : length (r_pm r) = 1%nat) by (rewrite (xf_pm _ _ X); reflexivity).
  assert (E2 : (r_n_last r + 2 = 3)%nat) by (rewrite (xf_last _ _ X); reflexivity).
  split; [exact H|]. split; [exact E|]. split; [exact E2|]. intros m p.
  apply (C27_support_node_refuted _ _ _ _ r 3 m p [100] H); [discriminate|lia|exact E2|exact E].
Qed.
Example C27_instance : forall six, exists r F, rotor_init (exS six) (exD six) (exB six) (exP six) = Ok r /\
  unbalance_sum r [(0%nat, (1, 0)); (2%nat, (3, 1)); (0%nat, (2, 5))] [100; 200] czero = Ok F.
Proof.
  intros six. destruct (ex_rotor six) as (r & H & X). exists r.
  destruct (C27_shaft_nodes_accepted _ _ _ _ r [(0%nat, (1, 0)); (2%nat, (3, 1)); (0%nat, (2, 5))] [100; 200] H) as [F HF].
  - rewrite (xf_last _ _ X). intros u [<-|[<-|[<-|[]]]]; simpl; lia.
  - exists F. split; [exact H|exact HF].
Qed.

Print Assumptions C24_state_space.
Print Assumptions C24_first_order_form.
Print Assumptions C24_state_matrix_exists.
Print Assumptions C25_passive_stable.
Print Assumptions C61_eigen_order.
Print Assumptions C61_conjugate_pairs.
Print Assumptions C26_transfer_matrix.
Print Assumptions C26_forced_response.
Print Assumptions C26_superposition.
Print Assumptions C26_frequency_refuted.
Print Assumptions C26_mode_selection.
Print Assumptions C27_unbalance_force.
Print Assumptions C27_unbalance_response.
Print Assumptions C27_length_mismatch.
Print Assumptions C27_superposition.
Print Assumptions C27_order_irrelevant.
Print Assumptions C27_shaft_nodes_accepted.
Print Assumptions C27_support_node_refuted.
