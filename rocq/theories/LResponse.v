(** Forced and unbalance response. *)
From Coq Require Import Reals String List Arith Bool Lia Lra Permutation.
From Coquelicot Require Import Complex.
From Verif Require Import PyBase MatBase SpecMat LMat CMat LCMat MMaterial MShaft MDisk MBearing MRotor SpecRotor LAssembly LRotor LRotor2 MDynamics SpecDynamics LDynamics LTransfer LDynEx.
Import ListNotations.
Open Scope list_scope.
Open Scope C_scope.

Lemma skipn_seq' k a n : skipn k (seq a n) = seq (a + k) (n - k).
Proof.
  revert a n. induction k as [|k IH]; intros a [|n]; simpl; rewrite ?Nat.add_0_r; auto. rewrite IH. f_equal. lia.
Qed.
(** ** mapM *)
Lemma mapM_length {A B} (f : A -> res B) l ys : mapM f l = Ok ys -> length ys = length l.
Proof.
  revert ys. induction l as [|x l IH]; intros ys H; simpl in H; [injection H as <-; auto|].
  apply bind_ok in H as (y & Hy & H). apply bind_ok in H as (ys' & Hys & H). injection H as <-. simpl. rewrite (IH ys'); auto.
Qed.
Lemma mapM_nth {A B} (f : A -> res B) l ys i d e : mapM f l = Ok ys -> (i < length l)%nat -> f (nth i l d) = Ok (nth i ys e).
Proof.
  revert ys i. induction l as [|x l IH]; intros ys i H Hi; simpl in *; [lia|].
  apply bind_ok in H as (y & Hy & H). apply bind_ok in H as (ys' & Hys & H). injection H as <-. destruct i; simpl; auto. apply IH; auto. lia.
Qed.
Lemma mapM_ok {A B} (f : A -> res B) l : (forall x, In x l -> is_ok (f x)) -> is_ok (mapM f l).
Proof.
  induction l as [|x l IH]; intros H; simpl; [eexists; reflexivity|]. destruct (H x (or_introl eq_refl)) as [y ->]. destruct IH as [ys ->].
  - intros z Hz. apply H. right; auto.
  - eexists. reflexivity.
Qed.
Lemma nth_combine_seq {A} (l : list A) i d : (i < length l)%nat -> nth i (combine (seq 0 (length l)) l) (0%nat, d) = (i, nth i l d).
Proof. intros H. rewrite combine_nth by (rewrite seq_length; auto). rewrite seq_nth by auto. reflexivity. Qed.

Definition cmat0 : cmat * cmat * cmat := (czero, czero, czero).

Lemma freq_nth la spl r speeds modes fr i : run_freq_response la spl r speeds modes = Ok fr -> (i < length speeds)%nat ->
  exists H, transfer_matrix la spl r (nth i speeds 0%R) None modes = Ok H /\
    nth i fr cmat0 = (H, cscale (0%R, nth i speeds 0%R) H, cscale (RtoC (- (nth i speeds 0%R) ^ 2)) H).
Proof.
  intros Hf Hi. pose proof (mapM_nth _ speeds fr i 0%R cmat0 Hf Hi) as E. cbv beta in E.
  apply bind_ok in E as (H & HH & E). exists H. split; [exact HH|]. injection E as E. symmetry. exact E.
Qed.
Lemma cmulv_cscale n c A (x : cvec) i : cmulv n (cscale c A) x i = c * cmulv n A x i.
Proof. unfold cmulv, cscale. rewrite <- csumn_scal. apply csumn_ext. intros; ring. Qed.
Lemma forced_nth la spl r force ncol speeds modes out i : run_forced_response la spl r force ncol speeds modes = Ok out -> (i < length speeds)%nat ->
  exists H, transfer_matrix la spl r (nth i speeds 0%R) None modes = Ok H /\
   (forall k, disp (nth i out cres0) k = cmulv (r_ndof r) H (fun k => force k i) k) /\
   (forall k, velo (nth i out cres0) k = (0%R, nth i speeds 0%R) * disp (nth i out cres0) k) /\
   (forall k, acce (nth i out cres0) k = RtoC (- (nth i speeds 0%R) ^ 2) * disp (nth i out cres0) k).
Proof.
  intros H Hi. unfold run_forced_response in H. apply bind_ok in H as (fr & Hf & H).
  destruct (ncol <? length fr)%nat; [discriminate|]. injection H as <-.
  pose proof (mapM_length _ _ _ Hf) as L. destruct (freq_nth _ _ _ _ _ _ i Hf Hi) as (T & HT & E). exists T. split; [exact HT|].
  match goal with |- context [map ?g (combine (seq 0 (length fr)) fr)] => set (gg := g) end.
  assert (EN : nth i (map gg (combine (seq 0 (length fr)) fr)) cres0 = gg (i, nth i fr cmat0)).
  { rewrite (nth_indep _ cres0 (gg (0%nat, cmat0))) by (rewrite map_length, combine_length, seq_length; lia).
    rewrite map_nth, nth_combine_seq by lia. reflexivity. }
  rewrite EN, E. unfold gg, disp, velo, acce. cbn [fst snd].
  split; [reflexivity|]. split; intros k; apply cmulv_cscale.
Qed.
Lemma forced_length la spl r force ncol speeds modes out : run_forced_response la spl r force ncol speeds modes = Ok out -> length out = length speeds /\ (length speeds <= ncol)%nat.
Proof.
  intros H. unfold run_forced_response in H. apply bind_ok in H as (fr & Hf & H). pose proof (mapM_length _ _ _ Hf) as L.
  destruct (Nat.ltb_spec ncol (length fr)); [discriminate|]. injection H as <-. rewrite map_length, combine_length, seq_length. lia.
Qed.
(** whether the response exists does not depend on the force *)
Lemma forced_any la spl r force force' ncol speeds modes out : run_forced_response la spl r force ncol speeds modes = Ok out ->
  is_ok (run_forced_response la spl r force' ncol speeds modes).
Proof.
  unfold run_forced_response. intros H. apply bind_ok in H as (fr & -> & H). simpl. destruct (ncol <? length fr)%nat; [discriminate|]. eexists. reflexivity.
Qed.

(** ** unbalance *)
Definition ub (nd : nat) (w : R) (k : nat) (u : nat * (R * R)) : C :=
  if Nat.eqb k (nd * fst u) then RtoC (w ^ 2) * (RtoC (fst (snd u)) * expi (snd (snd u)))
  else if Nat.eqb k (nd * fst u + 1) then RtoC (w ^ 2) * (- Ci * RtoC (fst (snd u)) * expi (snd (snd u))) else RtoC 0.
Lemma unbalance_force_ub r u omega F k i : (2 <= r_nd r)%nat -> unbalance_force r (fst u) (fst (snd u)) (snd (snd u)) omega = Ok F ->
  F k i = ub (r_nd r) (nth i omega 0%R) k u.
Proof.
  intros Hn H. destruct u as (n, (m, p)). cbn [fst snd] in *. unfold unbalance_force in H. destruct (_ && _)%bool; [discriminate|]. injection H as <-.
  unfold ub. cbn [fst snd].
  destruct (Nat.leb_spec (r_nd r * n) k); cbn [andb].
  - destruct (Nat.ltb_spec k (r_nd r * n + r_nd r)).
    + destruct (Nat.eqb_spec k (r_nd r * n)) as [->|N1]; [rewrite Nat.sub_diag; reflexivity|].
      destruct (Nat.eqb_spec k (r_nd r * n + 1)) as [->|N2].
      * replace (r_nd r * n + 1 - r_nd r * n)%nat with 1%nat by lia. reflexivity.
      * destruct (k - r_nd r * n)%nat as [|[|x]] eqn:E; try lia. ring.
    + destruct (Nat.eqb_spec k (r_nd r * n)); [lia|]. destruct (Nat.eqb_spec k (r_nd r * n + 1)); [lia|]. reflexivity.
  - destruct (Nat.eqb_spec k (r_nd r * n)); [lia|]. destruct (Nat.eqb_spec k (r_nd r * n + 1)); [lia|]. reflexivity.
Qed.
Lemma unbalance_sum_ub r l omega acc F k i : (2 <= r_nd r)%nat -> unbalance_sum r l omega acc = Ok F ->
  F k i = acc k i + csuml (map (ub (r_nd r) (nth i omega 0%R) k) l).
Proof.
  intros Hn. revert acc. induction l as [|u l IH]; intros acc H; simpl in H.
  - injection H as <-. simpl. ring.
  - destruct u as (n, (m, p)). apply bind_ok in H as (F1 & H1 & H). apply IH in H. rewrite H. unfold cadd.
    rewrite (unbalance_force_ub r (n, (m, p)) omega F1 k i Hn H1). simpl. ring.
Qed.
Lemma unbalance_sum_ok r l omega acc : is_ok (unbalance_sum r l omega acc) <-> forall u, In u l -> omega = [] \/ (r_nd r * fst u + r_nd r <= r_ndof r)%nat.
Proof.
  revert acc. induction l as [|u l IH]; intros acc; simpl.
  - split; [intros _ u []|]. intros _. eexists; reflexivity.
  - destruct u as (n, (m, p)). unfold unbalance_force.
    destruct (Nat.ltb_spec 0 (length omega)) as [L|L]; cbn [andb].
    + destruct (Nat.ltb_spec (r_ndof r) (r_nd r * n + r_nd r)) as [L2|L2]; simpl.
      * split; [intros [x E]; discriminate|]. intros H. destruct (H (n, (m, p)) (or_introl eq_refl)) as [->|H']; simpl in *; lia.
      * rewrite IH. split; [intros H u [<-|Hu]; auto; right; simpl; lia|]. intros H u Hu. auto.
    + assert (omega = []) by (destruct omega; simpl in *; auto; lia). subst. simpl. rewrite IH. split; auto.
Qed.
Lemma csuml_app l l' : csuml (l ++ l') = csuml l + csuml l'.
Proof. induction l; simpl; [ring|]. rewrite IHl. ring. Qed.

Lemma signal_plus a b w t : signal (a + b) w t = (signal a w t + signal b w t)%R.
Proof. unfold signal. cbn [Re Im fst snd Cplus]. unfold Re, Im, Cplus. cbn [fst snd]. ring. Qed.
Lemma signal_0 w t : signal (RtoC 0) w t = 0%R.
Proof. unfold signal, Re, Im, RtoC. cbn [fst snd]. ring. Qed.
Lemma signal_x m p w t : signal (RtoC (w ^ 2) * (RtoC m * expi p)) w t = fst (rotating_force m p w t).
Proof. unfold signal, rotating_force, Re, Im, Cmult, RtoC, expi. cbn [fst snd]. rewrite cos_plus. ring. Qed.
Lemma signal_y m p w t : signal (RtoC (w ^ 2) * (- Ci * RtoC m * expi p)) w t = snd (rotating_force m p w t).
Proof. unfold signal, rotating_force, Re, Im, Cmult, Copp, Ci, RtoC, expi. cbn [fst snd]. rewrite sin_plus. ring. Qed.

Lemma ub_signal_x nd w t n l : (2 <= nd)%nat -> signal (csuml (map (ub nd w (nd * n)) l)) w t =
  fold_right Rplus 0%R (map (fun u => fst (rotating_force (fst (snd u)) (snd (snd u)) w t)) (filter (fun u => Nat.eqb (fst u) n) l)).
Proof.
  intros Hn. induction l as [|u l IH]; [apply signal_0|]. cbn [map csuml filter]. rewrite signal_plus, IH. unfold ub at 1.
  destruct (Nat.eqb_spec (nd * n) (nd * fst u)) as [E|E].
  - apply Nat.mul_cancel_l in E; [|lia]. rewrite E, Nat.eqb_refl. cbn [map fold_right]. rewrite signal_x. reflexivity.
  - destruct (Nat.eqb_spec (fst u) n) as [Eu|]; [congruence|]. destruct (Nat.eqb_spec (nd * n) (nd * fst u + 1)) as [E1|E1]; [|rewrite signal_0; ring].
    exfalso. destruct (Nat.lt_trichotomy n (fst u)) as [L|[L|L]]; [|lia|].
    + assert (nd * n < nd * fst u)%nat by (apply Nat.mul_lt_mono_pos_l; lia). lia.
    + assert (nd * S (fst u) <= nd * n)%nat by (apply Nat.mul_le_mono_l; lia). rewrite Nat.mul_succ_r in H. lia.
Qed.
Lemma ub_signal_y nd w t n l : (2 <= nd)%nat -> signal (csuml (map (ub nd w (nd * n + 1)) l)) w t =
  fold_right Rplus 0%R (map (fun u => snd (rotating_force (fst (snd u)) (snd (snd u)) w t)) (filter (fun u => Nat.eqb (fst u) n) l)).
Proof.
  intros Hn. induction l as [|u l IH]; [apply signal_0|]. cbn [map csuml filter]. rewrite signal_plus, IH. unfold ub at 1.
  destruct (Nat.eqb_spec (nd * n + 1) (nd * fst u)) as [E|E].
  - exfalso. destruct (Nat.lt_trichotomy n (fst u)) as [L|[L|L]]; [|rewrite <- L in E; lia|].
    + assert (nd * S n <= nd * fst u)%nat by (apply Nat.mul_le_mono_l; lia). rewrite Nat.mul_succ_r in H. lia.
    + assert (nd * fst u < nd * n)%nat by (apply Nat.mul_lt_mono_pos_l; lia). lia.
  - destruct (Nat.eqb_spec (nd * n + 1) (nd * fst u + 1)) as [E1|E1].
    + assert (E2 : n = fst u) by (apply (Nat.mul_cancel_l _ _ nd); lia). rewrite E2, Nat.eqb_refl. cbn [map fold_right]. rewrite signal_y. reflexivity.
    + destruct (Nat.eqb_spec (fst u) n) as [Eu|]; [congruence|]. rewrite signal_0. ring.
Qed.
Lemma ub_zero nd w k l : (forall u, In u l -> k <> (nd * fst u)%nat /\ k <> (nd * fst u + 1)%nat) -> csuml (map (ub nd w k) l) = RtoC 0.
Proof.
  induction l as [|u l IH]; intros H; [reflexivity|]. cbn [map csuml]. rewrite IH by (intros; apply H; right; auto).
  destruct (H u (or_introl eq_refl)) as [H1 H2]. unfold ub. rewrite (proj2 (Nat.eqb_neq _ _) H1), (proj2 (Nat.eqb_neq _ _) H2). ring.
Qed.
Lemma combine_app {A B} (a a' : list A) (b b' : list B) : length a = length b -> combine (a ++ a') (b ++ b') = combine a b ++ combine a' b'.
Proof. revert b. induction a; intros [|x b] H; simpl in *; try discriminate; auto. rewrite IHa; auto. Qed.

(** ** linearity of the forced response in the force *)
Lemma forced_linear la spl r (F F1 F2 : cmat) ncol speeds modes out out1 out2 i k :
  (forall k, (k < r_ndof r)%nat -> F k i = F1 k i + F2 k i) ->
  run_forced_response la spl r F ncol speeds modes = Ok out -> run_forced_response la spl r F1 ncol speeds modes = Ok out1 ->
  run_forced_response la spl r F2 ncol speeds modes = Ok out2 -> (i < length speeds)%nat ->
  disp (nth i out cres0) k = disp (nth i out1 cres0) k + disp (nth i out2 cres0) k /\
  velo (nth i out cres0) k = velo (nth i out1 cres0) k + velo (nth i out2 cres0) k /\
  acce (nth i out cres0) k = acce (nth i out1 cres0) k + acce (nth i out2 cres0) k.
Proof.
  intros HF H H1 H2 Hi.
  destruct (forced_nth _ _ _ _ _ _ _ _ i H Hi) as (T & HT & U & V & A). destruct (forced_nth _ _ _ _ _ _ _ _ i H1 Hi) as (T1 & HT1 & U1 & V1 & A1).
  destruct (forced_nth _ _ _ _ _ _ _ _ i H2 Hi) as (T2 & HT2 & U2 & V2 & A2).
  rewrite HT in HT1. injection HT1 as <-. rewrite HT in HT2. injection HT2 as <-.
  assert (E : forall k, disp (nth i out cres0) k = disp (nth i out1 cres0) k + disp (nth i out2 cres0) k).
  { intros k'. rewrite U, U1, U2. unfold cmulv. rewrite <- csumn_plus. apply csumn_ext. intros j Hj. rewrite HF by auto. ring. }
  split; [apply E|]. split; [rewrite V, V1, V2, E|rewrite A, A1, A2, E]; ring.
Qed.
Lemma forced_scaled la spl r (F F1 : cmat) (c : C) ncol speeds modes out out1 i k :
  (forall k, (k < r_ndof r)%nat -> F k i = c * F1 k i) ->
  run_forced_response la spl r F ncol speeds modes = Ok out -> run_forced_response la spl r F1 ncol speeds modes = Ok out1 -> (i < length speeds)%nat ->
  disp (nth i out cres0) k = c * disp (nth i out1 cres0) k /\ velo (nth i out cres0) k = c * velo (nth i out1 cres0) k /\ acce (nth i out cres0) k = c * acce (nth i out1 cres0) k.
Proof.
  intros HF H H1 Hi.
  destruct (forced_nth _ _ _ _ _ _ _ _ i H Hi) as (T & HT & U & V & A). destruct (forced_nth _ _ _ _ _ _ _ _ i H1 Hi) as (T1 & HT1 & U1 & V1 & A1).
  rewrite HT in HT1. injection HT1 as <-.
  assert (E : forall k, disp (nth i out cres0) k = c * disp (nth i out1 cres0) k).
  { intros k'. rewrite U, U1. unfold cmulv. rewrite <- csumn_scal. apply csumn_ext. intros j Hj. rewrite HF by auto. ring. }
  split; [apply E|]. split; [rewrite V, V1, E|rewrite A, A1, E]; ring.
Qed.
