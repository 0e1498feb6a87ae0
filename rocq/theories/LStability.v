(** Passive systems are stable. *)
From Coq Require Import Reals List Arith Bool Lia Lra Psatz.
From Coquelicot Require Import Complex.
From Verif Require Import PyBase MatBase SpecMat LMat CMat LCMat MShaft SpecShaft LShaftEx MDisk MBearing MRotor SpecRotor LAssembly LRotor LRotor2 LRotor3 LRotor5 MDynamics SpecDynamics LDynamics.
Import ListNotations.
Open Scope list_scope.
Open Scope C_scope.

(** q* A q *)
Definition hform (n : nat) (A : mat) (q : cvec) : C := csumn n (fun i => Cconj (q i) * cmulv n (of_mat A) q i).
Lemma hform_parts n A q : let u := fun i => Re (q i) in let v := fun i => Im (q i) in
  hform n A q = ((bform n A u u + bform n A v v)%R, (bform n A u v - bform n A v u)%R).
Proof.
  intros u v. unfold hform, bform. apply C_eq.
  - rewrite csumn_Re. cbn [Re fst]. rewrite <- sumn_plus. apply sumn_ext. intros i _. fold (mulv n A u i) (mulv n A v i).
    unfold u at 2, v at 2. rewrite <- cmulv_Re, <- cmulv_Im. unfold u, v, Re, Im, Cconj, Cmult. cbn [fst snd]. ring.
  - rewrite csumn_Im. cbn [Im snd]. rewrite <- sumn_minus. apply sumn_ext. intros i _. fold (mulv n A u i) (mulv n A v i).
    unfold u at 2, v at 1. rewrite <- cmulv_Re, <- cmulv_Im. unfold u, v, Re, Im, Cconj, Cmult. cbn [fst snd]. ring.
Qed.
Lemma hform_sym n A q : symmetric n A -> hform n A q = RtoC (bform n A (fun i => Re (q i)) (fun i => Re (q i)) + bform n A (fun i => Im (q i)) (fun i => Im (q i))).
Proof. intros H. rewrite hform_parts. cbv zeta. rewrite (bform_sym n A (fun i => Im (q i)) (fun i => Re (q i)) H). unfold RtoC. f_equal. ring. Qed.
Lemma hform_skew n A q : skew n A -> exists g, hform n A q = (0%R, g).
Proof. intros H. eexists. rewrite hform_parts. cbv zeta. rewrite !(bform_skew_0 n A) by auto. f_equal. ring. Qed.
Lemma hform_dyn n M D K s q : csumn n (fun i => Cconj (q i) * cmulv n (dyn M D K s) q i) = s * s * hform n M q + s * hform n D q + hform n K q.
Proof. unfold hform. rewrite <- !csumn_scal, <- !csumn_plus. apply csumn_ext. intros. rewrite dyn_mulv. ring. Qed.
Lemma hform_damp n D G w q : hform n (damp_gyro D G w) q = hform n D q + RtoC w * hform n G q.
Proof.
  unfold hform. rewrite <- csumn_scal, <- csumn_plus. apply csumn_ext. intros i _.
  assert (E : cmulv n (of_mat (damp_gyro D G w)) q i = cmulv n (of_mat D) q i + RtoC w * cmulv n (of_mat G) q i).
  { unfold cmulv. rewrite <- csumn_scal, <- csumn_plus. apply csumn_ext. intros. unfold of_mat, damp_gyro. rewrite RtoC_plus, RtoC_mult. ring. }
  rewrite E. ring.
Qed.

Lemma quad_stable (a b m c h k : R) : (0 < m -> 0 <= c -> 0 <= k ->
  (a * a - b * b) * m + (a * c - b * h) + k = 0 -> 2 * a * b * m + (a * h + b * c) = 0 ->
  a <= 0 /\ (a = 0 -> (a, b) <> (0, 0) -> c = 0) /\ (0 < c -> 0 < k -> a < 0))%R.
Proof.
  intros Hm Hc Hk E1 E2.
  assert (E : (a * ((a * a + b * b) * m + k) = - (a * a + b * b) * c)%R).
  { replace (a * ((a * a + b * b) * m + k))%R with
      (a * ((a * a - b * b) * m + (a * c - b * h) + k) + b * (2 * a * b * m + (a * h + b * c)) - (a * a + b * b) * c)%R by ring.
    rewrite E1, E2. ring. }
  assert (S : (0 <= a * a + b * b)%R) by nra.
  assert (L : (a <= 0)%R).
  { destruct (Rle_or_lt a 0) as [|P]; auto. exfalso.
    assert (0 < (a * a + b * b) * m)%R by (apply Rmult_lt_0_compat; nra).
    assert (0 < a * ((a * a + b * b) * m + k))%R by (apply Rmult_lt_0_compat; lra).
    assert (0 <= (a * a + b * b) * c)%R by (apply Rmult_le_pos; auto). lra. }
  assert (Z : (a = 0 -> (a, b) <> (0, 0) -> c = 0)%R).
  { intros Ha Hn. subst a. assert (Hb : (b <> 0)%R) by (intros ->; apply Hn; reflexivity).
    assert (b * b * c = 0)%R by lra. apply Rmult_integral in H. destruct H as [H|H]; auto. apply Rmult_integral in H. tauto. }
  split; [exact L|]. split; [exact Z|]. intros Pc Pk. destruct (Req_dec a 0) as [Ha|Ha]; [|lra]. exfalso.
  destruct (Req_dec b 0) as [Hb|Hb]; [subst; lra|]. assert (c = 0)%R; [|lra]. apply Z; auto. intros Q. inversion Q. auto.
Qed.

Lemma cnonzero_parts n (q : cvec) : cnonzero n q -> nonzero n (fun i => Re (q i)) \/ nonzero n (fun i => Im (q i)).
Proof.
  intros (i & Hi & Hq). destruct (Req_dec (Re (q i)) 0) as [E|E]; [right|left]; exists i; split; auto.
  intros E'. apply Hq. apply C_eq; auto.
Qed.
Lemma zero_bform n A x : (forall i, (i < n)%nat -> x i = 0%R) -> bform n A x x = 0%R.
Proof. intros H. unfold bform. apply sumn_0. intros i Hi. rewrite H by auto. ring. Qed.
Lemma pos_def_psd n A : pos_def n A -> pos_semidef n A.
Proof.
  intros H x. destruct (classic_nonzero n x) as [Hx|Hx]; [apply Rlt_le, H, Hx|]. apply Req_le. symmetry. apply zero_bform, Hx.
Qed.
Lemma pd_pair n A (q : cvec) : pos_def n A -> cnonzero n q -> (0 < bform n A (fun i => Re (q i)) (fun i => Re (q i)) + bform n A (fun i => Im (q i)) (fun i => Im (q i)))%R.
Proof.
  intros H Hq. pose proof (pos_def_psd n A H) as P. destruct (cnonzero_parts n q Hq) as [X|X]; apply H in X.
  - specialize (P (fun i => Im (q i))). lra.
  - specialize (P (fun i => Re (q i))). lra.
Qed.

Lemma dyn_stable n M D G K w (s : C) (q : cvec) : symmetric n M -> pos_def n M -> symmetric n D -> pos_semidef n D -> skew n G ->
  symmetric n K -> pos_semidef n K -> cnonzero n q -> (forall i, (i < n)%nat -> cmulv n (dyn M (damp_gyro D G w) K s) q i = 0) ->
  (Re s <= 0)%R /\ (Re s = 0%R -> s <> 0 -> forall i, (i < n)%nat -> cmulv n (of_mat D) q i = 0) /\
  (pos_def n D -> pos_def n K -> (Re s < 0)%R).
Proof.
  intros SM PM SD PD SG SK PK Hq Hz.
  assert (E : s * s * hform n M q + s * hform n (damp_gyro D G w) q + hform n K q = 0).
  { rewrite <- hform_dyn. apply csumn_0. intros i Hi. rewrite Hz by auto. ring. }
  rewrite hform_damp in E. destruct (hform_skew n G q SG) as [g Hg]. rewrite Hg, (hform_sym n M), (hform_sym n D), (hform_sym n K) in E by auto.
  pose proof (pd_pair n M q PM Hq) as Pm. pose proof (PD (fun i => Re (q i))) as Pd1. pose proof (PD (fun i => Im (q i))) as Pd2.
  pose proof (PK (fun i => Re (q i))) as Pk1. pose proof (PK (fun i => Im (q i))) as Pk2.
  set (m := (bform n M (fun i => Re (q i)) (fun i => Re (q i)) + bform n M (fun i => Im (q i)) (fun i => Im (q i)))%R) in *.
  set (k := (bform n K (fun i => Re (q i)) (fun i => Re (q i)) + bform n K (fun i => Im (q i)) (fun i => Im (q i)))%R) in *.
  remember (bform n D (fun i => Re (q i)) (fun i => Re (q i))) as d1 eqn:Ed1. remember (bform n D (fun i => Im (q i)) (fun i => Im (q i))) as d2 eqn:Ed2.
  destruct s as [a b]. injection E as E1 E2. cbn in E1, E2.
  destruct (quad_stable a b m (d1 + d2) (w * g) k) as (Q1 & Q2 & Q3); [lra|lra|unfold k; lra|lra|lra|].
  change (Re (a, b)) with a. split; [exact Q1|]. split.
  - intros Ha Hs i Hi. assert (Z : (d1 + d2 = 0)%R) by (apply Q2; auto).
    assert (Z1 : d1 = 0%R) by lra. assert (Z2 : d2 = 0%R) by lra. rewrite Ed1 in Z1. rewrite Ed2 in Z2.
    rewrite (psd_kernel _ _ _ SD PD) in Z1. rewrite (psd_kernel _ _ _ SD PD) in Z2.
    apply C_eq; [rewrite cmulv_Re|rewrite cmulv_Im]; auto.
  - intros P1 P2. apply Q3; [|apply pd_pair; auto]. pose proof (pd_pair n D q P1 Hq) as W. rewrite <- Ed1, <- Ed2 in W. exact W.
Qed.

(** ** The damping matrix of a passive rotor *)
Open Scope R_scope.
Lemma el_C_sympsd spl w e : good_shaft e -> no_compression e ->
  (match e with EShaft _ _ _ s => 0 <= s_alpha s /\ 0 <= s_beta s | _ => True end) ->
  (match e with EBrg _ _ => symmetric (el_size (el_C spl w) e) (el_mat (el_C spl w) e) /\ pos_semidef (el_size (el_C spl w) e) (el_mat (el_C spl w) e) | _ => True end) ->
  symmetric (el_size (el_C spl w) e) (el_mat (el_C spl w) e) /\ pos_semidef (el_size (el_C spl w) e) (el_mat (el_C spl w) e).
Proof.
  assert (Z : forall k, symmetric k mzero /\ pos_semidef k mzero).
  { intros k. split; [apply mzero_sym|]. intros x. apply Req_le. symmetry. apply mzero_bform. }
  destruct e as [six n t s|[] t d|t b|[] t p]; intros Hg Hn Hd Hb; auto; try apply Z.
  pose proof (el_M_psd spl w (EShaft six n t s) Hg) as PM. pose proof (el_M_sym spl w (EShaft six n t s) I) as SM.
  pose proof (el_K_psd spl w (EShaft six n t s) Hn I) as PK. pose proof (el_K_sym spl w (EShaft six n t s) Hn I) as SK.
  destruct six; unfold eval_sym, el_size, el_mat in *; simpl in *; (split;
    [intros i j Hi Hj; unfold shaft_C, shaft6_C; rewrite (SM i j), (SK i j) by auto; reflexivity
    |intros x; unfold shaft_C, shaft6_C; rewrite bform_lin; specialize (PM x); specialize (PK x); apply Rplus_le_le_0_compat; apply Rmult_le_pos; lra]).
Qed.
Lemma rotor_C_sympsd spl w r A : rfacts r -> pm_matches r -> passive spl w r -> rotor_C spl r w [] = Ok A -> symmetric (r_ndof r) A /\ pos_semidef (r_ndof r) A.
Proof.
  intros F Hp P HA. unfold rotor_C in HA. rewrite kept_nil in HA.
  assert (Hall : forall e, In e (r_elements r) -> symmetric (el_size (el_C spl w) e) (el_mat (el_C spl w) e) /\ pos_semidef (el_size (el_C spl w) e) (el_mat (el_C spl w) e)).
  { intros e He. apply el_C_sympsd.
    - pose proof (pas_inertia _ _ _ P e He). destruct e; auto; exact I.
    - destruct e as [six n t s|six t d|t b|six t p]; try exact I. apply (pas_load _ _ _ P).
      unfold r_elements in He. rewrite !in_app_iff in He. destruct He as [He|[He|[He|He]]]; auto.
      + destruct (rf_disk _ F _ He) as (? & ? & ? & Q); discriminate.
      + destruct (rf_brg _ F _ He) as (? & ? & Q); discriminate.
      + destruct (rf_pm _ F _ He) as (? & ? & ? & Q); discriminate.
    - destruct e as [six n t s|six t d|t b|six t p]; try exact I. apply (pas_damping _ _ _ P six n t s).
      unfold r_elements in He. rewrite !in_app_iff in He. destruct He as [He|[He|[He|He]]]; auto.
      + destruct (rf_disk _ F _ He) as (? & ? & ? & Q); discriminate.
      + destruct (rf_brg _ F _ He) as (? & ? & Q); discriminate.
      + destruct (rf_pm _ F _ He) as (? & ? & ? & Q); discriminate.
    - destruct e as [six n t s|six t d|t b|six t p]; try exact I. apply (pas_C _ _ _ P). apply rf_brg_in; auto. }
  split.
  - apply (assemble_symmetric _ _ _ _ _ HA).
    + exact (assembled_nodup _ _ _ _ _ _ _ F (is_C spl w) (incl_refl _) HA).
    + intros e He. apply Hall; auto.
  - intros x. rewrite (assembled_form spl w _ _ _ _ x x F Hp (is_C spl w) (incl_refl _) HA). apply suml_nonneg. intros v Hv.
    apply in_map_iff in Hv as (e & <- & He). apply Hall; auto.
Qed.
