(** The mass on a spring and a damper of LDynEx with an iterative eigen-solver whose order depends on the start vector. *)
From Coq Require Import Reals List Arith ZArith Bool Lia Lra Permutation Sorted.
From Coquelicot Require Import Complex.
From Verif Require Import PyBase MatBase SpecMat LMat CMat LCMat MRotor MDynamics SpecDynamics MResults MModal SpecModal LRotor6 LTransfer LModes LResponse LModal LDynEx LDynEx2.
Import ListNotations.
Open Scope list_scope.
Open Scope R_scope.

(** ** what the order of the solver's answer leaves unchanged *)
Lemma history_free la eigs eig2 spl r speed nm A st st' l l' m m' s1 s2 : eigs_ok la eigs -> rotor_A la spl r speed None false = Ok A ->
  let N := (2 * r_ndof r)%nat in
  told_apart (spectrum la N A) -> (well_cut (spectrum la N A) (2 * nm) \/ (N <= 2 * nm + 1)%nat) ->
  eigs N A (2 * nm)%nat st = Converged l -> eigs N A (2 * nm)%nat st' = Converged l' ->
  run_modal la eigs eig2 spl r speed nm true false st = (Ok m, s1) -> run_modal la eigs eig2 spl r speed nm true false st' = (Ok m', s2) ->
  map fst (mo_pairs m) = map fst (mo_pairs m') /\ numbers m = numbers m'.
Proof.
  intros E HA N T W El El' H H'. apply run_modal_ok in H as (H1 & _ & (N1 & N2 & N3 & N4) & _). apply run_modal_ok in H' as (H1' & _ & (N1' & N2' & N3' & N4') & _).
  unfold eigen_full in H1, H1'. rewrite HA in H1, H1'. fold N in H1, H1'. rewrite El in H1. rewrite El' in H1'. injection H1 as Hs _. injection H1' as Hs' _.
  assert (Hn : forall l0 s0, eigs N A (2 * nm)%nat s0 = Converged l0 -> nearest_to_one (if (2 * nm + 1 <? N)%nat then (2 * nm)%nat else N) (spectrum la N A) (map fst l0)).
  { intros l0 s0 H. split; [rewrite map_length; apply (eo_count la eigs E _ _ _ _ _ H)|apply (eo_near la eigs E _ _ _ _ _ H)]. }
  assert (P : Permutation (map fst l) (map fst l')).
  { apply (nearest_same _ _ _ _ ) with (2 := Hn _ _ El) (3 := Hn _ _ El'). destruct (Nat.ltb_spec (2 * nm + 1) N) as [B|B].
    - destruct W as [W|W]; [left; exact W|lia].
    - right. unfold spectrum. rewrite map_length, seq_length. lia. }
  assert (V : map fst (mo_pairs m) = map fst (mo_pairs m')).
  { apply (sort_pairs_values _ _ _ _) with (3 := Hs) (4 := Hs').
    - rewrite !filter_fst. apply filter_perm. exact P.
    - rewrite filter_fst. intros x y Hx Hy. apply filter_In in Hx as [Hx _], Hy as [Hy _]. destruct (Hn _ _ El) as (_ & far & Pf & _).
      apply T; apply (Permutation_in _ Pf), in_or_app; left; auto. }
  split; [exact V|]. unfold numbers. rewrite N1, N2, N3, N4, N1', N2', N3', N4', V. reflexivity.
Qed.

(** ** rounding *)
Lemma rhe_int z : round_half_even (IZR z) = z.
Proof.
  destruct (rhe_spec (IZR z)) as [H _]. set (k := round_half_even (IZR z)) in *. clearbody k. rewrite <- minus_IZR in H. assert (H1 : -(1/2) <= IZR (z - k) <= 1/2) by (revert H; unfold Rabs; destruct (Rcase_abs _); lra). destruct H1 as [H1 H2].
  assert ((z - k < 1)%Z) by (apply lt_IZR; lra). assert ((-1 < z - k)%Z) by (apply lt_IZR; lra). lia.
Qed.
Lemma around10_int z : around10 (IZR z) = IZR z.
Proof. unfold around10. replace (IZR z * 10 ^ 10) with (IZR (z * 10 ^ 10)) by (rewrite mult_IZR; f_equal; lra). rewrite rhe_int, mult_IZR. change (IZR (10 ^ 10)) with (IZR 10000000000). field. Qed.
Lemma key_int z : key_wn (RtoC (IZR z)) = Rabs (IZR z).
Proof. unfold key_wn, RtoC. cbn [Re Im fst snd]. rewrite around10_int, (around10_int 0). apply Cmod_R. Qed.

(** ** the solver *)
Definition eigs1 : eigs_t := fun N A k v0 =>
  if (is_tiny N A && (N <=? k + 1)%nat)%bool then Converged (match v0 with None => eig_pairs N (la_eig la1 N A) | Some _ => rev (eig_pairs N (la_eig la1 N A)) end) else ArpackError.
Lemma la1_eig A : is_tiny 4 A = true -> la_eig la1 4 A = (tiny_lam, of_mat tiny_V).
Proof. intros H. change (la_eig la1 4 A) with (if is_tiny 4 A then (tiny_lam, of_mat tiny_V) else (fun _ => RtoC 0, czero)). rewrite H. reflexivity. Qed.
Lemma tiny_column j : (j < 4)%nat -> cnonzero 4 (fun i => of_mat tiny_V i j).
Proof.
  intros Hj. assert (E : of_mat tiny_V (j mod 2)%nat j = RtoC 1) by (lt4 j Hj; reflexivity).
  exists (j mod 2)%nat. split; [pose proof (Nat.mod_upper_bound j 2); lia|]. rewrite E. intros K. injection K. lra.
Qed.
Lemma eigs1_ok : eigs_ok la1 eigs1.
Proof.
  assert (P : forall N A k v0 l, eigs1 N A k v0 = Converged l -> is_tiny N A = true /\ (N <= k + 1)%nat /\ Permutation l (eig_pairs N (la_eig la1 N A))).
  { intros N A k v0 l H. unfold eigs1 in H. destruct (is_tiny N A) eqn:E; [|discriminate]. destruct (Nat.leb_spec N (k + 1)); [|discriminate]. cbn [andb] in H.
    injection H as <-. repeat split; auto. destruct v0; [apply Permutation_sym, Permutation_rev|reflexivity]. }
  constructor.
  - intros N A k v0 l p H Hp. apply P in H as (T & B & Q). apply (Permutation_in _ Q) in Hp. unfold eig_pairs in Hp. apply in_map_iff in Hp as (j & <- & Hj). apply in_seq in Hj. cbn [fst snd]. split.
    + assert (N = 4%nat) as -> by (apply is_tiny_spec in T; tauto). rewrite (la1_eig A T). cbn [snd]. apply tiny_column. lia.
    + intros i Hi. apply (eig_sol la1 la1_ok); auto. lia.
  - intros N A k v0 l H. apply P in H as (_ & _ & Q). exists []. split; [|contradiction]. rewrite app_nil_r, (Permutation_map fst Q), eig_pairs_fst. reflexivity.
  - intros N A k v0 l H. apply P in H as (_ & B & Q). rewrite (Permutation_length Q). unfold eig_pairs. rewrite map_length, seq_length.
    destruct (Nat.ltb_spec (k + 1) N); lia.
Qed.
Lemma tiny_spectrum A : is_tiny 4 A = true -> spectrum la1 4 A = [RtoC (-1); RtoC (-1); RtoC (-2); RtoC (-2)].
Proof. intros H. unfold spectrum. rewrite (la1_eig A H). reflexivity. Qed.
Lemma tiny_apart A : is_tiny 4 A = true -> told_apart (spectrum la1 4 A).
Proof.
  intros H x y Hx Hy _ K. rewrite (tiny_spectrum A H) in Hx, Hy.
  assert (C1 : x = RtoC (IZR (-1)) \/ x = RtoC (IZR (-2))) by (cbn in Hx; intuition).
  assert (C2 : y = RtoC (IZR (-1)) \/ y = RtoC (IZR (-2))) by (cbn in Hy; intuition).
  assert (A1 : Rabs (IZR (-1)) = 1) by (rewrite Rabs_left; lra). assert (A2 : Rabs (IZR (-2)) = 2) by (rewrite Rabs_left; lra).
  destruct C1 as [-> | ->], C2 as [-> | ->]; auto; rewrite !key_int in K; rewrite A1, A2 in K; lra.
Qed.
Lemma tiny_shape_ok eig2 j : (j < 4)%nat -> is_ok (rotor_shape eig2 tiny (fun i => of_mat tiny_V i j) true).
Proof.
  intros Hj. unfold rotor_shape, shape_init. change (r_nd tiny) with 4%nat. change (r_ndof tiny) with 2%nat.
  assert (S : Cmod (scale_of 4 2 (fun i => of_mat tiny_V i j)) = 1).
  { unfold scale_of. change (slice_len 4 2 0) with 1%nat. change (slice_len 4 2 1) with 1%nat. cbn [argmax]. cbn [Nat.mul Nat.add].
    lt4 j Hj; cbn [of_mat tiny_V lmat nth]; unfold of_mat, tiny_V, lmat; cbn [nth]; rewrite ?Cmod_R, ?Rabs_R1, ?Rabs_R0;
    match goal with |- context [Rlt_dec ?a ?b] => destruct (Rlt_dec a b) end; try lra; rewrite Cmod_R, ?Rabs_R1, ?Rabs_R0; lra. }
  cbv zeta. rewrite S. destruct (Req_EM_T 1 0); [lra|]. cbn [andb]. eexists. reflexivity.
Qed.
Lemma tiny_modal_n eig2 spl s nm st : (2 <= nm)%nat -> exists m st', run_modal la1 eigs1 eig2 spl tiny s nm true false st = (Ok m, st') /\ length (mo_pairs m) = 4%nat.
Proof.
  intros Hnm. destruct (tiny_A_ok spl s None) as (A & HA & HT).
  assert (Q : exists l, eigs1 4%nat A (2 * nm)%nat st = Converged l /\ Permutation l (eig_pairs 4 (la_eig la1 4 A))).
  { eexists. split; [unfold eigs1; rewrite HT, (proj2 (Nat.leb_le 4 (2 * nm + 1))) by lia; reflexivity|]. destruct st; [apply Permutation_sym, Permutation_rev|reflexivity]. }
  destruct Q as (l & Hl & Q).
  assert (F : filter (fun p => not_rigid (fst p)) l = l).
  { apply filter_all. intros p Hp. apply (Permutation_in _ Q) in Hp. apply not_rigid_spec.
    assert (I : In (fst p) (spectrum la1 4 A)) by (rewrite <- eig_pairs_fst; apply in_map; exact Hp). rewrite (tiny_spectrum A HT) in I.
    assert (C1 : fst p = RtoC (-1) \/ fst p = RtoC (-2)) by (cbn in I; intuition).
    destruct C1 as [-> | ->]; rewrite Cmod_R, Rabs_left; lra. }
  assert (Ll : length l = 4%nat) by (rewrite (Permutation_length Q); unfold eig_pairs; rewrite map_length, seq_length; reflexivity).
  destruct (sort_pairs_even l) as [srt Hs]; [rewrite Ll; reflexivity|].
  assert (E : eigen_full la1 eigs1 spl tiny s nm None true false st = (Ok srt, Some (next_v0 l))).
  { unfold eigen_full. rewrite HA. change (2 * r_ndof tiny)%nat with 4%nat.  rewrite Hl, F, Hs. reflexivity. }
  pose proof E as E0. apply (run_modal_numbers _ _ eig2) in E.
  { destruct E as [m Hm]. exists m, (Some (next_v0 l)). split; [exact Hm|]. apply run_modal_ok in Hm as (H1 & _). assert (Es : srt = mo_pairs m) by congruence. rewrite <- Es.
    apply sort_pairs_spec in Hs as (_ & Ps & _). rewrite (Permutation_length Ps). exact Ll. }
  intros p Hp. assert (Hi : In p srt) by (rewrite <- (firstn_skipn (nm / 2) srt); apply in_or_app; left; exact Hp).
  apply sort_pairs_spec in Hs as (_ & Ps & _). apply (Permutation_in _ Ps), (Permutation_in _ Q) in Hi. unfold eig_pairs in Hi.
  apply in_map_iff in Hi as (j & <- & Hj). apply in_seq in Hj. cbn [snd]. rewrite (la1_eig A HT). cbn [snd]. apply tiny_shape_ok. lia.
Qed.
Lemma tiny_modal eig2 spl s st : exists m st', run_modal la1 eigs1 eig2 spl tiny s 2 true false st = (Ok m, st').
Proof. destruct (tiny_modal_n eig2 spl s 2 st) as (m & st' & H & _); [lia|eauto]. Qed.
(** at every speed and after every history the same numbers *)
Lemma tiny_same eig2 spl s s' st st' m m' x x' : run_modal la1 eigs1 eig2 spl tiny s 2 true false st = (Ok m, x) -> run_modal la1 eigs1 eig2 spl tiny s' 2 true false st' = (Ok m', x') ->
  numbers m = numbers m' /\ length (mo_wn m) = 1%nat.
Proof.
  intros H H'. apply run_modal_ok in H as (H1 & _ & (N1 & N2 & N3 & N4) & _). apply run_modal_ok in H' as (H1' & _ & (N1' & N2' & N3' & N4') & _).
  assert (V : forall s st l x, eigen_full la1 eigs1 spl tiny s 2 None true false st = (Ok l, x) -> exists l0, sort_pairs (filter (fun p => not_rigid (fst p)) l0) = Ok l /\ Permutation (map fst l0) [RtoC (-1); RtoC (-1); RtoC (-2); RtoC (-2)] /\ length l = 4%nat).
  { clear. intros s st l x H. unfold eigen_full in H. destruct (tiny_A_ok spl s None) as (A & HA & HT). rewrite HA in H. change (2 * r_ndof tiny)%nat with 4%nat in H.
    change (2 * 2)%nat with 4%nat in H. destruct (eigs1 4%nat A 4%nat st) as [l0| |] eqn:E; unfold eigs1 in E; rewrite HT in E; try discriminate. injection H as Hs _. exists l0. split; [exact Hs|].
    assert (Q : Permutation l0 (eig_pairs 4 (la_eig la1 4 A))) by (cbn [andb Nat.leb Nat.add] in E; injection E as <-; destruct st; [apply Permutation_sym, Permutation_rev|reflexivity]).
    assert (Pm : Permutation (map fst l0) [RtoC (-1); RtoC (-1); RtoC (-2); RtoC (-2)]) by (rewrite (Permutation_map fst Q), eig_pairs_fst, (tiny_spectrum A HT); reflexivity).
    split; [exact Pm|].
    apply sort_pairs_spec in Hs as (_ & Ps & _). rewrite (Permutation_length Ps). rewrite (filter_all (fun p : C * cvec => not_rigid (fst p)) l0).
    - rewrite <- (map_length fst), (Permutation_length Pm). reflexivity.
    - intros p Hp. apply not_rigid_spec. apply (in_map fst) in Hp. apply (Permutation_in _ Pm) in Hp.
      assert (C1 : fst p = RtoC (-1) \/ fst p = RtoC (-2)) by (cbn in Hp; intuition). destruct C1 as [-> | ->]; rewrite Cmod_R, Rabs_left; lra. }
  destruct (V _ _ _ _ H1) as (l0 & Hs & P & L). destruct (V _ _ _ _ H1') as (l0' & Hs' & P' & L').
  assert (E : map fst (mo_pairs m) = map fst (mo_pairs m')).
  { apply (sort_pairs_values _ _ _ _) with (3 := Hs) (4 := Hs').
    - rewrite !filter_fst. apply filter_perm. rewrite P, P'. reflexivity.
    - rewrite filter_fst. intros a b Ha Hb. apply filter_In in Ha as [Ha _], Hb as [Hb _]. destruct (tiny_A_ok spl 0 None) as (A & _ & HT).
      apply (tiny_apart A HT); rewrite (tiny_spectrum A HT); apply (Permutation_in _ P); auto. }
  split; [unfold numbers; rewrite N1, N2, N3, N4, N1', N2', N3', N4', E; reflexivity|].
  rewrite N1, map_length, firstn_length, map_length, L. reflexivity.
Qed.
Lemma tiny_steady eig2 spl : steady la1 eigs1 eig2 spl tiny 2.
Proof.
  intros s st st'. destruct (tiny_modal eig2 spl s st) as (m & x & H). destruct (tiny_modal eig2 spl s st') as (m' & x' & H'). rewrite H, H'. cbn.
  rewrite (proj1 (tiny_same _ _ _ _ _ _ _ _ _ _ H H')). reflexivity.
Qed.

(** a search that tries its start *)
Definition newton0 (x0 : R) : search := Ask x0 (fun y => if Req_EM_T y 0 then Found x0 else Fails RuntimeErr).
Lemma newton0_root x0 g : finds_root 0 newton0 x0 g.
Proof.
  intros x H. unfold newton0 in H. cbn in H. destruct (g x0) as [y|e] eqn:E; [|discriminate]. cbn in H. destruct (Req_EM_T y 0) as [-> |]; [|discriminate].
  cbn in H. injection H as <-. exists 0. split; auto. rewrite Rabs_R0. lra.
Qed.
Lemma smap_is_ok {A B} (f : A -> St B) l : (forall x, In x l -> forall st, exists y st', f x st = (Ok y, st')) -> forall st, exists ys st', smap f l st = (Ok ys, st').
Proof.
  induction l as [|x l IH]; intros H st; cbn; [eexists _, _; reflexivity|]. destruct (H x (or_introl eq_refl) st) as (y & s1 & H1).
  destruct (IH (fun x Hx => H x (or_intror Hx)) s1) as (ys & s2 & H2). unfold sbind. rewrite H1, H2. eexists _, _. reflexivity.
Qed.
Lemma tiny_critical eig2 spl st : exists c st', run_critical_speed la1 eigs1 eig2 newton0 spl tiny None 2 st = (Ok c, st') /\ length (cs_wd c) = 1%nat.
Proof.
  destruct (tiny_modal eig2 spl 0 st) as (m0 & s0 & H0). destruct (modal_lengths _ _ _ _ _ _ _ _ _ _ _ _ H0) as (L1 & L2 & L3 & L4).
  pose proof (proj2 (tiny_same _ _ _ _ _ _ _ _ _ _ H0 H0)) as L0.
  assert (SR : forall f nf, (forall m, f m = nf (numbers m)) -> length (f m0) = 1%nat -> forall i, (i < 1)%nat -> forall st, exists y st', run_search (field_f la1 eigs1 eig2 spl tiny f 2 i) (newton0 (nth i (f m0) 0)) st = (Ok y, st')).
  { intros f nf F Lf i Hi st1. unfold newton0. cbn [run_search]. unfold sbind at 1. unfold field_f, sbind at 1.
    destruct (tiny_modal eig2 spl (nth i (f m0) 0) st1) as (m & x & H). rewrite H.
    assert (E : f m = f m0) by (rewrite !F, (proj1 (tiny_same _ _ _ _ _ _ _ _ _ _ H H0)); reflexivity).
    unfold sbind at 1, sres, sret. rewrite E. unfold item. rewrite (nth_error_nth' (f m0) 0) by lia.
    destruct (Req_EM_T (nth i (f m0) 0 - nth i (f m0) 0) 0) as [Z|Z]; [|exfalso; apply Z; ring]. cbn. eexists _, _. reflexivity. }
  unfold run_critical_speed. cbv zeta. unfold sbind at 1. rewrite H0.
  edestruct (smap_is_ok (fun i => run_search (field_f la1 eigs1 eig2 spl tiny mo_wn 2 i) (newton0 (nth i (mo_wn m0) 0))) (seq 0 (length (mo_wn m0)))) as (wn & s1 & Hwn).
  { intros i Hi. apply in_seq in Hi. apply (SR mo_wn (fun q => fst (fst (fst q)))); auto. lia. }
  unfold sbind at 1. unfold field_f in Hwn. rewrite Hwn.
  edestruct (smap_is_ok (fun i => run_search (field_f la1 eigs1 eig2 spl tiny mo_wd 2 i) (newton0 (nth i (mo_wd m0) 0))) (seq 0 (length (mo_wd m0)))) as (wd & s2 & Hwd).
  { intros i Hi. apply in_seq in Hi. apply (SR mo_wd (fun q => snd (fst (fst q)))); auto; lia. }
  assert (Lw : length wd = 1%nat) by (pose proof (F2_length _ _ _ (smap_ok _ _ _ _ _ Hwd)) as E; rewrite seq_length in E; lia).
  unfold sbind at 1. unfold field_f in Hwd. rewrite Hwd.
  match goal with |- context [sbind (smap ?f ?l) _] => edestruct (smap_is_ok f l) as (rows & s3 & Hrows) end.
  { intros [i w] Hi st1. assert (Hi0 : i = 0%nat) by (apply in_combine_l, in_seq in Hi; lia). subst i. cbn [fst snd].
    destruct (tiny_modal eig2 spl w st1) as (m & x & H). destruct (modal_lengths _ _ _ _ _ _ _ _ _ _ _ _ H) as (M1 & M2 & M3 & M4).
    pose proof (proj2 (tiny_same _ _ _ _ _ _ _ _ _ _ H H)) as M0.
    unfold sbind at 1. rewrite H. destruct (mo_log_dec m) as [|a la'] eqn:E1; [cbn in M2; lia|]. destruct (mo_damping m) as [|b lb] eqn:E2; [cbn in M3; lia|].
    unfold whirl_direction. destruct (mo_shapes m) as [|sh ls] eqn:E3; [cbn in M4; lia|]. cbn. eexists _, _. reflexivity. }
  unfold sbind at 1. rewrite Hrows. eexists _, _. split; [reflexivity|]. exact Lw.
Qed.
Lemma tiny_campbell eig2 spl speeds by_wd st : exists rows st', run_campbell la1 eigs1 eig2 spl tiny speeds 1 by_wd st = (Ok rows, st').
Proof.
  unfold run_campbell. apply smap_is_ok. intros w _ st1. destruct (tiny_modal eig2 spl w st1) as (m & x & H). change (2 * 1)%nat with 2%nat. unfold sbind at 1. rewrite H.
  destruct (modal_lengths _ _ _ _ _ _ _ _ _ _ _ _ H) as (M1 & M2 & M3 & M4). pose proof (proj2 (tiny_same _ _ _ _ _ _ _ _ _ _ H H)) as M0.
  cbv zeta. assert (FO : forall l, length l = 1%nat -> exists l', fill 1 (firstn 1 l) = Ok l').
  { intros l Hl. unfold fill. rewrite firstn_length, Hl. cbn. eauto. }
  assert (Li : length (if by_wd then seq 0 (length (mo_wd m)) else argsort (mo_wn m)) = 1%nat) by (destruct by_wd; [rewrite seq_length; lia|rewrite (Permutation_length (argsort_perm _)), seq_length; lia]).
  set (idx := if by_wd then seq 0 (length (mo_wd m)) else argsort (mo_wn m)) in *.
  assert (FM : forall g : nat -> R, exists l', fill 1 (firstn 1 (map g idx)) = Ok l') by (intros g; apply FO; rewrite map_length; exact Li).
  destruct (FM (fun i => nth i (if by_wd then mo_wd m else mo_wn m) 0)) as [l1 E1]. destruct (FM (fun i => nth i (mo_log_dec m) 0)) as [l2 E2].
  destruct (FM (fun i => nth i (mo_damping m) 0)) as [l3 E3]. destruct (FM (fun i => nth i (whirl_values m) 0)) as [l4 E4]. destruct (FO _ M0) as [l5 E5].
  unfold sbind, sres, sret. rewrite E1, E2, E3, E4, E5. eexists _, _. reflexivity.
Qed.
