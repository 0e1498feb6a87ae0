(** Orbits and whirl labels: the facts behind C36 and C37. *)
From Coq Require Import Reals String List Arith ZArith Bool Lia Lra Psatz Permutation.
From Coquelicot Require Import Complex.
From Verif Require Import PyBase MatBase CMat MDynamics MFault MResults SpecResults LFault LModes LResults LResults2.
Import ListNotations.
Open Scope list_scope.
Open Scope R_scope.

(** an eigenvalue routine that meets the contract *)
Definition eig2_ex (H : mat) : R * R :=
  let t := H 0%nat 0%nat + H 1%nat 1%nat in let d := sqrt ((H 0%nat 0%nat - H 1%nat 1%nat) ^ 2 + 4 * H 0%nat 1%nat ^ 2) in
  ((t + d) / 2, (t - d) / 2).
Lemma eig2_ex_ok : eig2_ok eig2_ex.
Proof.
  intros H E. unfold eig2_ex. cbn [fst snd]. split; [field|]. rewrite <- E.
  set (a := H 0%nat 0%nat). set (g := H 1%nat 1%nat). set (b := H 0%nat 1%nat).
  assert (S : sqrt ((a - g) ^ 2 + 4 * b ^ 2) ^ 2 = (a - g) ^ 2 + 4 * b ^ 2).
  { apply pow2_sqrt. pose proof (pow2_ge_0 (a - g)). pose proof (pow2_ge_0 b). lra. }
  set (d := sqrt _) in *. clearbody d. nra.
Qed.

Section Orbits.
Variable eig2 : mat -> R * R.
Hypothesis He : eig2_ok eig2.
Variables ru rv : C.
Let o := orbit_init eig2 ru rv.

Lemma kappa_cases : (0 < area ru rv /\ ob_kappa o = ob_minor o / ob_major o /\ 0 < ob_minor o /\ ob_minor o <= ob_major o) \/
  (area ru rv < 0 /\ ob_kappa o = - (ob_minor o / ob_major o) /\ 0 < ob_minor o /\ ob_minor o <= ob_major o) \/
  (area ru rv = 0 /\ ob_kappa o = 0 /\ ob_minor o = 0).
Proof.
  pose proof (axes_order eig2 He ru rv) as Q. fold o in Q.
  destruct (Rtotal_order (area ru rv) 0) as [A|[A|A]].
  - right; left. destruct (major_pos eig2 ru rv He) as [P1 P2]; [lra|]. repeat split; auto; try tauto. apply kappa_backward; auto.
  - right; right. destruct (kappa_zero eig2 He ru rv A). auto.
  - left. destruct (major_pos eig2 ru rv He) as [P1 P2]; [lra|]. repeat split; auto; try tauto. apply kappa_forward; auto.
Qed.
Lemma ratio_range : 0 < ob_minor o -> ob_minor o <= ob_major o -> 0 < ob_minor o / ob_major o <= 1.
Proof.
  intros A B. split; [apply Rdiv_lt_0_compat; lra|]. apply Rmult_le_reg_r with (ob_major o); [lra|].
  unfold Rdiv. rewrite Rmult_assoc, Rinv_l, Rmult_1_r by lra. lra.
Qed.
Lemma kappa_range : -1 <= ob_kappa o <= 1 /\ Rabs (ob_kappa o) * ob_major o = ob_minor o.
Proof.
  destruct kappa_cases as [(A & E & P & Q)|[(A & E & P & Q)|(A & E & P)]]; rewrite E.
  - pose proof (ratio_range P Q). split; [lra|]. rewrite Rabs_pos_eq by lra. field. lra.
  - pose proof (ratio_range P Q). split; [lra|]. rewrite Rabs_Ropp, Rabs_pos_eq by lra. field. lra.
  - rewrite Rabs_R0, P. split; lra.
Qed.
Lemma kappa_signs : (0 < ob_kappa o <-> turns_forward ru rv) /\ (ob_kappa o < 0 <-> turns_backward ru rv) /\ (ob_kappa o = 0 <-> on_a_line ru rv).
Proof.
  rewrite forward_area, backward_area, line_area.
  destruct kappa_cases as [(A & E & P & Q)|[(A & E & P & Q)|(A & E & P)]]; rewrite E;
    try pose proof (ratio_range P Q); repeat split; intros; lra.
Qed.
Lemma kappa_circle : Rabs (ob_kappa o) = 1 <-> circular ru rv.
Proof.
  pose proof (axes_order eig2 He ru rv) as Q0. fold o in Q0. destruct kappa_range as [R1 R2]. split.
  - intros E. rewrite E in R2. exists (ob_major o).
    assert (P : 0 < ob_major o).
    { destruct kappa_cases as [(A & F & P & Q)|[(A & F & P & Q)|(A & F & P)]]; try lra. rewrite F, Rabs_R0 in E. lra. }
    split; auto. intros c. pose proof (axes_bound eig2 He ru rv c) as B. fold o in B. lra.
  - intros (r & Hr & Hc). destruct (minor_attained eig2 He ru rv) as [c1 E1]. destruct (major_attained eig2 He ru rv) as [c2 E2].
    fold o in E1, E2. rewrite Hc in E1, E2. rewrite <- E1, <- E2 in R2. nra.
Qed.
Lemma whirl_forward : ob_whirl o = Forward <-> turns_forward ru rv.
Proof.
  rewrite <- (proj1 kappa_signs). unfold o. rewrite whirl_eq. destruct (Rlt_dec _ _); split; auto; try discriminate; tauto.
Qed.
Lemma whirl_backward : ob_whirl o = Backward <-> turns_backward ru rv \/ on_a_line ru rv.
Proof.
  destruct kappa_signs as (_ & B & Z). rewrite <- B, <- Z. unfold o. rewrite whirl_eq. destruct (Rlt_dec _ _); split; auto; try discriminate; intros; lra.
Qed.
End Orbits.

(** ** labels of a list *)
Lemma forallb_perm {A} (f : A -> bool) l l' : Permutation l l' -> forallb f l = forallb f l'.
Proof.
  induction 1; simpl; auto.
  - rewrite IHPermutation; auto.
  - destruct (f x), (f y); auto.
  - congruence.
Qed.
Lemma forallb_false {A} (f : A -> bool) l : forallb f l = false <-> exists x, In x l /\ f x = false.
Proof.
  induction l as [|a l IH]; simpl; [split; [discriminate|intros (x & [] & _)]|].
  rewrite andb_false_iff, IH. split.
  - intros [E|(x & Hx & E)]; eauto.
  - intros (x & [<-|Hx] & E); eauto.
Qed.
Lemma modal_forward l : modal_whirl l = Forward <-> forall k, In k l -> - / 1000 <= k.
Proof.
  unfold modal_whirl. destruct (forallb (fun k => if Rle_dec (- / 1000) k then true else false) l) eqn:E1.
  - split; auto. intros _ k Hk. rewrite forallb_forall in E1. specialize (E1 k Hk). destruct (Rle_dec _ _); [auto|discriminate].
  - split.
    + intros X. destruct (forallb (fun k => if Rle_dec k (/ 1000) then true else false) l); discriminate X.
    + intros H. apply forallb_false in E1. destruct E1 as (k & Hk & E). specialize (H k Hk). destruct (Rle_dec _ _); [discriminate|tauto].
Qed.
Lemma modal_backward l : modal_whirl l = Backward <-> (exists k, In k l /\ k < - / 1000) /\ forall k, In k l -> k <= / 1000.
Proof.
  unfold modal_whirl. destruct (forallb (fun k => if Rle_dec (- / 1000) k then true else false) l) eqn:E1.
  - split; [discriminate|]. intros [(k & Hk & L) _]. rewrite forallb_forall in E1. specialize (E1 k Hk). destruct (Rle_dec _ _); [lra|discriminate].
  - apply forallb_false in E1. destruct E1 as (k & Hk & E). destruct (Rle_dec (- / 1000) k); [discriminate|]. apply Rnot_le_lt in n.
    destruct (forallb (fun k => if Rle_dec k (/ 1000) then true else false) l) eqn:E2.
    + split; auto. intros _. split; [eauto|]. intros x Hx. rewrite forallb_forall in E2. specialize (E2 x Hx). destruct (Rle_dec _ _); [auto|discriminate].
    + split; [discriminate|]. intros [_ H]. apply forallb_false in E2. destruct E2 as (x & Hx & E2). specialize (H x Hx). destruct (Rle_dec _ _); [discriminate|tauto].
Qed.
Lemma modal_mixed l : modal_whirl l = Mixed <-> (exists k, In k l /\ k < - / 1000) /\ (exists k, In k l /\ / 1000 < k).
Proof.
  split.
  - intros H. unfold modal_whirl in H. destruct (forallb (fun k => if Rle_dec (- / 1000) k then true else false) l) eqn:E1; [discriminate|].
    destruct (forallb (fun k => if Rle_dec k (/ 1000) then true else false) l) eqn:E2; [discriminate|].
    apply forallb_false in E1. apply forallb_false in E2. destruct E1 as (x & Hx & E1). destruct E2 as (y & Hy & E2).
    destruct (Rle_dec (- / 1000) x) as [?|N1]; [discriminate|]. destruct (Rle_dec y (/ 1000)) as [?|N2]; [discriminate|]. split; [exists x|exists y]; split; auto; lra.
  - intros [(x & Hx & Lx) (y & Hy & Ly)]. destruct (modal_whirl l) eqn:E; auto.
    + apply modal_forward with (k := x) in E; auto. lra.
    + apply modal_backward in E. destruct E as [_ E]. specialize (E y Hy). lra.
Qed.
Lemma modal_perm l l' : Permutation l l' -> modal_whirl l = modal_whirl l'.
Proof. intros H. unfold modal_whirl. rewrite !(forallb_perm _ l l' H). auto. Qed.
Lemma shape_whirl_modal eig2 (ps : list (C * C)) : eig2_ok eig2 ->
  let os := map (fun p => orbit_init eig2 (fst p) (snd p)) ps in
  (forall o, In o os -> / 1000 < Rabs (ob_kappa o)) -> shape_whirl (map ob_whirl os) = modal_whirl (map ob_kappa os).
Proof.
  intros He os Hk.
  assert (W : forall o, In o os -> (ob_whirl o = Forward /\ / 1000 < ob_kappa o) \/ (ob_whirl o = Backward /\ ob_kappa o < - / 1000)).
  { intros o Ho. pose proof (Hk o Ho) as K. unfold os in Ho. apply in_map_iff in Ho. destruct Ho as (p & <- & Hp). rewrite whirl_eq.
    destruct (Rlt_dec 0 _) as [G|G]; [left|right]; split; auto.
    - rewrite Rabs_pos_eq in K by lra. auto.
    - rewrite Rabs_left1 in K by lra. lra. }
  assert (E : modal_whirl (map ob_kappa os) = shape_whirl (map ob_whirl os)); [|auto].
  unfold shape_whirl. destruct (forallb (whirl_eqb Forward) (map ob_whirl os)) eqn:E1.
  - apply modal_forward. intros k Hk'. apply in_map_iff in Hk'. destruct Hk' as (o & <- & Ho).
    rewrite forallb_forall in E1. specialize (E1 (ob_whirl o) (in_map ob_whirl _ _ Ho)). destruct (W o Ho) as [[_ L]|[B L]]; [lra|]. rewrite B in E1. discriminate.
  - apply forallb_false in E1. destruct E1 as (w & Hw & E1). apply in_map_iff in Hw. destruct Hw as (o1 & <- & Ho1).
    destruct (W o1 Ho1) as [[B _]|[_ L1]]; [rewrite B in E1; discriminate|].
    destruct (forallb (whirl_eqb Backward) (map ob_whirl os)) eqn:E2.
    + apply modal_backward. split; [exists (ob_kappa o1); split; [apply in_map; auto|auto]|].
      intros k Hk'. apply in_map_iff in Hk'. destruct Hk' as (o & <- & Ho).
      rewrite forallb_forall in E2. specialize (E2 (ob_whirl o) (in_map ob_whirl _ _ Ho)). destruct (W o Ho) as [[B L]|[B L]]; [|lra]. rewrite B in E2. discriminate.
    + apply forallb_false in E2. destruct E2 as (w & Hw & E2). apply in_map_iff in Hw. destruct Hw as (o2 & <- & Ho2).
      destruct (W o2 Ho2) as [[_ L2]|[B _]]; [|rewrite B in E2; discriminate].
      apply modal_mixed. split; [exists (ob_kappa o1)|exists (ob_kappa o2)]; (split; [apply in_map; assumption|assumption]).
Qed.

(** ** the kind of a mode *)
Lemma rhe_zero x : 0 <= x -> (round_half_even x = 0%Z <-> x <= 1 / 2).
Proof.
  intros Hx. destruct (rhe_spec x) as [A B]. set (k := round_half_even x) in *. clearbody k. split.
  - intros ->. rewrite Rabs_pos_eq in A by lra. lra.
  - intros L. assert (A1 := Rle_abs (x - IZR k)). assert (A2 := Rle_abs (- (x - IZR k))). rewrite Rabs_Ropp in A2.
    assert (-1 < k)%Z by (apply lt_IZR; lra). assert (k < 2)%Z by (apply lt_IZR; lra).
    destruct (Z.eq_dec k 1) as [->|N]; [|lia]. assert (x = 1 / 2) by lra. subst x. exfalso.
    specialize (B ltac:(rewrite Rabs_left; lra)). discriminate.
Qed.
Lemma rounds_spec z : rounds_nonzero z = true <-> 5 / 10 ^ 7 < Cmod z.
Proof.
  unfold rounds_nonzero. rewrite negb_true_iff, Z.eqb_neq. pose proof (Cmod_ge_0 z). rewrite rhe_zero by lra. split; intros; lra.
Qed.
(** i carries motion: its modulus does not round to zero in six decimals *)
Lemma classify_axial size v : classify 6 size v = Axial <-> forall i, (i < size)%nat -> 5 / 10 ^ 7 < Cmod (v i) -> (i mod 6 = 2)%nat.
Proof.
  unfold classify. simpl (Nat.eqb 6 6). cbv iota. destruct (forallb _ _) eqn:E.
  - split; auto. intros _ i Hi Hm. rewrite forallb_forall in E. apply Nat.eqb_eq. apply E. apply filter_In. split; [apply in_seq; lia|]. apply rounds_spec; auto.
  - split.
    + match goal with |- (if ?b then _ else _) = _ -> _ => destruct b end; discriminate.
    + intros H. exfalso. apply forallb_false in E. destruct E as (i & Hi & E). apply filter_In in Hi. destruct Hi as [Hi Hm].
      apply in_seq in Hi. apply rounds_spec in Hm. apply Nat.eqb_neq in E. apply E, H; auto; lia.
Qed.
Lemma classify_torsional size v : classify 6 size v = Torsional <->
  classify 6 size v <> Axial /\ forall i, (i < size)%nat -> 5 / 10 ^ 7 < Cmod (v i) -> (i mod 6 = 5)%nat.
Proof.
  unfold classify. simpl (Nat.eqb 6 6). cbv iota. destruct (forallb _ _) eqn:E.
  - split; [discriminate|]. intros [H _]. congruence.
  - clear E. match goal with |- (if ?b then _ else _) = _ <-> _ => destruct b eqn:E end.
    + split; auto. intros _. split; [discriminate|]. intros i Hi Hm. rewrite forallb_forall in E. apply Nat.eqb_eq. apply E. apply filter_In. split; [apply in_seq; lia|]. apply rounds_spec; auto.
    + split; [discriminate|]. intros [_ H]. exfalso. apply forallb_false in E. destruct E as (i & Hi & E). apply filter_In in Hi. destruct Hi as [Hi Hm].
      apply in_seq in Hi. apply rounds_spec in Hm. apply Nat.eqb_neq in E. apply E, H; auto; lia.
Qed.
Lemma shape_whirl_forward ws : shape_whirl ws = Forward <-> forall w, In w ws -> w = Forward.
Proof.
  unfold shape_whirl. destruct (forallb (whirl_eqb Forward) ws) eqn:E.
  - split; auto. intros _ w Hw. rewrite forallb_forall in E. specialize (E w Hw). destruct w; auto; discriminate.
  - split.
    + intros X. destruct (forallb (whirl_eqb Backward) ws); discriminate X.
    + intros H. exfalso. apply forallb_false in E. destruct E as (w & Hw & E). rewrite (H w Hw) in E. discriminate.
Qed.
Lemma shape_whirl_backward ws : shape_whirl ws = Backward <-> ws <> [] /\ forall w, In w ws -> w = Backward.
Proof.
  unfold shape_whirl. destruct (forallb (whirl_eqb Forward) ws) eqn:E.
  - split; [discriminate|]. intros [N H]. exfalso. destruct ws as [|w ws]; [auto|]. rewrite (H w (or_introl eq_refl)) in E. discriminate.
  - apply forallb_false in E. destruct E as (x & Hx & E). destruct (forallb (whirl_eqb Backward) ws) eqn:E2.
    + split; auto. intros _. split; [destruct ws; [destruct Hx|discriminate]|]. intros w Hw. rewrite forallb_forall in E2. specialize (E2 w Hw). destruct w; auto; discriminate.
    + split; [discriminate|]. intros [_ H]. exfalso. apply forallb_false in E2. destruct E2 as (w & Hw & E2). rewrite (H w Hw) in E2. discriminate.
Qed.
