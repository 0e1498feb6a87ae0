(** Lemmas about bearings. *)
From Coq Require Import Reals String List Bool Arith Lia Lra Psatz Classical.
From Coquelicot Require Import Coquelicot.
From Verif Require Import PyBase MatBase SpecMat MBearing SpecBearing LMat.
Import ListNotations.
Open Scope list_scope.
Open Scope R_scope.

(** * Construction *)
Lemma process_all_ok freq arg l ps : process_all freq arg l = Ok ps <->
  length ps = length l /\
  forall i c, nth_error l i = Some c -> exists p, nth_error ps i = Some p /\ process_coefficient freq (arg c) = Ok p.
Proof.
  revert ps; induction l as [|c l IH]; intros ps; simpl.
  - split.
    + intros E; inversion E; subst. split; auto. intros [|i] c H; discriminate.
    + intros (L & _). destruct ps; [reflexivity|discriminate].
  - split.
    + destruct (process_coefficient freq (arg c)) as [p|] eqn:P; [simpl|discriminate].
      destruct (process_all freq arg l) as [r|] eqn:Q; [simpl|discriminate].
      intros E; inversion E; subst. destruct (proj1 (IH r) eq_refl) as (L & H). split; [simpl; congruence|].
      intros [|i] c0 H0; simpl in *; [inversion H0; subst; eauto|exact (H i c0 H0)].
    + intros (L & H). destruct ps as [|p ps]; [discriminate|].
      destruct (H 0%nat c eq_refl) as (p' & E1 & E2). simpl in E1. inversion E1; subst p'. rewrite E2. simpl.
      rewrite (proj2 (IH ps)); [reflexivity|]. split; [simpl in L; congruence|].
      intros i c0 H0. exact (H (S i) c0 H0).
Qed.

Lemma cnames_index c : nth_error cnames (cindex c) = Some c.
Proof. destruct c; reflexivity. Qed.
Lemma cindex_lt c : (cindex c < 12)%nat.
Proof. destruct c; simpl; lia. Qed.

Lemma bearing_init_ok a b : bearing_init a = Ok b ->
  b_n b = ba_n a /\ b_n_link b = ba_n_link a /\ b_tag b = ba_tag a /\ b_color b = ba_color a /\
  b_scale_factor b = ba_scale_factor a /\ b_frequency b = ba_frequency a /\
  (forall c, process_coefficient (ba_frequency a) (resolve a c) = Ok (b_coef b c)).
Proof.
  unfold bearing_init. destruct (process_all _ _ _) as [ps|] eqn:P; [simpl|discriminate].
  destruct (length_check _ _); [|discriminate]. intros E; inversion E; subst; simpl.
  repeat split; auto. intros c. apply process_all_ok in P. destruct P as (L & P).
  destruct (P _ _ (cnames_index c)) as (p & E1 & E2). rewrite E2. f_equal.
  symmetry. apply nth_error_nth, E1.
Qed.

Lemma length_check_spec freq (lens : list nat) : lens <> [] ->
  length_check freq lens = true <->
  match freq with Some f => forall n, In n lens -> n = length f | None => forall n, In n lens -> n = 1%nat end.
Proof.
  intros NE. unfold length_check. destruct freq as [f|].
  - destruct lens as [|l lens]; [congruence|]. rewrite forallb_forall. split.
    + intros H n Hn. assert (A := H (length f)). assert (B := H n).
      rewrite Nat.eqb_eq in A, B. rewrite <- A; [symmetry; apply B; apply in_or_app; auto|].
      apply in_or_app; right; left; reflexivity.
    + intros H n Hn. apply Nat.eqb_eq. apply in_app_or in Hn. rewrite (H l (or_introl eq_refl)).
      destruct Hn as [Hn|[Hn|[]]]; [symmetry; auto|auto].
  - rewrite forallb_forall. split; intros H n Hn; specialize (H n Hn); [apply Nat.eqb_eq in H; auto|apply Nat.eqb_eq; auto].
Qed.

Lemma bearing_init_iff a : is_ok (bearing_init a) <->
  (forall c, exists p, process_coefficient (ba_frequency a) (resolve a c) = Ok p /\
     length (fst p) = match ba_frequency a with Some f => length f | None => 1%nat end).
Proof.
  split.
  - intros (b & E) c. unfold bearing_init in E.
    destruct (process_all _ _ _) as [ps|] eqn:P; [simpl in E|discriminate].
    destruct (length_check _ _) eqn:LC; [|discriminate]. apply process_all_ok in P. destruct P as (L & P).
    destruct (P _ _ (cnames_index c)) as (p & E1 & E2). exists p. split; auto.
    apply length_check_spec in LC; [|destruct ps; [discriminate|simpl; discriminate]].
    assert (I : In (length (fst p)) (map (fun p => length (fst p)) ps)).
    { apply (in_map (fun p : list R * interp => length (fst p))). eapply nth_error_In; eauto. }
    destruct (ba_frequency a); auto.
  - intros H. unfold bearing_init.
    assert (exists ps, process_all (ba_frequency a) (resolve a) cnames = Ok ps /\
      forall n, In n (map (fun p => length (fst p)) ps) -> n = match ba_frequency a with Some f => length f | None => 1%nat end).
    { induction cnames as [|c l IH]; simpl; [eexists; split; [reflexivity|intros n []]|].
      destruct (H c) as (p & -> & Hl). simpl. destruct IH as (ps & -> & Hp). simpl.
      eexists; split; [reflexivity|]. intros n [Hn|Hn]; [subst; auto|auto]. }
    destruct H0 as (ps & E & Hl). rewrite E. simpl.
    assert (NE : map (fun p : list R * interp => length (fst p)) ps <> []).
    { apply process_all_ok in E. destruct E as (L & _). destruct ps; [discriminate|simpl; discriminate]. }
    assert (LC : length_check (ba_frequency a) (map (fun p => length (fst p)) ps) = true).
    { apply length_check_spec; auto. destruct (ba_frequency a); auto. }
    rewrite LC. eexists; reflexivity.
Qed.

Lemma increasing_nondec l : increasing l -> nondecreasing l = true.
Proof.
  induction l as [|x [|y l] IH]; try reflexivity. intros (H & H2).
  change (((if Rle_dec x y then true else false) && nondecreasing (y :: l)) = true).
  rewrite IH by auto. destruct (Rle_dec x y); [reflexivity|lra].
Qed.
Lemma increasing_lt x l y : increasing (x :: l) -> In y l -> x < y.
Proof.
  revert x; induction l as [|z l IH]; intros x H Hy; [destruct Hy|]. destruct H as (H1 & H2).
  destruct Hy as [->|Hy]; [auto|]. specialize (IH z H2 Hy). lra.
Qed.
Lemma mem_R_in x l : mem_R x l = true <-> In x l.
Proof.
  induction l as [|y l IH]; simpl; [split; [discriminate|intros []]|].
  rewrite orb_true_iff, IH. destruct (Req_EM_T x y); split; intros [H|H]; auto; try discriminate; try congruence.
Qed.
Lemma increasing_distinct l : increasing l -> distinct l = true.
Proof.
  induction l as [|x l IH]; intros H; [reflexivity|]. cbn [distinct].
  assert (H2 : increasing l) by (destruct l; [exact I|apply H]).
  rewrite IH by auto. destruct (mem_R x l) eqn:M; [|reflexivity].
  apply mem_R_in in M. pose proof (increasing_lt _ _ _ H M). lra.
Qed.

Definition arg_list (freq : option (list R)) (c : coefarg) : list R :=
  match c with CScal c => match freq with Some f => repeat c (length f) | None => [c] end | CArr l => l end.

Lemma process_fst freq c p : process_coefficient freq c = Ok p -> fst p = arg_list freq c.
Proof.
  unfold process_coefficient. fold (arg_list freq c). destruct (Nat.ltb 1 _).
  - destruct freq as [f|]; [|discriminate]. destruct (spline_accepts _ _); [intros E; inversion E; auto|].
    destruct (_ || _); [destruct (interp1d_accepts _ _); [|discriminate]|]; intros E; inversion E; auto.
  - destruct (arg_list freq c) eqn:A; [discriminate|]. intros E; inversion E; auto.
Qed.

Lemma arg_length freq c : (match freq with Some f => f <> [] | None => True end) ->
  arg_length_ok freq c <-> length (arg_list freq c) = match freq with Some f => length f | None => 1%nat end.
Proof.
  intros NE. destruct c as [x|l], freq as [f|]; simpl; try tauto; rewrite ?repeat_length; tauto.
Qed.

Lemma process_good freq c : (match freq with Some f => increasing f /\ f <> [] | None => True end) ->
  arg_length_ok freq c ->
  exists i, process_coefficient freq c = Ok (arg_list freq c, i) /\
   (match freq with
    | None => exists x, i = IConst x /\ arg_list freq c = [x]
    | Some f => (length f = 1%nat /\ exists x, i = IConst x /\ arg_list freq c = [x]) \/
                ((length f = 2%nat \/ length f = 3%nat) /\ i = ILagr f (arg_list freq c)) \/
                ((4 <= length f)%nat /\ i = ISpline f (arg_list freq c))
    end).
Proof.
  intros HF HL. assert (HL' : length (arg_list freq c) = match freq with Some f => length f | None => 1%nat end).
  { apply arg_length; auto. destruct freq; auto; apply HF. }
  clear HL. unfold process_coefficient. fold (arg_list freq c). revert HL'. generalize (arg_list freq c) as l. intros l HL.
  destruct freq as [f|].
  - destruct HF as (HI & NE).
    destruct (Nat.ltb_spec 1 (length l)).
    + unfold spline_accepts, interp1d_accepts. rewrite HL, Nat.eqb_refl, (increasing_nondec f HI), (increasing_distinct f HI).
      destruct (Nat.leb_spec 4 (length f)); simpl.
      * eexists; split; [reflexivity|]. right; right; auto.
      * assert (L23 : length f = 2%nat \/ length f = 3%nat) by lia.
        assert (B : (Nat.eqb (length f) 2 || Nat.eqb (length f) 3)%bool = true) by (destruct L23 as [->| ->]; reflexivity).
        rewrite B, orb_true_r. eexists; split; [reflexivity|]. right; left; auto.
    + destruct l as [|x [|]]; simpl in *; try lia; [destruct f; [congruence|discriminate]|].
      eexists; split; [reflexivity|]. left. split; [auto|]. eauto.
  - destruct l as [|x [|]]; simpl in *; try lia. eexists; split; [reflexivity|]. eauto.
Qed.

Lemma bearing_length_iff a : (match ba_frequency a with Some f => increasing f /\ f <> [] | None => True end) ->
  (is_ok (bearing_init a) <-> forall c, arg_length_ok (ba_frequency a) (resolve a c)).
Proof.
  intros HF. rewrite bearing_init_iff.
  assert (NE : match ba_frequency a with Some f => f <> [] | None => True end) by (destruct (ba_frequency a); auto; apply HF).
  split; intros H c.
  - destruct (H c) as (p & P & L). apply arg_length; auto. rewrite <- (process_fst _ _ _ P). exact L.
  - destruct (process_good _ _ HF (H c)) as (i & E & _). eexists; split; [exact E|]. apply arg_length; auto.
Qed.

(** * Interpolation *)
Lemma residual_nonneg f xs ys : 0 <= residual f xs ys.
Proof. revert ys; induction xs as [|x xs IH]; intros [|y ys]; simpl; try lra. pose proof (pow2_ge_0 (f x - y)). specialize (IH ys). lra. Qed.
Lemma residual_zero f xs ys : length xs = length ys ->
  (forall i x y, nth_error xs i = Some x -> nth_error ys i = Some y -> f x = y) -> residual f xs ys = 0.
Proof.
  revert ys; induction xs as [|x xs IH]; intros [|y ys] L H; try discriminate; [reflexivity|].
  cbn [residual]. rewrite (H 0%nat x y eq_refl eq_refl).
  rewrite IH; [ring|simpl in L; congruence|]. intros i x0 y0 H1 H2. apply (H (S i)); auto.
Qed.
Lemma residual_pt f xs ys : forall i x y, nth_error xs i = Some x -> nth_error ys i = Some y -> (f x - y) ^ 2 <= residual f xs ys.
Proof.
  revert ys; induction xs as [|x0 xs IH]; intros [|y0 ys] [|i] x y H1 H2; try discriminate.
  - simpl in H1, H2. inversion H1; inversion H2; subst. cbn [residual]. pose proof (residual_nonneg f xs ys). lra.
  - cbn [residual]. pose proof (IH ys i x y H1 H2). pose proof (pow2_ge_0 (f x0 - y0)). lra.
Qed.

Lemma spl_interp spl xs ys : smoothing_spline spl -> increasing xs -> (4 <= length xs)%nat -> length xs = length ys ->
  forall a b c d, (forall i x y, nth_error xs i = Some x -> nth_error ys i = Some y -> cubic a b c d x = y) ->
  forall w, spl xs ys w = cubic a b c d w.
Proof.
  intros (_ & S) HI H4 HL a b c d HP. assert (R0 : residual (cubic a b c d) xs ys = 0) by (apply residual_zero; auto).
  apply S; auto.
  - intros a' b' c' d'. rewrite R0. apply residual_nonneg.
  - rewrite R0. apply pos_INR.
Qed.

Lemma cubic_through x1 x2 x3 x4 y1 y2 y3 y4 : x1 < x2 -> x2 < x3 -> x3 < x4 ->
  exists a b c d, cubic a b c d x1 = y1 /\ cubic a b c d x2 = y2 /\ cubic a b c d x3 = y3 /\ cubic a b c d x4 = y4.
Proof.
  intros H1 H2 H3.
  set (b0 := fun p q r => - p * q * r). set (b1 := fun p q r => p * q + p * r + q * r). set (b2 := fun p q r => - (p + q + r)).
  set (k1 := y1 / ((x1 - x2) * (x1 - x3) * (x1 - x4))). set (k2 := y2 / ((x2 - x1) * (x2 - x3) * (x2 - x4))).
  set (k3 := y3 / ((x3 - x1) * (x3 - x2) * (x3 - x4))). set (k4 := y4 / ((x4 - x1) * (x4 - x2) * (x4 - x3))).
  exists (k1 * b0 x2 x3 x4 + k2 * b0 x1 x3 x4 + k3 * b0 x1 x2 x4 + k4 * b0 x1 x2 x3),
    (k1 * b1 x2 x3 x4 + k2 * b1 x1 x3 x4 + k3 * b1 x1 x2 x4 + k4 * b1 x1 x2 x3),
    (k1 * b2 x2 x3 x4 + k2 * b2 x1 x3 x4 + k3 * b2 x1 x2 x4 + k4 * b2 x1 x2 x3), (k1 + k2 + k3 + k4).
  assert (E : forall w, cubic (k1 * b0 x2 x3 x4 + k2 * b0 x1 x3 x4 + k3 * b0 x1 x2 x4 + k4 * b0 x1 x2 x3)
    (k1 * b1 x2 x3 x4 + k2 * b1 x1 x3 x4 + k3 * b1 x1 x2 x4 + k4 * b1 x1 x2 x3)
    (k1 * b2 x2 x3 x4 + k2 * b2 x1 x3 x4 + k3 * b2 x1 x2 x4 + k4 * b2 x1 x2 x3) (k1 + k2 + k3 + k4) w =
    k1 * ((w - x2) * (w - x3) * (w - x4)) + k2 * ((w - x1) * (w - x3) * (w - x4))
    + k3 * ((w - x1) * (w - x2) * (w - x4)) + k4 * ((w - x1) * (w - x2) * (w - x3))).
  { intros w. unfold cubic, b0, b1, b2. ring. }
  rewrite !E. unfold k1, k2, k3, k4. repeat split; field; repeat split; lra.
Qed.

Lemma spl_const spl xs v w : smoothing_spline spl -> increasing xs -> (4 <= length xs)%nat ->
  spl xs (repeat v (length xs)) w = v.
Proof.
  intros S HI H4. rewrite (spl_interp spl xs _ S HI H4 ltac:(rewrite repeat_length; auto) v 0 0 0).
  - unfold cubic. ring.
  - intros i x y _ Hy. apply nth_error_In, repeat_spec in Hy. subst. unfold cubic. ring.
Qed.

Lemma lagrange_nodes xs ys i x y : increasing xs -> length xs = length ys -> length xs = 2%nat \/ length xs = 3%nat ->
  nth_error xs i = Some x -> nth_error ys i = Some y -> lagrange xs ys x = y.
Proof.
  intros HI HL H23 Hx Hy. destruct H23 as [H2|H3].
  - destruct xs as [|x1 [|x2 [|]]]; try discriminate. destruct ys as [|y1 [|y2 [|]]]; try discriminate.
    destruct HI as (I1 & _).
    destruct i as [|[|i]]; simpl in Hx, Hy; try (destruct i; discriminate); inversion Hx; inversion Hy; subst;
      unfold lagrange; cbn [lagr_from others_prod Nat.eqb]; field; lra.
  - destruct xs as [|x1 [|x2 [|x3 [|]]]]; try discriminate. destruct ys as [|y1 [|y2 [|y3 [|]]]]; try discriminate.
    destruct HI as (I1 & I2 & _).
    destruct i as [|[|[|i]]]; simpl in Hx, Hy; try (destruct i; discriminate); inversion Hx; inversion Hy; subst;
      unfold lagrange; cbn [lagr_from others_prod Nat.eqb]; field; repeat split; lra.
Qed.
Lemma lagrange_const xs v w : increasing xs -> length xs = 2%nat \/ length xs = 3%nat ->
  lagrange xs (repeat v (length xs)) w = v.
Proof.
  intros HI [H2|H3].
  - destruct xs as [|x1 [|x2 [|]]]; try discriminate. destruct HI as (I1 & _).
    unfold lagrange; cbn [lagr_from others_prod Nat.eqb repeat length]. field; lra.
  - destruct xs as [|x1 [|x2 [|x3 [|]]]]; try discriminate. destruct HI as (I1 & I2 & _).
    unfold lagrange; cbn [lagr_from others_prod Nat.eqb repeat length]. field; repeat split; lra.
Qed.

Lemma coef_scalar spl a b c v w : smoothing_spline spl ->
  (match ba_frequency a with Some f => increasing f /\ f <> [] | None => True end) ->
  bearing_init a = Ok b -> resolve a c = CScal v -> eval_coef spl b c w = Ok v.
Proof.
  intros S HF E RC. destruct (bearing_init_ok _ _ E) as (_ & _ & _ & _ & _ & _ & P). specialize (P c). rewrite RC in P.
  destruct (process_good _ (CScal v) HF ltac:(destruct (ba_frequency a); exact I)) as (i & P2 & D).
  rewrite P2 in P. inversion P as [Q]. unfold eval_coef. rewrite <- Q. simpl snd. simpl in D.
  destruct (ba_frequency a) as [f|].
  - destruct HF as (HI & NE). destruct D as [(L & x & -> & D)|[(L & ->)|(L & ->)]]; simpl.
    + rewrite L in D. simpl in D. inversion D. reflexivity.
    + rewrite lagrange_const; auto.
    + rewrite spl_const; auto.
  - destruct D as (x & -> & D). inversion D. reflexivity.
Qed.

Lemma coef_table spl a b c l f i x y : smoothing_spline spl -> ba_frequency a = Some f -> increasing f ->
  (1 <= length f <= 4)%nat -> bearing_init a = Ok b -> resolve a c = CArr l ->
  nth_error f i = Some x -> nth_error l i = Some y -> eval_coef spl b c x = Ok y.
Proof.
  intros S HF HI HL E RC Hx Hy. destruct (bearing_init_ok _ _ E) as (_ & _ & _ & _ & _ & _ & P). specialize (P c).
  assert (OK : is_ok (bearing_init a)) by (exists b; auto). 
  assert (NE : f <> []) by (intros ->; simpl in HL; lia).
  rewrite (bearing_length_iff a) in OK by (rewrite HF; auto). specialize (OK c). rewrite RC, HF in OK, P.
  destruct (process_good (Some f) (CArr l) (conj HI NE) OK) as (j & P2 & D).
  rewrite P2 in P. inversion P as [Q]. unfold eval_coef. rewrite <- Q. simpl snd. simpl in D, OK.
  destruct D as [(L & z & -> & D)|[(L & ->)|(L & ->)]]; simpl.
  - subst l. destruct i as [|i]; simpl in Hy; [congruence|destruct i; discriminate].
  - rewrite (lagrange_nodes f l i x y); auto.
  - destruct f as [|x1 [|x2 [|x3 [|x4 [|]]]]]; simpl in L, HL; try lia.
    destruct l as [|y1 [|y2 [|y3 [|y4 [|]]]]]; try discriminate.
    assert (HI' := HI). destruct HI' as (I1 & I2 & I3 & _).
    destruct (cubic_through x1 x2 x3 x4 y1 y2 y3 y4 I1 I2 I3) as (ca & cb & cc & cd & C1 & C2 & C3 & C4).
    f_equal. rewrite (spl_interp spl [x1; x2; x3; x4] [y1; y2; y3; y4] S HI ltac:(simpl; lia) eq_refl ca cb cc cd).
    + destruct i as [|[|[|[|i]]]]; simpl in Hx, Hy; try (destruct i; discriminate); inversion Hx; inversion Hy; subst; auto.
    + intros k xk yk Hk1 Hk2. destruct k as [|[|[|[|k]]]]; simpl in Hk1, Hk2; try (destruct k; discriminate); inversion Hk1; inversion Hk2; subst; auto.
Qed.

Lemma coef_table_close spl a b c l f i x y : smoothing_spline spl -> ba_frequency a = Some f -> increasing f ->
  (5 <= length f)%nat -> bearing_init a = Ok b -> resolve a c = CArr l ->
  nth_error f i = Some x -> nth_error l i = Some y ->
  exists v, eval_coef spl b c x = Ok v /\ (v - y) ^ 2 <= INR (length f) * (1 + 1 / 1000).
Proof.
  intros S HF HI HL E RC Hx Hy. destruct (bearing_init_ok _ _ E) as (_ & _ & _ & _ & _ & _ & P). specialize (P c).
  assert (OK : is_ok (bearing_init a)) by (exists b; auto).
  assert (NE : f <> []) by (intros ->; simpl in HL; lia).
  rewrite (bearing_length_iff a) in OK by (rewrite HF; auto). specialize (OK c). rewrite RC, HF in OK, P.
  destruct (process_good (Some f) (CArr l) (conj HI NE) OK) as (j & P2 & D).
  rewrite P2 in P. inversion P as [Q]. unfold eval_coef. rewrite <- Q. simpl snd. simpl in D, OK.
  destruct D as [(L & _)|[([L|L] & _)|(L & ->)]]; try lia. simpl.
  eexists; split; [reflexivity|].
  eapply Rle_trans; [exact (residual_pt (spl f l) f l i x y Hx Hy)|].
  apply (proj1 S); auto; lia.
Qed.

(** a five-point table that smoothing flattens to zero *)
Definition wig : list R := [1/10; -4/10; 6/10; -4/10; 1/10].
Definition wigx : list R := [0; 1; 2; 3; 4].
Lemma wig_lsq : lsq_cubic 0 0 0 0 wigx wig /\ residual (cubic 0 0 0 0) wigx wig <= INR (length wigx).
Proof.
  split.
  - intros a b c d. unfold wigx, wig, cubic. cbn [residual].
    set (p0 := a + b * 0 + c * 0 ^ 2 + d * 0 ^ 3). set (p1 := a + b * 1 + c * 1 ^ 2 + d * 1 ^ 3).
    set (p2 := a + b * 2 + c * 2 ^ 2 + d * 2 ^ 3). set (p3 := a + b * 3 + c * 3 ^ 2 + d * 3 ^ 3).
    set (p4 := a + b * 4 + c * 4 ^ 2 + d * 4 ^ 3).
    assert (Z : p0 - 4 * p1 + 6 * p2 - 4 * p3 + p4 = 0) by (unfold p0, p1, p2, p3, p4; ring).
    clearbody p0 p1 p2 p3 p4.
    apply Rminus_le. 
    match goal with |- ?l - ?r <= 0 => replace (l - r) with (2 / 10 * (p0 - 4 * p1 + 6 * p2 - 4 * p3 + p4)
      - (p0 ^ 2 + p1 ^ 2 + p2 ^ 2 + p3 ^ 2 + p4 ^ 2)) by field end.
    rewrite Z. pose proof (pow2_ge_0 p0). pose proof (pow2_ge_0 p1). pose proof (pow2_ge_0 p2). pose proof (pow2_ge_0 p3). pose proof (pow2_ge_0 p4).
    lra.
  - unfold wigx, wig, cubic. cbn [residual length]. simpl INR. lra.
Qed.

Definition ex_bargs (k : coefarg) (f : option (list R)) : bargs :=
  mkBArgs 0 k (CScal 0) None None (CScal 0) (CScal 0) None (CScal 0) (CScal 0) None (CScal 0) (CScal 0) f None None 1 "#355d7a".
Lemma ex_bargs_ok k f : (match f with Some f => increasing f /\ f <> [] | None => True end) -> arg_length_ok f k ->
  exists b, bearing_init (ex_bargs k f) = Ok b.
Proof.
  intros HF HL. apply (bearing_length_iff (ex_bargs k f)); [exact HF|].
  intros c. destruct c; simpl; auto; destruct f; auto.
Qed.
Lemma table_refuted spl : smoothing_spline spl ->
  exists a b f l i x y, ba_frequency a = Some f /\ increasing f /\ resolve a kxx = CArr l /\ bearing_init a = Ok b /\
    nth_error f i = Some x /\ nth_error l i = Some y /\ eval_coef spl b kxx x <> Ok y.
Proof.
  intros S. assert (HI : increasing wigx) by (unfold wigx; simpl; repeat split; lra).
  destruct (ex_bargs_ok (CArr wig) (Some wigx)) as (b & E); [split; [auto|discriminate]|reflexivity|].
  exists (ex_bargs (CArr wig) (Some wigx)), b, wigx, wig, 0%nat, 0, (1/10).
  refine (conj eq_refl (conj HI (conj eq_refl (conj E (conj eq_refl (conj eq_refl _)))))).
  destruct (bearing_init_ok _ _ E) as (_ & _ & _ & _ & _ & _ & P). specialize (P kxx).
  assert (HF : increasing wigx /\ wigx <> []) by (split; [auto|discriminate]).
  assert (AL : arg_length_ok (Some wigx) (CArr wig)) by (simpl; reflexivity).
  destruct (process_good (Some wigx) (CArr wig) HF AL) as (j & P2 & D).
  change (resolve (ex_bargs (CArr wig) (Some wigx)) kxx) with (CArr wig) in P.
  change (ba_frequency (ex_bargs (CArr wig) (Some wigx))) with (Some wigx) in P.
  rewrite P2 in P. inversion P as [Q]. unfold eval_coef. rewrite <- Q. simpl snd.
  destruct D as [(L & _)|[([L|L] & _)|(L & ->)]]; try discriminate L. simpl.
  destruct wig_lsq as (W1 & W2).
  rewrite (proj2 S wigx wig 0 0 0 0 HI ltac:(simpl; lia) eq_refl W1 W2).
  intros H; inversion H. unfold cubic in *. lra.
Qed.

Lemma unordered_refuted : exists a b, bearing_init a = Ok b /\ ba_frequency a = Some [3; 2; 1; 0] /\
  forall spl w, bearing_K spl b w = Err TypeError.
Proof.
  set (a := ex_bargs (CArr [1; 2; 3; 4]) (Some [3; 2; 1; 0])).
  assert (ND : nondecreasing [3; 2; 1; 0] = false).
  { change (((if Rle_dec 3 2 then true else false) && nondecreasing [2; 1; 0])%bool = false). destruct (Rle_dec 3 2); [lra|reflexivity]. }
  assert (PC : forall c, process_coefficient (Some [3; 2; 1; 0]) (resolve a c) = Ok (arg_list (Some [3;2;1;0]) (resolve a c), INone)).
  { intros c. unfold process_coefficient. fold (arg_list (Some [3;2;1;0]) (resolve a c)).
    assert (L : length (arg_list (Some [3;2;1;0]) (resolve a c)) = 4%nat) by (destruct c; reflexivity).
    rewrite L. simpl Nat.ltb. cbn iota. unfold spline_accepts. rewrite ND, andb_false_r. reflexivity. }
  assert (OK : is_ok (bearing_init a)).
  { apply bearing_init_iff. intros c. change (ba_frequency a) with (Some [3;2;1;0]). eexists; split; [apply PC|]. destruct c; reflexivity. }
  destruct OK as (b & E). exists a, b. refine (conj E (conj eq_refl _)). intros spl w.
  destruct (bearing_init_ok _ _ E) as (_ & _ & _ & _ & _ & _ & P). specialize (P kxx).
  change (ba_frequency a) with (Some [3;2;1;0]) in P. rewrite PC in P. inversion P as [Q].
  unfold bearing_K, block2, eval_coef. rewrite <- Q. reflexivity.
Qed.
