(** The quartic of the short bearing: its root between 0 and 1. *)
From Coq Require Import Reals String List Arith Bool Lia Lra.
From Coquelicot Require Import Coquelicot.
From Verif Require Import PyBase MatBase MFluid MCyl SpecFluid LFluid LFluid2 LFluid3 LFluid4.
Import ListNotations.
Open Scope R_scope.

Lemma PI_bounds : 3 < PI < 4.
Proof. pose proof (PI_ineq 3) as H. cbv [tg_alt PI_tg sum_f_R0] in H. simpl in H. lra. Qed.
Lemma PI2_bounds : 9 < PI ^ 2 < 16.
Proof. pose proof PI_bounds. nra. Qed.
Lemma ecc_poly_val s x : ecc_poly s x = (1 - x) ^ 4 - s ^ 2 * (x * (PI ^ 2 * (1 - x) + 16 * x)).
Proof. unfold ecc_poly, ecc_coeffs. cbn [nth]. ring. Qed.
(** strictly decreasing on [0, 1] *)
Lemma ecc_decr s x y : s <> 0 -> 0 <= x -> x < y -> y <= 1 -> ecc_poly s y < ecc_poly s x.
Proof.
  intros Hs H0 Hxy H1. rewrite !ecc_poly_val. pose proof PI2_bounds as HP. assert (S2 : 0 < s ^ 2) by (pose proof (pow2_ge_0 s); assert (s ^ 2 <> 0) by (apply pow_nonzero; exact Hs); lra).
  assert (A : (1 - y) ^ 4 <= (1 - x) ^ 4) by (apply pow_incr; lra).
  assert (B : x * (PI ^ 2 * (1 - x) + 16 * x) < y * (PI ^ 2 * (1 - y) + 16 * y)).
  { replace (y * (PI ^ 2 * (1 - y) + 16 * y)) with (x * (PI ^ 2 * (1 - x) + 16 * x) + (y - x) * (PI ^ 2 + (16 - PI ^ 2) * (x + y))) by ring.
    assert (0 < (y - x) * (PI ^ 2 + (16 - PI ^ 2) * (x + y))) by (apply Rmult_lt_0_compat; [lra|]; nra). lra. }
  apply (Rmult_lt_compat_l (s ^ 2)) in B; lra.
Qed.
Lemma ecc_unique s x y : s <> 0 -> 0 <= x <= 1 -> 0 <= y <= 1 -> ecc_poly s x = 0 -> ecc_poly s y = 0 -> x = y.
Proof.
  intros Hs Hx Hy Ex Ey. destruct (Rtotal_order x y) as [H|[H|H]]; [|exact H|]; exfalso.
  - pose proof (ecc_decr s x y Hs); lra.
  - pose proof (ecc_decr s y x Hs); lra.
Qed.
Lemma ecc_cont s : continuity (fun x => - ecc_poly s x).
Proof. unfold ecc_poly, ecc_coeffs. cbn [nth]. intros x. reg. Qed.
Lemma ecc_exists s : s <> 0 -> { x | 0 < x < 1 /\ ecc_poly s x = 0 }.
Proof.
  intros Hs. assert (S2 : 0 < s ^ 2) by (pose proof (pow2_ge_0 s); assert (s ^ 2 <> 0) by (apply pow_nonzero; exact Hs); lra).
  destruct (IVT (fun x => - ecc_poly s x) 0 1) as [x [Hx E]]; [apply ecc_cont|lra|rewrite ecc_poly_val; lra|rewrite ecc_poly_val; lra|].
  exists x. assert (E' : ecc_poly s x = 0) by lra. split; [|exact E'].
  rewrite ecc_poly_val in E'. destruct (Req_dec x 0) as [->|]; [exfalso; lra|]. destruct (Req_dec x 1) as [->|]; [exfalso; lra|]. lra.
Qed.
(** complex points *)
Lemma cpoly_re s a b : fst (cpoly (ecc_coeffs s) (a, b)) = ecc_poly s a - b ^ 2 * (6 * (1 - a) ^ 2 - s ^ 2 * (16 - PI ^ 2)) + b ^ 4.
Proof. unfold cpoly, ecc_coeffs, ecc_poly. cbn [fold_left nth fst snd Cmult Cplus RtoC]. unfold ecc_coeffs; cbn [nth]. ring. Qed.
Lemma cpoly_im s a b : snd (cpoly (ecc_coeffs s) (a, b)) = b * (- 4 * (1 - a) ^ 3 - s ^ 2 * (PI ^ 2 + 2 * (16 - PI ^ 2) * a) + 4 * b ^ 2 * (1 - a)).
Proof. unfold cpoly, ecc_coeffs. cbn [fold_left nth fst snd Cmult Cplus RtoC]. ring. Qed.
Lemma cpoly_real s x : cpoly (ecc_coeffs s) (RtoC x) = RtoC (ecc_poly s x).
Proof.
  apply injective_projections; unfold RtoC at 1; [rewrite cpoly_re|rewrite cpoly_im]; simpl; ring.
Qed.
(** the arithmetic of a pair of complex roots close to the real axis *)
Lemma near_real_arith S P B u : 0 < S -> 9 < P < 16 -> 0 < B -> B <= / 1000000 * / 1000000 -> 0 <= u <= 1 ->
  0 < u ^ 4 - S * ((1 - u) * (P * u + 16 * (1 - u))) ->
  u ^ 4 - S * ((1 - u) * (P * u + 16 * (1 - u))) - B * (6 * u ^ 2 - S * (16 - P)) + B ^ 2 = 0 ->
  - 4 * u ^ 3 - S * (P + 2 * (16 - P) * (1 - u)) + 4 * B * u = 0 -> False.
Proof.
  intros HS HP HB HB1 Hu Pa Re Im.
  assert (K : 4 * u * (B - u ^ 2) = S * (P + 2 * (16 - P) * (1 - u))) by lra.
  assert (K1 : 9 <= P + 2 * (16 - P) * (1 - u) <= 32) by (split; nra).
  set (k := P + 2 * (16 - P) * (1 - u)) in *. clearbody k.
  assert (Sk : 0 < S * k) by (apply Rmult_lt_0_compat; lra).
  assert (u0 : 0 < u) by (destruct (Req_dec u 0) as [E|]; [rewrite E in K; lra|lra]).
  assert (uB : u ^ 2 < B) by (apply Rnot_le_lt; intros X; assert (4 * u * (B - u ^ 2) <= 0) by nra; lra).
  assert (us : u <= / 1000000) by (apply Rnot_lt_le; intros X; assert (/ 1000000 * / 1000000 < u * u) by (apply Rmult_le_0_lt_compat; lra); simpl in uB; lra).
  assert (Rp : 15 <= (1 - u) * (P * u + 16 * (1 - u)) - B * (16 - P)).
  { assert (15.5 <= (1 - u) * (P * u + 16 * (1 - u))) by nra. assert (B * (16 - P) <= / 1000000 * / 1000000 * 7) by (apply Rmult_le_compat; lra). lra. }
  assert (Q1 : 15 <= (1 - u) * (P * u + 16 * (1 - u))) by nra.
  set (g := (1 - u) * (P * u + 16 * (1 - u))) in *. clearbody g.
  assert (Lhs : u ^ 4 - 6 * u ^ 2 * B + B ^ 2 = S * (g - B * (16 - P))) by lra.
  assert (Lp : 0 < u ^ 4 - 6 * u ^ 2 * B + B ^ 2) by (rewrite Lhs; apply Rmult_lt_0_compat; lra).
  assert (v1 : u ^ 2 <= u * / 1000000) by (simpl; rewrite Rmult_1_r; apply Rmult_le_compat_l; lra).
  assert (v0 : 0 <= u ^ 2) by apply pow2_ge_0.
  replace (u ^ 4) with (u ^ 2 * u ^ 2) in * by ring. set (v := u ^ 2) in *. clearbody v.
  assert (v5 : v <= B / 5) by (apply Rnot_lt_le; intros X; nra).
  assert (w0 : 0 < u * B) by (apply Rmult_lt_0_compat; lra).
  assert (Q : 16 / 5 * (u * B) <= S * k) by (rewrite <- K; assert (u * v <= u * (B / 5)) by (apply Rmult_le_compat_l; lra); lra).
  assert (Q1' : S * 15 < v * v) by (apply Rle_lt_trans with (S * g); [apply Rmult_le_compat_l; lra|lra]).
  assert (Q2 : S * 15 * k < v * v * k) by (apply Rmult_lt_compat_r; lra).
  assert (V2 : v * v <= u * / 1000000 * (B / 5)) by (apply Rmult_le_compat; lra).
  assert (Q3 : v * v * k <= u * / 1000000 * (B / 5) * 32) by (apply Rmult_le_compat; try lra; nra).
  clear - Q Q2 Q3 w0. set (w := u * B) in *. replace (u * / 1000000 * (B / 5) * 32) with (w * (/ 1000000 * / 5 * 32)) in Q3 by (unfold w, Rdiv; ring). lra.
Qed.
(** a root that passes for real and has its real part in [0, 1] is not before the real root *)
Lemma near_root s a b x0 : s <> 0 -> 0 < x0 < 1 -> ecc_poly s x0 = 0 -> cpoly (ecc_coeffs s) (a, b) = RtoC 0 -> 0 <= a <= 1 -> Rabs b <= / 1000000 -> x0 <= a.
Proof.
  intros Hs Hx0 E0 Ez Ha Hb. assert (S2 : 0 < s ^ 2) by (pose proof (pow2_ge_0 s); assert (s ^ 2 <> 0) by (apply pow_nonzero; exact Hs); lra). pose proof PI2_bounds as HP.
  pose proof (f_equal fst Ez) as Re. rewrite cpoly_re in Re. pose proof (f_equal snd Ez) as Im. rewrite cpoly_im in Im. cbn [fst snd RtoC] in Re, Im.
  destruct (Req_dec b 0) as [->|Hb0].
  { assert (E : ecc_poly s a = 0) by (ring_simplify in Re; lra). rewrite (ecc_unique s x0 a Hs); lra. }
  apply Rmult_integral in Im. destruct Im as [Im|Im]; [contradiction|].
  destruct (Rle_lt_dec x0 a) as [H|H]; [exact H|exfalso].
  assert (Pa : 0 < ecc_poly s a) by (rewrite <- E0; apply ecc_decr; lra).
  apply (near_real_arith (s ^ 2) (PI ^ 2) (b ^ 2) (1 - a)); try lra.
  - pose proof (pow2_ge_0 b); assert (b ^ 2 <> 0) by (apply pow_nonzero; exact Hb0); lra.
  - rewrite <- (pow2_abs b); pose proof (Rabs_pos b); simpl; rewrite Rmult_1_r; apply Rmult_le_compat; lra.
  - rewrite ecc_poly_val in Pa. replace (1 - (1 - a)) with a by ring. lra.
  - rewrite ecc_poly_val in Re. replace (1 - (1 - a)) with a by ring. replace ((b ^ 2) ^ 2) with (b ^ 4) by ring. lra.
Qed.

(** ** sorting and selection *)
Inductive rsorted : list R -> Prop := rs_nil : rsorted [] | rs_cons x l : (forall y, In y l -> x <= y) -> rsorted l -> rsorted (x :: l).
Lemma insert_in x l y : In y (insert_r x l) <-> y = x \/ In y l.
Proof. induction l as [|a l IH]; simpl; [intuition|]. destruct (Rle_dec x a); simpl; [intuition|]. rewrite IH. intuition. Qed.
Lemma insert_sorted x l : rsorted l -> rsorted (insert_r x l).
Proof.
  induction 1 as [|a l H S IH]; simpl; [constructor; [intros y []|constructor]|]. destruct (Rle_dec x a).
  - constructor; [|constructor; assumption]. intros y [->|Hy]; [lra|]. specialize (H y Hy). lra.
  - constructor; [|exact IH]. intros y Hy. apply insert_in in Hy. destruct Hy as [->|Hy]; [lra|apply H, Hy].
Qed.
Lemma sort_in l y : In y (sort_r l) <-> In y l.
Proof. unfold sort_r. induction l as [|a l IH]; simpl; [intuition|]. rewrite insert_in, IH. intuition. Qed.
Lemma sort_sorted l : rsorted (sort_r l).
Proof. unfold sort_r. induction l; simpl; [constructor|apply insert_sorted; assumption]. Qed.
Lemma find_least p l x : rsorted l -> In x l -> p x = true -> (forall y, In y l -> p y = true -> x <= y) -> find p l = Some x.
Proof.
  induction 1 as [|a l H S IH]; [intros []|]. intros Hx Px Hmin. simpl. destruct (p a) eqn:Ea.
  - f_equal. specialize (Hmin a (or_introl eq_refl) Ea). destruct Hx as [->|Hx]; [reflexivity|]. specialize (H x Hx). lra.
  - destruct Hx as [->|Hx]; [congruence|]. apply IH; [exact Hx|exact Px|]. intros y Hy. apply Hmin. right; exact Hy.
Qed.
Lemma cprod_root zs z : cprod zs z = RtoC 0 <-> In z zs.
Proof.
  induction zs as [|w zs IH]; simpl; [split; [intros H; apply (f_equal fst) in H; simpl in H; lra|intros []]|]. fold (cprod zs z). split.
  - intros H. destruct (Ceq_dec (z - w)%C (RtoC 0)) as [E|E].
    + left. replace z with (z - w + w)%C by ring. rewrite E. ring.
    + right. apply IH. destruct (Ceq_dec (cprod zs z) (RtoC 0)) as [Z|Z]; [exact Z|]. exfalso. exact (Cmult_neq_0 _ _ E Z H).
  - intros [->|H]; [ring|]. apply IH in H. rewrite H. ring.
Qed.
Lemma root_iff s zs z : are_roots (ecc_coeffs s) zs -> (In z zs <-> cpoly (ecc_coeffs s) z = RtoC 0).
Proof. intros [_ H]. rewrite H. symmetry. apply cprod_root. Qed.
Lemma near_real_bound z : near_real z = true -> Rabs (snd z) <= / 1000000.
Proof.
  unfold near_real. destruct (Rle_dec _ _) as [H|]; [intros _|discriminate].
  replace (snd z) with ((snd z - / 10 ^ 16) + / 10 ^ 16) by ring. eapply Rle_trans; [apply Rabs_triang|]. rewrite (Rabs_pos_eq (/ 10 ^ 16)) by (left; apply Rinv_0_lt_compat, pow_lt; lra).
  eapply Rle_trans; [apply Rplus_le_compat_r, H|]. lra.
Qed.
Lemma near_real_real x : near_real (RtoC x) = true.
Proof. unfold near_real. destruct (Rle_dec _ _) as [H|H]; [reflexivity|]. exfalso. apply H. cbn [snd RtoC]. rewrite Rminus_0_l, Rabs_Ropp, Rabs_pos_eq by (left; apply Rinv_0_lt_compat, pow_lt; lra). lra. Qed.
Lemma in_unit_iff x : in_unit x = true <-> 0 <= x <= 1.
Proof. unfold in_unit. destruct (Rle_dec 0 x); [destruct (Rle_dec x 1)|]; split; intros; try lra; try reflexivity; discriminate. Qed.
Lemma select_root s zs x0 : s <> 0 -> are_roots (ecc_coeffs s) zs -> 0 < x0 < 1 -> ecc_poly s x0 = 0 ->
  find in_unit (sort_r (map fst (filter near_real zs))) = Some x0.
Proof.
  intros Hs Hr Hx E. apply find_least; [apply sort_sorted| | |].
  - apply sort_in. change x0 with (fst (RtoC x0)). apply in_map. apply filter_In. split; [|apply near_real_real]. apply (root_iff s zs _ Hr). rewrite cpoly_real, E. reflexivity.
  - apply in_unit_iff. lra.
  - intros y Hy Uy. apply in_unit_iff in Uy. rewrite sort_in in Hy. apply in_map_iff in Hy. destruct Hy as [[a b] [<- Hy]]. apply filter_In in Hy. destruct Hy as [Hin Hn].
    apply near_real_bound in Hn. cbn [fst snd] in *. apply (near_root s a b x0 Hs Hx E); [|exact Uy|exact Hn]. apply (root_iff s zs _ Hr). exact Hin.
Qed.
Definition refine_ok (r : (R -> R) -> R -> R) : Prop := forall f x, f x = 0 -> r f x = x.
Lemma ecc_ratio_val fl s : s <> 0 -> are_roots (ecc_coeffs s) (fl_roots fl (ecc_coeffs s)) -> refine_ok (fl_refine fl) ->
  exists eps, eccentricity_ratio fl s = Ok eps /\ 0 < eps < 1 /\ ecc_poly s (eps ^ 2) = 0.
Proof.
  intros Hs Hr Hf. destruct (ecc_exists s Hs) as [x [Hx E]]. exists (sqrt x). unfold eccentricity_ratio. rewrite (select_root s _ x Hs Hr Hx E).
  rewrite (Hf (ecc_poly s) x E). split; [reflexivity|]. split; [|rewrite pow2_sqrt by lra; exact E].
  split; [apply sqrt_lt_R0; lra|]. rewrite <- sqrt_1. apply sqrt_lt_1; lra.
Qed.
Lemma ecc_ratio_zero fl : are_roots (ecc_coeffs 0) (fl_roots fl (ecc_coeffs 0)) -> refine_ok (fl_refine fl) -> eccentricity_ratio fl 0 = Ok 1.
Proof.
  intros Hr Hf. unfold eccentricity_ratio. rewrite (find_least in_unit _ 1).
  - rewrite (Hf (ecc_poly 0) 1), sqrt_1; [reflexivity|]. rewrite ecc_poly_val. ring.
  - apply sort_sorted.
  - apply sort_in. change 1 with (fst (RtoC 1)). apply in_map. apply filter_In. split; [|apply near_real_real]. apply (root_iff 0 _ _ Hr). rewrite cpoly_real. rewrite ecc_poly_val. f_equal. ring.
  - apply in_unit_iff. lra.
  - intros y Hy _. rewrite sort_in in Hy. apply in_map_iff in Hy. destruct Hy as [[a b] [<- Hy]]. apply filter_In in Hy. destruct Hy as [Hin _]. apply (root_iff 0 _ _ Hr) in Hin.
    pose proof (f_equal fst Hin) as Re. rewrite cpoly_re, ecc_poly_val in Re. pose proof (f_equal snd Hin) as Im. rewrite cpoly_im in Im. cbn [fst snd RtoC] in *.
    assert (Z : (1 - a) ^ 2 + b ^ 2 = 0).
    { assert (Q : ((1 - a) ^ 2 + b ^ 2) ^ 4 = ((1 - a) ^ 4 - b ^ 2 * (6 * (1 - a) ^ 2) + b ^ 4) ^ 2 + (b * (- 4 * (1 - a) ^ 3 + 4 * b ^ 2 * (1 - a))) ^ 2) by ring.
      replace ((1 - a) ^ 4 - b ^ 2 * (6 * (1 - a) ^ 2) + b ^ 4) with 0 in Q by lra. replace (b * (- 4 * (1 - a) ^ 3 + 4 * b ^ 2 * (1 - a))) with 0 in Q by lra.
      apply Rmult_eq_0_compat_r with (r := 0) in Q || idtac. destruct (Req_dec ((1 - a) ^ 2 + b ^ 2) 0) as [z|n]; [exact z|]. exfalso. apply (pow_nonzero _ 4 n). rewrite Q. ring. }
    nra.
Qed.
(** the root is simple, so a list of roots has it once *)
Lemma open_real_iff z : open_real z = true <-> snd z = 0 /\ 0 < fst z < 1.
Proof. unfold open_real. destruct (Req_EM_T _ _); [destruct (Rlt_dec 0 _); [destruct (Rlt_dec _ 1)|]|]; split; intros; try discriminate; try reflexivity; try lra; tauto. Qed.
Lemma cprod_app a b z : cprod (a ++ b) z = (cprod a z * cprod b z)%C.
Proof. induction a; simpl; [ring|]. fold (cprod (a0 ++ b) z). rewrite IHa. fold (cprod a0 z). ring. Qed.
(** real and imaginary part of a product along the real axis are differentiable *)
Lemma cprod_diff zs x : ex_derive (fun t => fst (cprod zs (RtoC t))) x /\ ex_derive (fun t => snd (cprod zs (RtoC t))) x.
Proof.
  induction zs as [|w zs [I1 I2]]; [split; [apply (ex_derive_const (V := R_NormedModule) 1)|apply (ex_derive_const (V := R_NormedModule) 0)]|].
  set (f1 := fun t => fst (cprod zs (RtoC t))) in *. set (f2 := fun t => snd (cprod zs (RtoC t))) in *.
  assert (J1 : ex_derive f1 x) by exact I1. assert (J2 : ex_derive f2 x) by exact I2.
  split.
  - apply (ex_derive_ext (fun t => (t - fst w) * f1 t - (0 - snd w) * f2 t)); [intros t; unfold f1, f2; cbn [cprod fold_right]; fold (cprod zs (RtoC t)); destruct (cprod zs (RtoC t)) as [u v]; destruct w as [w1 w2]; cbn [Cmult Cminus Cplus Copp RtoC fst snd]; match goal with |- @eq _ ?a ?b => change (@eq R a b) end; ring|]. clearbody f1 f2. auto_derive. repeat split; (exact J1 || exact J2).
  - apply (ex_derive_ext (fun t => (t - fst w) * f2 t + (0 - snd w) * f1 t)); [intros t; unfold f1, f2; cbn [cprod fold_right]; fold (cprod zs (RtoC t)); destruct (cprod zs (RtoC t)) as [u v]; destruct w as [w1 w2]; cbn [Cmult Cminus Cplus Copp RtoC fst snd]; match goal with |- @eq _ ?a ?b => change (@eq R a b) end; ring|]. clearbody f1 f2. auto_derive. repeat split; (exact J1 || exact J2).
Qed.
Lemma root_once s zs x0 : s <> 0 -> are_roots (ecc_coeffs s) zs -> 0 < x0 < 1 -> ecc_poly s x0 = 0 -> filter open_real zs = [RtoC x0].
Proof.
  intros Hs Hr Hx E. assert (Hin : In (RtoC x0) zs) by (apply (root_iff s zs _ Hr); rewrite cpoly_real, E; reflexivity).
  apply in_split in Hin. destruct Hin as [l1 [l2 ->]].
  assert (N : ~ In (RtoC x0) (l1 ++ l2)).
  { intros H2. apply cprod_root in H2. destruct Hr as [_ Hr].
    set (m := fun t => fst (cprod (l1 ++ l2) (RtoC t))).
    assert (Z : m x0 = 0) by (unfold m; rewrite H2; reflexivity).
    assert (V : forall t, ecc_poly s t = (t - x0) * m t).
    { intros t. specialize (Hr (RtoC t)). rewrite cpoly_real in Hr. rewrite cprod_app in Hr. cbn [cprod fold_right] in Hr. change (fold_right (fun w acc => ((RtoC t - w) * acc)%C) (RtoC 1) l2) with (cprod l2 (RtoC t)) in Hr.
      replace (cprod l1 (RtoC t) * ((RtoC t - RtoC x0) * cprod l2 (RtoC t)))%C with ((RtoC t - RtoC x0) * cprod (l1 ++ l2) (RtoC t))%C in Hr by (rewrite cprod_app; ring).
      apply (f_equal fst) in Hr. simpl in Hr. unfold m. rewrite Hr. ring. }
    destruct (cprod_diff (l1 ++ l2) x0) as [[m' Dm] _]. fold m in Dm.
    assert (D1 : is_derive (fun t => (t - x0) * m t) x0 0).
    { auto_derive; [exists m'; exact Dm|]. fold m. rewrite Z. ring. }
    assert (D2 : is_derive (ecc_poly s) x0 (- 4 * (1 - x0) ^ 3 - s ^ 2 * (PI ^ 2 + 2 * (16 - PI ^ 2) * x0))).
    { apply (is_derive_ext (fun x => (1 - x) ^ 4 - s ^ 2 * (x * (PI ^ 2 * (1 - x) + 16 * x)))); [intros t; symmetry; apply ecc_poly_val|]. auto_derive; [trivial|]. ring. }
    apply (is_derive_ext _ (ecc_poly s)) in D1; [|intros t; symmetry; apply V].
    pose proof (is_derive_unique _ _ _ D1) as U1. rewrite (is_derive_unique _ _ _ D2) in U1.
    pose proof PI2_bounds. assert (0 < (1 - x0) ^ 3) by (apply pow_lt; lra). assert (0 <= s ^ 2 * (PI ^ 2 + 2 * (16 - PI ^ 2) * x0)) by (apply Rmult_le_pos; [apply pow2_ge_0|nra]). lra. }
  assert (F : forall l, (forall z, In z l -> In z (l1 ++ l2)) -> filter open_real l = []).
  { induction l as [|z l IH]; intros H; [reflexivity|]. simpl. destruct (open_real z) eqn:Ez; [|apply IH; intros; apply H; right; assumption]. exfalso.
    apply open_real_iff in Ez. destruct z as [a b]. cbn [fst snd] in Ez. destruct Ez as [-> Ha]. assert (Hz : In (a, 0) (l1 ++ l2)) by (apply H; left; reflexivity).
    assert (Hz' : In (a, 0) (l1 ++ RtoC x0 :: l2)) by (apply in_app_iff in Hz; apply in_app_iff; simpl; tauto). apply (root_iff s _ _ Hr) in Hz'. change (a, 0) with (RtoC a) in *. rewrite cpoly_real in Hz'. apply (f_equal fst) in Hz'. simpl in Hz'.
    rewrite (ecc_unique s a x0 Hs) in Hz; try lra. exact (N Hz). }
  rewrite filter_app. simpl. rewrite (F l1), (F l2) by (intros; apply in_app_iff; tauto).
  replace (open_real (RtoC x0)) with true; [reflexivity|]. symmetry. apply open_real_iff. simpl. lra.
Qed.
(** every quartic of the family has a list of roots *)
Lemma ecc_big s : s <> 0 -> { x | 1 < x /\ ecc_poly s x = 0 }.
Proof.
  intros Hs. assert (S2 : 0 < s ^ 2) by (pose proof (pow2_ge_0 s); assert (s ^ 2 <> 0) by (apply pow_nonzero; exact Hs); lra). pose proof PI2_bounds as HP.
  set (M := 2 + 16 * s ^ 2).
  assert (HM : 0 < ecc_poly s M).
  { rewrite ecc_poly_val. assert (PI ^ 2 * (1 - M) + 16 * M <= 16 + 7 * (M - 1)) by (unfold M; nra).
    assert (M * (PI ^ 2 * (1 - M) + 16 * M) <= M * (16 + 7 * (M - 1))) by (apply Rmult_le_compat_l; [unfold M; lra|lra]).
    assert (s ^ 2 * (M * (PI ^ 2 * (1 - M) + 16 * M)) <= s ^ 2 * (M * (16 + 7 * (M - 1)))) by (apply Rmult_le_compat_l; lra).
    assert (0 < (1 - M) ^ 4 - s ^ 2 * (M * (16 + 7 * (M - 1)))); [|lra].
    replace (s ^ 2) with ((M - 2) / 16) by (unfold M; field). set (w := M - 1) in *. replace M with (w + 1) by (unfold w; ring).
    assert (1 < w) by (unfold w, M; nra). clearbody w. clear - H2. replace ((1 - (w + 1)) ^ 4) with (w ^ 4) by ring. nra. }
  destruct (IVT (ecc_poly s) 1 M) as [x [Hx E]].
  - intros x. unfold ecc_poly, ecc_coeffs. cbn [nth]. reg.
  - unfold M; lra.
  - rewrite ecc_poly_val. lra.
  - exact HM.
  - exists x. split; [|exact E]. destruct (Req_dec x 1) as [->|]; [rewrite ecc_poly_val in E; exfalso; lra|lra].
Qed.
Definition qroots (p q : R) : C * C :=
  let d := p ^ 2 / 4 - q in if Rle_dec 0 d then (RtoC (- p / 2 + sqrt d), RtoC (- p / 2 - sqrt d)) else ((- p / 2, sqrt (- d)), (- p / 2, - sqrt (- d))).
Lemma qroots_ok p q (z : C) : ((z - fst (qroots p q)) * (z - snd (qroots p q)) = z * z + RtoC p * z + RtoC q)%C.
Proof.
  unfold qroots. destruct z as [a b]. destruct (Rle_dec 0 (p ^ 2 / 4 - q)) as [H|H]; cbn [fst snd].
  - pose proof (sqrt_sqrt _ H) as E. set (r := sqrt (p ^ 2 / 4 - q)) in *. apply injective_projections; cbn [Cmult Cminus Cplus Copp RtoC fst snd]; [|field]. replace q with (p ^ 2 / 4 - r * r) by lra. field.
  - assert (H' : 0 <= - (p ^ 2 / 4 - q)) by lra. pose proof (sqrt_sqrt _ H') as E. set (r := sqrt (- (p ^ 2 / 4 - q))) in *. apply injective_projections; cbn [Cmult Cminus Cplus Copp RtoC fst snd]; [|field]. replace q with (r * r + p ^ 2 / 4) by lra. field.
Qed.
Definition ecc_roots (s : R) (Hs : s <> 0) : list C :=
  let x0 := proj1_sig (ecc_exists s Hs) in let x1 := proj1_sig (ecc_big s Hs) in
  let p := -4 + x0 + x1 in let q := (6 - s ^ 2 * (16 - PI ^ 2)) - x0 * x1 + (x0 + x1) * p in
  [RtoC x0; RtoC x1; fst (qroots p q); snd (qroots p q)].
Lemma ecc_roots_ok s Hs : are_roots (ecc_coeffs s) (ecc_roots s Hs).
Proof.
  unfold ecc_roots. destruct (ecc_exists s Hs) as [x0 [H0 E0]]. destruct (ecc_big s Hs) as [x1 [H1 E1]]. cbn [proj1_sig]. split; [reflexivity|]. intros z. cbn [cprod fold_right].
  set (p := -4 + x0 + x1). set (q := 6 - s ^ 2 * (16 - PI ^ 2) - x0 * x1 + (x0 + x1) * p).
  replace ((z - RtoC x0) * ((z - RtoC x1) * ((z - fst (qroots p q)) * ((z - snd (qroots p q)) * RtoC 1))))%C with ((z - RtoC x0) * ((z - RtoC x1) * ((z - fst (qroots p q)) * (z - snd (qroots p q)))))%C by ring.
  rewrite qroots_ok.
  (* the two remaining coefficients *)
  unfold ecc_poly, ecc_coeffs in E0, E1. cbn [nth] in E0, E1. set (a := 6 - s ^ 2 * (16 - PI ^ 2)) in *. set (d := - (4 + PI ^ 2 * s ^ 2)) in *.
  assert (Ed : d = x0 * x1 * p - (x0 + x1) * q).
  { apply Rmult_eq_reg_r with (x0 - x1); [|lra]. unfold q, p. nra. }
  assert (E1' : 1 = x0 * x1 * q).
  { rewrite Ed in E0. unfold q, p in *. nra. }
  unfold cpoly, ecc_coeffs. cbn [fold_left]. fold a d. destruct z as [u v].
  assert (Ea : a = x0 * x1 - (x0 + x1) * p + q) by (unfold q; ring). rewrite Ed, Ea.
  apply injective_projections; cbn [Cmult Cminus Cplus Copp RtoC fst snd].
  - transitivity (u ^ 4 - 6 * u ^ 2 * v ^ 2 + v ^ 4 + -4 * (u ^ 3 - 3 * u * v ^ 2) + (x0 * x1 - (x0 + x1) * p + q) * (u ^ 2 - v ^ 2) + (x0 * x1 * p - (x0 + x1) * q) * u + 1); [ring|]. rewrite E1'. unfold p. ring.
  - unfold p. ring.
Qed.
