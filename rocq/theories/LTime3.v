(** Lemmas on the Runge-Kutta integrators. *)
From Coq Require Import Reals String List Arith Bool Lia Lra ZArith.
From Coquelicot Require Import Coquelicot.
From Verif Require Import PyBase MatBase SpecMat LMat LDynamics MTime SpecTime LTime.
Import ListNotations.
Open Scope list_scope.
Open Scope R_scope.

(** ** truncation *)
Lemma Int_part_bounds x : IZR (Int_part x) <= x < IZR (Int_part x) + 1.
Proof. destruct (base_Int_part x). lra. Qed.
Lemma Int_part_unique x z : IZR z <= x < IZR z + 1 -> Int_part x = z.
Proof.
  intros H. pose proof (Int_part_bounds x). assert (Int_part x < z + 1)%Z by (apply lt_IZR; rewrite plus_IZR; lra). assert (z < Int_part x + 1)%Z by (apply lt_IZR; rewrite plus_IZR; lra). lia.
Qed.
Lemma trunc_nonneg x : 0 <= x -> (0 <= trunc x)%Z /\ IZR (trunc x) <= x < IZR (trunc x) + 1.
Proof.
  intros H. unfold trunc. destruct (Rle_dec 0 x); [|contradiction]. pose proof (Int_part_bounds x). split; auto.
  assert (-1 < Int_part x)%Z by (apply lt_IZR; lra). lia.
Qed.
Lemma trunc_unique x z : (0 <= z)%Z -> IZR z <= x < IZR z + 1 -> trunc x = z.
Proof.
  intros Hz H. unfold trunc. assert (0 <= x) by (apply Rle_trans with (IZR z); [apply IZR_le; auto|lra]). destruct (Rle_dec 0 x); [|contradiction]. apply Int_part_unique, H.
Qed.
Lemma ceil_bounds x : x <= IZR (ceil x) < x + 1.
Proof. unfold ceil. rewrite opp_IZR. pose proof (Int_part_bounds (- x)). lra. Qed.

(** ** the loop *)
Lemma rk_loop_length step h k : forall i x y, length (fst (rk_loop step h k i x y)) = k.
Proof.
  induction k as [|k IH]; intros i x y; simpl; [reflexivity|]. specialize (IH (S i) (x + h) (step x y i)). destruct (rk_loop step h k (S i) (x + h) (step x y i)); simpl in *. lia.
Qed.
Lemma rk_loop_x step h k : forall i x y, snd (rk_loop step h k i x y) = x + INR k * h.
Proof.
  induction k as [|k IH]; intros i x y; simpl; [simpl; ring|]. specialize (IH (S i) (x + h) (step x y i)). destruct (rk_loop step h k (S i) (x + h) (step x y i)); simpl in *.
  rewrite IH. change (match k with O => 1 | S _ => INR k + 1 end) with (INR (S k)). rewrite S_INR. ring.
Qed.
Lemma rk_loop_nth step h k : forall i x y j, (j < k)%nat ->
  nth j (fst (rk_loop step h k i x y)) vzero = step (x + INR j * h) (nth j (y :: fst (rk_loop step h k i x y)) vzero) (i + j)%nat.
Proof.
  induction k as [|k IH]; intros i x y j Hj; [lia|]. simpl rk_loop. specialize (IH (S i) (x + h) (step x y i)). destruct (rk_loop step h k (S i) (x + h) (step x y i)) as [l x'] eqn:E. cbn [fst] in *.
  destruct j as [|j].
  - simpl. rewrite Rmult_0_l, Rplus_0_r, Nat.add_0_r. reflexivity.
  - cbn [nth]. rewrite IH by lia. rewrite S_INR. replace (x + h + INR j * h) with (x + (INR j + 1) * h) by ring. replace (S i + j)%nat with (i + S j)%nat by lia. reflexivity.
Qed.
Lemma integrate_ok step x0 y0 x h l x' : 0 < h -> x0 <= x -> integrate step x0 y0 24 x h = Ok (l, x') ->
  exists n, length l = S n /\ INR n <= (x - x0) / h < INR n + 1 /\ x' = x0 + INR n * h /\ nth 0 l vzero = y0 /\
  forall k, (k < n)%nat -> nth (S k) l vzero = step (x0 + INR k * h) (nth k l vzero) (S k).
Proof.
  intros Hh Hx H. unfold integrate in H. destruct (Req_EM_T h 0); [lra|].
  assert (Q : 0 <= (x - x0) / h) by (apply Rmult_le_pos; [lra|left; apply Rinv_0_lt_compat; auto]).
  destruct (trunc_nonneg _ Q) as [T0 T1]. set (z := trunc ((x - x0) / h)) in *.
  destruct (Z.ltb_spec (z + 1) 0); [lia|]. destruct (Z.eqb_spec (z + 1) 0); [lia|]. simpl in H.
  destruct (rk_loop step h (Z.to_nat z) 1 x0 y0) as [l0 x1] eqn:E. injection H as <- <-.
  assert (El : l0 = fst (rk_loop step h (Z.to_nat z) 1 x0 y0)) by (rewrite E; reflexivity).
  assert (Ex : x1 = snd (rk_loop step h (Z.to_nat z) 1 x0 y0)) by (rewrite E; reflexivity).
  exists (Z.to_nat z). rewrite INR_IZR_INZ, Z2Nat.id by lia. split; [simpl; f_equal; rewrite El; apply rk_loop_length|]. split; [exact T1|].
  split; [rewrite Ex, rk_loop_x, INR_IZR_INZ, Z2Nat.id by lia; reflexivity|]. split; [reflexivity|].
  intros k Hk. change (nth (S k) (y0 :: l0) vzero) with (nth k l0 vzero). rewrite El. rewrite rk_loop_nth by auto. reflexivity.
Qed.
Lemma integrate_runs step x0 y0 x h : 0 < h -> x0 <= x -> is_ok (integrate step x0 y0 24 x h).
Proof.
  intros Hh Hx. unfold integrate. destruct (Req_EM_T h 0); [lra|].
  assert (Q : 0 <= (x - x0) / h) by (apply Rmult_le_pos; [lra|left; apply Rinv_0_lt_compat; auto]).
  destruct (trunc_nonneg _ Q) as [T0 T1]. set (z := trunc ((x - x0) / h)) in *.
  destruct (Z.ltb_spec (z + 1) 0); [lia|]. destruct (Z.eqb_spec (z + 1) 0); [lia|]. simpl. destruct (rk_loop _ _ _ _ _ _). eexists. reflexivity.
Qed.

(** ** linear systems *)
Lemma mulv_comb6 n A c0 c1 c2 c3 c4 c5 (p0 p1 p2 p3 p4 p5 : vec) i :
  mulv n A (fun j => c0 * p0 j + c1 * p1 j + c2 * p2 j + c3 * p3 j + c4 * p4 j + c5 * p5 j) i =
  c0 * mulv n A p0 i + c1 * mulv n A p1 i + c2 * mulv n A p2 i + c3 * mulv n A p3 i + c4 * mulv n A p4 i + c5 * mulv n A p5 i.
Proof. unfold mulv. rewrite <- !sumn_scal, <- !sumn_plus. apply sumn_ext. intros; ring. Qed.
Definition lin (n : nat) (A : mat) : R -> vec -> nat -> vec := fun _ y _ => mulv n A y.
Lemma stage n A y (x : vec) c0 c1 c2 c3 c4 c5 : (forall j, x j = c0 * y j + c1 * mpow n A 1 y j + c2 * mpow n A 2 y j + c3 * mpow n A 3 y j + c4 * mpow n A 4 y j + c5 * mpow n A 5 y j) ->
  forall i, mulv n A x i = c0 * mpow n A 1 y i + c1 * mpow n A 2 y i + c2 * mpow n A 3 y i + c3 * mpow n A 4 y i + c4 * mpow n A 5 y i + c5 * mpow n A 6 y i.
Proof. intros H i. rewrite (rmulv_ext n A x _ i (fun j _ => H j)). apply (mulv_comb6 n A c0 c1 c2 c3 c4 c5 y (mpow n A 1 y) (mpow n A 2 y) (mpow n A 3 y) (mpow n A 4 y) (mpow n A 5 y)). Qed.
Lemma rk4_linear n A h x y i j : rk4_step (lin n A) h x y i j =
  y j + h * mpow n A 1 y j + h ^ 2 / 2 * mpow n A 2 y j + h ^ 3 / 6 * mpow n A 3 y j + h ^ 4 / 24 * mpow n A 4 y j.
Proof.
  unfold rk4_step, lin. set (k1 := vscale h (mulv n A y)). set (k2 := vscale h (mulv n A (vadd y (vscale (1 / 2) k1)))).
  set (k3 := vscale h (mulv n A (vadd y (vscale (1 / 2) k2)))). set (k4 := vscale h (mulv n A (vadd y k3))).
  assert (E1 : forall i, k1 i = h * mpow n A 1 y i) by (intros; reflexivity).
  assert (E2 : forall i, k2 i = h * mpow n A 1 y i + h ^ 2 / 2 * mpow n A 2 y i).
  { intros i0. unfold k2 at 1, vscale at 1. rewrite (stage n A y _ 1 (h / 2) 0 0 0 0); [field|]. intros q. unfold vadd, vscale. rewrite E1. field. }
  assert (E3 : forall i, k3 i = h * mpow n A 1 y i + h ^ 2 / 2 * mpow n A 2 y i + h ^ 3 / 4 * mpow n A 3 y i).
  { intros i0. unfold k3 at 1, vscale at 1. rewrite (stage n A y _ 1 (h / 2) (h ^ 2 / 4) 0 0 0); [field|]. intros q. unfold vadd, vscale. rewrite E2. field. }
  assert (E4 : forall i, k4 i = h * mpow n A 1 y i + h ^ 2 * mpow n A 2 y i + h ^ 3 / 2 * mpow n A 3 y i + h ^ 4 / 4 * mpow n A 4 y i).
  { intros i0. unfold k4 at 1, vscale at 1. rewrite (stage n A y _ 1 h (h ^ 2 / 2) (h ^ 3 / 4) 0 0); [field|]. intros q. unfold vadd. rewrite E3. field. }
  rewrite E1, E2, E3, E4. field.
Qed.
Lemma rk45_linear n A h x y i j : rk45_step (lin n A) h x y i j =
  y j + h * mpow n A 1 y j + h ^ 2 / 2 * mpow n A 2 y j + h ^ 3 / 6 * mpow n A 3 y j + h ^ 4 / 24 * mpow n A 4 y j + h ^ 5 / 120 * mpow n A 5 y j + h ^ 6 / 800 * mpow n A 6 y j.
Proof.
  unfold rk45_step, lin. cbv zeta. set (k1 := mulv n A y).
  set (k2 := mulv n A (fun j => y j + k1 j * (h / 5))).
  set (k3 := mulv n A (fun j => y j + k1 j * (3 * h / 40) + k2 j * (9 * h / 40))).
  set (k4 := mulv n A (fun j => y j + k1 j * (3 * h / 10) - k2 j * (9 * h / 10) + k3 j * (6 * h / 5))).
  set (k5 := mulv n A (fun j => y j - k1 j * (11 * h / 54) + k2 j * (5 * h / 2) - k3 j * (70 * h / 27) + k4 j * (35 * h / 27))).
  set (k6 := mulv n A (fun j => y j + k1 j * (1631 * h / 55296) + k2 j * (175 * h / 512) + k3 j * (575 * h / 13824) + k4 j * (44275 * h / 110592) + k5 j * (253 * h / 4096))).
  assert (E1 : forall i, k1 i = mpow n A 1 y i) by (intros; reflexivity).
  assert (E2 : forall i, k2 i = mpow n A 1 y i + h / 5 * mpow n A 2 y i).
  { intros i0. unfold k2. rewrite (stage n A y _ 1 (h / 5) 0 0 0 0); [field|]. intros q. rewrite E1. field. }
  assert (E3 : forall i, k3 i = mpow n A 1 y i + 3 / 10 * h * mpow n A 2 y i + 9 / 200 * h ^ 2 * mpow n A 3 y i).
  { intros i0. unfold k3. rewrite (stage n A y _ 1 (3 / 10 * h) (9 / 200 * h ^ 2) 0 0 0); [field|]. intros q. rewrite E1, E2. field. }
  assert (E4 : forall i, k4 i = mpow n A 1 y i + 3 / 5 * h * mpow n A 2 y i + 9 / 50 * h ^ 2 * mpow n A 3 y i + 27 / 500 * h ^ 3 * mpow n A 4 y i).
  { intros i0. unfold k4. rewrite (stage n A y _ 1 (3 / 5 * h) (9 / 50 * h ^ 2) (27 / 500 * h ^ 3) 0 0); [field|]. intros q. rewrite E1, E2, E3. field. }
  assert (E5 : forall i, k5 i = mpow n A 1 y i + h * mpow n A 2 y i + h ^ 2 / 2 * mpow n A 3 y i + 7 / 60 * h ^ 3 * mpow n A 4 y i + 7 / 100 * h ^ 4 * mpow n A 5 y i).
  { intros i0. unfold k5. rewrite (stage n A y _ 1 h (h ^ 2 / 2) (7 / 60 * h ^ 3) (7 / 100 * h ^ 4) 0); [field|]. intros q. rewrite E1, E2, E3, E4. field. }
  assert (E6 : forall i, k6 i = mpow n A 1 y i + 7 / 8 * h * mpow n A 2 y i + 49 / 128 * h ^ 2 * mpow n A 3 y i + 161 / 1536 * h ^ 3 * mpow n A 4 y i + 1771 / 61440 * h ^ 4 * mpow n A 5 y i + 1771 / 409600 * h ^ 5 * mpow n A 6 y i).
  { intros i0. unfold k6. rewrite (stage n A y _ 1 (7 / 8 * h) (49 / 128 * h ^ 2) (161 / 1536 * h ^ 3) (1771 / 61440 * h ^ 4) (1771 / 409600 * h ^ 5)); [field|]. intros q. rewrite E1, E2, E3, E4, E5. field. }
  rewrite E1, E3, E4, E6. field.
Qed.

(** ** quadrature *)
Lemma poly_integral c0 c1 c2 c3 c4 a b :
  is_RInt (fun u => c0 + c1 * u + c2 * u ^ 2 + c3 * u ^ 3 + c4 * u ^ 4) a b
   (c0 * (b - a) + c1 * (b ^ 2 - a ^ 2) / 2 + c2 * (b ^ 3 - a ^ 3) / 3 + c3 * (b ^ 4 - a ^ 4) / 4 + c4 * (b ^ 5 - a ^ 5) / 5).
Proof.
  set (P := fun u : R => c0 * u + c1 * u ^ 2 / 2 + c2 * u ^ 3 / 3 + c3 * u ^ 4 / 4 + c4 * u ^ 5 / 5).
  replace (c0 * (b - a) + c1 * (b ^ 2 - a ^ 2) / 2 + c2 * (b ^ 3 - a ^ 3) / 3 + c3 * (b ^ 4 - a ^ 4) / 4 + c4 * (b ^ 5 - a ^ 5) / 5) with (minus (P b) (P a))
    by (unfold minus, plus, opp, P; simpl; field).
  apply (is_RInt_derive P).
  - intros u _. unfold P. auto_derive; [auto|]. field.
  - intros u _. apply (ex_derive_continuous (fun u => c0 + c1 * u + c2 * u ^ 2 + c3 * u ^ 3 + c4 * u ^ 4)). auto_derive. auto.
Qed.
Lemma rk4_quad c0 c1 c2 c3 f h x y i j : (forall u z k, f u z k j = c0 + c1 * u + c2 * u ^ 2 + c3 * u ^ 3) ->
  rk4_step f h x y i j = y j + (c0 * (x + h - x) + c1 * ((x + h) ^ 2 - x ^ 2) / 2 + c2 * ((x + h) ^ 3 - x ^ 3) / 3 + c3 * ((x + h) ^ 4 - x ^ 4) / 4).
Proof. intros H. unfold rk4_step, vscale. rewrite !H. field. Qed.
Lemma rk45_quad c0 c1 c2 c3 c4 f h x y i j : (forall u z k, f u z k j = c0 + c1 * u + c2 * u ^ 2 + c3 * u ^ 3 + c4 * u ^ 4) ->
  rk45_step f h x y i j = y j + (c0 * (x + h - x) + c1 * ((x + h) ^ 2 - x ^ 2) / 2 + c2 * ((x + h) ^ 3 - x ^ 3) / 3 + c3 * ((x + h) ^ 4 - x ^ 4) / 4 + c4 * ((x + h) ^ 5 - x ^ 5) / 5).
Proof. intros H. unfold rk45_step. cbv zeta. rewrite !H. field. Qed.
