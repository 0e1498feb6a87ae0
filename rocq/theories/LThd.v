(** Lemmas for the thermo-hydrodynamic bearing: pads, film, the linear system of the flooded film. *)
From Coq Require Import Reals String List Arith Bool Lia Lra Psatz.
From Verif Require Import PyBase MatBase LMat CMat MDynamics MBearing MThd SpecFluid SpecThd LFluid7 LFluid8.
Import ListNotations.
Open Scope R_scope.

(** ** Pads *)
Lemma pads_ok n : (1 <= n <= 360)%nat -> exists l, thd_pad_ct n = Ok l /\ length l = ((360 - 1) / (360 / n) + 1)%nat.
Proof.
  intros H. unfold thd_pad_ct. destruct n as [|n]; [lia|]. assert (S : (1 <= 360 / Datatypes.S n)%nat) by (apply Nat.div_le_lower_bound; lia).
  remember (360 / Datatypes.S n)%nat as s eqn:E. destruct s as [|s]; [lia|]. eexists. split; [reflexivity|]. rewrite map_length, seq_length. reflexivity.
Qed.
Lemma pads_many n : (360 < n)%nat -> thd_pad_ct n = Err ValueError.
Proof. intros H. unfold thd_pad_ct. destruct n as [|n]; [lia|]. rewrite Nat.div_small by lia. reflexivity. Qed.
Lemma pads_at_least n : (1 <= n <= 360)%nat -> (n <= (360 - 1) / (360 / n) + 1)%nat.
Proof.
  intros H. assert (S : (1 <= 360 / n)%nat) by (apply Nat.div_le_lower_bound; lia). pose proof (Nat.div_mod 360 n). pose proof (Nat.mod_upper_bound 360 n).
  assert (n - 1 <= (360 - 1) / (360 / n))%nat; [|lia]. apply Nat.div_le_lower_bound; [lia|]. nia.
Qed.
Lemma pads_exact n : (1 <= n <= 360)%nat -> (((360 - 1) / (360 / n) + 1 = n)%nat <-> Nat.divide n 360).
Proof.
  intros H. assert (S : (1 <= 360 / n)%nat) by (apply Nat.div_le_lower_bound; lia). split.
  - intros E. assert (Q : ((360 - 1) / (360 / n) = n - 1)%nat) by lia. pose proof (Nat.div_mod (360 - 1) (360 / n)) as D. pose proof (Nat.mod_upper_bound (360 - 1) (360 / n)) as B.
    pose proof (Nat.mul_div_le 360 n) as L. exists (360 / n)%nat. nia.
  - intros (q & E). assert (Eq : (360 / n = q)%nat) by (rewrite E; apply Nat.div_mul; lia). rewrite Eq in *. assert (Q : ((360 - 1) / q = n - 1)%nat); [|lia].
    symmetry. apply (Nat.div_unique (360 - 1) q (n - 1) (q - 1)); nia.
Qed.
Lemma pads_nth n l k : thd_pad_ct n = Ok l -> (k < length l)%nat -> nth k l 0%nat = (k * (360 / n))%nat.
Proof.
  unfold thd_pad_ct. destruct n as [|n]; [discriminate|]. remember (360 / S n)%nat as s. destruct s as [|s]; [discriminate|]. intros E Hk. assert (L : l = map (fun k => (k * S s)%nat) (seq 0 ((360 - 1) / S s + 1))) by congruence.
  subst l. rewrite map_length, seq_length in Hk. transitivity (nth k (map (fun k => (k * S s)%nat) (seq 0 ((360 - 1) / S s + 1))) ((fun k => (k * S s)%nat) 0%nat)); [reflexivity|]. rewrite (map_nth (fun k => (k * S s)%nat)), seq_nth by exact Hk. reflexivity.
Qed.

(** ** Film *)
Definition thd_h (t : thd) (s : thd_state) (n_p : nat) (g : R) : R := match thd_film t s n_p g with Ok v => v | Err _ => 0 end.
Lemma film_defined t s n_p g : (th_geom t = Lobe -> (n_p < 2)%nat) -> thd_film t s n_p g = Ok (thd_h t s n_p g).
Proof. intros H. unfold thd_h, thd_film. destruct (th_geom t); try reflexivity. destruct n_p as [|[|n]]; try reflexivity. specialize (H eq_refl). lia. Qed.
Lemma dir_bound x y g : x * cos g + y * sin g <= sqrt (x ^ 2 + y ^ 2).
Proof.
  apply Rsqr_incr_0_var; [|apply sqrt_pos]. rewrite Rsqr_sqrt by nra. unfold Rsqr. pose proof (sin2_cos2 g) as E. unfold Rsqr in E.
  assert (0 <= (x * sin g - y * cos g) ^ 2) by apply pow2_ge_0. nra.
Qed.
Lemma film_lower t s n_p g : (th_geom t = Lobe -> (n_p < 2)%nat) -> 0 <= th_preload t < 1 -> 1 - sqrt (st_x s ^ 2 + st_y s ^ 2) <= thd_h t s n_p g.
Proof.
  intros Hl Hm. pose proof (dir_bound (st_x s) (st_y s) g) as D. assert (M : 0 < / (1 - th_preload t)) by (apply Rinv_0_lt_compat; lra).
  assert (I : (1 - th_preload t) * / (1 - th_preload t) = 1) by (field; lra). unfold thd_h, thd_film. destruct (th_geom t) eqn:G.
  - lra.
  - assert (P : forall piv, 1 - sqrt (st_x s ^ 2 + st_y s ^ 2) <= 1 / (1 - th_preload t) - st_x s * cos g - st_y s * sin g - th_preload t / (1 - th_preload t) * cos (g - piv)).
    { intros piv. pose proof (COS_bound (g - piv)) as C. unfold Rdiv. set (m := th_preload t) in *. set (i := / (1 - m)) in *. assert (0 <= m * i) by (apply Rmult_le_pos; lra). nra. }
    destruct n_p as [|[|n]]; [apply P|apply P|]. specialize (Hl eq_refl). lia.
  - assert (0 <= th_preload t / (1 - th_preload t) * cos g ^ 2). { apply Rmult_le_pos; [apply Rmult_le_pos; lra|apply pow2_ge_0]. } lra.
Qed.

(** ** One row of the matrix *)
Lemma dot_put n v b x X : (b < n)%nat -> sumn n (fun k => put b x v k * X k) = sumn n (fun k => v k * X k) + (x - v b) * X b.
Proof. exact (dot_rset n v b x X). Qed.
Lemma put_other b x v c : c <> b -> put b x v c = v c.
Proof. intros H. unfold put. rewrite (proj2 (Nat.eqb_neq c b)) by exact H. reflexivity. Qed.
Lemma row_again na nc ce cw cn cs ce' cw' cn' cs' i j : forall c,
  thd_row na nc ce cw cn cs i j (thd_row na nc ce' cw' cn' cs' i j (fun _ => 0)) c = thd_row na nc ce cw cn cs i j (fun _ => 0) c.
Proof.
  intros c. unfold thd_row. repeat match goal with |- context [if ?b then _ else _] => destruct b end; unfold put; repeat match goal with |- context [Nat.eqb c ?b] => destruct (Nat.eqb c b) end; reflexivity.
Qed.
Section Row.
Variables na nc : nat.
Hypothesis Hna : (2 <= na)%nat.
Hypothesis Hnc : (2 <= nc)%nat.
Lemma row_dot ce cw cn cs i j X : (i < na)%nat -> (j < nc)%nat -> let p : mat := fun i j => X (i * nc + j)%nat in
  sumn (na * nc) (fun k => thd_row na nc ce cw cn cs i j (fun _ => 0) k * X k) =
  ce * (p_east nc p i j - p i j) + cw * (p_west p i j - p i j) + cn * (p_north na p i j - p i j) + cs * (p_south p i j - p i j).
Proof.
  intros Hi Hj p.
  assert (Z : sumn (na * nc) (fun k => (fun _ : nat => 0) k * X k) = 0) by (apply sumn_0; intros; ring).
  assert (Ba : (i * nc + j < na * nc)%nat) by nia.
  assert (Be : (j + 1 < nc)%nat -> (i * nc + j + 1 < na * nc)%nat) by nia.
  assert (Bn : (i + 1 < na)%nat -> (i * nc + j + nc < na * nc)%nat) by nia.
  assert (Bw : (0 < j)%nat -> (0 < i * nc + j)%nat) by nia. assert (Bs : (0 < i)%nat -> (nc <= i * nc + j)%nat) by nia.
  assert (Pe : p_east nc p i j = if Nat.eqb (j + 1) nc then - X (i * nc + j)%nat else X (i * nc + j + 1)%nat).
  { unfold p_east, p. destruct (Nat.eqb (j + 1) nc); [reflexivity|]. f_equal. lia. }
  assert (Pw : p_west p i j = if Nat.eqb j 0 then - X (i * nc + j)%nat else X (i * nc + j - 1)%nat).
  { unfold p_west, p. destruct j as [|j']; [reflexivity|]. simpl Nat.eqb. cbv iota. f_equal. lia. }
  assert (Pn : p_north na p i j = if Nat.eqb (i + 1) na then - X (i * nc + j)%nat else X (i * nc + j + nc)%nat).
  { unfold p_north, p. destruct (Nat.eqb (i + 1) na); [reflexivity|]. f_equal. lia. }
  assert (Ps : p_south p i j = if Nat.eqb i 0 then - X (i * nc + j)%nat else X (i * nc + j - nc)%nat).
  { unfold p_south, p. destruct i as [|i']; [reflexivity|]. simpl Nat.eqb. cbv iota. f_equal. lia. }
  rewrite Pe, Pw, Pn, Ps. replace (p i j) with (X (i * nc + j)%nat) by reflexivity. clear Pe Pw Pn Ps p. unfold thd_row. cbv zeta.
  assert (Ej : Nat.eqb j (nc - 1) = Nat.eqb (j + 1) nc) by (destruct (Nat.eqb_spec j (nc - 1)), (Nat.eqb_spec (j + 1) nc); lia || reflexivity).
  assert (Ei : Nat.eqb i (na - 1) = Nat.eqb (i + 1) na) by (destruct (Nat.eqb_spec i (na - 1)), (Nat.eqb_spec (i + 1) na); lia || reflexivity).
  rewrite Ej, Ei. remember (i * nc + j)%nat as a eqn:Ea. clear Ej Ei.
  destruct (Nat.eqb_spec i 0) as [I0|I0], (Nat.eqb_spec (i + 1) na) as [Il|Il], (Nat.eqb_spec j 0) as [J0|J0], (Nat.eqb_spec (j + 1) nc) as [Jl|Jl]; try lia; cbn [andb negb];
  rewrite ?dot_put by lia; rewrite Z; rewrite ?put_other by lia; ring.
Qed.

(** ** Maximum principle *)
Section Max.
Variables ce cw cn cs p : mat.
Hypothesis He : forall i j, (i < na)%nat -> (j < nc)%nat -> 0 < ce i j.
Hypothesis Hw : forall i j, (i < na)%nat -> (j < nc)%nat -> 0 < cw i j.
Hypothesis Hn : forall i j, (i < na)%nat -> (j < nc)%nat -> 0 < cn i j.
Hypothesis Hs : forall i j, (i < na)%nat -> (j < nc)%nat -> 0 < cs i j.
Hypothesis Hb : forall i j, (i < na)%nat -> (j < nc)%nat ->
  0 <= ce i j * (p_east nc p i j - p i j) + cw i j * (p_west p i j - p i j) + cn i j * (p_north na p i j - p i j) + cs i j * (p_south p i j - p i j).
Lemma pad_max : forall i j, (i < na)%nat -> (j < nc)%nat -> p i j <= 0.
Proof.
  destruct (max_index (na * nc) (fun a => p (a / nc)%nat (a mod nc)%nat)) as (k & Hk & Hm); [nia|]. set (m := p (k / nc)%nat (k mod nc)%nat) in *.
  assert (M : forall i j, (i < na)%nat -> (j < nc)%nat -> p i j <= m).
  { intros i j Hi Hj. specialize (Hm (i * nc + j)%nat). cbv beta in Hm. assert (X1 : ((i * nc + j) / nc = i)%nat) by (symmetry; apply Nat.div_unique with j; lia).
    assert (X2 : ((i * nc + j) mod nc = j)%nat) by (symmetry; apply Nat.mod_unique with i; lia). rewrite X1, X2 in Hm. apply Hm. nia. }
  assert (Bi : (k / nc < na)%nat) by (apply Nat.div_lt_upper_bound; lia). assert (Bj : (k mod nc < nc)%nat) by (apply Nat.mod_upper_bound; lia).
  destruct (Rle_lt_dec m 0) as [L|L]; [intros i j Hi Hj; pose proof (M i j Hi Hj); lra|]. exfalso.
  assert (G : forall j, (j < nc)%nat -> p (k / nc)%nat j = m -> False).
  { set (i := (k / nc)%nat) in *. induction j as [|j IH]; intros Hj E; pose proof (Hb i _ Bi Hj) as B; pose proof (He i _ Bi Hj); pose proof (Hw i _ Bi Hj); pose proof (Hn i _ Bi Hj); pose proof (Hs i _ Bi Hj).
    - assert (p_east nc p i 0 <= m). { unfold p_east. destruct (Nat.eqb_spec (0 + 1) nc); [lra|apply M; lia]. }
      assert (p_north na p i 0 <= m). { unfold p_north. destruct (Nat.eqb_spec (i + 1) na); [lra|apply M; lia]. }
      assert (p_south p i 0 <= m). { unfold p_south. destruct i as [|i']; [lra|apply M; lia]. } unfold p_west in B. rewrite E in B. nra.
    - assert (p_east nc p i (S j) <= m). { unfold p_east. destruct (Nat.eqb_spec (S j + 1) nc); [lra|apply M; lia]. }
      assert (p_north na p i (S j) <= m). { unfold p_north. destruct (Nat.eqb_spec (i + 1) na); [lra|apply M; lia]. }
      assert (p_south p i (S j) <= m). { unfold p_south. destruct i as [|i']; [lra|apply M; lia]. }
      assert (p i j <= m) by (apply M; lia). unfold p_west in B. rewrite E in B. apply IH; [lia|]. nra. }
  exact (G _ Bj eq_refl).
Qed.
End Max.
End Row.
