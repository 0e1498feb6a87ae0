(** Lemmas on finite sums, vectors and matrices. *)
From Coq Require Import Reals List Arith Lia Lra Psatz.
From Verif Require Import MatBase SpecMat.
Import ListNotations.
Open Scope R_scope.

Lemma sumn_ext n f g : (forall i, (i < n)%nat -> f i = g i) -> sumn n f = sumn n g.
Proof. induction n; intros H; simpl; [reflexivity|]. rewrite IHn, H; auto. Qed.
Lemma sumn_plus n f g : sumn n (fun i => f i + g i) = sumn n f + sumn n g.
Proof. induction n; simpl; [ring|rewrite IHn; ring]. Qed.
Lemma sumn_minus n f g : sumn n (fun i => f i - g i) = sumn n f - sumn n g.
Proof. induction n; simpl; [ring|rewrite IHn; ring]. Qed.
Lemma sumn_scal n c f : sumn n (fun i => c * f i) = c * sumn n f.
Proof. induction n; simpl; [ring|rewrite IHn; ring]. Qed.
Lemma sumn_scal_r n c f : sumn n (fun i => f i * c) = sumn n f * c.
Proof. induction n; simpl; [ring|rewrite IHn; ring]. Qed.
Lemma sumn_opp n f : sumn n (fun i => - f i) = - sumn n f.
Proof. induction n; simpl; [ring|rewrite IHn; ring]. Qed.
Lemma sumn_0 n f : (forall i, (i < n)%nat -> f i = 0) -> sumn n f = 0.
Proof. induction n; intros H; simpl; [reflexivity|]. rewrite IHn, H; auto; ring. Qed.
Lemma sumn_const n c : sumn n (fun _ => c) = INR n * c.
Proof. induction n; [simpl; ring|]. rewrite S_INR; simpl sumn; rewrite IHn; ring. Qed.
Lemma sumn_swap n m f : sumn n (fun i => sumn m (fun j => f i j)) = sumn m (fun j => sumn n (fun i => f i j)).
Proof.
  induction n; simpl.
  - symmetry; apply sumn_0; auto.
  - rewrite IHn, <- sumn_plus. reflexivity.
Qed.
Lemma sumn_nonneg n f : (forall i, (i < n)%nat -> 0 <= f i) -> 0 <= sumn n f.
Proof. induction n; intros H; simpl; [lra|]. specialize (H n ltac:(lia)) as Hn. assert (0 <= sumn n f) by (apply IHn; auto). lra. Qed.
Lemma sumn_single n f k : (k < n)%nat -> (forall i, (i < n)%nat -> i <> k -> f i = 0) -> sumn n f = f k.
Proof.
  induction n; intros Hk H; [lia|]. simpl.
  destruct (Nat.eq_dec k n) as [->|Hne].
  - rewrite sumn_0; [ring|]. intros i Hi; apply H; lia.
  - rewrite IHn; [|lia|intros; apply H; lia]. rewrite (H n); [ring|lia|auto].
Qed.
Lemma sumn_split n m f : sumn (n + m) f = sumn n f + sumn m (fun i => f (n + i)%nat).
Proof.
  induction m; simpl.
  - rewrite Nat.add_0_r. ring.
  - rewrite Nat.add_succ_r. simpl. rewrite IHm. ring.
Qed.

Lemma bform_lin n c d A B x y :
  bform n (fun i j => c * A i j + d * B i j) x y = c * bform n A x y + d * bform n B x y.
Proof.
  unfold bform. rewrite <- !sumn_scal, <- sumn_plus. apply sumn_ext; intros i _.
  rewrite (sumn_ext n (fun j => (c * A i j + d * B i j) * y j)
             (fun j => c * (A i j * y j) + d * (B i j * y j))) by (intros; ring).
  rewrite sumn_plus, !sumn_scal. ring.
Qed.
Lemma bform_plus n A B x y :
  bform n (fun i j => A i j + B i j) x y = bform n A x y + bform n B x y.
Proof.
  unfold bform. rewrite <- sumn_plus. apply sumn_ext; intros i _.
  rewrite (sumn_ext n (fun j => (A i j + B i j) * y j)
             (fun j => (A i j * y j) + (B i j * y j))) by (intros; ring).
  rewrite sumn_plus. ring.
Qed.
Lemma bform_scal n c A x y : bform n (fun i j => c * A i j) x y = c * bform n A x y.
Proof.
  unfold bform. rewrite <- sumn_scal. apply sumn_ext; intros i _.
  rewrite (sumn_ext n (fun j => c * A i j * y j) (fun j => c * (A i j * y j))) by (intros; ring).
  rewrite sumn_scal. ring.
Qed.
Lemma bform_ext n A B x y : (forall i j, (i < n)%nat -> (j < n)%nat -> A i j = B i j) ->
  bform n A x y = bform n B x y.
Proof.
  intros H. unfold bform. apply sumn_ext; intros i Hi. f_equal. apply sumn_ext; intros j Hj.
  rewrite H; auto.
Qed.
Lemma bform_sym n A x y : symmetric n A -> bform n A x y = bform n A y x.
Proof.
  intros H. unfold bform.
  rewrite (sumn_ext n _ (fun i => sumn n (fun j => x i * A i j * y j))).
  2:{ intros; rewrite <- sumn_scal; apply sumn_ext; intros; ring. }
  rewrite sumn_swap. apply sumn_ext; intros j Hj. rewrite <- sumn_scal. apply sumn_ext; intros i Hi.
  rewrite (H i j) by auto. ring.
Qed.
Lemma bform_skew n A x y : skew n A -> bform n A x y = - bform n A y x.
Proof.
  intros H. unfold bform.
  rewrite (sumn_ext n _ (fun i => sumn n (fun j => x i * A i j * y j))).
  2:{ intros; rewrite <- sumn_scal; apply sumn_ext; intros; ring. }
  rewrite sumn_swap, <- sumn_opp. apply sumn_ext; intros j Hj. rewrite <- sumn_scal, <- sumn_opp. apply sumn_ext; intros i Hi.
  rewrite (H i j) by auto. ring.
Qed.
Lemma bform_skew_0 n A x : skew n A -> bform n A x x = 0.
Proof. intros H. pose proof (bform_skew n A x x H). lra. Qed.
Lemma bform_vext n A x x' y y' : (forall i, (i < n)%nat -> x i = x' i) -> (forall i, (i < n)%nat -> y i = y' i) ->
  bform n A x y = bform n A x' y'.
Proof.
  intros Hx Hy. unfold bform. apply sumn_ext; intros i Hi. rewrite Hx by auto. f_equal.
  apply sumn_ext; intros j Hj. rewrite Hy; auto.
Qed.
Lemma bform_mulv n A x y : bform n A x y = dot n x (mulv n A y).
Proof. reflexivity. Qed.

Lemma symmetric_lin n c d A B : symmetric n A -> symmetric n B -> symmetric n (fun i j => c * A i j + d * B i j).
Proof. intros HA HB i j Hi Hj. rewrite (HA i j), (HB i j); auto. Qed.

(** destruct an index known to be below a literal bound *)
Ltac case_index i H :=
  match type of H with
  | (i < 0)%nat => exfalso; lia
  | _ => destruct i as [|i]; [|try (case_index i H)]
  end.

(** either some entry below n is nonzero or all are zero *)
Lemma classic_nonzero n (x : vec) : nonzero n x \/ (forall i, (i < n)%nat -> x i = 0).
Proof.
  induction n.
  - right. intros i Hi. lia.
  - destruct IHn as [(i & Hi & Hne)|Z].
    + left. exists i. split; [lia|assumption].
    + destruct (Req_dec (x n) 0) as [E|E].
      * right. intros i Hi. destruct (Nat.eq_dec i n) as [->|]; [assumption|apply Z; lia].
      * left. exists n. split; [lia|assumption].
Qed.
