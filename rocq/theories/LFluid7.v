(** The rows written by mounting_matrix. *)
From Coq Require Import Reals List Arith Bool Lia Lra.
From Verif Require Import PyBase MatBase LMat MDynamics MFluid SpecFilm.
Import ListNotations.
Open Scope R_scope.

Definition rset (v : vec) (b : nat) (x : R) : vec := fun j => if Nat.eqb j b then x else v j.
Lemma mset_row M a b v i : mset M a b v i = if Nat.eqb i a then rset (M i) b v else M i.
Proof. unfold mset, rset. destruct (Nat.eqb i a); reflexivity. Qed.
Lemma mset_same M a b v : mset M a b v a = rset (M a) b v.
Proof. rewrite mset_row, Nat.eqb_refl. reflexivity. Qed.
Lemma mset_other M a b v i : i <> a -> mset M a b v i = M i.
Proof. intros H. rewrite mset_row. apply Nat.eqb_neq in H. rewrite H. reflexivity. Qed.
Lemma rset_same v b x : rset v b x b = x. Proof. unfold rset. rewrite Nat.eqb_refl. reflexivity. Qed.
Lemma rset_other v b x c : c <> b -> rset v b x c = v c. Proof. intros H. unfold rset. apply Nat.eqb_neq in H. rewrite H. reflexivity. Qed.

Lemma fold_rows {A T} (step : (nat -> T) -> A -> nat -> T) (S : A -> nat -> Prop) (upd : A -> nat -> T -> T) : forall l,
  (forall M x a, In x l -> S x a -> step M x a = upd x a (M a)) -> (forall M x a, In x l -> ~ S x a -> step M x a = M a) ->
  NoDup l -> (forall x y a, In x l -> In y l -> S x a -> S y a -> x = y) ->
  (forall x a M, In x l -> S x a -> fold_left step l M a = upd x a (M a)) /\ (forall a M, (forall x, In x l -> ~ S x a) -> fold_left step l M a = M a).
Proof.
  induction l as [|y l IH]; intros H1 H2 Hn Hi.
  - split; [intros x a M []|reflexivity].
  - destruct IH as [I1 I2].
    + intros. apply H1; [right; assumption|assumption].
    + intros. apply H2; [right; assumption|assumption].
    + inversion Hn; assumption.
    + intros. eapply Hi; [right; assumption|right; assumption|eassumption|assumption].
    + inversion Hn as [|? ? Hy _]; subst. split.
      * intros x a M [->|Hx] Sx; cbn [fold_left].
        -- rewrite I2; [apply H1; [left; reflexivity|assumption]|]. intros z Hz Sz. apply Hy. rewrite (Hi x z a); [assumption|left; reflexivity|right; assumption|assumption|assumption].
        -- rewrite (I1 x a _ Hx Sx). f_equal. apply H2; [left; reflexivity|]. intros Sy. apply Hy. rewrite (Hi y x a); [assumption|left; reflexivity|right; assumption|assumption|assumption].
      * intros a M Hz. cbn [fold_left]. rewrite I2 by (intros z Hz'; apply Hz; right; assumption). apply H2; [left; reflexivity|apply Hz; left; reflexivity].
Qed.
Lemma fold_state {St B} (f : St -> nat -> St) (emb : nat -> B -> St) (g : B -> nat -> B) : forall n a M,
  (forall i M, (a <= i < a + n)%nat -> f (emb i M) i = emb (S i) (g M i)) -> fold_left f (seq a n) (emb a M) = emb (a + n)%nat (fold_left g (seq a n) M).
Proof.
  induction n as [|n IH]; intros a M H; cbn [seq fold_left]; [rewrite Nat.add_0_r; reflexivity|]. rewrite H by lia. rewrite IH; [f_equal; lia|]. intros. apply H. lia.
Qed.
Lemma fold_pair {A B} (gA : A -> nat -> A) (gB : B -> nat -> B) l : forall x y, fold_left (fun s j => (gA (fst s) j, gB (snd s) j)) l (x, y) = (fold_left gA l x, fold_left gB l y).
Proof. induction l as [|j l IH]; intros x y; cbn [fold_left fst snd]; [reflexivity|apply IH]. Qed.
Lemma fold_ext {A B} (f g : A -> B -> A) l : (forall x y, In y l -> f x y = g x y) -> forall x, fold_left f l x = fold_left g l x.
Proof. induction l as [|y l IH]; intros H x; [reflexivity|]. cbn [fold_left]. rewrite H by (left; reflexivity). apply IH. intros. apply H. right. assumption. Qed.

Lemma idx_inj nz i j i' j' : (i < nz)%nat -> (i' < nz)%nat -> (j * nz + i)%nat = (j' * nz + i')%nat -> j = j' /\ i = i'.
Proof. intros Hi Hi' E. assert (j = j') by nia. subst. split; [reflexivity|lia]. Qed.

Section Mount.
Variables nz nt : nat.
Variables dz dt pin pout : R.
Variables c1 c2 c0 : mat.
Hypothesis Hz : (2 <= nz)%nat.
Hypothesis Ht : (4 <= nt)%nat.
Local Notation ntot := (nz * nt)%nat.

(** the two end rows *)
Definition bM (M : mat) (j : nat) : mat := mset (mset M (j * nz) (j * nz) 1) (j * nz + nz - 1) (j * nz + nz - 1) 1.
Definition bF (f : vec) (j : nat) : vec := vset (vset f (j * nz) pin) (j * nz + nz - 1) pout.
Lemma bounds_eq M f : mount_bounds nz nt pin pout (0%nat, M, f) = ((nt * nz)%nat, fold_left bM (seq 0 nt) M, fold_left bF (seq 0 nt) f).
Proof.
  unfold mount_bounds. set (F := fun s : nat * mat * vec => _).
  pose proof (fold_state F (fun j (s : mat * vec) => ((j * nz)%nat, fst s, snd s)) (fun s j => (bM (fst s) j, bF (snd s) j)) nt 0%nat (M, f)) as H. cbn [fst snd] in H. change (0 * nz)%nat with 0%nat in H. rewrite H.
  - rewrite fold_pair. reflexivity.
  - intros i [M' f'] _. cbn [fst snd]. unfold F, bM, bF. cbv zeta. f_equal; f_equal; lia.
Qed.
Definition first_step (M : mat) (i : nat) : mat :=
  mset (mset (mset (mset (mset M i (ntot - 2 * nz + i) ((1 / dt ^ 2) * c1 i (nt - 1)%nat)) i (i - 1) ((1 / dz ^ 2) * c2 (i - 1)%nat 0%nat)) i i
    (- ((1 / dt ^ 2) * (c1 i 0%nat + c1 i (nt - 1)%nat) + (1 / dz ^ 2) * (c2 i 0%nat + c2 (i - 1)%nat 0%nat)))) i (i + 1) ((1 / dz ^ 2) * c2 i 0%nat)) i (i + nz) ((1 / dt ^ 2) * c1 i 0%nat).
Lemma first_eq M : mount_first nz nt ntot dz dt c1 c2 M = fold_left first_step (seq 1 (nz - 2)) M.
Proof.
  unfold mount_first. set (F := fun s : nat * mat => _).
  pose proof (fold_state F (fun i (M : mat) => (i, M)) first_step (nz - 2) 1%nat M) as H. cbn [fst snd] in H. rewrite H; [reflexivity|].
  intros i M' _. unfold F, first_step. cbv zeta. f_equal. lia.
Qed.
Definition inner_step (j : nat) (M : mat) (i : nat) : mat := let c := (j * nz + i)%nat in
  mset (mset (mset (mset (mset M c (c - nz) ((1 / dt ^ 2) * c1 i (j - 1)%nat)) c (c - 1) ((1 / dz ^ 2) * c2 (i - 1)%nat j)) c c
    (- ((1 / dt ^ 2) * (c1 i j + c1 i (j - 1)%nat) + (1 / dz ^ 2) * (c2 i j + c2 (i - 1)%nat j)))) c (c + 1) ((1 / dz ^ 2) * c2 i j)) c (c + nz) ((1 / dt ^ 2) * c1 i j).
Lemma inner_eq M : mount_inner nz nt dz dt c1 c2 M = fold_left (fun M j => fold_left (inner_step j) (seq 1 (nz - 2)) M) (seq 1 (nt - 2)) M.
Proof.
  unfold mount_inner. set (F := fun s : nat * mat => _).
  pose proof (fold_state F (fun j (M : mat) => ((j * nz + 1)%nat, M)) (fun M j => fold_left (inner_step j) (seq 1 (nz - 2)) M) (nt - 2) 1%nat M) as H. cbn [fst snd] in H. replace (1 * nz + 1)%nat with (nz + 1)%nat in H by lia. rewrite H; [reflexivity|].
  intros j M' _. unfold F. set (G := fun s : nat * mat => _).
  pose proof (fold_state G (fun i (M : mat) => ((j * nz + i)%nat, M)) (inner_step j) (nz - 2) 1%nat M') as K. cbn [fst snd] in K. rewrite K.
  - f_equal. lia.
  - intros i M2 _. unfold G, inner_step. cbv zeta. f_equal. lia.
Qed.
Definition src (i j : nat) : R := (c0 i j - c0 i (if Nat.eqb j 0 then nt - 1 else j - 1)%nat) / dt.
Lemma source_eq f : mount_source nz nt dt c0 f = fold_left (fun f j => fold_left (fun f i => vset f (j * nz + i) (src i j)) (seq 1 (nz - 2)) f) (seq 0 (nt - 1)) f.
Proof.
  unfold mount_source. set (F := fun s : nat * vec => _).
  pose proof (fold_state F (fun j (f : vec) => ((j * nz + 1)%nat, f)) (fun f j => fold_left (fun f i => vset f (j * nz + i) (src i j)) (seq 1 (nz - 2)) f) (nt - 1) 0%nat f) as H. cbn [fst snd] in H. change (0 * nz + 1)%nat with 1%nat in H. rewrite H; [reflexivity|].
  intros j f' _. unfold F. set (G := fun s : nat * vec => _).
  pose proof (fold_state G (fun i (f : vec) => ((j * nz + i)%nat, f)) (fun f i => vset f (j * nz + i) (src i j)) (nz - 2) 1%nat f') as K. cbn [fst snd] in K. rewrite K.
  - f_equal. lia.
  - intros i M2 _. unfold G, src. f_equal. lia.
Qed.

(** rows after the loops *)
Definition int_row (a : nat) (p q r s : nat) (vp vq va vr vs : R) (v : vec) : vec := rset (rset (rset (rset (rset v p vp) q vq) a va) r vr) s vs.
Lemma five_same M a p q r s vp vq va vr vs : mset (mset (mset (mset (mset M a p vp) a q vq) a a va) a r vr) a s vs a = int_row a p q r s vp vq va vr vs (M a).
Proof. rewrite !mset_same. reflexivity. Qed.
Lemma five_other M a p q r s vp vq va vr vs b : b <> a -> mset (mset (mset (mset (mset M a p vp) a q vq) a a va) a r vr) a s vs b = M b.
Proof. intros H. rewrite !mset_other by exact H. reflexivity. Qed.

Definition row_first (i : nat) (v : vec) : vec := int_row i (ntot - 2 * nz + i) (i - 1) (i + 1) (i + nz)
   ((1 / dt ^ 2) * c1 i (nt - 1)%nat) ((1 / dz ^ 2) * c2 (i - 1)%nat 0%nat) (- ((1 / dt ^ 2) * (c1 i 0%nat + c1 i (nt - 1)%nat) + (1 / dz ^ 2) * (c2 i 0%nat + c2 (i - 1)%nat 0%nat))) ((1 / dz ^ 2) * c2 i 0%nat) ((1 / dt ^ 2) * c1 i 0%nat) v.
Definition row_inner (i j : nat) (v : vec) : vec := int_row (j * nz + i) (j * nz + i - nz) (j * nz + i - 1) (j * nz + i + 1) (j * nz + i + nz)
   ((1 / dt ^ 2) * c1 i (j - 1)%nat) ((1 / dz ^ 2) * c2 (i - 1)%nat j) (- ((1 / dt ^ 2) * (c1 i j + c1 i (j - 1)%nat) + (1 / dz ^ 2) * (c2 i j + c2 (i - 1)%nat j))) ((1 / dz ^ 2) * c2 i j) ((1 / dt ^ 2) * c1 i j) v.

Lemma first_rows M : (forall i, (0 < i < nz - 1)%nat -> fold_left first_step (seq 1 (nz - 2)) M i = row_first i (M i)) /\
  (forall a, (forall i, (0 < i < nz - 1)%nat -> a <> i) -> fold_left first_step (seq 1 (nz - 2)) M a = M a).
Proof.
  destruct (fold_rows first_step (fun i a => a = i) (fun i a v => row_first i v) (seq 1 (nz - 2))) as [F1 F2].
  - intros M' i a Hi ->. apply five_same.
  - intros M' i a Hi N. apply five_other. exact N.
  - apply seq_NoDup.
  - intros x y a _ _ -> E. exact E.
  - split.
    + intros i Hi. apply (F1 i i M); [apply in_seq; lia|reflexivity].
    + intros a Ha. apply F2. intros i Hi. apply Ha. apply in_seq in Hi. lia.
Qed.
Lemma inner_rows_j j M : (forall i, (0 < i < nz - 1)%nat -> fold_left (inner_step j) (seq 1 (nz - 2)) M (j * nz + i)%nat = row_inner i j (M (j * nz + i)%nat)) /\
  (forall a, (forall i, (0 < i < nz - 1)%nat -> a <> (j * nz + i)%nat) -> fold_left (inner_step j) (seq 1 (nz - 2)) M a = M a).
Proof.
  destruct (fold_rows (inner_step j) (fun i a => a = (j * nz + i)%nat) (fun i a v => row_inner i j v) (seq 1 (nz - 2))) as [F1 F2].
  - intros M' i a Hi ->. apply five_same.
  - intros M' i a Hi N. apply five_other. exact N.
  - apply seq_NoDup.
  - intros x y a _ _ E1 E2. lia.
  - split.
    + intros i Hi. apply (F1 i _ M); [apply in_seq; lia|reflexivity].
    + intros a Ha. apply F2. intros i Hi. apply Ha. apply in_seq in Hi. lia.
Qed.
Lemma inner_rows M : let N := fold_left (fun M j => fold_left (inner_step j) (seq 1 (nz - 2)) M) (seq 1 (nt - 2)) M in
  (forall i j, (0 < i < nz - 1)%nat -> (0 < j < nt - 1)%nat -> N (j * nz + i)%nat = row_inner i j (M (j * nz + i)%nat)) /\
  (forall a, (forall i j, (0 < i < nz - 1)%nat -> (0 < j < nt - 1)%nat -> a <> (j * nz + i)%nat) -> N a = M a).
Proof.
  intros N. destruct (fold_rows (fun M j => fold_left (inner_step j) (seq 1 (nz - 2)) M) (fun j a => exists i, (0 < i < nz - 1)%nat /\ a = (j * nz + i)%nat) (fun j a v => row_inner (a - j * nz) j v) (seq 1 (nt - 2))) as [F1 F2].
  - intros M' j a Hj (i & Hi & ->). replace (j * nz + i - j * nz)%nat with i by lia. apply (inner_rows_j j M'). exact Hi.
  - intros M' j a Hj Na. apply (inner_rows_j j M'). intros i Hi E. apply Na. exists i. split; assumption.
  - apply seq_NoDup.
  - intros x y a _ _ (i & Hi & ->) (i' & Hi' & E). apply idx_inj in E; lia.
  - split.
    + intros i j Hi Hj. unfold N. rewrite (F1 j); [f_equal; lia|apply in_seq; lia|exists i; split; [exact Hi|reflexivity]].
    + intros a Ha. apply F2. intros j Hj (i & Hi & E). apply in_seq in Hj. apply (Ha i j); [exact Hi|lia|exact E].
Qed.
Lemma period_rows M : let N := mount_period nz ntot M in
  (forall i, (0 < i < nz - 1)%nat -> N ((nt - 1) * nz + i)%nat = rset (rset (M ((nt - 1) * nz + i)%nat) i 1) ((nt - 1) * nz + i) (-1)) /\
  (forall a, (forall i, (0 < i < nz - 1)%nat -> a <> ((nt - 1) * nz + i)%nat) -> N a = M a).
Proof.
  intros N. assert (E : forall c, (ntot - nz + 1 + c)%nat = ((nt - 1) * nz + (c + 1))%nat) by (intros c; nia).
  unfold N, mount_period. set (F := fun M count => _).
  destruct (fold_rows F (fun c a => a = ((nt - 1) * nz + (c + 1))%nat) (fun c a v => rset (rset v (1 + c) 1) a (-1)) (seq 0 (nz - 2))) as [F1 F2].
  - intros M' c a _ ->. unfold F. rewrite !E. rewrite !mset_same. reflexivity.
  - intros M' c a _ Na. unfold F. rewrite !E. rewrite !mset_other by exact Na. reflexivity.
  - apply seq_NoDup.
  - intros x y a _ _ -> X. lia.
  - split.
    + intros i Hi. rewrite (F1 (i - 1)%nat); [f_equal; f_equal; lia|apply in_seq; lia|f_equal; lia].
    + intros a Ha. apply F2. intros c Hc X. apply in_seq in Hc. apply (Ha (c + 1)%nat); [lia|exact X].
Qed.
Lemma bounds_rows M : let N := fold_left bM (seq 0 nt) M in
  (forall j, (j < nt)%nat -> N (j * nz)%nat = rset (M (j * nz)%nat) (j * nz) 1 /\ N (j * nz + nz - 1)%nat = rset (M (j * nz + nz - 1)%nat) (j * nz + nz - 1) 1) /\
  (forall a, (forall j, (j < nt)%nat -> a <> (j * nz)%nat /\ a <> (j * nz + nz - 1)%nat) -> N a = M a).
Proof.
  intros N. destruct (fold_rows bM (fun j a => a = (j * nz)%nat \/ a = (j * nz + nz - 1)%nat) (fun j a v => rset v a 1) (seq 0 nt)) as [F1 F2].
  - intros M' j a _ [->| ->]; unfold bM; [rewrite mset_other by lia|]; rewrite mset_same; [reflexivity|rewrite mset_other by lia; reflexivity].
  - intros M' j a _ Na. unfold bM. rewrite !mset_other; [reflexivity| |]; intros ->; apply Na; [left|right]; reflexivity.
  - apply seq_NoDup.
  - intros x y a _ _ Ex Ey. assert (H : forall j, a = (j * nz)%nat \/ a = (j * nz + nz - 1)%nat -> exists i, (i < nz)%nat /\ a = (j * nz + i)%nat) by (intros j [->| ->]; [exists 0%nat|exists (nz - 1)%nat]; lia). destruct (H x Ex) as (i & Hi & ->). destruct (H y Ey) as (i' & Hi' & E). apply idx_inj in E; lia.
  - split.
    + intros j Hj. split; unfold N; (rewrite (F1 j); [reflexivity|apply in_seq; lia|]); [left|right]; reflexivity.
    + intros a Ha. apply F2. intros j Hj E. apply in_seq in Hj. destruct (Ha j) as [A B]; [lia|]. destruct E; auto.
Qed.

Lemma source_rows f : let g := fold_left (fun f j => fold_left (fun f i => vset f (j * nz + i) (src i j)) (seq 1 (nz - 2)) f) (seq 0 (nt - 1)) f in
  (forall i j, (0 < i < nz - 1)%nat -> (j < nt - 1)%nat -> g (j * nz + i)%nat = src i j) /\
  (forall a, (forall i j, (0 < i < nz - 1)%nat -> (j < nt - 1)%nat -> a <> (j * nz + i)%nat) -> g a = f a).
Proof.
  assert (V1 : forall f a x, vset f a x a = x) by (intros; unfold vset; rewrite Nat.eqb_refl; reflexivity). assert (V2 : forall f a b x, b <> a -> vset f a x b = f b) by (intros f0 a b x Hn; unfold vset; apply Nat.eqb_neq in Hn; rewrite Hn; reflexivity).
  assert (J : forall j f, (forall i, (0 < i < nz - 1)%nat -> fold_left (fun f i => vset f (j * nz + i) (src i j)) (seq 1 (nz - 2)) f (j * nz + i)%nat = src i j) /\ (forall a, (forall i, (0 < i < nz - 1)%nat -> a <> (j * nz + i)%nat) -> fold_left (fun f i => vset f (j * nz + i) (src i j)) (seq 1 (nz - 2)) f a = f a)).
  { intros j f0. destruct (fold_rows (fun f i => vset f (j * nz + i) (src i j)) (fun i a => a = (j * nz + i)%nat) (fun i a v => src i j) (seq 1 (nz - 2))) as [F1 F2].
    - intros M' i a Hi ->. apply V1.
    - intros M' i a Hi N. apply V2. exact N.
    - apply seq_NoDup.
    - intros x y a _ _ E1 E2. lia.
    - split.
      + intros i Hi. apply (F1 i _ f0); [apply in_seq; lia|reflexivity].
      + intros a Ha. apply F2. intros i Hi. apply Ha. apply in_seq in Hi. lia. }
  intros g. destruct (fold_rows (fun f j => fold_left (fun f i => vset f (j * nz + i) (src i j)) (seq 1 (nz - 2)) f) (fun j a => exists i, (0 < i < nz - 1)%nat /\ a = (j * nz + i)%nat) (fun j a v => src (a - j * nz) j) (seq 0 (nt - 1))) as [F1 F2].
  - intros M' j a Hj (i & Hi & ->). replace (j * nz + i - j * nz)%nat with i by lia. apply (J j M'). exact Hi.
  - intros M' j a Hj Na. apply (J j M'). intros i Hi E. apply Na. exists i. split; assumption.
  - apply seq_NoDup.
  - intros x y a _ _ (i & Hi & ->) (i' & Hi' & E). apply idx_inj in E; lia.
  - split.
    + intros i j Hi Hj. unfold g. rewrite (F1 j); [f_equal; lia|apply in_seq; lia|exists i; split; [exact Hi|reflexivity]].
    + intros a Ha. apply F2. intros j Hj (i & Hi & E). apply in_seq in Hj. apply (Ha i j); [exact Hi|lia|exact E].
Qed.
Lemma bF_rows f : let g := fold_left bF (seq 0 nt) f in forall j, (j < nt)%nat -> g (j * nz)%nat = pin /\ g (j * nz + nz - 1)%nat = pout.
Proof.
  intros g. destruct (fold_rows bF (fun j a => a = (j * nz)%nat \/ a = (j * nz + nz - 1)%nat) (fun j a v => if Nat.eqb a (j * nz) then pin else pout) (seq 0 nt)) as [F1 _].
  - intros M' j a _ H. unfold bF, vset. destruct H as [->| ->].
    + rewrite Nat.eqb_refl. replace (j * nz =? j * nz + nz - 1)%nat with false by (symmetry; apply Nat.eqb_neq; lia). reflexivity.
    + rewrite Nat.eqb_refl. replace (j * nz + nz - 1 =? j * nz)%nat with false by (symmetry; apply Nat.eqb_neq; lia). reflexivity.
  - intros M' j a _ Na. unfold bF, vset. destruct (Nat.eqb_spec a (j * nz + nz - 1)); [exfalso; apply Na; right; assumption|]. destruct (Nat.eqb_spec a (j * nz)); [exfalso; apply Na; left; assumption|reflexivity].
  - apply seq_NoDup.
  - intros x y a _ _ Ex Ey. assert (H : forall j, a = (j * nz)%nat \/ a = (j * nz + nz - 1)%nat -> exists i, (i < nz)%nat /\ a = (j * nz + i)%nat) by (intros j [->| ->]; [exists 0%nat|exists (nz - 1)%nat]; lia). destruct (H x Ex) as (i & Hi & ->). destruct (H y Ey) as (i' & Hi' & E). apply idx_inj in E; lia.
  - intros j Hj. split; unfold g; (rewrite (F1 j); [|apply in_seq; lia|]).
    + rewrite Nat.eqb_refl. reflexivity.
    + left. reflexivity.
    + replace (j * nz + nz - 1 =? j * nz)%nat with false by (symmetry; apply Nat.eqb_neq; lia). reflexivity.
    + right. reflexivity.
Qed.
Lemma bF_other f a : (forall j, (j < nt)%nat -> a <> (j * nz)%nat /\ a <> (j * nz + nz - 1)%nat) -> fold_left bF (seq 0 nt) f a = f a.
Proof.
  intros Ha. generalize (fun j => proj1 (in_seq nt 0 j)). intros Hs. revert f. assert (forall l f, (forall j, In j l -> (j < nt)%nat) -> fold_left bF l f a = f a) as H.
  { induction l as [|j l IH]; intros f Hl; [reflexivity|]. cbn [fold_left]. rewrite IH by (intros; apply Hl; right; assumption). destruct (Ha j) as [A B]; [apply Hl; left; reflexivity|]. unfold bF, vset. apply Nat.eqb_neq in A, B. rewrite A, B. reflexivity. }
  intros f. apply H. intros j Hj. apply Hs in Hj. lia.
Qed.

(** the system, row by row *)
Lemma mount_rows M b : mounting_matrix nz nt dz dt pin pout c1 c2 c0 = (M, b) ->
  (forall j, (j < nt)%nat -> M (j * nz)%nat = rset (mzero (j * nz)%nat) (j * nz) 1 /\ b (j * nz)%nat = pin) /\
  (forall j, (j < nt)%nat -> M (j * nz + (nz - 1))%nat = rset (mzero (j * nz + (nz - 1))%nat) (j * nz + (nz - 1)) 1 /\ b (j * nz + (nz - 1))%nat = pout) /\
  (forall i, (0 < i < nz - 1)%nat -> M ((nt - 1) * nz + i)%nat = rset (rset (mzero ((nt - 1) * nz + i)%nat) i 1) ((nt - 1) * nz + i) (-1) /\ b ((nt - 1) * nz + i)%nat = 0) /\
  (forall i, (0 < i < nz - 1)%nat -> M i = row_first i (mzero i) /\ b i = src i 0) /\
  (forall i j, (0 < i < nz - 1)%nat -> (0 < j < nt - 1)%nat -> M (j * nz + i)%nat = row_inner i j (mzero (j * nz + i)%nat) /\ b (j * nz + i)%nat = src i j).
Proof.
  unfold mounting_matrix. rewrite bounds_eq, first_eq, inner_eq, source_eq. intros E. injection E as <- <-.
  set (M0 := fold_left bM (seq 0 nt) mzero). set (M1 := mount_period nz ntot M0). set (M2 := fold_left first_step (seq 1 (nz - 2)) M1). set (f0 := fold_left bF (seq 0 nt) (fun _ => 0)).
  destruct (inner_rows M2) as [I1 I2]. destruct (first_rows M1) as [A1 A2]. destruct (period_rows M0) as [P1 P2]. destruct (bounds_rows mzero) as [B1 B2]. fold M0 in B1, B2. fold M1 in P1, P2. fold M2 in A1, A2. destruct (source_rows f0) as [S1 S2]. pose proof (bF_rows (fun _ => 0)) as G1. pose proof (bF_other (fun _ => 0)) as G2. fold f0 in G1, G2. cbv zeta in *.
  assert (End : forall j i, (i = 0 \/ i = nz - 1)%nat -> forall i' j', (0 < i' < nz - 1)%nat -> (j * nz + i)%nat <> (j' * nz + i')%nat) by (intros j i Hi i' j' Hi' X; apply idx_inj in X; lia).
  assert (Int : forall i j, (0 < i < nz - 1)%nat -> forall j', (j' < nt)%nat -> (j * nz + i)%nat <> (j' * nz)%nat /\ (j * nz + i)%nat <> (j' * nz + nz - 1)%nat).
  { intros i j Hi j' _. split; intros X; [assert (X' : (j * nz + i = j' * nz + 0)%nat) by lia|assert (X' : (j * nz + i = j' * nz + (nz - 1))%nat) by lia]; apply idx_inj in X'; lia. }
  assert (EndR : forall j i, (i = 0 \/ i = nz - 1)%nat -> fold_left (fun M j => fold_left (inner_step j) (seq 1 (nz - 2)) M) (seq 1 (nt - 2)) M2 (j * nz + i)%nat = M0 (j * nz + i)%nat).
  { intros j i Hi. rewrite I2 by (intros; apply End; assumption). rewrite A2 by (intros i' Hi'; apply (End j i Hi i' 0%nat Hi')). apply P2. intros i' Hi'. apply End; assumption. }
  assert (EndB : forall j i, (i = 0 \/ i = nz - 1)%nat -> fold_left (fun f j => fold_left (fun f i => vset f (j * nz + i) (src i j)) (seq 1 (nz - 2)) f) (seq 0 (nt - 1)) f0 (j * nz + i)%nat = f0 (j * nz + i)%nat).
  { intros j i Hi. apply S2. intros. apply End; assumption. }
  split; [|split; [|split; [|split]]].
  - intros j Hj. pose proof (EndR j 0%nat (or_introl eq_refl)) as X. pose proof (EndB j 0%nat (or_introl eq_refl)) as Y. rewrite Nat.add_0_r in X, Y. rewrite X, Y. split; [apply (B1 j Hj)|apply (G1 j Hj)].
  - intros j Hj. rewrite (EndR j (nz - 1)%nat) by (right; reflexivity). rewrite (EndB j (nz - 1)%nat) by (right; reflexivity). replace (j * nz + (nz - 1))%nat with (j * nz + nz - 1)%nat by lia. split; [apply (B1 j Hj)|apply (G1 j Hj)].
  - intros i Hi. split.
    + rewrite I2 by (intros i' j' Hi' Hj' X; apply idx_inj in X; lia). rewrite A2 by (intros i' Hi' X; assert (X' : ((nt - 1) * nz + i = 0 * nz + i')%nat) by lia; apply idx_inj in X'; lia). rewrite (P1 i Hi). f_equal. f_equal. apply B2. apply Int; exact Hi.
    + rewrite S2 by (intros i' j' Hi' Hj' X; apply idx_inj in X; lia). apply G2. apply Int; exact Hi.
  - intros i Hi. split.
    + rewrite I2 by (intros i' j' Hi' Hj' X; assert (X' : (0 * nz + i = j' * nz + i')%nat) by lia; apply idx_inj in X'; lia). rewrite (A1 i Hi). f_equal. rewrite P2 by (intros i' Hi' X; assert (X' : (0 * nz + i = (nt - 1) * nz + i')%nat) by lia; apply idx_inj in X'; lia). apply B2. apply (Int i 0%nat Hi).
    + apply (S1 i 0%nat); [exact Hi|lia].
  - intros i j Hi Hj. split; [|apply S1; lia]. rewrite (I1 i j Hi Hj). f_equal. rewrite A2 by (intros i' Hi' X; assert (X' : (j * nz + i = 0 * nz + i')%nat) by lia; apply idx_inj in X'; lia). rewrite P2 by (intros i' Hi' X; apply idx_inj in X; lia). apply B2. apply Int; exact Hi.
Qed.

Lemma dot_rset n v b x X : (b < n)%nat -> sumn n (fun k => rset v b x k * X k) = sumn n (fun k => v k * X k) + (x - v b) * X b.
Proof.
  intros H. assert (E : sumn n (fun k => rset v b x k * X k - v k * X k) = (x - v b) * X b).
  { rewrite (sumn_single n _ b H); [rewrite rset_same; ring|]. intros i _ Hi. rewrite rset_other by exact Hi. ring. }
  rewrite sumn_minus in E. lra.
Qed.
Lemma dot_zero n a X : sumn n (fun k => mzero a k * X k) = 0.
Proof. apply sumn_0. intros. unfold mzero. ring. Qed.
Lemma dot_int n a p q r s vp vq va vr vs X : (a < n)%nat -> (p < n)%nat -> (q < n)%nat -> (r < n)%nat -> (s < n)%nat -> NoDup [p; q; a; r; s] ->
  sumn n (fun k => int_row a p q r s vp vq va vr vs (mzero a) k * X k) = vp * X p + vq * X q + va * X a + vr * X r + vs * X s.
Proof.
  intros Ha Hp Hq Hr Hs Hn. assert (D : (p <> q /\ p <> a /\ p <> r /\ p <> s /\ q <> a /\ q <> r /\ q <> s /\ a <> r /\ a <> s /\ r <> s)%nat).
  { repeat (inversion Hn as [|? ? ?N Hn']; subst; clear Hn; rename Hn' into Hn; cbn [In] in *). repeat split; intros ->; tauto. }
  unfold int_row. rewrite !dot_rset by assumption. rewrite dot_zero. rewrite !rset_other by (intros E; lia). unfold mzero. ring.
Qed.

Lemma system_grid M b X : mounting_matrix nz nt dz dt pin pout c1 c2 c0 = (M, b) -> dz <> 0 -> dt <> 0 ->
  ((forall a, (a < ntot)%nat -> mulv ntot M X a = b a) <-> film_grid nz nt dz dt pin pout c1 c2 c0 (fun i j => X (j * nz + i)%nat)).
Proof.
  intros E Ndz Ndt. destruct (mount_rows M b E) as (R1 & R2 & R3 & R4 & R5). unfold mulv.
  assert (In_ : forall i j, (i < nz)%nat -> (j < nt)%nat -> (j * nz + i < ntot)%nat) by (intros; nia).
  assert (Q1 : forall j, (j < nt)%nat -> (sumn ntot (fun k => M (j * nz)%nat k * X k) = b (j * nz)%nat <-> X (j * nz + 0)%nat = pin)).
  { intros j Hj. destruct (R1 j Hj) as [-> ->]. rewrite dot_rset by (specialize (In_ 0%nat j); lia). rewrite dot_zero, Nat.add_0_r. unfold mzero. split; intros; lra. }
  assert (Q2 : forall j, (j < nt)%nat -> (sumn ntot (fun k => M (j * nz + (nz - 1))%nat k * X k) = b (j * nz + (nz - 1))%nat <-> X (j * nz + (nz - 1))%nat = pout)).
  { intros j Hj. destruct (R2 j Hj) as [-> ->]. rewrite dot_rset by (apply In_; lia). rewrite dot_zero. unfold mzero. split; intros; lra. }
  assert (Q3 : forall i, (0 < i < nz - 1)%nat -> (sumn ntot (fun k => M ((nt - 1) * nz + i)%nat k * X k) = b ((nt - 1) * nz + i)%nat <-> X ((nt - 1) * nz + i)%nat = X (0 * nz + i)%nat)).
  { intros i Hi. destruct (R3 i Hi) as [-> ->]. rewrite !dot_rset; [|specialize (In_ i 0%nat); lia|apply In_; lia]. rewrite dot_zero. rewrite rset_other by nia. unfold mzero. rewrite Nat.mul_0_l, Nat.add_0_l. split; intros; lra. }
  assert (Q4 : forall i, (0 < i < nz - 1)%nat -> (sumn ntot (fun k => M i k * X k) = b i <->
     (flow_t dt c1 c0 (fun i j => X (j * nz + i)%nat) i 0 - flow_seam nt dt c1 c0 (fun i j => X (j * nz + i)%nat) i) / dt + (flow_z dz c2 (fun i j => X (j * nz + i)%nat) i 0 - flow_z dz c2 (fun i j => X (j * nz + i)%nat) (i - 1) 0) / dz = 0)).
  { intros i Hi. destruct (R4 i Hi) as [-> ->]. unfold row_first. rewrite dot_int; [|nia|nia|nia|nia|nia|].
    2:{ repeat (apply NoDup_cons; [cbn [In]; intuition nia|]). apply NoDup_nil. }
    unfold flow_t, flow_seam, flow_z, src. cbn [Nat.eqb]. rewrite !Nat.mul_0_l, !Nat.add_0_l, !Nat.mul_1_l. replace (i - 1 + 1)%nat with i by lia. replace (ntot - 2 * nz + i)%nat with ((nt - 2) * nz + i)%nat by nia. rewrite (Nat.add_comm i nz).
    match goal with |- (?l = ?r <-> ?z = 0) => assert (K : l - r = z) by (field; split; assumption) end. split; intros; lra. }
  assert (Q5 : forall i j, (0 < i < nz - 1)%nat -> (0 < j < nt - 1)%nat -> (sumn ntot (fun k => M (j * nz + i)%nat k * X k) = b (j * nz + i)%nat <->
     (flow_t dt c1 c0 (fun i j => X (j * nz + i)%nat) i j - flow_t dt c1 c0 (fun i j => X (j * nz + i)%nat) i (j - 1)) / dt + (flow_z dz c2 (fun i j => X (j * nz + i)%nat) i j - flow_z dz c2 (fun i j => X (j * nz + i)%nat) (i - 1) j) / dz = 0)).
  { intros i j Hi Hj. destruct (R5 i j Hi Hj) as [-> ->]. unfold row_inner. rewrite dot_int; [|nia|nia|nia|nia|nia|].
    2:{ repeat (apply NoDup_cons; [cbn [In]; intuition nia|]). apply NoDup_nil. }
    unfold flow_t, flow_z, src. replace (j =? 0)%nat with false by (symmetry; apply Nat.eqb_neq; lia). replace (i - 1 + 1)%nat with i by lia. replace (j - 1 + 1)%nat with j by lia. replace (j * nz + i - nz)%nat with ((j - 1) * nz + i)%nat by nia. replace (j * nz + i - 1)%nat with (j * nz + (i - 1))%nat by lia. replace (j * nz + i + 1)%nat with (j * nz + (i + 1))%nat by lia. replace (j * nz + i + nz)%nat with ((j + 1) * nz + i)%nat by nia.
    match goal with |- (?l = ?r <-> ?z = 0) => assert (K : l - r = z) by (field; split; assumption) end. split; intros; lra. }
  split.
  - intros H. constructor.
    + intros j Hj. apply (Q1 j Hj). apply H. specialize (In_ 0%nat j). lia.
    + intros j Hj. apply (Q2 j Hj). apply H. apply In_; lia.
    + intros i Hi. apply (Q3 i Hi). apply H. apply In_; lia.
    + intros i j Hi Hj. apply (Q5 i j Hi Hj). apply H. apply In_; lia.
    + intros i Hi. apply (Q4 i Hi). apply H. specialize (In_ i 0%nat). lia.
  - intros [G1 G2 G3 G4 G5] a Ha. assert (Da : exists i j, (i < nz)%nat /\ (j < nt)%nat /\ a = (j * nz + i)%nat).
    { exists (a mod nz)%nat, (a / nz)%nat. pose proof (Nat.mod_upper_bound a nz). pose proof (Nat.div_mod a nz). split; [lia|]. split; [apply Nat.div_lt_upper_bound; lia|]. rewrite Nat.mul_comm. lia. }
    destruct Da as (i & j & Hi & Hj & ->). destruct (Nat.eq_dec i 0) as [->|]; [rewrite Nat.add_0_r; apply (Q1 j Hj); apply (G1 j Hj)|]. destruct (Nat.eq_dec i (nz - 1)) as [->|]; [apply (Q2 j Hj); apply (G2 j Hj)|].
    destruct (Nat.eq_dec j (nt - 1)) as [->|]; [apply Q3; [lia|apply G3; lia]|]. destruct (Nat.eq_dec j 0) as [->|]; [rewrite Nat.mul_0_l, Nat.add_0_l; apply Q4; [lia|apply G5; lia]|]. apply Q5; [lia|lia|apply G4; lia].
Qed.
End Mount.
