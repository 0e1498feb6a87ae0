(** Square linear systems over a field: either every right-hand side has a solution or the
    homogeneous system has a nonzero one. *)
From Coq Require Import Arith Lia Ring Field.

Section Gauss.
Variables (F : Type) (f0 f1 : F) (fadd fmul fsub : F -> F -> F) (fopp : F -> F) (fdiv : F -> F -> F) (finv : F -> F).
Hypothesis FT : field_theory f0 f1 fadd fmul fsub fopp fdiv finv eq.
Hypothesis Fdec : forall x y : F, {x = y} + {x <> y}.
Add Field Ffield : FT.
Fixpoint fsum (n : nat) (g : nat -> F) : F := match n with O => f0 | S k => fadd (fsum k g) (g k) end.

Lemma fsum_ext n g h : (forall i, i < n -> g i = h i) -> fsum n g = fsum n h.
Proof. induction n; intros H; simpl; auto. rewrite IHn, H; auto. Qed.
Lemma fsum_lin n c d g h : fsum n (fun i => fsub (fmul c (g i)) (fmul d (h i))) = fsub (fmul c (fsum n g)) (fmul d (fsum n h)).
Proof. induction n; simpl; [ring|]. rewrite IHn. ring. Qed.
Lemma fsum_0 n g : (forall i, i < n -> g i = f0) -> fsum n g = f0.
Proof. induction n; intros H; simpl; auto. rewrite IHn, H; auto. ring. Qed.

Definition swap (p n i : nat) : nat := if Nat.eqb i p then n else if Nat.eqb i n then p else i.
Lemma swap_inv p n i : swap p n (swap p n i) = i.
Proof. unfold swap. destruct (Nat.eqb_spec i p); [destruct (Nat.eqb_spec n p); [lia|rewrite Nat.eqb_refl; lia]|].
  destruct (Nat.eqb_spec i n); [rewrite Nat.eqb_refl; lia|]. rewrite (proj2 (Nat.eqb_neq i p)), (proj2 (Nat.eqb_neq i n)); auto. Qed.

Lemma find_pivot n (A : nat -> nat -> F) c : {p | p < n /\ A p c <> f0} + {forall i, i < n -> A i c = f0}.
Proof.
  induction n. { right. lia. }
  destruct IHn as [(p & Hp & H)|H]. { left. exists p. split; auto. }
  destruct (Fdec (A n c) f0) as [E|E].
  - right. intros i Hi. destruct (Nat.eq_dec i n) as [->|]; auto. apply H. lia.
  - left. exists n. split; auto.
Qed.

(** one elimination step is sound *)
Lemma eliminate n (A : nat -> nat -> F) p y b : p < S n -> A p n <> f0 ->
  let s := swap p n in
  let A' := fun i j => fsub (A (s i) j) (fmul (fdiv (A (s i) n) (A p n)) (A p j)) in
  (forall i, i < n -> fsum n (fun j => fmul (A' i j) (y j)) = fsub (b (s i)) (fmul (fdiv (A (s i) n) (A p n)) (b p))) ->
  let x := fun j => if Nat.eqb j n then fdiv (fsub (b p) (fsum n (fun k => fmul (A p k) (y k)))) (A p n) else y j in
  forall i, i < S n -> fsum (S n) (fun j => fmul (A i j) (x j)) = b i.
Proof.
  intros Hp Ha s A' H x i Hi.
  assert (Ex : forall k, fsum n (fun j => fmul (A k j) (x j)) = fsum n (fun j => fmul (A k j) (y j))).
  { intros k. apply fsum_ext. intros j Hj. unfold x. rewrite (proj2 (Nat.eqb_neq j n)) by lia. reflexivity. }
  simpl. rewrite Ex. unfold x at 1. rewrite Nat.eqb_refl.
  destruct (Nat.eq_dec i p) as [->|Hn].
  - field. exact Ha.
  - assert (Hs : s i < n). { unfold s, swap. rewrite (proj2 (Nat.eqb_neq i p)) by auto. destruct (Nat.eqb_spec i n); lia. }
    specialize (H (s i) Hs). unfold A' in H. assert (Es : s (s i) = i) by apply swap_inv. rewrite Es in H.
    rewrite (fsum_ext n _ (fun j => fsub (fmul f1 (fmul (A i j) (y j))) (fmul (fdiv (A i n) (A p n)) (fmul (A p j) (y j))))) in H.
    2:{ intros; ring. }
    rewrite fsum_lin in H.
    assert (E : fsum n (fun j => fmul (A i j) (y j)) =
      fadd (fsub (b i) (fmul (fdiv (A i n) (A p n)) (b p))) (fmul (fdiv (A i n) (A p n)) (fsum n (fun j => fmul (A p j) (y j))))).
    { rewrite <- H. ring. }
    rewrite E. field. exact Ha.
Qed.

Lemma gauss n : forall A : nat -> nat -> F,
  {f : (nat -> F) -> nat -> F | forall b i, i < n -> fsum n (fun j => fmul (A i j) (f b j)) = b i} +
  {x : nat -> F | (exists i, i < n /\ x i <> f0) /\ forall i, i < n -> fsum n (fun j => fmul (A i j) (x j)) = f0}.
Proof.
  induction n; intros A.
  - left. exists (fun _ _ => f0). intros; lia.
  - destruct (find_pivot (S n) A n) as [(p & Hp & Ha)|H0].
    + set (s := swap p n).
      destruct (IHn (fun i j => fsub (A (s i) j) (fmul (fdiv (A (s i) n) (A p n)) (A p j)))) as [(f & Hf)|(x & Hx & H)].
      * left. exists (fun b => let y := f (fun i => fsub (b (s i)) (fmul (fdiv (A (s i) n) (A p n)) (b p))) in
                     fun j => if Nat.eqb j n then fdiv (fsub (b p) (fsum n (fun k => fmul (A p k) (y k)))) (A p n) else y j).
        intros b i Hi. cbv zeta. apply (eliminate n A p _ b Hp Ha); auto. intros k Hk. exact (Hf _ k Hk).
      * right. exists (fun j => if Nat.eqb j n then fdiv (fsub f0 (fsum n (fun k => fmul (A p k) (x k)))) (A p n) else x j).
        split.
        -- destruct Hx as (i & Hi & Hx). exists i. split; [lia|]. rewrite (proj2 (Nat.eqb_neq i n)) by lia. exact Hx.
        -- intros k Hk. apply (eliminate n A p x (fun _ => f0) Hp Ha); auto.
           intros l Hl. cbv beta. etransitivity; [exact (H l Hl)|]. field. exact Ha.
    + right. exists (fun j => if Nat.eqb j n then f1 else f0). split.
      * exists n. split; [lia|]. rewrite Nat.eqb_refl. intros E. exact (F_1_neq_0 FT E).
      * intros i Hi. cbn [fsum]. rewrite Nat.eqb_refl, (H0 i Hi), fsum_0; [ring|].
        intros j Hj. rewrite (proj2 (Nat.eqb_neq j n)) by lia. ring.
Qed.

Lemma fsum_plus n g h : fsum n (fun i => fadd (g i) (h i)) = fadd (fsum n g) (fsum n h).
Proof. induction n; simpl; [ring|]. rewrite IHn. ring. Qed.
Lemma fsum_scal n c g : fsum n (fun i => fmul c (g i)) = fmul c (fsum n g).
Proof. induction n; simpl; [ring|]. rewrite IHn. ring. Qed.
Lemma fsum_swap n m g : fsum n (fun i => fsum m (fun j => g i j)) = fsum m (fun j => fsum n (fun i => g i j)).
Proof. induction n; simpl. - symmetry. apply fsum_0. auto. - rewrite IHn, <- fsum_plus. reflexivity. Qed.
Lemma fsum_single n g k : k < n -> (forall i, i < n -> i <> k -> g i = f0) -> fsum n g = g k.
Proof.
  induction n; intros Hk H; [lia|]. simpl. destruct (Nat.eq_dec k n) as [->|Hn].
  - rewrite fsum_0; [ring|]. intros; apply H; lia.
  - rewrite IHn; [|lia|intros; apply H; lia]. rewrite (H n); [ring|lia|auto].
Qed.
Definition fmv n (A : nat -> nat -> F) x i := fsum n (fun j => fmul (A i j) (x j)).
Lemma adjoint n (A : nat -> nat -> F) x y :
  fsum n (fun k => fmul (x k) (fmv n A y k)) = fsum n (fun l => fmul (y l) (fmv n (fun i j => A j i) x l)).
Proof.
  unfold fmv. rewrite (fsum_ext n _ (fun k => fsum n (fun j => fmul (x k) (fmul (A k j) (y j))))) by (intros; rewrite fsum_scal; reflexivity).
  rewrite fsum_swap. apply fsum_ext. intros l _. rewrite <- fsum_scal. apply fsum_ext. intros; ring.
Qed.
(** if A has a solution for every right-hand side then its transpose is injective *)
Lemma surj_adj_inj n A f : (forall b i, i < n -> fmv n A (f b) i = b i) -> forall x, (forall i, i < n -> fmv n (fun i j => A j i) x i = f0) -> forall i, i < n -> x i = f0.
Proof.
  intros Hf x Hx i Hi. pose proof (adjoint n A x (f (fun j => if Nat.eqb j i then f1 else f0))) as E.
  rewrite (fsum_0 n (fun l => fmul _ (fmv n (fun i j => A j i) x l))) in E by (intros l Hl; rewrite Hx by auto; ring).
  rewrite (fsum_single n _ i Hi) in E.
  - rewrite Hf, Nat.eqb_refl in E by auto. rewrite <- E. ring.
  - intros k Hk Hn. rewrite Hf, (proj2 (Nat.eqb_neq k i)) by auto. ring.
Qed.
Lemma surj_inj n A f : (forall b i, i < n -> fmv n A (f b) i = b i) -> forall x, (forall i, i < n -> fmv n A x i = f0) -> forall i, i < n -> x i = f0.
Proof.
  intros Hf x Hx i Hi. destruct (gauss n (fun i j => A j i)) as [(g & Hg)|(z & (k & Hk & Hz) & H)].
  - apply (surj_adj_inj n (fun i j => A j i) g Hg x); auto.
  - exfalso. apply Hz. apply (surj_adj_inj n A f Hf z); auto.
Qed.
End Gauss.
