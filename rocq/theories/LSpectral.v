(** The generalised symmetric eigenproblem A v = w B v, with B positive definite, always has a complete set of eigenvectors. *)
From Coq Require Import Reals List Arith Bool Lia Lra Classical.
From Verif Require Import PyBase MatBase SpecMat LMat LCMat MTime SpecTime LTime LDynamics MPseudo SpecPseudo LPseudo LPseudo2.
Import ListNotations.
Open Scope R_scope.

(** ** positive definite matrices are bounded below *)
Lemma bform_last n P x : symmetric (S n) P -> P n n <> 0 ->
  bform (S n) P x x = P n n * (x n + sumn n (fun j => P n j / P n n * x j)) ^ 2 + bform n (fun i j => P i j - P n i * P n j / P n n) x x.
Proof.
  intros Sy N. unfold bform. cbn [sumn]. set (L := sumn n (fun j => P n j * x j)).
  assert (E1 : sumn n (fun i => x i * (sumn n (fun j => P i j * x j) + P i n * x n)) = sumn n (fun i => x i * sumn n (fun j => P i j * x j)) + x n * L).
  { unfold L. rewrite <- sumn_scal, <- sumn_plus. apply sumn_ext. intros i Hi. rewrite (Sy i n) by lia. ring. }
  assert (E2 : sumn n (fun j => P n j / P n n * x j) = L / P n n).
  { unfold L, Rdiv. rewrite (Rmult_comm (sumn _ _)), <- sumn_scal. apply sumn_ext. intros; ring. }
  assert (E3 : sumn n (fun i => x i * sumn n (fun j => (P i j - P n i * P n j / P n n) * x j)) = sumn n (fun i => x i * sumn n (fun j => P i j * x j)) - L ^ 2 / P n n).
  { transitivity (sumn n (fun i => x i * sumn n (fun j => P i j * x j) - P n i * x i * (L / P n n))); [|rewrite sumn_minus, sumn_scal_r; fold L; field; exact N].
    apply sumn_ext. intros i _. rewrite (sumn_ext n (fun j => (P i j - P n i * P n j / P n n) * x j) (fun j => P i j * x j - P n i / P n n * (P n j * x j))) by (intros; field; exact N).
    rewrite sumn_minus, sumn_scal. fold L. field. exact N. }
  rewrite E1, E2, E3. field. exact N.
Qed.
Lemma pd_bound n : forall P, symmetric n P -> pos_def n P -> exists eps, 0 < eps /\ forall x, eps * dot n x x <= bform n P x x.
Proof.
  induction n as [|n IH]; intros P Sy PD; [exists 1; split; [lra|]; intros; unfold dot, bform; simpl; lra|].
  assert (Pn : 0 < P n n).
  { set (e := fun i => if Nat.eqb i n then 1 else 0). assert (Sg : forall f, sumn (S n) (fun i => f i * e i) = f n).
    { intros f. rewrite (sumn_single (S n) _ n ltac:(lia)); [unfold e; rewrite Nat.eqb_refl; ring|]. intros i Hi Ni. unfold e. destruct (Nat.eqb_spec i n); [congruence|ring]. }
    assert (X := PD e). unfold bform in X. rewrite (sumn_ext (S n) _ (fun i => P i n * e i)) in X by (intros i _; rewrite Sg; ring). rewrite Sg in X. apply X. exists n. unfold e. rewrite Nat.eqb_refl. split; [lia|lra]. }
  assert (Nn : P n n <> 0) by lra. set (Sc := fun i j => P i j - P n i * P n j / P n n).
  destruct (IH Sc) as (e & He & Hb).
  - intros i j Hi Hj. unfold Sc. rewrite (Sy i j) by lia. field. exact Nn.
  - intros x (i & Hi & Hx). set (l := sumn n (fun j => P n j / P n n * x j)). assert (X := PD (fun k => if Nat.eqb k n then - l else x k)).
    rewrite bform_last in X by assumption. rewrite Nat.eqb_refl in X.
    assert (E1 : sumn n (fun j => P n j / P n n * (if Nat.eqb j n then - l else x j)) = l) by (unfold l; apply sumn_ext; intros j Hj; destruct (Nat.eqb_spec j n); [lia|reflexivity]).
    rewrite E1 in X. fold Sc in X. rewrite (bform_vext n Sc _ x _ x) in X by (intros k Hk; destruct (Nat.eqb_spec k n); [lia|reflexivity]).
    replace (- l + l) with 0 in X by ring. assert (0 < P n n * 0 ^ 2 + bform n Sc x x); [|lra]. apply X. exists i. split; [lia|]. destruct (Nat.eqb_spec i n); [lia|exact Hx].
  - set (L := sumn n (fun j => (P n j / P n n) ^ 2)). assert (HL : 0 <= L) by apply sumn_sq_nonneg. exists (Rmin (P n n / 2) (e / (1 + 2 * L))).
    assert (Pos : 0 < e / (1 + 2 * L)) by (apply Rdiv_lt_0_compat; lra). split; [apply Rmin_glb_lt; lra|]. intros x. set (d := Rmin _ _).
    assert (D1 : 2 * d <= P n n) by (assert (X := Rmin_l (P n n / 2) (e / (1 + 2 * L))); fold d in X; lra).
    assert (D2 : d * (1 + 2 * L) <= e).
    { assert (X := Rmin_r (P n n / 2) (e / (1 + 2 * L))). fold d in X. apply Rmult_le_compat_r with (r := 1 + 2 * L) in X; [|lra]. unfold Rdiv in X. rewrite Rmult_assoc, Rinv_l, Rmult_1_r in X by lra. exact X. }
    assert (D0 : 0 <= d) by (unfold d; apply Rmin_glb; lra).
    rewrite bform_last by assumption. fold Sc. specialize (Hb x). set (l := sumn n (fun j => P n j / P n n * x j)). unfold dot in *. cbn [sumn]. set (q := sumn n (fun i => x i * x i)) in *.
    assert (Q : 0 <= q) by (apply sumn_nonneg; intros; nra).
    assert (C : l ^ 2 <= L * q).
    { unfold l, L, q. eapply Rle_trans; [apply cauchy|]. right. f_equal. apply sumn_ext. intros; ring. }
    assert (x n * x n <= 2 * (x n + l) ^ 2 + 2 * l ^ 2) by (assert (Y := pow2_ge_0 (x n + 2 * l)); simpl in *; lra).
    assert (d * (x n * x n) <= d * (2 * (x n + l) ^ 2 + 2 * l ^ 2)) by (apply Rmult_le_compat_l; assumption).
    assert (2 * d * (x n + l) ^ 2 <= P n n * (x n + l) ^ 2) by (apply Rmult_le_compat_r; [apply pow2_ge_0|exact D1]).
    assert (2 * d * l ^ 2 <= 2 * d * (L * q)) by (apply Rmult_le_compat_l; [lra|exact C]).
    assert (d * (1 + 2 * L) * q <= e * q) by (apply Rmult_le_compat_r; assumption). nra.
Qed.
(** every form is bounded *)
Lemma form_bound n A : exists c, 0 <= c /\ forall x, - bform n A x x <= c * dot n x x.
Proof.
  set (F := sumn n (fun i => sumn n (fun j => A i j ^ 2))). assert (HF : 0 <= F) by (apply sumn_nonneg; intros; apply sumn_sq_nonneg).
  exists (1 + F). split; [lra|]. intros x. rewrite bform_mulv. set (q := dot n x x). assert (Q : 0 <= q) by (apply sumn_nonneg; intros; nra).
  assert (E : forall y, sumn n (fun i => y i ^ 2) = dot n y y) by (intros; apply sumn_ext; intros; ring).
  assert (C : (dot n x (mulv n A x)) ^ 2 <= q * (F * q)).
  { eapply Rle_trans; [apply cauchy|]. rewrite E. fold q. apply Rmult_le_compat_l; [exact Q|]. unfold F. rewrite <- sumn_scal_r.
    apply Rminus_le. rewrite <- sumn_minus. rewrite <- (Ropp_involutive (sumn n _)), <- sumn_opp. assert (0 <= sumn n (fun i => - (mulv n A x i ^ 2 - sumn n (fun j => A i j ^ 2) * q))); [|lra].
    apply sumn_nonneg. intros i _. assert (X := cauchy n (fun j => A i j) x). rewrite (E x) in X. fold q in X. unfold mulv. lra. }
  destruct (Rle_dec (- dot n x (mulv n A x)) ((1 + F) * q)) as [H|H]; [exact H|]. exfalso. assert (P : (1 + F) * q < - dot n x (mulv n A x)) by lra.
  assert (0 <= (1 + F) * q) by (apply Rmult_le_pos; lra). assert (((1 + F) * q) ^ 2 < (dot n x (mulv n A x)) ^ 2) by nra. assert (0 <= F * F * (q * q)) by (apply Rmult_le_pos; nra). nra.
Qed.
(** the null directions of a positive semidefinite form are its kernel *)
Lemma psd_kernel n P x : symmetric n P -> pos_semidef n P -> bform n P x x = 0 -> forall i, (i < n)%nat -> mulv n P x i = 0.
Proof.
  intros Sy PS Z i Hi. set (e := fun k => if Nat.eqb k i then 1 else 0).
  assert (E : forall y, bform n P e y = mulv n P y i).
  { intros y. rewrite bform_mulv. unfold dot. rewrite (sumn_single n _ i Hi) by (intros k Hk Nk; unfold e; destruct (Nat.eqb_spec k i); [congruence|ring]). unfold e. rewrite Nat.eqb_refl. ring. }
  assert (X : (bform n P e x) ^ 2 <= bform n P e e * 0).
  { apply quad_disc; [apply PS|]. intros t. assert (Y := PS (fun k => x k + t * e k)). rewrite bform_comb_l, (bform_sym n P x), (bform_sym n P e) in Y by exact Sy. rewrite !bform_comb_l in Y.
    rewrite Z, (bform_sym n P x e Sy) in Y. lra. }
  rewrite E in X. nra.
Qed.
(** fewer than n conditions leave a direction *)
Lemma direction n m (b : nat -> vec) : (m < n)%nat -> exists y, nonzero n y /\ forall j, (j < m)%nat -> dot n (b j) y = 0.
Proof.
  intros H. destruct (real_solve n (fun i k => if (i <? m)%nat then b i k else 0)) as [[f Hf]|[y [Y0 Y]]].
  - exfalso. specialize (Hf (fun _ => 1) m H). unfold mulv in Hf. rewrite sumn_0 in Hf; [lra|]. intros k _. destruct (Nat.ltb_spec m m); [lia|ring].
  - exists y. split; [exact Y0|]. intros j Hj. specialize (Y j ltac:(lia)). unfold mulv in Y. destruct (Nat.ltb_spec j m); [|lia]. exact Y.
Qed.

Section Spectral.
Variables (n : nat) (A B : mat).
Hypotheses (SA : symmetric n A) (SB : symmetric n B) (PB : pos_def n B).
(** the first m eigenvectors *)
Record first (m : nat) (w : vec) (V : mat) : Prop := {
  fi_normal : forall i j, (i < m)%nat -> (j < m)%nat -> bform n B (col V i) (col V j) = if Nat.eqb i j then 1 else 0;
  fi_eigen : forall i j, (i < n)%nat -> (j < m)%nat -> mulv n A (col V j) i = w j * mulv n B (col V j) i;
  fi_low : forall j y, (j < m)%nat -> (forall i, (i < j)%nat -> bform n B (col V i) y = 0) -> w j * bform n B y y <= bform n A y y }.
Lemma smallest m V : (m < n)%nat -> exists mu, (forall y, (forall i, (i < m)%nat -> bform n B (col V i) y = 0) -> mu * bform n B y y <= bform n A y y) /\
  (forall e, 0 < e -> exists y, nonzero n y /\ (forall i, (i < m)%nat -> bform n B (col V i) y = 0) /\ bform n A y y < (mu + e) * bform n B y y).
Proof using SB PB.
  intros H. set (W := fun y => forall i, (i < m)%nat -> bform n B (col V i) y = 0).
  set (E := fun v => exists y, nonzero n y /\ W y /\ v = - bform n A y y / bform n B y y).
  destruct (pd_bound n B SB PB) as (e & He & Hb). destruct (form_bound n A) as (c & Hc & Ha).
  assert (Bd : bound E).
  { exists (c / e). intros v (y & N & _ & ->). assert (P := PB y N). apply Rmult_le_reg_r with (bform n B y y); [exact P|]. unfold Rdiv at 1. rewrite Rmult_assoc, Rinv_l, Rmult_1_r by lra.
    eapply Rle_trans; [apply Ha|]. specialize (Hb y). replace (c * dot n y y) with (c / e * (e * dot n y y)) by (field; lra). apply Rmult_le_compat_l; [apply Rmult_le_pos; [exact Hc|left; apply Rinv_0_lt_compat, He]|exact Hb]. }
  assert (Ne : exists v, E v).
  { destruct (direction n m (fun j => mulv n B (col V j)) H) as (y & N & Y). exists (- bform n A y y / bform n B y y), y. split; [exact N|]. split; [|reflexivity]. intros i Hi.
    rewrite (bform_sym n B _ _ SB), bform_mulv. rewrite <- (Y i Hi). unfold dot. apply sumn_ext. intros; ring. }
  destruct (completeness E Bd Ne) as (s & Us & Ls). exists (- s). split.
  - intros y Y. destruct (classic_nonzero n y) as [N|Z].
    + assert (P := PB y N). assert (X := Us _ (ex_intro _ y (conj N (conj Y eq_refl)))). apply Rmult_le_compat_r with (r := bform n B y y) in X; [|lra]. unfold Rdiv in X. rewrite Rmult_assoc, Rinv_l, Rmult_1_r in X by lra. lra.
    + rewrite (bform_vext n B y (fun _ => 0) y (fun _ => 0) Z Z), (bform_vext n A y (fun _ => 0) y (fun _ => 0) Z Z). unfold bform. rewrite !sumn_0 by (intros; ring). lra.
  - intros d Hd. destruct (classic (exists y, nonzero n y /\ W y /\ bform n A y y < (- s + d) * bform n B y y)) as [X|X]; [exact X|]. exfalso.
    assert (s <= s - d); [|lra]. apply Ls. intros v (y & N & Y & ->). assert (P := PB y N). apply Rmult_le_reg_r with (bform n B y y); [exact P|]. unfold Rdiv at 1. rewrite Rmult_assoc, Rinv_l, Rmult_1_r by lra.
    destruct (Rle_dec (- bform n A y y) ((s - d) * bform n B y y)) as [Q|Q]; [exact Q|]. exfalso. apply X. exists y. split; [exact N|]. split; [exact Y|]. lra.
Qed.
Lemma bform_rank1 (c : vec) (b : nat -> vec) m x y : bform n (fun i j => sumn m (fun k => c k * (b k i * b k j))) x y = sumn m (fun k => c k * (dot n (b k) x * dot n (b k) y)).
Proof using.
  unfold bform. transitivity (sumn n (fun i => sumn m (fun k => c k * (b k i * x i * dot n (b k) y)))).
  - apply sumn_ext. intros i _. transitivity (x i * sumn m (fun k => c k * b k i * dot n (b k) y)); [|rewrite <- sumn_scal; apply sumn_ext; intros; ring]. f_equal.
    rewrite (sumn_ext n _ (fun j => sumn m (fun k => c k * b k i * (b k j * y j)))) by (intros; rewrite <- sumn_scal_r; apply sumn_ext; intros; ring).
    rewrite sumn_swap. apply sumn_ext. intros k _. rewrite sumn_scal. reflexivity.
  - rewrite sumn_swap. apply sumn_ext. intros k _. rewrite sumn_scal, sumn_scal_r. reflexivity.
Qed.
Lemma split_form m w V x (S0 : mat) (l : vec) : (m <= n)%nat -> symmetric n S0 -> first m w V -> (forall i j, (i < n)%nat -> (j < m)%nat -> mulv n S0 (col V j) i = l j * mulv n B (col V j) i) ->
  let q j := bform n B (col V j) x in let y i := x i - mulv m V q i in
  (forall j, (j < m)%nat -> bform n B (col V j) y = 0) /\ bform n S0 x x = sumn m (fun j => l j * q j ^ 2) + bform n S0 y y.
Proof using SB.
  intros Hm SS F El q y.
  assert (Y : forall j, (j < m)%nat -> bform n B (col V j) y = 0).
  { intros j Hj. rewrite (bform_vext n B (col V j) (col V j) y (fun i => x i + (-1) * mulv m V q i) (fun _ _ => eq_refl)) by (intros; unfold y; ring).
    rewrite (bform_sym n B _ _ SB), bform_comb_l, (bform_sym n B x _ SB), (bform_sym n B (mulv m V q) _ SB), bform_comb, (sumn_single m _ j Hj).
    - rewrite (fi_normal _ _ _ F) by lia. rewrite Nat.eqb_refl. unfold q. ring.
    - intros i Hi N. rewrite (fi_normal _ _ _ F) by lia. destruct (Nat.eqb_spec j i); [congruence|ring]. }
  split; [exact Y|].
  assert (X : forall z j, (j < m)%nat -> bform n S0 z (col V j) = l j * bform n B (col V j) z).
  { intros z j Hj. rewrite (bform_sym n B _ _ SB), !bform_mulv. unfold dot. rewrite <- sumn_scal. apply sumn_ext. intros i Hi. rewrite El by assumption. ring. }
  rewrite (bform_vext n S0 x (fun i => y i + 1 * mulv m V q i) x (fun i => y i + 1 * mulv m V q i)) by (intros; unfold y; ring).
  rewrite bform_comb_l. rewrite !(bform_sym n S0 _ (fun i => y i + 1 * mulv m V q i) SS), !bform_comb_l. rewrite (bform_sym n S0 (mulv m V q) y SS).
  assert (Z : bform n S0 y (mulv m V q) = 0) by (rewrite bform_comb; apply sumn_0; intros j Hj; rewrite X, Y by exact Hj; ring).
  assert (D : bform n S0 (mulv m V q) (mulv m V q) = sumn m (fun j => l j * q j ^ 2)).
  { rewrite bform_comb. apply sumn_ext. intros j Hj. rewrite X by exact Hj. rewrite bform_comb, (sumn_single m _ j Hj).
    - rewrite (fi_normal _ _ _ F) by lia. rewrite Nat.eqb_refl. ring.
    - intros i Hi N. rewrite (fi_normal _ _ _ F) by lia. destruct (Nat.eqb_spec j i); [congruence|ring]. }
  rewrite Z, D. ring.
Qed.
Lemma next m w V : (m < n)%nat -> first m w V -> exists w' V', first (S m) w' V'.
Proof using SA SB PB.
  intros H F. destruct (smallest m V H) as (mu & Low & Near). set (b := fun k => mulv n B (col V k)).
  set (P := fun i j => (A i j + - mu * B i j) + sumn m (fun k => (mu - w k + 1) * (b k i * b k j))).
  assert (Fm : forall x y, bform n P x y = bform n A x y - mu * bform n B x y + sumn m (fun k => (mu - w k + 1) * (bform n B (col V k) x * bform n B (col V k) y))).
  { intros x y. unfold P. rewrite (bform_plus n (fun i j => A i j + - mu * B i j)), (bform_plus n A), bform_scal, bform_rank1.
    rewrite (sumn_ext m _ (fun k => (mu - w k + 1) * (bform n B (col V k) x * bform n B (col V k) y))); [ring|]. intros k _. f_equal.
    assert (E : forall z, dot n (b k) z = bform n B (col V k) z) by (intros z; rewrite (bform_sym n B _ _ SB), bform_mulv; unfold dot, b; apply sumn_ext; intros; ring). rewrite !E. reflexivity. }
  assert (SP : symmetric n P).
  { intros i j Hi Hj. unfold P. rewrite (SA i j), (SB i j) by assumption. f_equal. apply sumn_ext. intros; ring. }
  assert (Sp : forall x, exists y, (forall j, (j < m)%nat -> bform n B (col V j) y = 0) /\ bform n P x x = sumn m (fun j => bform n B (col V j) x ^ 2) + (bform n A y y - mu * bform n B y y)).
  { intros x. destruct (split_form m w V x A w ltac:(lia) SA F (fi_eigen _ _ _ F)) as [Y EA]. destruct (split_form m w V x B (fun _ => 1) ltac:(lia) SB F) as [_ EB]; [intros; ring|].
    cbv zeta in Y, EA, EB. eexists. split; [exact Y|]. rewrite Fm, EA, EB.
    match goal with |- ?a + ?p - mu * (?c + ?d) + ?s = ?u + (?p - mu * ?d) => enough (a - mu * c + s = u) by lra end.
    rewrite <- sumn_scal, <- sumn_minus, <- sumn_plus. apply sumn_ext. intros; ring. }
  assert (PS : pos_semidef n P).
  { intros x. destruct (Sp x) as (y & Y & ->). specialize (Low y Y). assert (X := sumn_sq_nonneg m (fun j => bform n B (col V j) x)). cbv beta in X. lra. }
  assert (NP : ~ pos_def n P).
  { intros PD. destruct (pd_bound n P SP PD) as (e & He & Hb). destruct (form_bound n (fun i j => - B i j)) as (c & Hc & Hcb).
    assert (CB : forall y, bform n B y y <= (c + 1) * dot n y y).
    { intros y. specialize (Hcb y). rewrite (bform_ext n (fun i j => - B i j) (fun i j => -1 * B i j)), bform_scal in Hcb by (intros; ring). assert (0 <= dot n y y) by (apply sumn_nonneg; intros; nra). nra. }
    destruct (Near (e / (c + 1))) as (y & N & Y & X); [apply Rdiv_lt_0_compat; lra|].
    specialize (Hb y). rewrite Fm, (sumn_0 m) in Hb by (intros k Hk; rewrite (Y k Hk); ring). specialize (CB y).
    assert (e / (c + 1) * bform n B y y <= e * dot n y y); [|lra]. replace (e * dot n y y) with (e / (c + 1) * ((c + 1) * dot n y y)) by (field; lra). apply Rmult_le_compat_l; [left; apply Rdiv_lt_0_compat; lra|exact CB]. }
  assert (X : exists x, nonzero n x /\ bform n P x x = 0).
  { destruct (classic (exists x, nonzero n x /\ bform n P x x = 0)) as [X|X]; [exact X|]. exfalso. apply NP. intros x N. destruct (PS x) as [Q|Q]; [exact Q|]. exfalso. apply X. eauto. }
  destruct X as (x0 & N0 & Z0). assert (P0 := PB x0 N0). set (k := / sqrt (bform n B x0 x0)). assert (Hs : 0 < sqrt (bform n B x0 x0)) by (apply sqrt_lt_R0, P0).
  set (x := fun i => k * x0 i).
  assert (Bx : bform n B x x = 1).
  { assert (E : bform n B x x = k * k * bform n B x0 x0).
    { unfold bform, x. rewrite <- sumn_scal. apply sumn_ext. intros i _. rewrite (sumn_ext n _ (fun j => k * (B i j * x0 j))) by (intros; ring). rewrite sumn_scal. ring. }
    rewrite E. assert (Q := sqrt_sqrt (bform n B x0 x0) ltac:(lra)). transitivity (k * k * (sqrt (bform n B x0 x0) * sqrt (bform n B x0 x0))); [rewrite Q; reflexivity|unfold k; field; lra]. }
  assert (K0 := psd_kernel n P x0 SP PS Z0).
  assert (O0 : forall j, (j < m)%nat -> bform n B (col V j) x0 = 0).
  { destruct (Sp x0) as (y & Y & E). rewrite Z0 in E. specialize (Low y Y). assert (S0 := sumn_sq_nonneg m (fun j => bform n B (col V j) x0)). cbv beta in S0.
    assert (Q : sumn m (fun j => bform n B (col V j) x0 ^ 2) = 0) by lra. clear - Q. induction m as [|m' IH]; [intros; lia|]. cbn [sumn] in Q.
    assert (S1 := sumn_sq_nonneg m' (fun j => bform n B (col V j) x0)). cbv beta in S1. assert (0 <= bform n B (col V m') x0 ^ 2) by apply pow2_ge_0. intros j Hj. destruct (Nat.eq_dec j m') as [-> |]; [nra|apply IH; [lra|lia]]. }
  assert (Ox : forall j, (j < m)%nat -> bform n B (col V j) x = 0).
  { intros j Hj. unfold x. rewrite (bform_sym n B _ _ SB), (bform_vext n B _ (fun i => 0 + k * x0 i) _ (col V j)) by (intros; ring).
    rewrite bform_comb_l, (bform_sym n B x0 _ SB), (O0 j Hj). unfold bform. rewrite sumn_0 by (intros; ring). ring. }
  exists (fun j => if Nat.eqb j m then mu else w j), (fun i j => if Nat.eqb j m then x i else V i j).
  assert (C1 : forall j, (j < m)%nat -> col (fun i j => if Nat.eqb j m then x i else V i j) j = col V j) by (intros j Hj; unfold col; destruct (Nat.eqb_spec j m); [lia|reflexivity]).
  assert (C2 : col (fun i j => if Nat.eqb j m then x i else V i j) m = x) by (unfold col; rewrite Nat.eqb_refl; reflexivity).
  constructor.
  - intros i j Hi Hj. destruct (Nat.eq_dec i m) as [-> |Ni], (Nat.eq_dec j m) as [-> |Nj]; rewrite ?C2, ?C1 by lia.
    + rewrite Nat.eqb_refl. exact Bx.
    + rewrite (bform_sym n B _ _ SB), Ox by lia. destruct (Nat.eqb_spec m j); [lia|reflexivity].
    + rewrite Ox by lia. destruct (Nat.eqb_spec i m); [lia|reflexivity].
    + apply (fi_normal _ _ _ F); lia.
  - intros i j Hi Hj. destruct (Nat.eq_dec j m) as [-> |Nj].
    + rewrite C2, Nat.eqb_refl. specialize (K0 i Hi).
      assert (E : mulv n P x0 i = mulv n A x0 i - mu * mulv n B x0 i).
      { unfold mulv, P. rewrite <- sumn_scal, <- sumn_minus.
        rewrite (sumn_ext n _ (fun j => (A i j * x0 j - mu * (B i j * x0 j)) + sumn m (fun k => (mu - w k + 1) * b k i * (b k j * x0 j)))) by (intros j _; rewrite Rmult_plus_distr_r, <- sumn_scal_r; f_equal; [ring|apply sumn_ext; intros; ring]).
        rewrite sumn_plus, (sumn_swap n m). rewrite (sumn_0 m); [ring|]. intros k' Hk. rewrite sumn_scal.
        assert (Q := O0 k' Hk). rewrite (bform_sym n B _ _ SB), bform_mulv in Q. unfold dot in Q. fold (b k') in Q. rewrite (sumn_ext n _ (fun i => x0 i * b k' i)) by (intros; ring). rewrite Q. ring. }
      assert (S1 : forall M, mulv n M x i = k * mulv n M x0 i) by (intros M; unfold mulv, x; rewrite <- sumn_scal; apply sumn_ext; intros; ring). rewrite !S1. rewrite E in K0. nra.
    + rewrite C1 by lia. destruct (Nat.eqb_spec j m); [lia|]. apply (fi_eigen _ _ _ F); lia.
  - intros j y Hj Y. destruct (Nat.eqb_spec j m) as [-> |Nj].
    + apply Low. intros i Hi. rewrite <- (Y i Hi), C1 by exact Hi. reflexivity.
    + apply (fi_low _ _ _ F); [lia|]. intros i Hi. rewrite <- (Y i Hi), C1 by lia. reflexivity.
Qed.
Lemma spectral : exists w V, eigenpairs n A B w V.
Proof using SA SB PB.
  assert (X : forall m, (m <= n)%nat -> exists w V, first m w V).
  { induction m as [|m IH]; [intros _; exists (fun _ => 0), (fun _ _ => 0); constructor; intros; lia|]. intros H. destruct IH as (w & V & F); [lia|]. exact (next m w V ltac:(lia) F). }
  destruct (X n (Nat.le_refl n)) as (w & V & F). exists w, V. constructor.
  - intros i j Hij. destruct (Nat.eq_dec i j) as [-> |N]; [lra|].
    assert (Q := fi_low _ _ _ F i (col V j) ltac:(lia)). rewrite (fi_normal _ _ _ F), Nat.eqb_refl in Q by lia.
    assert (E : bform n A (col V j) (col V j) = w j).
    { rewrite bform_mulv. unfold dot. rewrite (sumn_ext n _ (fun k => w j * (col V j k * mulv n B (col V j) k))) by (intros k Hk; rewrite (fi_eigen _ _ _ F) by lia; ring).
      rewrite sumn_scal. assert (Q' := fi_normal _ _ _ F j j ltac:(lia) ltac:(lia)). rewrite bform_mulv, Nat.eqb_refl in Q'. unfold dot in Q'. rewrite Q'. ring. }
    rewrite E in Q. assert (w i * 1 <= w j); [|lra]. apply Q. intros k Hk. rewrite (fi_normal _ _ _ F) by lia. destruct (Nat.eqb_spec k j); [lia|reflexivity].
  - intros i j Hi Hj. exact (fi_normal _ _ _ F i j Hi Hj).
  - intros i j Hi Hj. exact (fi_eigen _ _ _ F i j Hi Hj).
Qed.
End Spectral.
