(** Motions of the rotor and steps of lsim. *)
From Coq Require Import Reals String List Arith Bool Lia Lra.
From Coquelicot Require Import Coquelicot.
From Verif Require Import PyBase MatBase SpecMat LMat CMat LCMat MRotor MDynamics SpecDynamics LDynamics LTransfer MTime MPseudo MLsim SpecLsim LExpm LExpm2.
Import ListNotations.
Open Scope R_scope.

(** ** second order and first order form *)
Definition input_matrix (n : nat) (MI : mat) : mat := fun i j => if (i <? n)%nat then 0 else MI (i - n)%nat j.
Definition stack (n : nat) (q v : vec) : vec := fun i => if (i <? n)%nat then q i else v (i - n)%nat.
Lemma stack_lo n q v i : (i < n)%nat -> stack n q v i = q i.
Proof. intros H. unfold stack. rewrite (proj2 (Nat.ltb_lt _ _) H). reflexivity. Qed.
Lemma stack_hi n q v i : stack n q v (n + i)%nat = v i.
Proof. unfold stack. replace (n + i <? n)%nat with false by (symmetry; apply Nat.ltb_ge; lia). f_equal. lia. Qed.
Lemma input_lo n MI f i : (i < n)%nat -> mulv n (input_matrix n MI) f i = 0.
Proof. intros H. unfold mulv. apply sumn_0. intros j _. unfold input_matrix. rewrite (proj2 (Nat.ltb_lt _ _) H). ring. Qed.
Lemma input_hi n MI f i : mulv n (input_matrix n MI) f (n + i)%nat = mulv n MI f i.
Proof. unfold mulv. apply sumn_ext. intros j _. unfold input_matrix. replace (n + i <? n)%nat with false by (symmetry; apply Nat.ltb_ge; lia). do 2 f_equal. lia. Qed.
Lemma mulv_minus n A x y i : mulv n A (fun j => x j - y j) i = mulv n A x i - mulv n A y i.
Proof. unfold mulv. rewrite <- sumn_minus. apply sumn_ext. intros; ring. Qed.
Lemma inverse_acts n M MI f i : meq n (mulm n M MI) mid -> (i < n)%nat -> mulv n M (mulv n MI f) i = f i.
Proof. intros H Hi. rewrite <- mulv_mulm. rewrite (mulv_ext n _ mid _ f); [apply mulv_mid; auto|intros; apply H; auto|reflexivity]. Qed.
Lemma state_forced n M D K X Y MI (x y f : vec) : nonsingular n M -> meq n (mulm n (mscale (-1) M) X) K -> meq n (mulm n (mscale (-1) M) Y) D -> meq n (mulm n M MI) mid ->
  (forall i, (i < n + n)%nat -> y i = mulv (n + n) (block n mzero mid X Y) x i + mulv n (input_matrix n MI) f i) <->
  (forall i, (i < n)%nat -> y i = x (n + i)%nat) /\
  (forall i, (i < n)%nat -> mulv n M (fun j => y (n + j)%nat) i + mulv n D (fun j => x (n + j)%nat) i + mulv n K x i = f i).
Proof.
  intros NS HX HY HI. pose proof (state_real n M D K X Y x (fun i => y i - mulv n (input_matrix n MI) f i) NS HX HY) as E.
  assert (S1 : (forall i, (i < n + n)%nat -> y i = mulv (n + n) (block n mzero mid X Y) x i + mulv n (input_matrix n MI) f i) <->
    (forall i, (i < n + n)%nat -> y i - mulv n (input_matrix n MI) f i = mulv (n + n) (block n mzero mid X Y) x i)).
  { split; intros H i Hi; specialize (H i Hi); lra. }
  assert (S2 : forall i, (i < n)%nat -> mulv n M (fun j => y (n + j)%nat - mulv n (input_matrix n MI) f (n + j)%nat) i = mulv n M (fun j => y (n + j)%nat) i - f i).
  { intros i Hi. rewrite (mulv_ext n M M _ (fun j => y (n + j)%nat - mulv n MI f j)); [|reflexivity|intros; rewrite input_hi; reflexivity].
    rewrite mulv_minus, inverse_acts by auto. reflexivity. }
  rewrite S1, E. clear E S1. split; intros [H1 H2]; split; intros i Hi; specialize (H1 i Hi); specialize (H2 i Hi); cbv beta in *;
    rewrite ?input_lo, ?S2 in * by auto; lra.
Qed.

Section Form.
Variables (n : nat) (M D K X Y MI : mat).
Hypotheses (NS : nonsingular n M) (HX : meq n (mulm n (mscale (-1) M) X) K) (HY : meq n (mulm n (mscale (-1) M) Y) D) (HI : meq n (mulm n M MI) mid).
Let A := block n mzero mid X Y.
Let B := input_matrix n MI.
Lemma motion_state f a b q v : motion n M D K f a b q v -> forall s i, a <= s <= b -> (i < n + n)%nat ->
  is_derive (fun x => stack n (q x) (v x) i) s (mulv (n + n) A (stack n (q s) (v s)) i + mulv n B (f s) i).
Proof using NS HX HY HI.
  intros [H1 H2] s i Hs Hi. destruct (H2 s Hs) as (acc & Ha & He).
  pose proof (proj2 (state_forced n M D K X Y MI (stack n (q s) (v s)) (stack n (v s) acc) (f s) NS HX HY HI)) as E.
  assert (E' : forall i, (i < n + n)%nat -> stack n (v s) acc i = mulv (n + n) A (stack n (q s) (v s)) i + mulv n B (f s) i).
  { apply E. split; [intros j Hj; rewrite stack_lo, stack_hi by auto; reflexivity|]. intros j Hj. rewrite <- (He j Hj). f_equal; [f_equal|].
    - apply mulv_ext; [reflexivity|intros; apply stack_hi].
    - apply mulv_ext; [reflexivity|intros; apply stack_hi].
    - apply mulv_ext; [reflexivity|intros; apply stack_lo; auto]. }
  rewrite <- E' by auto. destruct (Nat.lt_ge_cases i n) as [L|L].
  - rewrite stack_lo by auto. apply (is_derive_ext (fun x => q x i)); [intros; rewrite stack_lo by auto; reflexivity|]. apply H1; auto.
  - replace i with (n + (i - n))%nat by lia. rewrite stack_hi. apply (is_derive_ext (fun x => v x (i - n)%nat)); [intros; rewrite stack_hi; reflexivity|]. apply Ha. lia.
Qed.
Lemma state_motion f a b (z : R -> vec) : (forall s i, a <= s <= b -> (i < n + n)%nat -> is_derive (fun x => z x i) s (mulv (n + n) A (z s) i + mulv n B (f s) i)) ->
  motion n M D K f a b z (fun s i => z s (n + i)%nat).
Proof using NS HX HY HI.
  intros H. pose proof (fun s => proj1 (state_forced n M D K X Y MI (z s) (fun i => mulv (n + n) A (z s) i + mulv n B (f s) i) (f s) NS HX HY HI) (fun i _ => eq_refl)) as E. split.
  - intros s i Hs Hi. destruct (E s) as [E1 _]. rewrite <- E1 by auto. apply H; auto. lia.
  - intros s Hs. destruct (E s) as [_ E2]. exists (fun j => mulv (n + n) A (z s) (n + j)%nat + mulv n B (f s) (n + j)%nat). split; [|exact E2].
    intros i Hi. apply H; auto. lia.
Qed.
End Form.

(** ** one step *)
Lemma expm_one n X E i j : is_expm n X E -> (i < n)%nat -> (j < n)%nat -> E i j = phi n X 1 i j.
Proof.
  intros H Hi Hj. specialize (H i j Hi Hj). apply is_series_unique in H. rewrite <- H. unfold phi, PSeries. apply Series_ext. intros k. rewrite pow1. unfold coef. ring.
Qed.
Lemma phi_trans n X s i j : (i < n)%nat -> (j < n)%nat -> phi n (mtrans X) s i j = phi n X s j i.
Proof. intros Hi Hj. unfold phi, PSeries. apply Series_ext. intros k. unfold coef. rewrite pow_trans by auto. reflexivity. Qed.
Lemma free_step_flow expm n A h k (x : vec) j : expm_ok expm -> (j < n)%nat -> free_step expm n A h k x j = mulv n (phi n A h) x j.
Proof.
  intros H Hj. unfold free_step, rowmul, mulv. apply sumn_ext. intros i Hi. rewrite (expm_phi n (mtrans A) h _ (H n _)) by auto. rewrite phi_trans by auto. ring.
Qed.
(** A h x + h B u, u', 0 *)
Lemma hold_mulv ns ni A B h (z : vec) i : (i < ns + ni + ni)%nat -> mulv (ns + ni + ni) (hold_matrix ns ni A B h) z i =
  if (i <? ns)%nat then h * (mulv ns A z i + mulv ni B (fun j => z (ns + j)%nat) i) else if (i <? ns + ni)%nat then z (ni + i)%nat else 0.
Proof.
  intros Hi. unfold mulv. rewrite !sumn_split. unfold hold_matrix. destruct (Nat.ltb_spec i ns) as [L|L].
  - rewrite (sumn_ext ns _ (fun j => h * (A i j * z j))).
    2: { intros j Hj. rewrite (proj2 (Nat.ltb_lt _ _) Hj). ring. }
    rewrite (sumn_ext ni _ (fun j => h * (B i j * z (ns + j)%nat))).
    2: { intros j Hj. replace (ns + j <? ns)%nat with false by (symmetry; apply Nat.ltb_ge; lia). rewrite (proj2 (Nat.ltb_lt (ns + j) (ns + ni))) by lia.
         replace (ns + j - ns)%nat with j by lia. ring. }
    match goal with |- _ + _ + sumn ni ?g = _ => rewrite (sumn_0 ni g) end.
    2: { intros j Hj. replace (ns + ni + j <? ns)%nat with false by (symmetry; apply Nat.ltb_ge; lia).
         replace (ns + ni + j <? ns + ni)%nat with false by (symmetry; apply Nat.ltb_ge; lia). ring. }
    rewrite !sumn_scal. ring.
  - destruct (Nat.ltb_spec i (ns + ni)) as [L'|L'].
    + rewrite (sumn_0 ns).
      2: { intros j Hj. rewrite (proj2 (Nat.ltb_lt j (ns + ni))) by lia. ring. }
      rewrite (sumn_0 ni).
      2: { intros j Hj. rewrite (proj2 (Nat.ltb_lt (ns + j) (ns + ni))) by lia. ring. }
      rewrite (sumn_single ni _ (i - ns)) by (try lia; intros j Hj Hne; replace (ns + ni + j <? ns + ni)%nat with false by (symmetry; apply Nat.ltb_ge; lia);
        unfold mid; replace (ns + ni + j - (ns + ni))%nat with j by lia; rewrite (proj2 (Nat.eqb_neq (i - ns) j)) by lia; ring).
      replace (ns + ni + (i - ns) <? ns + ni)%nat with false by (symmetry; apply Nat.ltb_ge; lia). unfold mid.
      replace (ns + ni + (i - ns) - (ns + ni))%nat with (i - ns)%nat by lia. rewrite Nat.eqb_refl. replace (ns + ni + (i - ns))%nat with (ni + i)%nat by lia. ring.
    + rewrite !sumn_0 by (intros; ring). ring.
Qed.
Lemma hold_step_flow expm ns ni A B h (U : nat -> vec) k (x : R -> vec) a (f : R -> vec) : expm_ok expm -> 0 < h ->
  (forall s i, a <= s <= a + h -> (i < ns)%nat -> is_derive (fun y => x y i) s (mulv ns A (x s) i + mulv ni B (f s) i)) ->
  (forall s i, a <= s <= a + h -> (i < ni)%nat -> f s i = U k i + (s - a) / h * (U (S k) i - U k i)) ->
  forall y j, (forall i, (i < ns)%nat -> y i = x a i) -> (j < ns)%nat -> hold_step expm ns ni A B h U (S k) y j = x (a + h) j.
Proof.
  intros HE Hh Hx Hf y j Hy Hj. set (N := (ns + ni + ni)%nat).
  set (z := fun (s : R) (i : nat) => if (i <? ns)%nat then x (a + h * s) i else if (i <? ns + ni)%nat then U k (i - ns)%nat + s * (U (S k) (i - ns)%nat - U k (i - ns)%nat)
    else U (S k) (i - (ns + ni))%nat - U k (i - (ns + ni))%nat).
  assert (Zlo : forall s i, (i < ns)%nat -> z s i = x (a + h * s) i) by (intros; unfold z; rewrite (proj2 (Nat.ltb_lt _ _)) by auto; reflexivity).
  assert (Zmi : forall s i, (i < ni)%nat -> z s (ns + i)%nat = U k i + s * (U (S k) i - U k i)).
  { intros s i Hi. unfold z. replace (ns + i <? ns)%nat with false by (symmetry; apply Nat.ltb_ge; lia). rewrite (proj2 (Nat.ltb_lt _ _)) by lia.
    replace (ns + i - ns)%nat with i by lia. reflexivity. }
  assert (Zhi : forall s i, z s (ns + ni + i)%nat = U (S k) i - U k i).
  { intros s i. unfold z. replace (ns + ni + i <? ns)%nat with false by (symmetry; apply Nat.ltb_ge; lia).
    replace (ns + ni + i <? ns + ni)%nat with false by (symmetry; apply Nat.ltb_ge; lia). replace (ns + ni + i - (ns + ni))%nat with i by lia. reflexivity. }
  assert (FL : z 1 j = mulv N (phi N (hold_matrix ns ni A B h) (1 - 0)) (z 0) j).
  { apply (flow N (hold_matrix ns ni A B h) z 0 1); [|lra|unfold N; lia]. intros s i Hs Hi. unfold N. rewrite hold_mulv by exact Hi.
    destruct (Nat.ltb_spec i ns) as [L|L]; [|destruct (Nat.ltb_spec i (ns + ni)) as [L'|L']].
    - apply (is_derive_ext (fun s => x (a + h * s) i)); [intros; rewrite Zlo by auto; reflexivity|].
      assert (R0 : a <= a + h * s <= a + h).
      { split; [|]. - assert (0 <= h * s) by (apply Rmult_le_pos; lra). lra. - assert (h * s <= h * 1) by (apply Rmult_le_compat_l; lra). lra. }
      pose proof (Hx (a + h * s) i R0 L) as Dx. assert (G : is_derive (fun s => a + h * s) s h) by (auto_derive; [exact Logic.I|ring]).
      pose proof (is_derive_comp (fun y => x y i) (fun s => a + h * s) s _ _ Dx G) as Dc.
      eapply derive_val; [|exact Dc]. unfold scal; cbn; unfold mult; cbn. f_equal. f_equal; [apply mulv_ext; [reflexivity|]; intros; rewrite Zlo by auto; reflexivity|].
      apply mulv_ext; [reflexivity|]. intros l Hl. rewrite Zmi by auto. rewrite Hf by auto. replace ((a + h * s - a) / h) with s by (field; lra). reflexivity.
    - replace i with (ns + (i - ns))%nat by lia. set (l := (i - ns)%nat). assert (Hl : (l < ni)%nat) by (unfold l; lia).
      apply (is_derive_ext (fun s => U k l + s * (U (S k) l - U k l))); [intros; rewrite Zmi by auto; reflexivity|].
      replace (ni + (ns + l))%nat with (ns + ni + l)%nat by lia. rewrite Zhi. auto_derive; [exact Logic.I|ring].
    - replace i with (ns + ni + (i - (ns + ni)))%nat by lia. set (l := (i - (ns + ni))%nat).
      apply (is_derive_ext (fun s => U (S k) l - U k l)); [intros; rewrite Zhi; reflexivity|]. auto_derive; [exact Logic.I|ring]. }
  rewrite Zlo in FL by auto. replace (a + h * 1) with (a + h) in FL by ring. rewrite FL. replace (1 - 0) with 1 by ring. unfold hold_step. fold N.
  set (E := expm N (mtrans (hold_matrix ns ni A B h))).
  assert (HP : forall i, (i < N)%nat -> E i j = phi N (hold_matrix ns ni A B h) 1 j i).
  { intros i Hi. unfold E. rewrite (expm_one N _ _ i j (HE N _)) by (unfold N in *; lia). apply phi_trans; unfold N in *; lia. }
  unfold mulv. unfold N at 1. rewrite !sumn_split. unfold rowmul.
  rewrite (sumn_ext ns (fun i => y i * E i j) (fun i => phi N (hold_matrix ns ni A B h) 1 j i * z 0 i)).
  2: { intros i Hi. rewrite HP by (unfold N; lia). rewrite Zlo, Hy by auto. replace (a + h * 0) with a by ring. ring. }
  rewrite (sumn_ext ni (fun i => phi N (hold_matrix ns ni A B h) 1 j (ns + i)%nat * z 0 (ns + i)%nat) (fun i => E (ns + i)%nat j * U k i)).
  2: { intros i Hi. rewrite HP by (unfold N; lia). rewrite Zmi by auto. ring. }
  rewrite (sumn_ext ni (fun i => phi N (hold_matrix ns ni A B h) 1 j (ns + ni + i)%nat * z 0 (ns + ni + i)%nat) (fun i => E (ns + ni + i)%nat j * (U (S k) i - U k i))).
  2: { intros i Hi. rewrite HP by (unfold N; lia). rewrite Zhi. ring. }
  rewrite !Rplus_assoc. f_equal. rewrite <- !sumn_plus. apply sumn_ext. intros i Hi. replace (S k - 1)%nat with k by lia. ring.
Qed.
(** ** the loop *)
Lemma loop_length step k : forall i x, length (lsim_loop step k i x) = k.
Proof. induction k as [|k IH]; intros; cbn [lsim_loop length]; [reflexivity|]. rewrite IH. reflexivity. Qed.
Lemma loop_follows ns step (tgt : nat -> vec) : forall m i x,
  (forall k y, (i <= k < i + m)%nat -> (forall j, (j < ns)%nat -> y j = tgt (k - 1)%nat j) -> forall j, (j < ns)%nat -> step k y j = tgt k j) ->
  (0 < i)%nat -> (forall j, (j < ns)%nat -> x j = tgt (i - 1)%nat j) ->
  forall k j, (k <= m)%nat -> (j < ns)%nat -> nth k (x :: lsim_loop step m i x) vzero j = tgt (i - 1 + k)%nat j.
Proof.
  induction m as [|m IH]; intros i x Hs Hi Hx k j Hk Hj.
  - replace k with 0%nat by lia. cbn [nth]. rewrite Hx by auto. f_equal. lia.
  - destruct k as [|k]; [cbn [nth]; rewrite Hx by auto; f_equal; lia|]. cbn [lsim_loop]. cbv zeta.
    change (nth k (step i x :: lsim_loop step m (S i) (step i x)) vzero j = tgt (i - 1 + S k)%nat j).
    rewrite (IH (S i) (step i x)); try lia.
    + f_equal. lia.
    + intros k' y Hk' Hy. apply Hs; auto. lia.
    + intros j' Hj'. replace (S i - 1)%nat with i by lia. apply Hs; auto. lia.
Qed.
