(** Linear differential equations: uniqueness, and solutions under a continuous input. *)
From Coq Require Import Reals List Arith Lia Lra.
From Coquelicot Require Import Coquelicot.
From Verif Require Import PyBase MatBase SpecMat LMat SpecLsim LExpm.
Open Scope R_scope.

Lemma is_derive_sumn n (f : nat -> R -> R) (d : nat -> R) s : (forall l, (l < n)%nat -> is_derive (f l) s (d l)) ->
  is_derive (fun x => sumn n (fun l => f l x)) s (sumn n d).
Proof.
  induction n as [|n IH]; intros H; cbn [sumn].
  - apply (is_derive_const 0 s).
  - apply (is_derive_plus (fun x => sumn n (fun l => f l x)) (f n)); [apply IH; intros; apply H; lia|apply H; lia].
Qed.
Lemma is_derive_mult_R (f g : R -> R) (s df dg : R) : is_derive f s df -> is_derive g s dg -> is_derive (fun x => f x * g x) s (df * g s + f s * dg).
Proof. intros Hf Hg. apply (is_derive_mult f g s df dg Hf Hg). intros; apply Rmult_comm. Qed.
Lemma derive_val (f : R -> R) (s d d' : R) : d = d' -> is_derive f s d -> is_derive f s d'.
Proof. intros ->. auto. Qed.
(** reversed and shifted time *)
Lemma phi_shift n X a s i j : (i < n)%nat -> (j < n)%nat -> is_derive (fun x => phi n X (x - a) i j) s (mulm n X (phi n X (s - a)) i j).
Proof.
  intros Hi Hj. pose proof (phi_derive n X i j (s - a) Hi Hj) as H.
  assert (G : is_derive (fun x => x - a) s 1) by (auto_derive; [exact Logic.I|ring]).
  pose proof (is_derive_comp (fun x => phi n X x i j) (fun x => x - a) s _ _ H G) as D. eapply is_derive_ext_loc in D; [|apply filter_forall; intros; reflexivity].
  replace (mulm n X (phi n X (s - a)) i j) with (scal 1 (mulm n X (phi n X (s - a)) i j)) by (unfold scal; cbn; unfold mult; cbn; ring). exact D.
Qed.
Lemma phi_back n X a s i j : (i < n)%nat -> (j < n)%nat -> is_derive (fun x => phi n X (a - x) i j) s (- mulm n X (phi n X (a - s)) i j).
Proof.
  intros Hi Hj. pose proof (phi_derive n X i j (a - s) Hi Hj) as H.
  assert (G : is_derive (fun x => a - x) s (-1)) by (auto_derive; [exact Logic.I|ring]).
  pose proof (is_derive_comp (fun x => phi n X x i j) (fun x => a - x) s _ _ H G) as D.
  replace (- mulm n X (phi n X (a - s)) i j) with (scal (-1) (mulm n X (phi n X (a - s)) i j)) by (unfold scal; cbn; unfold mult; cbn; ring). exact D.
Qed.
Lemma const_of_derive (f : R -> R) a b : a <= b -> (forall s, a <= s <= b -> is_derive f s 0) -> f a = f b.
Proof. intros [H| ->] D; [|reflexivity]. apply (eq_is_derive f a b D H). Qed.

(** exp(s X) exp(-s X) = 1 *)
Lemma phi_inv n X s i j : 0 <= s -> (i < n)%nat -> (j < n)%nat -> mulm n (phi n X s) (phi n X (0 - s)) i j = mid i j.
Proof.
  intros Hs Hi Hj. rewrite <- (phi_0 n X i j Hi Hj).
  assert (E0 : mulm n (phi n X 0) (phi n X (0 - 0)) i j = phi n X 0 i j).
  { replace (0 - 0) with 0 by ring. rewrite (mulm_ext n _ mid _ (phi n X 0)) by (intros; try apply phi_0; auto). apply mulm_mid_l; auto. }
  rewrite <- E0. symmetry. apply (const_of_derive (fun x => mulm n (phi n X x) (phi n X (0 - x)) i j) 0 s Hs). intros x _.
  apply derive_val with (sumn n (fun l => mulm n X (phi n X x) i l * phi n X (0 - x) l j + phi n X x i l * - mulm n X (phi n X (0 - x)) l j)).
  - rewrite sumn_plus. rewrite (sumn_ext n (fun l => mulm n X (phi n X x) i l * phi n X (0 - x) l j) (fun l => mulm n (phi n X x) X i l * phi n X (0 - x) l j))
      by (intros l Hl; rewrite phi_comm by auto; reflexivity).
    rewrite (sumn_ext n (fun l => phi n X x i l * - mulm n X (phi n X (0 - x)) l j) (fun l => - (phi n X x i l * mulm n X (phi n X (0 - x)) l j))) by (intros; ring).
    rewrite sumn_opp. pose proof (mulm_assoc n (phi n X x) X (phi n X (0 - x)) i j) as A. unfold mulm at 1 3 in A. rewrite A. ring.
  - apply (is_derive_sumn n (fun l x => phi n X x i l * phi n X (0 - x) l j) (fun l => mulm n X (phi n X x) i l * phi n X (0 - x) l j + phi n X x i l * - mulm n X (phi n X (0 - x)) l j) x). intros l Hl.
    apply (is_derive_mult_R (fun x => phi n X x i l) (fun x => phi n X (0 - x) l j)); [apply phi_derive; auto|apply phi_back; auto].
Qed.

(** z' = X z has only the solution exp((s - a) X) z(a) *)
Lemma flow n X (z : R -> vec) a b : (forall s i, a <= s <= b -> (i < n)%nat -> is_derive (fun x => z x i) s (mulv n X (z s) i)) ->
  forall s i, a <= s <= b -> (i < n)%nat -> z s i = mulv n (phi n X (s - a)) (z a) i.
Proof.
  intros H s i Hs Hi.
  assert (W : forall j, (j < n)%nat -> mulv n (phi n X (a - s)) (z s) j = z a j).
  { intros j Hj. transitivity (mulv n (phi n X (a - a)) (z a) j).
    - symmetry. apply (const_of_derive (fun x => mulv n (phi n X (a - x)) (z x) j) a s (proj1 Hs)). intros x Hx.
      apply derive_val with (sumn n (fun l => - mulm n X (phi n X (a - x)) j l * z x l + phi n X (a - x) j l * mulv n X (z x) l)).
      + rewrite sumn_plus. rewrite (sumn_ext n (fun l => - mulm n X (phi n X (a - x)) j l * z x l) (fun l => - (mulm n (phi n X (a - x)) X j l * z x l)))
          by (intros l Hl; rewrite phi_comm by auto; ring).
        rewrite sumn_opp. pose proof (mulv_mulm n (phi n X (a - x)) X (z x) j) as A. unfold mulv at 1 2 in A. rewrite A. ring.
      + apply (is_derive_sumn n (fun l x => phi n X (a - x) j l * z x l) (fun l => - mulm n X (phi n X (a - x)) j l * z x l + phi n X (a - x) j l * mulv n X (z x) l) x). intros l Hl.
        apply (is_derive_mult_R (fun x => phi n X (a - x) j l) (fun x => z x l)); [apply phi_back; auto|apply H; [lra|auto]].
    - rewrite (mulv_ext n _ mid _ (z a)) by (intros; try reflexivity; replace (a - a) with 0 by ring; apply phi_0; auto). apply mulv_mid; auto. }
  rewrite (mulv_ext n _ (phi n X (s - a)) _ (mulv n (phi n X (a - s)) (z s))) by (intros; try reflexivity; symmetry; apply W; auto).
  rewrite <- mulv_mulm. rewrite (mulv_ext n _ mid _ (z s)); [symmetry; apply mulv_mid; auto| |reflexivity].
  intros k Hk. replace (a - s) with (0 - (s - a)) by ring. apply phi_inv; auto; lra.
Qed.

(** x' = X x + g for a continuous g *)
Lemma phi_continuous n X a s i j : (i < n)%nat -> (j < n)%nat -> continuous (fun x => phi n X (a - x) i j) s.
Proof. intros Hi Hj. apply (ex_derive_continuous (fun x => phi n X (a - x) i j)). eexists. apply phi_back; auto. Qed.
Lemma continuous_sumn n (f : nat -> R -> R) s : (forall l, (l < n)%nat -> continuous (f l) s) -> continuous (fun x => sumn n (fun l => f l x)) s.
Proof.
  induction n as [|n IH]; intros H; cbn [sumn]; [apply continuous_const|].
  apply (continuous_plus (fun x => sumn n (fun l => f l x)) (f n)); [apply IH; intros; apply H; lia|apply H; lia].
Qed.
Lemma forced_solution n X (g : R -> vec) a (x0 : vec) : (forall s i, (i < n)%nat -> continuous (fun x => g x i) s) ->
  exists z : R -> vec, (forall i, (i < n)%nat -> z a i = x0 i) /\
    forall s i, a <= s -> (i < n)%nat -> is_derive (fun x => z x i) s (mulv n X (z s) i + g s i).
Proof.
  intros Hg. set (h := fun l x => mulv n (phi n X (a - x)) (g x) l).
  set (y := fun s l => x0 l + RInt (h l) a s).
  assert (Hc : forall l s, (l < n)%nat -> continuous (h l) s).
  { intros l s Hl. unfold h, mulv. apply (continuous_sumn n (fun j x => phi n X (a - x) l j * g x j)). intros j Hj.
    apply (continuous_mult (fun x => phi n X (a - x) l j) (fun x => g x j)); [apply phi_continuous; auto|apply Hg; auto]. }
  assert (Hy : forall l s, (l < n)%nat -> is_derive (fun x => y x l) s (h l s)).
  { intros l s Hl. unfold y. apply (derive_val _ s (0 + h l s)); [ring|].
    apply (is_derive_plus (fun _ : R => x0 l) (fun x => RInt (h l) a x) s 0 (h l s)); [apply (is_derive_const (x0 l : R_NormedModule) s)|].
    apply (is_derive_RInt (h l) (fun x => RInt (h l) a x) a s); [|apply Hc; auto].
    apply filter_forall. intros x. apply (RInt_correct (h l)). apply (ex_RInt_continuous (h l)). intros; apply Hc; auto. }
  exists (fun s i => mulv n (phi n X (s - a)) (y s) i). split.
  - intros i Hi. rewrite (mulv_ext n _ mid _ x0); [apply mulv_mid; auto| |].
    + intros k Hk. replace (a - a) with 0 by ring. apply phi_0; auto.
    + intros k Hk. unfold y. rewrite RInt_point. unfold zero; cbn. ring.
  - intros s i Hs Hi. apply (derive_val _ s (sumn n (fun l => mulm n X (phi n X (s - a)) i l * y s l + phi n X (s - a) i l * h l s))).
    + rewrite sumn_plus. f_equal; [rewrite <- mulv_mulm; reflexivity|].
      change (mulv n (phi n X (s - a)) (mulv n (phi n X (a - s)) (g s)) i = g s i). rewrite <- mulv_mulm.
      rewrite (mulv_ext n _ mid _ (g s)); [apply mulv_mid; auto| |reflexivity].
      intros k Hk. replace (a - s) with (0 - (s - a)) by ring. apply phi_inv; auto; lra.
    + apply (is_derive_sumn n (fun l x => phi n X (x - a) i l * y x l) (fun l => mulm n X (phi n X (s - a)) i l * y s l + phi n X (s - a) i l * h l s) s). intros l Hl.
      apply (is_derive_mult_R (fun x => phi n X (x - a) i l) (fun x => y x l)); [apply phi_shift; auto|apply Hy; auto].
Qed.
