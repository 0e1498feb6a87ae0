(** Polynomials as functions, their integrals and the 10 point closed Newton-Cotes rule. *)
From Coq Require Import Reals List Lra Lia Psatz.
From Coquelicot Require Import Coquelicot.
Import ListNotations.
Open Scope R_scope.

Fixpoint peval (l : list R) (z : R) : R :=
  match l with [] => 0 | c :: l' => c + z * peval l' z end.

(** f is a polynomial function with at most n coefficients (degree < n) *)
Definition poly (n : nat) (f : R -> R) : Prop :=
  exists l, (length l <= n)%nat /\ forall z, f z = peval l z.

Fixpoint padd (a b : list R) : list R :=
  match a, b with
  | [], _ => b
  | _, [] => a
  | x :: a', y :: b' => (x + y) :: padd a' b'
  end.

Lemma peval_padd a b z : peval (padd a b) z = peval a z + peval b z.
Proof.
  revert b; induction a as [|x a IH]; intros [|y b]; simpl; try ring.
  rewrite IH; ring.
Qed.

Lemma padd_length a b : length (padd a b) = Nat.max (length a) (length b).
Proof. revert b; induction a as [|x a IH]; intros [|y b]; simpl; auto. Qed.

Definition pscale (c : R) (a : list R) := map (Rmult c) a.
Lemma peval_pscale c a z : peval (pscale c a) z = c * peval a z.
Proof. induction a as [|x a IH]; simpl; [ring|rewrite IH; ring]. Qed.

Fixpoint pmul (a b : list R) : list R :=
  match a with
  | [] => []
  | x :: a' => padd (pscale x b) (0 :: pmul a' b)
  end.
Lemma peval_pmul a b z : peval (pmul a b) z = peval a z * peval b z.
Proof.
  induction a as [|x a IH]; simpl; [ring|].
  rewrite peval_padd, peval_pscale; simpl; rewrite IH; ring.
Qed.
Lemma pmul_length a b n m : (length a <= S n)%nat -> (length b <= S m)%nat ->
  (length (pmul a b) <= S (n + m))%nat.
Proof.
  revert n; induction a as [|x a IH]; intros n Ha Hb; simpl; [lia|].
  rewrite padd_length; unfold pscale; rewrite map_length; simpl in *.
  destruct n as [|n].
  - destruct a; simpl in *; lia.
  - assert (length (pmul a b) <= S (n + m))%nat by (apply IH; lia). lia.
Qed.

Lemma poly_const n c : poly (S n) (fun _ => c).
Proof. exists [c]; split; simpl; [lia|intros; ring]. Qed.
Lemma poly_id n : poly (S (S n)) (fun z => z).
Proof. exists [0;1]; split; simpl; [lia|intros; ring]. Qed.
Lemma poly_plus n f g : poly n f -> poly n g -> poly n (fun z => f z + g z).
Proof.
  intros [a [Ha Ea]] [b [Hb Eb]]; exists (padd a b); split.
  - rewrite padd_length; lia.
  - intros z; rewrite peval_padd, Ea, Eb; reflexivity.
Qed.
Lemma poly_mult n m f g : poly (S n) f -> poly (S m) g -> poly (S (n + m)) (fun z => f z * g z).
Proof.
  intros [a [Ha Ea]] [b [Hb Eb]]; exists (pmul a b); split.
  - apply pmul_length; assumption.
  - intros z; rewrite peval_pmul, Ea, Eb; reflexivity.
Qed.
Lemma poly_ext n f g : (forall z, f z = g z) -> poly n f -> poly n g.
Proof. intros E [a [Ha Ea]]; exists a; split; auto; intros z; rewrite <- E; auto. Qed.
Lemma poly_weaken n m f : (n <= m)%nat -> poly n f -> poly m f.
Proof. intros H [a [Ha Ea]]; exists a; split; auto; lia. Qed.

(** explicit integral of a polynomial with 10 coefficients *)
Lemma is_RInt_poly10 c0 c1 c2 c3 c4 c5 c6 c7 c8 c9 L :
  is_RInt (peval [c0;c1;c2;c3;c4;c5;c6;c7;c8;c9]) 0 L
    (c0*L + c1*L^2/2 + c2*L^3/3 + c3*L^4/4 + c4*L^5/5 + c5*L^6/6 + c6*L^7/7 + c7*L^8/8 + c8*L^9/9 + c9*L^10/10).
Proof.
  set (F := fun z => c0*z + c1*z^2/2 + c2*z^3/3 + c3*z^4/4 + c4*z^5/5 + c5*z^6/6 + c6*z^7/7 + c7*z^8/8 + c8*z^9/9 + c9*z^10/10).
  replace (c0*L + _ + _ + _ + _ + _ + _ + _ + _ + _) with (minus (F L) (F 0)).
  2:{ unfold F, minus, plus, opp; simpl; field. }
  apply (is_RInt_derive F).
  - intros x _. unfold F. auto_derive; [exact I|]. simpl; field.
  - intros x _. apply (ex_derive_continuous (V := R_NormedModule)). cbv [peval]. auto_derive. exact I.
Qed.

(** closed Newton-Cotes rule with 10 points, exact up to degree 9 *)
Definition nc10 (f : R -> R) (L : R) : R :=
  L / 89600 * (2857 * (f 0 + f L) + 15741 * (f (L/9) + f (8*L/9)) + 1080 * (f (2*L/9) + f (7*L/9))
               + 19344 * (f (3*L/9) + f (6*L/9)) + 5778 * (f (4*L/9) + f (5*L/9))).

Lemma pad10 l : (length l <= 10)%nat ->
  exists c0 c1 c2 c3 c4 c5 c6 c7 c8 c9, forall z, peval l z = peval [c0;c1;c2;c3;c4;c5;c6;c7;c8;c9] z.
Proof.
  intros H.
  exists (nth 0 l 0), (nth 1 l 0), (nth 2 l 0), (nth 3 l 0), (nth 4 l 0), (nth 5 l 0), (nth 6 l 0),
    (nth 7 l 0), (nth 8 l 0), (nth 9 l 0).
  intros z.
  do 11 (destruct l as [|? l]; [simpl; ring|]).
  simpl in H; lia.
Qed.

Lemma is_RInt_nc10 f L : poly 10 f -> is_RInt f 0 L (nc10 f L).
Proof.
  intros [l [Hl E]].
  destruct (pad10 l Hl) as (c0&c1&c2&c3&c4&c5&c6&c7&c8&c9&E').
  assert (EE : forall z, f z = peval [c0;c1;c2;c3;c4;c5;c6;c7;c8;c9] z) by (intros; rewrite E; apply E').
  apply (is_RInt_ext (peval [c0;c1;c2;c3;c4;c5;c6;c7;c8;c9])).
  - intros x _; symmetry; apply EE.
  - replace (nc10 f L) with (c0*L + c1*L^2/2 + c2*L^3/3 + c3*L^4/4 + c4*L^5/5 + c5*L^6/6 + c6*L^7/7 + c7*L^8/8 + c8*L^9/9 + c9*L^10/10).
    apply is_RInt_poly10.
    unfold nc10. rewrite !EE. unfold peval. field.
Qed.

Lemma RInt_nc10 f L : poly 10 f -> RInt f 0 L = nc10 f L.
Proof. intros H; apply is_RInt_unique, is_RInt_nc10, H. Qed.

(** the rule is a positive one *)
Lemma nc10_nonneg f L : 0 <= L -> (forall z, 0 <= z <= L -> 0 <= f z) -> 0 <= nc10 f L.
Proof.
  intros HL Hf; unfold nc10.
  assert (forall z, 0 <= z <= L -> 0 <= f z) by exact Hf.
  pose proof (Hf 0 ltac:(lra)). pose proof (Hf L ltac:(lra)).
  pose proof (Hf (L/9) ltac:(lra)). pose proof (Hf (8*L/9) ltac:(lra)).
  pose proof (Hf (2*L/9) ltac:(lra)). pose proof (Hf (7*L/9) ltac:(lra)).
  pose proof (Hf (3*L/9) ltac:(lra)). pose proof (Hf (6*L/9) ltac:(lra)).
  pose proof (Hf (4*L/9) ltac:(lra)). pose proof (Hf (5*L/9) ltac:(lra)).
  apply Rmult_le_pos; [lra|]. lra.
Qed.

(** if the rule vanishes on a non-negative function, the function vanishes at the nodes *)
Lemma nc10_zero f L : 0 < L -> (forall z, 0 <= z <= L -> 0 <= f z) -> nc10 f L = 0 ->
  f 0 = 0 /\ f (3*L/9) = 0 /\ f (6*L/9) = 0 /\ f L = 0.
Proof.
  intros HL Hf; unfold nc10.
  pose proof (Hf 0 ltac:(lra)). pose proof (Hf L ltac:(lra)).
  pose proof (Hf (L/9) ltac:(lra)). pose proof (Hf (8*L/9) ltac:(lra)).
  pose proof (Hf (2*L/9) ltac:(lra)). pose proof (Hf (7*L/9) ltac:(lra)).
  pose proof (Hf (3*L/9) ltac:(lra)). pose proof (Hf (6*L/9) ltac:(lra)).
  pose proof (Hf (4*L/9) ltac:(lra)). pose proof (Hf (5*L/9) ltac:(lra)).
  intros E. apply Rmult_integral in E. destruct E as [E|E]; [lra|].
  repeat split; lra.
Qed.

(** automation: a goal [poly n (fun z => e)] with e built from constants, z, + and * *)
Lemma poly_minus n f g : poly n f -> poly n g -> poly n (fun z => f z - g z).
Proof.
  intros Hf Hg. apply (poly_ext n (fun z => f z + (-1) * g z)); [intros; ring|].
  apply poly_plus; auto. 
  destruct n as [|n].
  - destruct Hg as [[|] [H E]]; simpl in H; [|lia]. exists []; split; simpl; auto. intros; rewrite E; simpl; ring.
  - apply (poly_mult 0 n (fun _ => -1)); auto using poly_const.
Qed.
Lemma poly_scale n c f : poly n f -> poly n (fun z => c * f z).
Proof.
  intros [a [Ha Ea]]; exists (pscale c a); split.
  - unfold pscale; rewrite map_length; auto.
  - intros; rewrite peval_pscale, Ea; reflexivity.
Qed.
Lemma poly_sq n f : poly (S n) f -> poly (S (n + n)) (fun z => f z ^ 2).
Proof.
  intros H; apply (poly_ext _ (fun z => f z * f z)); [intros; ring|]. apply poly_mult; auto.
Qed.
