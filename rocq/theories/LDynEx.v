(** A linear algebra library that meets the contract, and small systems for the examples. *)
From Coq Require Import Reals String List Arith Bool Lia Lra Permutation.
From Coquelicot Require Import Complex.
From Verif Require Import PyBase MatBase SpecMat LMat CMat LCMat MMaterial MShaft SpecShaft LShaftEx MDisk MBearing MRotor SpecRotor LAssembly LRotor LRotor2 LRotorEx MDynamics SpecDynamics LDynamics LStability LTransfer.
Import ListNotations.
Open Scope list_scope.
Open Scope R_scope.

Definition ex_solve (n : nat) (A B : mat) : res mat :=
  match real_solve n A with
  | inl (exist f _) => Ok (fun i j => f (fun k => B k j) i)
  | inr _ => Err LinAlgError
  end.
Definition ex_inv (n : nat) (A : cmat) : res cmat :=
  match complex_solve n A with
  | inl (exist f _) => Ok (fun i j => f (fun k => cid k j) i)
  | inr _ => Err LinAlgError
  end.
Definition la_with (eig : nat -> mat -> (nat -> C) * cmat) : linalg := mkLinalg ex_solve ex_inv eig.
Lemma la_with_ok eig : (forall n A i j, (i < n)%nat -> (j < n)%nat ->
    cmulv n (of_mat A) (fun k => snd (eig n A) k j) i = Cmult (fst (eig n A) j) (snd (eig n A) i j)) -> linalg_ok (la_with eig).
Proof.
  intros He. split; simpl.
  - intros n A B X. unfold ex_solve. destruct (real_solve n A) as [[f Hf]|x]; intros H; inversion H; subst. split.
    + apply (real_surj_nonsingular n A f Hf).
    + intros i j Hi Hj. exact (Hf (fun k => B k j) i Hi).
  - intros n A B e. unfold ex_solve. destruct (real_solve n A) as [[f Hf]|[x [(i & Hi & Hx) H0]]]; intros H; inversion H; subst. split; auto.
  - intros n A X. unfold ex_inv. destruct (complex_solve n A) as [[f Hf]|x]; intros H; inversion H; subst.
    assert (E : ceq n n (cmulm n A (fun i j => f (fun k => cid k j) i)) cid) by (intros i j Hi Hj; exact (Hf (fun k => cid k j) i Hi)).
    apply right_inverse_both; auto. exact (complex_surj_nonsingular n A f Hf).
  - intros n A e. unfold ex_inv. destruct (complex_solve n A) as [[f Hf]|[x [(i & Hi & Hx) H0]]]; intros H; inversion H; subst. split; auto.
  - exact He.
Qed.
(** the library with a trivial [eig]: enough for the state matrix *)
Definition la0 : linalg := la_with (fun _ _ => (fun _ => RtoC 0, czero)).
Lemma la0_ok : linalg_ok la0.
Proof. apply la_with_ok. intros n A i j _ _. simpl. unfold czero. unfold cmulv. rewrite csumn_0; [ring|]. intros; ring. Qed.

Lemma solve_exists la n A B : linalg_ok la -> nonsingular n A -> is_ok (la_solve la n A B).
Proof. intros L H. destruct (la_solve la n A B) as [X|e] eqn:E; [exists X; auto|]. apply (solve_err la L) in E. tauto. Qed.

(** ** a mass on a spring and a damper in x and y: m = 1, k = 2, c = 3; eigenvalues -1, -1, -2, -2 *)
Definition tiny_coef (c : cname) : list R * interp :=
  match c with kxx | kyy => ([2], IConst 2) | cxx | cyy => ([3], IConst 3) | mxx | myy => ([1], IConst 1) | _ => ([0], IConst 0) end.
Definition tiny_brg : rbrg := RB4 false (mkBearing 0 None (Some "b"%string) "#355d7a" 1 None tiny_coef).
Definition tiny : rotor := mkRotor [] [] [EBrg "b" tiny_brg] [] 4 0 2 [] [] 0 0 0 0 0.
Definition tiny_A : mat := lmat [[0; 0; 1; 0]; [0; 0; 0; 1]; [-2; 0; -3; 0]; [0; -2; 0; -3]].
Definition tiny_lam (j : nat) : C := if (j <? 2)%nat then RtoC (-1) else RtoC (-2).
Definition tiny_V : mat := lmat [[1; 0; 1; 0]; [0; 1; 0; 1]; [-1; 0; -2; 0]; [0; -1; 0; -2]].
Definition tiny_W : mat := lmat [[2; 0; 1; 0]; [0; 2; 0; 1]; [-1; 0; -1; 0]; [0; -1; 0; -1]].
Definition is_tiny (n : nat) (A : mat) : bool :=
  Nat.eqb n 4 && forallb (fun i => forallb (fun j => if Req_EM_T (A i j) (tiny_A i j) then true else false) (seq 0 4)) (seq 0 4).
Definition la1 : linalg := la_with (fun n A => if is_tiny n A then (tiny_lam, of_mat tiny_V) else (fun _ => RtoC 0, czero)).
Lemma is_tiny_spec n A : is_tiny n A = true <-> n = 4%nat /\ forall i j, (i < 4)%nat -> (j < 4)%nat -> A i j = tiny_A i j.
Proof.
  unfold is_tiny. rewrite andb_true_iff, Nat.eqb_eq, forallb_forall. split; intros [H1 H2]; split; auto.
  - intros i j Hi Hj. assert (Ii : In i (seq 0 4)) by (apply in_seq; lia). specialize (H2 i Ii). rewrite forallb_forall in H2.
    assert (Ij : In j (seq 0 4)) by (apply in_seq; lia). specialize (H2 j Ij). destruct (Req_EM_T _ _); [auto|discriminate].
  - intros i Hi. apply in_seq in Hi. apply forallb_forall. intros j Hj. apply in_seq in Hj. destruct (Req_EM_T (A i j) (tiny_A i j)) as [|N]; auto. exfalso. apply N, H2; lia.
Qed.
Ltac lt4 i H := destruct i as [|[|[|[|i]]]]; [| | | |exfalso; lia].
Ltac lt2 i H := destruct i as [|[|i]]; [| |exfalso; lia].
Lemma la1_ok : linalg_ok la1.
Proof.
  apply la_with_ok. intros n A i j Hi Hj. destruct (is_tiny n A) eqn:E.
  - apply is_tiny_spec in E as [-> E]. cbn [fst snd].
    transitivity (cmulm 4 (of_mat tiny_A) (of_mat tiny_V) i j).
    + unfold cmulv, cmulm. apply csumn_ext. intros k Hk. unfold of_mat. rewrite E; auto.
    + rewrite cmulm_of. unfold of_mat, tiny_lam, mulm, tiny_A, tiny_V, lmat.
      lt4 i Hi; lt4 j Hj; cbn; unfold RtoC, Cmult; cbn [fst snd]; f_equal; ring.
  - cbn [fst snd]. unfold czero, cmulv. rewrite csumn_0; [ring|]. intros; ring.
Qed.

(** sums over a permutation of the indices *)
Fixpoint csuml (l : list C) : C := match l with [] => RtoC 0 | x :: l => Cplus x (csuml l) end.
Lemma csuml_perm l l' : Permutation l l' -> csuml l = csuml l'.
Proof. induction 1; simpl; try congruence; ring. Qed.
Lemma csumn_csuml n (f : nat -> C) : csumn n f = csuml (map f (seq 0 n)).
Proof.
  induction n; [reflexivity|]. cbn [csumn]. rewrite IHn, seq_S, map_app. cbn [map Nat.add]. generalize (map f (seq 0 n)). intros l. induction l; simpl; [ring|]. rewrite <- IHl. ring.
Qed.
Lemma csumn_perm n idx (f : nat -> C) : Permutation idx (seq 0 n) -> csumn n (fun k => f (nth k idx 0%nat)) = csumn n f.
Proof.
  intros P. rewrite !csumn_csuml. rewrite <- (csuml_perm _ _ (Permutation_map f P)). f_equal.
  rewrite <- (map_map (fun k => nth k idx 0%nat) f). f_equal.
  assert (E : n = length idx) by (rewrite (Permutation_length P), seq_length; reflexivity). rewrite E. clear.
  induction idx as [|a l IH] using rev_ind; auto. rewrite app_length. cbn [length]. rewrite Nat.add_1_r, seq_S, map_app. f_equal.
  - rewrite <- IH at 2. apply map_ext_in. intros k Hk. apply in_seq in Hk. apply app_nth1. lia.
  - simpl. rewrite app_nth2, Nat.sub_diag by lia. reflexivity.
Qed.

Lemma tiny_matrices spl w : rotor_M spl tiny (Some w) = Ok (fun i j => match last_index i [0; 1]%nat, last_index j [0; 1]%nat with Some a, Some b => mzero i j + lmat [[1; 0]; [0; 1]] a b | _, _ => mzero i j end) /\
  rotor_K spl tiny w [] = Ok (fun i j => match last_index i [0; 1]%nat, last_index j [0; 1]%nat with Some a, Some b => mzero i j + lmat [[2; 0]; [0; 2]] a b | _, _ => mzero i j end) /\
  rotor_C spl tiny w [] = Ok (fun i j => match last_index i [0; 1]%nat, last_index j [0; 1]%nat with Some a, Some b => mzero i j + lmat [[3; 0]; [0; 3]] a b | _, _ => mzero i j end) /\
  rotor_G spl tiny = Ok (fun i j => match last_index i [0; 1]%nat, last_index j [0; 1]%nat with Some a, Some b => mzero i j + mzero a b | _, _ => mzero i j end).
Proof. repeat split; reflexivity. Qed.
Definition diag_mat (n : nat) (d : R) (A : mat) : Prop := forall i j, (i < n)%nat -> (j < n)%nat -> A i j = if Nat.eqb i j then d else 0.
Lemma tiny_system spl w : exists M K D G, rotor_M spl tiny (Some w) = Ok M /\ rotor_K spl tiny w [] = Ok K /\ rotor_C spl tiny w [] = Ok D /\ rotor_G spl tiny = Ok G /\
  diag_mat 2 1 M /\ diag_mat 2 2 K /\ diag_mat 2 3 D /\ diag_mat 2 0 G.
Proof.
  destruct (tiny_matrices spl w) as (H1 & H2 & H3 & H4).
  eexists _, _, _, _. split; [exact H1|]. split; [exact H2|]. split; [exact H3|]. split; [exact H4|].
  split; [|split; [|split]]; intros i j Hi Hj; lt2 i Hi; lt2 j Hj; cbn; unfold mzero; ring.
Qed.
