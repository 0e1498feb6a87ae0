(** Lemmas on the crack model. *)
From Coq Require Import Reals List Arith Bool ZArith Lia Lra Psatz Sorted.
From Verif Require Import PyBase MatBase SpecMat LMat CMat LCMat MMaterial MShaft MRotor MTime MFault SpecFault LFault LFault2.
Import ListNotations.
Open Scope list_scope.
Open Scope R_scope.

(** ** the table *)
Definition z44 (x : Z * Z * Z * Z) : Z := snd (fst (fst x)).
Definition z45 (x : Z * Z * Z * Z) : Z := snd (fst x).
Definition z55 (x : Z * Z * Z * Z) : Z := snd x.
Definition zdepth (x : Z * Z * Z * Z) : Z := fst (fst (fst x)).
Definition row_ok (x : Z * Z * Z * Z) : bool :=
  ((0 <? z44 x) && (0 <? z45 x) && (0 <? z55 x) && (z44 x * z55 x <? z45 x * z45 x)
   && (z45 x * z45 x <? z44 x * (z55 x + 10 ^ 21)) && (z45 x * z45 x <? z55 x * (z44 x + 10 ^ 21)))%Z.
Lemma table_ok : forallb row_ok papadopoulos = true. Proof. vm_compute. reflexivity. Qed.
Definition row_le (x y : Z * Z * Z * Z) : bool := ((zdepth x <=? zdepth y) && (z44 x <=? z44 y) && (z45 x <=? z45 y) && (z55 x <=? z55 y))%Z.
Fixpoint sortedb (l : list (Z * Z * Z * Z)) : bool := match l with [] => true | x :: t => forallb (row_le x) t && sortedb t end.
Lemma table_sorted : sortedb papadopoulos = true. Proof. vm_compute. reflexivity. Qed.
Lemma row_facts x : In x papadopoulos -> (0 < z44 x /\ 0 < z45 x /\ 0 < z55 x /\ z44 x * z55 x < z45 x * z45 x /\
  z45 x * z45 x < z44 x * (z55 x + 10 ^ 21) /\ z45 x * z45 x < z55 x * (z44 x + 10 ^ 21))%Z.
Proof.
  intros H. pose proof (proj1 (forallb_forall _ _) table_ok x H) as E. unfold row_ok in E. rewrite !andb_true_iff, !Z.ltb_lt in E. tauto.
Qed.
Lemma find_first l (p q : Z * Z * Z * Z -> bool) x y : sortedb l = true -> (forall z, p z = true -> q z = true) -> find q l = Some x -> find p l = Some y -> x = y \/ row_le x y = true.
Proof.
  intros S H. induction l as [|z l IH]; [discriminate|]. simpl in *. apply andb_true_iff in S as [S1 S2].
  destruct (q z) eqn:Q.
  - intros [= <-]. destruct (p z); [intros [= <-]; auto|]. intros F. right. apply (proj1 (forallb_forall _ _) S1). apply find_some in F. tauto.
  - destruct (p z) eqn:P; [rewrite (H _ P) in Q; discriminate|]. auto.
Qed.
Lemma coef_row_ok d : d <= 1 / 2 -> exists x, coef_row d = Ok x /\ In x papadopoulos /\ d * 2 <= row_depth x.
Proof.
  intros Hd. unfold coef_row. destruct (find _ papadopoulos) as [x|] eqn:E.
  - exists x. split; [reflexivity|]. apply find_some in E as [E1 E2]. split; [exact E1|]. destruct (Rle_dec (d * 2) (row_depth x)); [auto|discriminate].
  - exfalso. set (last := (100, 2633180000000000000000, 4759930000000000000000, 7790390000000000000000)%Z).
    assert (I : In last papadopoulos) by (unfold papadopoulos; repeat (first [left; reflexivity|right])).
    pose proof (find_none _ _ E _ I) as F. cbv beta in F. destruct (Rle_dec (d * 2) (row_depth last)) as [L|L]; [discriminate|]. apply L. unfold row_depth. simpl. lra.
Qed.
Lemma coef_row_mono d1 d2 x y : d1 <= d2 -> coef_row d1 = Ok x -> coef_row d2 = Ok y -> (z44 x <= z44 y /\ z45 x <= z45 y /\ z55 x <= z55 y)%Z.
Proof.
  unfold coef_row. intros H Hx Hy. destruct (find _ papadopoulos) as [x'|] eqn:Ex in Hx; [|discriminate]. injection Hx as ->.
  destruct (find _ papadopoulos) as [y'|] eqn:Ey in Hy; [|discriminate]. injection Hy as ->.
  destruct (find_first _ _ _ x y table_sorted (fun z (P : (if Rle_dec (d2 * 2) (row_depth z) then true else false) = true) =>
    match Rle_dec (d1 * 2) (row_depth z) as b return (if b then true else false) = true with left _ => eq_refl | right N => ltac:(exfalso; destruct (Rle_dec (d2 * 2) (row_depth z)); [lra|discriminate]) end) Ex Ey) as [->|L].
  - lia.
  - unfold row_le in L. rewrite !andb_true_iff, !Z.leb_le in L. tauto.
Qed.
Lemma get_coefs_row d nu E R0 : d <= 1 / 2 -> exists x, In x papadopoulos /\ coef_row d = Ok x /\
  get_coefs d nu E R0 = Ok (mkCC (coef (z44 x) nu E R0) (coef (z45 x) nu E R0) (coef (z55 x) nu E R0)).
Proof.
  intros H. destruct (coef_row_ok d H) as (x & Hx & Hi & _). exists x. split; [exact Hi|]. split; [exact Hx|]. unfold get_coefs. rewrite Hx.
  destruct x as [[[a b] c] e]. reflexivity.
Qed.

(** ** compliance and stiffness of the element *)
Definition cpl (a b c d5 d45 d4 : R) : mat := lmat [[a; 0; 0; - b]; [0; a; b; 0]; [0; b; c + d5; d45]; [- b; 0; d45; c + d4]].
Definition stf (a b P Q e : R) : mat :=
  let D := P * Q - e ^ 2 in
  lmat [[1 / a + b / a * (P * b / (a * D)); b / a * (e * b / (a * D)); b / a * (- e / D); b / a * (P / D)];
        [b / a * (e * b / (a * D)); 1 / a + b / a * (Q * b / (a * D)); - (b / a) * (Q / D); b / a * (e / D)];
        [- e * b / (a * D); - Q * b / (a * D); Q / D; - e / D];
        [P * b / (a * D); e * b / (a * D); - e / D; P / D]].
Ltac lt4 i H := destruct i as [|[|[|[|i]]]]; [| | | |exfalso; lia].
Lemma stf_left a b c d5 d45 d4 : let P := c + d5 - b ^ 2 / a in let Q := c + d4 - b ^ 2 / a in
  a <> 0 -> P * Q - d45 ^ 2 <> 0 -> meq 4 (mulm 4 (stf a b P Q d45) (cpl a b c d5 d45 d4)) mid.
Proof.
  intros P Q Ha HD i j Hi Hj.
  assert (E5 : c + d5 = P + b ^ 2 / a) by (unfold P; ring). assert (E4 : c + d4 = Q + b ^ 2 / a) by (unfold Q; ring).
  unfold mulm, sumn, stf, cpl. cbv zeta. rewrite E5, E4. clearbody P Q. 
  lt4 i Hi; lt4 j Hj; unfold lmat, mid; cbn [nth Nat.eqb]; field; auto.
Qed.
Lemma pinv_unique lib n A X : pinv_ok lib -> meq n (mulm n X A) mid -> meq n (eig_pinv lib n A) X.
Proof.
  intros L H i j Hi Hj.
  assert (Mv : forall x i, (i < n)%nat -> mulv n mid x i = x i).
  { intros x k Hk. unfold mulv. rewrite (sumn_single n _ k Hk); [unfold mid; rewrite Nat.eqb_refl; ring|]. intros l _ N. unfold mid. destruct (Nat.eqb_spec k l); [congruence|ring]. }
  assert (XA : forall x i, (i < n)%nat -> mulv n X (mulv n A x) i = x i).
  { intros x k Hk. rewrite <- mulv_mulm, <- (Mv x k Hk). apply sumn_ext. intros l Hl. now rewrite H. }
  assert (NS : nonsingular n A).
  { intros x Hx k Hk. rewrite <- (XA x k Hk). apply mulv_0. exact Hx. }
  destruct (L n A NS) as [R _].
  transitivity (mulv n X (mulv n A (fun k => eig_pinv lib n A k j)) i); [symmetry; apply (XA (fun k => eig_pinv lib n A k j)); auto|].
  transitivity (mulv n X (fun k => mid k j) i).
  - apply mulv_ext. intros k Hk. apply (R k j Hk Hj).
  - unfold mulv. rewrite (sumn_single n _ j Hj); [unfold mid; rewrite Nat.eqb_refl; ring|]. intros k _ N. unfold mid. destruct (Nat.eqb_spec k j); [congruence|ring].
Qed.
Definition cA s := s_L s ^ 3 * (1 + ck_A s / 4) / (3 * (mE (s_material s) * ck_I s)).
Definition cB s := s_L s ^ 2 / (2 * (mE (s_material s) * ck_I s)).
Definition cC s := s_L s / (mE (s_material s) * ck_I s).
Definition cP s := cC s - cB s ^ 2 / cA s.
Lemma Co_cpl s : meq 4 (ck_Co s) (cpl (cA s) (cB s) (cC s) 0 0 0).
Proof. intros i j Hi Hj. unfold ck_Co, cpl, lmat. lt4 i Hi; lt4 j Hj; cbn [nth]; fold (cA s) (cB s) (cC s); ring. Qed.
Lemma Cc_cpl s d cc : d <> 0 -> meq 4 (ck_Cc s d cc) (cpl (cA s) (cB s) (cC s) (cc55 cc) (cc45 cc) (cc44 cc)).
Proof.
  intros H i j Hi Hj. unfold ck_Cc. destruct (Req_EM_T d 0); [contradiction|]. unfold madd. rewrite Co_cpl by auto. unfold cpl, lmat.
  lt4 i Hi; lt4 j Hj; cbn [nth]; ring.
Qed.
Lemma meq_mulm n X A B : meq n A B -> meq n (mulm n X A) (mulm n X B).
Proof. intros H i j Hi Hj. apply sumn_ext. intros k Hk. now rewrite H. Qed.
Lemma meq_trans n A B D : meq n A B -> meq n B D -> meq n A D.
Proof. intros H1 H2 i j Hi Hj. now rewrite H1, H2. Qed.
Lemma ck_pos s : crackable s -> 0 < ck_I s /\ 0 < ck_S s /\ 0 < ck_A s.
Proof.
  intros [HL HE HG Hnu Hl Hr]. pose proof PI_RGT_0 as Pp.
  assert (Q : forall x y, 0 <= x < y -> x ^ 2 < y ^ 2 /\ x ^ 4 < y ^ 4).
  { intros x y H. assert (A : x ^ 2 < y ^ 2) by nra. split; [exact A|]. replace (x ^ 4) with (x ^ 2 * x ^ 2) by ring. replace (y ^ 4) with (y ^ 2 * y ^ 2) by ring.
    pose proof (pow2_ge_0 x). nra. }
  destruct (Q (s_idl s / 2) (s_odl s / 2)) as [A1 A2]; [lra|]. destruct (Q (s_idr s / 2) (s_odr s / 2)) as [B1 B2]; [lra|].
  assert (I : 0 < ck_I s) by (unfold ck_I; apply Rmult_lt_0_compat; lra). assert (S : 0 < ck_S s) by (unfold ck_S; apply Rmult_lt_0_compat; lra).
  split; [exact I|]. split; [exact S|]. unfold ck_A, ck_kappa. set (nu := mPoisson (s_material s)) in *.
  assert (0 < 7 + 12 * nu + 4 * nu ^ 2) by nra. assert (0 < (1 + nu) ^ 2) by (apply pow_lt; lra).
  assert (K : 0 < 6 * (1 + nu) ^ 2 / (7 + 12 * nu + 4 * nu ^ 2)) by (apply Rdiv_lt_0_compat; lra).
  assert (L2 : 0 < s_L s ^ 2) by (apply pow_lt; auto).
  apply Rdiv_lt_0_compat.
  - apply Rmult_lt_0_compat; [lra|exact I].
  - apply Rmult_lt_0_compat; [|exact L2]. apply Rmult_lt_0_compat; [|exact S]. apply Rmult_lt_0_compat; [exact HG|exact K].
Qed.
Lemma cp_eq s : crackable s -> 0 < cA s /\ cP s = cC s * ((1 + ck_A s) / (4 + ck_A s)) /\ 0 < cC s.
Proof.
  intros H. destruct (ck_pos s H) as (I & S & A). destruct H as [HL HE _ _ _ _].
  assert (0 < mE (s_material s) * ck_I s) by (apply Rmult_lt_0_compat; auto). set (EI := mE (s_material s) * ck_I s) in *.
  split; [unfold cA; fold EI; apply Rdiv_lt_0_compat; [apply Rmult_lt_0_compat; [apply pow_lt; auto|lra]|lra]|].
  split; [|unfold cC; fold EI; apply Rdiv_lt_0_compat; auto].
  unfold cP, cA, cB, cC. fold EI. field. lra.
Qed.
Lemma cp_pos s : crackable s -> 0 < cP s /\ cC s / 4 <= cP s.
Proof.
  intros H. destruct (cp_eq s H) as (_ & E & C). destruct (ck_pos s H) as (_ & _ & A). rewrite E.
  assert (1 / 4 <= (1 + ck_A s) / (4 + ck_A s)) by (apply (Rmult_le_reg_r (4 + ck_A s)); [lra|]; replace ((1 + ck_A s) / (4 + ck_A s) * (4 + ck_A s)) with (1 + ck_A s) by (field; lra); lra).
  split; [apply Rmult_lt_0_compat; lra|]. nra.
Qed.
(** the stiffnesses found by the code *)
Lemma setup_inv lib s d c : pinv_ok lib -> crackable s -> crack_setup lib s d = Ok c ->
  d <= 1 / 2 /\ cr_L c = s_L s /\ cr_KK c = shaft6_K s /\ meq 4 (cr_Kele c) (stf (cA s) (cB s) (cP s) (cP s) 0) /\
  exists x, In x papadopoulos /\ coef_row d = Ok x /\
    let f z := coef z (mPoisson (s_material s)) (mE (s_material s)) (s_odl s / 2) in
    cr_ko c = stf (cA s) (cB s) (cP s) (cP s) 0 0%nat 0%nat /\
    (d = 0 -> cr_kcx c = cr_ko c /\ cr_kcz c = cr_ko c) /\
    (d <> 0 -> let P := cP s + f (z55 x) in let Q := cP s + f (z44 x) in P * Q - f (z45 x) ^ 2 <> 0 ->
      cr_kcx c = stf (cA s) (cB s) P Q (f (z45 x)) 0%nat 0%nat /\ cr_kcz c = stf (cA s) (cB s) P Q (f (z45 x)) 1%nat 1%nat).
Proof.
  intros L H E. unfold crack_setup in E. destruct (Rle_dec d (1 / 2)) as [Hd|]; [|discriminate]. split; [exact Hd|].
  destruct (get_coefs_row d (mPoisson (s_material s)) (mE (s_material s)) (s_odl s / 2) Hd) as (x & Hi & Hr & Hg). rewrite Hg in E. cbn [bind] in E. injection E as <-.
  cbn [cr_L cr_KK cr_Kele cr_ko cr_kcx cr_kcz]. split; [reflexivity|]. split; [reflexivity|].
  destruct (cp_eq s H) as (A & _ & C). destruct (cp_pos s H) as [P0 _].
  assert (EP : cC s + 0 - cB s ^ 2 / cA s = cP s) by (unfold cP; ring).
  assert (KE : meq 4 (eig_pinv lib 4 (ck_Co s)) (stf (cA s) (cB s) (cP s) (cP s) 0)).
  { apply pinv_unique; auto. eapply meq_trans; [apply meq_mulm, Co_cpl|]. pose proof (stf_left (cA s) (cB s) (cC s) 0 0 0) as X. cbv zeta in X. rewrite EP in X.
    apply X; [lra|]. nra. }
  split; [exact KE|]. exists x. split; [exact Hi|]. split; [exact Hr|]. cbv zeta. split; [apply KE; lia|]. split.
  - intros ->. unfold ck_Cc. destruct (Req_EM_T 0 0); [|contradiction]. split; [reflexivity|]. rewrite !KE by lia. unfold stf, lmat. cbn [nth]. reflexivity.
  - intros Hz HD. set (f := fun z => coef z (mPoisson (s_material s)) (mE (s_material s)) (s_odl s / 2)) in *.
    assert (KC : meq 4 (eig_pinv lib 4 (ck_Cc s d (mkCC (f (z44 x)) (f (z45 x)) (f (z55 x))))) (stf (cA s) (cB s) (cP s + f (z55 x)) (cP s + f (z44 x)) (f (z45 x)))).
    { apply pinv_unique; auto. eapply meq_trans; [apply meq_mulm, Cc_cpl; exact Hz|]. cbn [cc44 cc45 cc55].
      pose proof (stf_left (cA s) (cB s) (cC s) (f (z55 x)) (f (z45 x)) (f (z44 x))) as X. cbv zeta in X.
      replace (cC s + f (z55 x) - cB s ^ 2 / cA s) with (cP s + f (z55 x)) in X by (unfold cP; ring).
      replace (cC s + f (z44 x) - cB s ^ 2 / cA s) with (cP s + f (z44 x)) in X by (unfold cP; ring). apply X; [lra|exact HD]. }
    split; apply KC; lia.
Qed.
(** comparison of the stiffnesses *)
Lemma stf_ko a b p : a <> 0 -> p <> 0 -> stf a b p p 0 0%nat 0%nat = 1 / a + b ^ 2 / a ^ 2 * / p.
Proof. intros. unfold stf, lmat. cbn [nth]. field. auto. Qed.
Lemma stf_kcx a b P Q e : a <> 0 -> P * Q - e ^ 2 <> 0 -> stf a b P Q e 0%nat 0%nat = 1 / a + b ^ 2 / a ^ 2 * (P / (P * Q - e ^ 2)).
Proof. intros. unfold stf, lmat. cbn [nth]. field. auto. Qed.
Lemma stf_kcz a b P Q e : a <> 0 -> P * Q - e ^ 2 <> 0 -> stf a b P Q e 1%nat 1%nat = 1 / a + b ^ 2 / a ^ 2 * (Q / (P * Q - e ^ 2)).
Proof. intros. unfold stf, lmat. cbn [nth]. field. auto. Qed.
Lemma inv_lt P Q e p : 0 < p -> 0 < P * Q - e ^ 2 -> (P / (P * Q - e ^ 2) < / p <-> e ^ 2 < P * (Q - p)).
Proof.
  intros Hp HD. set (D := P * Q - e ^ 2) in *. split; intros H.
  - apply (Rmult_lt_compat_r (D * p)) in H; [|apply Rmult_lt_0_compat; auto]. replace (P / D * (D * p)) with (P * p) in H by (field; lra). replace (/ p * (D * p)) with D in H by (field; lra). unfold D in H. lra.
  - apply (Rmult_lt_reg_r (D * p)); [apply Rmult_lt_0_compat; auto|]. replace (P / D * (D * p)) with (P * p) by (field; lra). replace (/ p * (D * p)) with D by (field; lra). unfold D. lra.
Qed.
