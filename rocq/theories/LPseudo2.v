(** Lemmas on the pseudo-modal method: the basis of eigenvectors and the stiffness matrix it comes from. *)
From Coq Require Import Reals String List Arith Bool Lia Lra ZArith.
From Verif Require Import PyBase MatBase SpecMat LMat LCMat LDynamics MBearing MRotor SpecRotor MDynamics SpecDynamics MTime SpecTime LTime LTime2 LStoch LAssembly LRotor LRotor2 LRotor5 MShaft LShaftProps MPseudo SpecPseudo LPseudo.
Import ListNotations.
Open Scope list_scope.
Open Scope R_scope.

Definition col (V : mat) (j : nat) : vec := fun k => V k j.
Lemma bform_comb n A (x : vec) m V q : bform n A x (mulv m V q) = sumn m (fun j => q j * bform n A x (col V j)).
Proof.
  unfold bform, mulv, col. transitivity (sumn n (fun i => sumn m (fun j => q j * (x i * sumn n (fun k => A i k * V k j))))).
  { apply sumn_ext. intros i _. transitivity (x i * sumn m (fun j => q j * sumn n (fun k => A i k * V k j))); [|rewrite <- sumn_scal; apply sumn_ext; intros; ring].
    f_equal. transitivity (sumn n (fun k => sumn m (fun j => q j * (A i k * V k j)))).
    - apply sumn_ext. intros k _. rewrite <- sumn_scal. apply sumn_ext. intros; ring.
    - rewrite sumn_swap. apply sumn_ext. intros j _. rewrite sumn_scal. reflexivity. }
  rewrite sumn_swap. apply sumn_ext. intros j _. rewrite sumn_scal. reflexivity.
Qed.
Lemma bform_comb_l' n A m V q (y : vec) : bform n A (mulv m V q) y = sumn m (fun j => q j * bform n A (col V j) y).
Proof.
  unfold bform, mulv at 1, col. transitivity (sumn n (fun i => sumn m (fun j => q j * (V i j * sumn n (fun k => A i k * y k))))).
  { apply sumn_ext. intros i _. rewrite <- sumn_scal_r. apply sumn_ext. intros; ring. }
  rewrite sumn_swap. apply sumn_ext. intros j _. rewrite sumn_scal. reflexivity.
Qed.

Section Basis.
Variables (n : nat) (A B : mat) (w : vec) (V : mat).
Hypothesis E : eigenpairs n A B w V.
Lemma basis_form m p q : (m <= n)%nat -> bform n B (mulv m V p) (mulv m V q) = sumn m (fun j => p j * q j).
Proof.
  intros H. rewrite bform_comb_l'. apply sumn_ext. intros j Hj. rewrite bform_comb. f_equal. rewrite (sumn_single m _ j Hj).
  - unfold col. rewrite (ep_normal _ _ _ _ _ E) by lia. rewrite Nat.eqb_refl. ring.
  - intros i Hi N. unfold col. rewrite (ep_normal _ _ _ _ _ E) by lia. destruct (Nat.eqb_spec j i); [congruence|ring].
Qed.
Lemma basis_stiff m p q : (m <= n)%nat -> bform n A (mulv m V p) (mulv m V q) = sumn m (fun j => w j * (p j * q j)).
Proof.
  intros H. rewrite bform_comb_l'. apply sumn_ext. intros j Hj. rewrite bform_comb. rewrite (sumn_single m _ j Hj).
  - rewrite bform_mulv. unfold dot, col. rewrite (sumn_ext n _ (fun i => w j * (V i j * mulv n B (fun k => V k j) i))) by (intros i Hi; rewrite (ep_eigen _ _ _ _ _ E) by lia; ring).
    rewrite sumn_scal. assert (N := ep_normal _ _ _ _ _ E j j ltac:(lia) ltac:(lia)). rewrite bform_mulv, Nat.eqb_refl in N. unfold dot in N. rewrite N. ring.
  - intros i Hi N. rewrite bform_mulv. unfold dot, col. rewrite (sumn_ext n _ (fun k => w i * (V k j * mulv n B (fun k => V k i) k))) by (intros k Hk; rewrite (ep_eigen _ _ _ _ _ E) by lia; ring).
    rewrite sumn_scal. assert (N' := ep_normal _ _ _ _ _ E j i ltac:(lia) ltac:(lia)). rewrite bform_mulv in N'. unfold dot in N'. destruct (Nat.eqb_spec j i); [congruence|]. rewrite N'. ring.
Qed.
(** every vector is a combination of all eigenvectors *)
Lemma basis_all x : exists q, forall i, (i < n)%nat -> x i = mulv n V q i.
Proof.
  destruct (real_solve n V) as [[f Hf]|[y [Y0 Y]]]; [exists (f x); intros i Hi; symmetry; apply Hf; exact Hi|]. exfalso. destruct Y0 as (i & Hi & N).
  assert (Z : sumn n (fun j => y j * y j) = 0).
  { rewrite <- (basis_form n y y (Nat.le_refl n)). rewrite (bform_vext n B _ (fun _ => 0) _ (fun _ => 0)); [|exact Y|exact Y]. unfold bform. apply sumn_0. intros; ring. }
  assert (P : 0 < sumn n (fun j => y j * y j)); [|lra]. clear - Hi N. induction n as [|k IH]; [lia|]. simpl. assert (0 <= sumn k (fun j => y j * y j)) by (apply sumn_nonneg; intros; nra).
  destruct (Nat.eq_dec i k) as [-> |]; [nra|]. specialize (IH ltac:(lia)). nra.
Qed.
Lemma reduced_nonzero m q : (m <= n)%nat -> nonzero m q -> nonzero n (mulv m V q).
Proof.
  intros H (i & Hi & N). destruct (classic_nonzero n (mulv m V q)) as [X|Z]; [exact X|]. exfalso.
  assert (Q : sumn m (fun j => q j * q j) = 0).
  { rewrite <- (basis_form m q q H). rewrite (bform_vext n B _ (fun _ => 0) _ (fun _ => 0)); [|exact Z|exact Z]. unfold bform. apply sumn_0. intros; ring. }
  assert (P : 0 < sumn m (fun j => q j * q j)); [|lra]. clear - Hi N. induction m as [|k IH]; [lia|]. simpl. assert (0 <= sumn k (fun j => q j * q j)) by (apply sumn_nonneg; intros; nra).
  destruct (Nat.eq_dec i k) as [-> |]; [nra|]. specialize (IH ltac:(lia)). nra.
Qed.
(** directions that are orthogonal to the first m eigenvectors are stiffer *)
Lemma left_out m y : (m < n)%nat -> (forall j, (j < m)%nat -> bform n B (col V j) y = 0) -> w m * bform n B y y <= bform n A y y.
Proof.
  intros H O. destruct (basis_all y) as (q & Q).
  rewrite (bform_vext n B y (mulv n V q) y (mulv n V q) Q Q), (bform_vext n A y (mulv n V q) y (mulv n V q) Q Q), basis_form, basis_stiff by lia.
  assert (Z : forall j, (j < m)%nat -> q j = 0).
  { intros j Hj. rewrite <- (O j Hj), (bform_vext n B (col V j) (col V j) y (mulv n V q) (fun _ _ => eq_refl) Q), bform_comb, (sumn_single n _ j ltac:(lia)).
    - unfold col. rewrite (ep_normal _ _ _ _ _ E) by lia. rewrite Nat.eqb_refl. ring.
    - intros i Hi N. unfold col. rewrite (ep_normal _ _ _ _ _ E) by lia. destruct (Nat.eqb_spec j i); [congruence|ring]. }
  assert (D : 0 <= sumn n (fun j => w j * (q j * q j) - w m * (q j * q j))); [|rewrite sumn_minus, sumn_scal in D; lra].
  apply sumn_nonneg. intros j Hj. destruct (Nat.lt_ge_cases j m) as [X|X]; [rewrite (Z j X); lra|]. assert (W := ep_order _ _ _ _ _ E m j ltac:(lia)). nra.
Qed.
(** the test with spanned vectors *)
Lemma tested m (r : vec) tol z : (m <= n)%nat -> sumn m (fun j => (sumn n (fun i => V i j * r i)) ^ 2) < tol ^ 2 -> spanned n m V z -> (dot n z r) ^ 2 <= tol ^ 2 * bform n B z z.
Proof.
  intros H T (q & Q). change (forall i, (i < n)%nat -> z i = mulv m V q i) in Q. rewrite (bform_vext n B z (mulv m V q) z (mulv m V q) Q Q), basis_form by exact H.
  replace (dot n z r) with (sumn m (fun j => q j * sumn n (fun i => V i j * r i))).
  - eapply Rle_trans; [apply cauchy|]. rewrite Rmult_comm. rewrite (sumn_ext m (fun j => q j * q j) (fun j => q j ^ 2)) by (intros; ring). apply Rmult_le_compat_r; [apply sumn_sq_nonneg|lra].
  - unfold dot. rewrite (sumn_ext n _ (fun i => mulv m V q i * r i)) by (intros i Hi; rewrite Q by exact Hi; reflexivity). unfold mulv.
    transitivity (sumn m (fun j => sumn n (fun i => q j * (V i j * r i)))); [apply sumn_ext; intros; rewrite <- sumn_scal; reflexivity|]. rewrite sumn_swap. apply sumn_ext. intros i _. rewrite <- sumn_scal_r. apply sumn_ext. intros; ring.
Qed.
End Basis.

(** ** the stiffness matrix without cross-coupling *)
Lemma cross_size spl nd w e k M : cross_part spl nd w e = Ok (k, M) -> k = mask_size nd /\ exists M0, el_K spl w e = Ok (k, M0) /\ M = fun i j => - (M0 i j * mask nd i j).
Proof.
  unfold cross_part. intros H. apply bind_ok in H as ([k0 M0] & EK & H). cbn [fst snd] in H. destruct (Nat.eqb_spec k0 (mask_size nd)); [|discriminate]. injection H as <- <-. eauto.
Qed.
Lemma aux_grounded spl r w A e : rfacts r -> aux_stiffness spl r w = Ok A -> In e (r_brg r) -> grounded e.
Proof.
  intros F H He. unfold aux_stiffness in H. apply bind_ok in H as (K & HK & H). destruct (assemble_ok _ _ _ _ _ _ H) as [P _]. destruct (P e He) as (k & M & HC & _).
  apply cross_size in HC as (Ek & M0 & EK & _). destruct (rf_brg _ F _ He) as (t & b & ->). unfold grounded. cbn [el_link]. cbn [el_K] in EK. unfold sized in EK. apply bind_ok in EK as (m & _ & EK). injection EK as Ek' _.
  unfold brg_size in Ek'. unfold mask_size in Ek. destruct b as [s b|b]; cbn [brg_base] in *; destruct (b_n_link _); auto; destruct (Nat.eqb (r_nd r) 6); lia.
Qed.
Lemma contribution_plus dofs k M N i j : contribution dofs k M i j + contribution dofs k N i j = contribution dofs k (fun a b => M a b + N a b) i j.
Proof. unfold contribution. rewrite <- sumn_plus. apply sumn_ext. intros a _. rewrite <- sumn_plus. apply sumn_ext. intros b _. destruct (_ && _)%bool; ring. Qed.
Lemma mask_rest nd M i j : (i < mask_size nd)%nat -> (j < mask_size nd)%nat -> M i j + - (M i j * mask nd i j) = uncrossed M i j.
Proof.
  unfold mask_size, mask, uncrossed. destruct (Nat.eqb nd 6); intros Hi Hj; destruct i as [|[|[|i]]]; try lia; destruct j as [|[|[|j]]]; try lia; cbn; ring.
Qed.
Lemma aux_sum spl r w A : rfacts r -> pm_matches r -> aux_stiffness spl r w = Ok A -> sum_of (direct_K spl w) r (r_elements r) A.
Proof.
  intros F Hp H i j. unfold aux_stiffness in H. apply bind_ok in H as (K & HK & H). unfold rotor_K in HK. rewrite kept_nil in HK.
  assert (ND := assembled_nodup spl w _ r _ _ _ F (is_K spl w) (incl_refl _) HK). assert (AC := assembled_acts spl w _ r _ _ _ F Hp (is_K spl w) (incl_refl _) HK).
  assert (NB : forall e, In e (r_brg r) -> In e (r_elements r)) by (intros e; apply in_brg_elements).
  destruct (assemble_ok _ _ _ _ _ _ H) as [P1 P2]. rewrite P2 by auto. rewrite (assembled_entries spl w _ r _ K F Hp (is_K spl w) (incl_refl _) HK).
  unfold r_elements. rewrite !map_app, !suml_app.
  rewrite (suml_map_ext (fun e => contribution (acts_on (r_nd r) (r_n_last r) e) (el_size (direct_K spl w) e) (el_mat (direct_K spl w) e) i j)
    (fun e => contribution (acts_on (r_nd r) (r_n_last r) e) (el_size (el_K spl w) e) (el_mat (el_K spl w) e) i j) (r_shaft r)) by (intros e He; destruct (rf_shaft _ F _ He) as (? & ? & ? & ? & ->); reflexivity).
  rewrite (suml_map_ext (fun e => contribution (acts_on (r_nd r) (r_n_last r) e) (el_size (direct_K spl w) e) (el_mat (direct_K spl w) e) i j)
    (fun e => contribution (acts_on (r_nd r) (r_n_last r) e) (el_size (el_K spl w) e) (el_mat (el_K spl w) e) i j) (r_disk r)) by (intros e He; destruct (rf_disk _ F _ He) as (? & ? & ? & ->); reflexivity).
  rewrite (suml_map_ext (fun e => contribution (acts_on (r_nd r) (r_n_last r) e) (el_size (direct_K spl w) e) (el_mat (direct_K spl w) e) i j)
    (fun e => contribution (acts_on (r_nd r) (r_n_last r) e) (el_size (el_K spl w) e) (el_mat (el_K spl w) e) i j) (r_pm r)) by (intros e He; destruct (rf_pm _ F _ He) as (? & ? & ? & ->); reflexivity).
  rewrite (suml_map_ext (fun e => contribution (acts_on (r_nd r) (r_n_last r) e) (el_size (direct_K spl w) e) (el_mat (direct_K spl w) e) i j)
    (fun e => contribution (acts_on (r_nd r) (r_n_last r) e) (el_size (el_K spl w) e) (el_mat (el_K spl w) e) i j + contribution (r_dofs r e) (el_size (cross_part spl (r_nd r) w) e) (el_mat (cross_part spl (r_nd r) w) e) i j) (r_brg r)).
  { rewrite suml_map_plus. ring. }
  intros e He. destruct (P1 e He) as (k & M & HC & _). rewrite (AC e (NB e He)). unfold el_size, el_mat. rewrite HC. destruct (cross_size _ _ _ _ _ _ HC) as (Ek & M0 & EK & EM).
  rewrite EK. destruct (rf_brg _ F _ He) as (t & b & ->). unfold direct_K. rewrite EK. cbn [bind fst snd]. rewrite contribution_plus. apply contribution_ext. intros a c Ha Hc. subst M. symmetry. apply mask_rest; rewrite <- Ek; assumption.
Qed.
Lemma direct_sym spl nd w e k M : no_torque e -> (match e with EBrg _ _ => k = mask_size nd | _ => True end) -> direct_K spl w e = Ok (k, M) -> symmetric k M.
Proof.
  destruct e as [[] n t s|[] t d|t b|[] t p]; cbn [direct_K el_K no_torque]; intros NT S0; try (injection 1 as <- <-; first [apply shaft6_K_sym; exact NT|apply shaft_K_sym; exact NT|apply mzero_sym]).
  intros H. apply bind_ok in H as ([k0 M0] & EK & H). cbn [fst snd] in H. injection H as <- <-. unfold sized in EK. apply bind_ok in EK as (m & Em & EK). injection EK as Ek <-.
  assert (L : b_n_link (brg_base b) = None).
  { unfold brg_size in Ek. unfold mask_size in S0. destruct b; cbn [brg_base] in *; destruct (b_n_link _); auto; destruct (Nat.eqb nd 6); lia. }
  unfold brg_size in Ek. rewrite L in Ek. destruct b as [sl b|b]; cbn [brg_base] in L.
  - unfold bearing_K, block2 in Em. apply bind_ok in Em as (x1 & _ & Em). apply bind_ok in Em as (x2 & _ & Em). apply bind_ok in Em as (x3 & _ & Em). apply bind_ok in Em as (x4 & _ & Em). rewrite L in Em. injection Em as <-.
    intros i j Hi Hj. unfold uncrossed. destruct i as [|[|i]]; try lia; destruct j as [|[|j]]; try lia; reflexivity.
  - unfold bearing6_K, block3 in Em. apply bind_ok in Em as (x1 & _ & Em). apply bind_ok in Em as (x2 & _ & Em). apply bind_ok in Em as (x3 & _ & Em). apply bind_ok in Em as (x4 & _ & Em). apply bind_ok in Em as (x5 & _ & Em). rewrite L in Em. injection Em as <-.
    intros i j Hi Hj. unfold uncrossed. destruct i as [|[|[|i]]]; try lia; destruct j as [|[|[|j]]]; try lia; reflexivity.
Qed.
Lemma aux_sym spl r w A : rfacts r -> pm_matches r -> (forall e, In e (r_shaft r) -> no_torque e) -> aux_stiffness spl r w = Ok A -> symmetric (r_ndof r) A.
Proof.
  intros F Hp NT H i j _ _. rewrite (aux_sum spl r w A F Hp H i j), (aux_sum spl r w A F Hp H j i). apply suml_map_ext. intros e He.
  rewrite (contribution_trans _ _ _ i j). apply contribution_ext. unfold aux_stiffness in H. apply bind_ok in H as (K & HK & H). unfold rotor_K in HK. rewrite kept_nil in HK.
  destruct (assemble_ok _ _ _ _ _ _ HK) as [P _]. destruct (P e He) as (k & M & EK & _).
  assert (X : exists k M, direct_K spl w e = Ok (k, M) /\ (match e with EBrg _ _ => k = mask_size (r_nd r) | _ => True end)).
  { destruct e as [| |t b|]; try (exists k, M; split; [exact EK|exact I]). exists k, (uncrossed M). unfold direct_K. rewrite EK. split; [reflexivity|]. apply rf_brg_in in He; [|exact F].
    destruct (assemble_ok _ _ _ _ _ _ H) as [P1 _]. destruct (P1 _ He) as (k' & M' & HC & _). apply cross_size in HC as (Ek & M0 & EK' & _). rewrite EK in EK'. injection EK' as -> _. exact Ek. }
  destruct X as (k' & M' & E & S0). unfold el_size, el_mat. rewrite E. cbn [fst snd]. assert (T : no_torque e).
  { destruct e as [six n t s| | |]; try exact I. apply NT. unfold r_elements in He. rewrite !in_app_iff in He. destruct He as [He|[He|[He|He]]]; [exact He| | |].
    - destruct (rf_disk _ F _ He) as (? & ? & ? & X); discriminate X.
    - destruct (rf_brg _ F _ He) as (? & ? & X); discriminate X.
    - destruct (rf_pm _ F _ He) as (? & ? & ? & X); discriminate X. }
  assert (S1 := direct_sym spl (r_nd r) w e k' M' T S0 E). intros a b Ha Hb. unfold mtrans. apply S1; assumption.
Qed.
Lemma lower_sym n A i j : symmetric n A -> (i < n)%nat -> (j < n)%nat -> lower A i j = A i j.
Proof. intros S0 Hi Hj. unfold lower. destruct (Nat.le_ge_cases i j); [rewrite Nat.max_r, Nat.min_l by lia; apply S0; assumption|rewrite Nat.max_l, Nat.min_r by lia; reflexivity]. Qed.
Lemma aux_exists spl r w : rfacts r -> is_ok (rotor_K spl r w []) -> (forall e, In e (r_brg r) -> grounded e) -> is_ok (aux_stiffness spl r w).
Proof.
  intros F [K HK] G. unfold aux_stiffness. rewrite HK. cbn [bind]. unfold rotor_K in HK. rewrite kept_nil in HK. destruct (assemble_ok _ _ _ _ _ _ HK) as [P _].
  apply assemble_intro. intros e He. destruct (P e (in_brg_elements _ _ He)) as (k & M & EK & L & D). exists k, (fun i j => - (M i j * mask (r_nd r) i j)). split; [|auto].
  unfold cross_part. rewrite EK. cbn [bind fst snd]. assert (E : k = mask_size (r_nd r)); [|rewrite E, Nat.eqb_refl; reflexivity].
  assert (Fa := rf_fam _ F _ (in_brg_elements _ _ He)). specialize (G e He). destruct (rf_brg _ F _ He) as (t & b & ->). unfold grounded in G. cbn [el_link el_fam el_K] in *. unfold sized in EK. apply bind_ok in EK as (m & _ & EK). injection EK as <- _.
  unfold brg_size, mask_size. destruct b as [sl b|b]; cbn [brg_base brg_six] in *; rewrite G, Fa; reflexivity.
Qed.
