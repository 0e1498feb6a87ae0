(** Lemmas on time integration. *)
From Coq Require Import Reals String List Arith Bool Lia Lra ZArith.
From Verif Require Import PyBase MatBase SpecMat LMat CMat LCMat MBearing MRotor MDynamics LDynamics LTransfer LDynEx MTime SpecTime.
Import ListNotations.
Open Scope list_scope.
Open Scope R_scope.

Lemma max_iter_S : exists k, max_iter = Datatypes.S k.
Proof.
  assert (H : (0 < max_iter)%nat) by exact (proj1 (Z2Nat.inj_lt 0 100000 (Z.le_refl 0) ltac:(lia)) ltac:(lia)).
  destruct max_iter as [|k]; [inversion H|]. exists k. reflexivity.
Qed.
Opaque max_iter.

Lemma mulv_comb n A (x y : vec) c i : mulv n A (fun j => x j + c * y j) i = mulv n A x i + c * mulv n A y i.
Proof. unfold mulv. rewrite <- sumn_scal, <- sumn_plus. apply sumn_ext. intros; ring. Qed.
Lemma mulv_zero n A i : mulv n A (fun _ => 0) i = 0.
Proof. unfold mulv. apply sumn_0. intros; ring. Qed.
Lemma norm_sq n x : (norm n x) ^ 2 = sumn n (fun i => x i ^ 2).
Proof.
  unfold norm. replace (sumn n (fun i => x i ^ 2)) with (dot n x x) by (unfold dot; apply sumn_ext; intros; ring).
  rewrite <- Rsqr_pow2. apply Rsqr_sqrt. unfold dot. apply sumn_nonneg. intros i _. replace (x i * x i) with (x i ^ 2) by ring. apply pow2_ge_0.
Qed.
Lemma norm_lt n x eps : norm n x < eps -> sumn n (fun i => x i ^ 2) < eps ^ 2.
Proof. intros H. rewrite <- norm_sq. assert (0 <= norm n x) by apply sqrt_pos. assert (0 <= (eps - norm n x) * (eps - norm n x)) by nra. nra. Qed.
Lemma norm_lt_iff n x eps : 0 < eps -> (norm n x < eps <-> sumn n (fun i => x i ^ 2) < eps ^ 2).
Proof.
  intros He. split; [apply norm_lt|]. rewrite <- norm_sq. intros H. destruct (Rlt_or_le (norm n x) eps) as [|L]; auto. exfalso.
  assert (0 <= norm n x) by apply sqrt_pos. assert (eps ^ 2 <= norm n x ^ 2) by (apply pow_incr; lra). lra.
Qed.
Lemma norm_zero n x : (forall i, (i < n)%nat -> x i = 0) -> norm n x = 0.
Proof. intros H. unfold norm, dot. rewrite sumn_0; [apply sqrt_0|]. intros i Hi. rewrite H by auto. ring. Qed.
Lemma residual_within n S s eps : norm n (residual n S s) < eps -> motion_within n eps S s.
Proof.
  intros H. apply norm_lt in H. destruct S as [[[M C] K] F]. unfold motion_within. erewrite sumn_ext; [exact H|]. intros i _. unfold residual. f_equal. ring.
Qed.

(** ** Newton iterations *)
Definition moved o dt (s s' : nstate) : Prop := exists d : vec, forall i, n_y s' i = n_y s i + o_beta o * dt ^ 2 * d i /\ n_v s' i = n_v s i + o_gamma o * dt * d i /\ n_a s' i = n_a s i + d i.
Lemma newton_moved la n o dt S fuel s s' : newton la n o dt S fuel s = Ok s' -> moved o dt s s' /\ norm n (residual n S s') < o_tol o.
Proof.
  revert s. induction fuel as [|k IH]; intros s H; simpl in H; destruct (Rlt_dec (norm n (residual n S s)) (o_tol o)) as [L|L]; try discriminate.
  - injection H as <-. split; auto. exists vzero. intros i. unfold vzero. repeat split; ring.
  - injection H as <-. split; auto. exists vzero. intros i. unfold vzero. repeat split; ring.
  - apply bind_ok in H as (X & HX & H). apply IH in H as [[d Hd] Hn]. split; auto. exists (fun i => X i 0%nat + d i). intros i.
    destruct (Hd i) as (H1 & H2 & H3). unfold correct, vadd in *. cbn [n_y n_v n_a] in *. rewrite H1, H2, H3. repeat split; ring.
Qed.
Lemma residual_correct n o dt S s d i : residual n S (correct o dt d s) i = residual n S s i - mulv n (iteration_matrix o dt S) d i.
Proof.
  destruct S as [[[M C] K] F]. unfold residual, correct, iteration_matrix. cbn [n_y n_v n_a].
  rewrite (rmulv_ext n K _ (fun j => n_y s j + (o_beta o * dt ^ 2) * d j)) by (intros; ring).
  rewrite (rmulv_ext n C _ (fun j => n_v s j + (o_gamma o * dt) * d j)) by (intros; ring).
  rewrite (rmulv_ext n M (vadd (n_a s) d) (fun j => n_a s j + 1 * d j)) by (intros; unfold vadd; ring).
  rewrite !mulv_comb.
  assert (E : mulv n (fun i j => M i j + C i j * o_gamma o * dt + K i j * o_beta o * dt ^ 2) d i = mulv n M d i + o_gamma o * dt * mulv n C d i + o_beta o * dt ^ 2 * mulv n K d i).
  { unfold mulv. rewrite <- !sumn_scal, <- !sumn_plus. apply sumn_ext. intros; ring. }
  rewrite E. ring.
Qed.
Lemma newton_one la n o dt S k s : linalg_ok la -> 0 < o_tol o -> nonsingular n (iteration_matrix o dt S) ->
  exists s', newton la n o dt S (Datatypes.S k) s = Ok s' /\
   ((s' = s /\ norm n (residual n S s) < o_tol o) \/ (forall i, (i < n)%nat -> residual n S s' i = 0)).
Proof.
  intros L Ht NS. simpl. destruct (Rlt_dec (norm n (residual n S s)) (o_tol o)) as [H|H].
  - exists s. split; auto.
  - destruct (solve_exists la n _ (fun i _ => residual n S s i) L NS) as [X HX]. rewrite HX. simpl.
    destruct (solve_sol la L _ _ _ _ HX) as [_ E].
    assert (Z : forall i, (i < n)%nat -> residual n S (correct o dt (fun i => X i 0%nat) s) i = 0).
    { intros i Hi. rewrite residual_correct. destruct n as [|n]; [lia|]. specialize (E i 0%nat Hi ltac:(lia)). unfold mulm in E. unfold mulv. rewrite E. ring. }
    destruct k as [|k]; simpl; (destruct (Rlt_dec _ _) as [|N]; [|exfalso; apply N; rewrite norm_zero; auto]);
      (eexists; split; [reflexivity|right; exact Z]).
Qed.
(** ** the loop *)
Lemma predictor_moved o dt s0 s1 : moved o dt (predictor o dt s0) s1 -> newmark_formulas (o_gamma o) (o_beta o) dt s0 s1.
Proof.
  intros [d Hd] i. destruct (Hd i) as (H1 & H2 & H3). unfold predictor, vzero in *. cbn [n_y n_v n_a] in *. rewrite H1, H2, H3. split; ring.
Qed.
Lemma loop_spec la n o func ts : forall step tp s0 l, newmark_loop la n o func step tp ts s0 = Ok l ->
  length l = length ts /\
  forall k, (k < length ts)%nat ->
    let prev := nth k (s0 :: l) s_nil in let cur := nth k l s_nil in let dt := nth k ts 0 - nth k (tp :: ts) 0 in
    exists S, func (step + k)%nat dt prev = Ok S /\ newmark_formulas (o_gamma o) (o_beta o) dt prev cur /\ motion_within n (o_tol o) S cur.
Proof.
  induction ts as [|t ts IH]; intros step tp s0 l H; simpl in H.
  - injection H as <-. split; auto. intros k Hk. simpl in Hk. lia.
  - apply bind_ok in H as (S & HS & H). apply bind_ok in H as (s & Hs & H). apply bind_ok in H as (l' & Hl & H). injection H as <-.
    apply IH in Hl as [E1 E2]. split; [simpl; lia|]. intros [|k] Hk; cbv zeta.
    + cbn [nth]. exists S. rewrite Nat.add_0_r. split; [exact HS|]. apply newton_moved in Hs as [Hm Hn]. split; [apply predictor_moved, Hm|apply residual_within, Hn].
    + specialize (E2 k ltac:(simpl in Hk; lia)). cbv zeta in E2. cbn [nth] in *. replace (step + Datatypes.S k)%nat with (Datatypes.S step + k)%nat by lia. exact E2.
Qed.
Lemma loop_exact la n o func ts : linalg_ok la -> 0 < o_tol o -> forall step tp s0,
  (forall k dt s, (step <= k < step + length ts)%nat -> exists S, func k dt s = Ok S) ->
  (forall k s S, (k < length ts)%nat -> let dt := nth k ts 0 - nth k (tp :: ts) 0 in func (step + k)%nat dt s = Ok S -> nonsingular n (iteration_matrix o dt S)) ->
  exists l, newmark_loop la n o func step tp ts s0 = Ok l /\
  forall k, (k < length ts)%nat ->
    let prev := nth k (s0 :: l) s_nil in let cur := nth k l s_nil in let dt := nth k ts 0 - nth k (tp :: ts) 0 in
    exists S, func (step + k)%nat dt prev = Ok S /\ (motion_exact n S cur \/ cur = predictor o dt prev /\ norm n (residual n S cur) < o_tol o).
Proof.
  intros L Ht. induction ts as [|t ts IH]; intros step tp s0 Hf Hn.
  - exists []. split; [reflexivity|]. intros k Hk. simpl in Hk. lia.
  - destruct (Hf step (t - tp) s0) as [S HS]; [simpl; lia|].
    pose proof (Hn 0%nat s0 S ltac:(simpl; lia)) as N0. cbn [nth] in N0. rewrite Nat.add_0_r in N0. specialize (N0 HS).
    destruct max_iter_S as [mi Emi]. destruct (newton_one la n o (t - tp) S mi (predictor o (t - tp) s0) L Ht N0) as (s & Hs & Hc).
    destruct (IH (Datatypes.S step) t s) as (l & Hl & Hk).
    + intros k dt s1 Hk. apply Hf. simpl. lia.
    + intros k s1 S1 Hk dt HS1. apply (Hn (Datatypes.S k) s1 S1); [simpl; lia|]. cbn [nth]. replace (step + Datatypes.S k)%nat with (Datatypes.S step + k)%nat by lia. exact HS1.
    + exists (s :: l). split; [simpl; rewrite HS; simpl; rewrite Emi, Hs; simpl; rewrite Hl; reflexivity|].
      intros [|k] Hlt; cbv zeta.
      * cbn [nth]. exists S. rewrite Nat.add_0_r. split; [exact HS|]. destruct Hc as [[-> Hc]|Hc]; [right; auto|left].
        destruct S as [[[M C] K] F]. intros i Hi. specialize (Hc i Hi). unfold residual in Hc. lra.
      * specialize (Hk k ltac:(simpl in Hlt; lia)). cbv zeta in Hk. cbn [nth] in *. replace (step + Datatypes.S k)%nat with (Datatypes.S step + k)%nat by lia. exact Hk.
Qed.
Lemma loop_ext la n o f g ts : forall step tp s0, (forall k dt s, (step <= k)%nat -> f k dt s = g k dt s) -> newmark_loop la n o f step tp ts s0 = newmark_loop la n o g step tp ts s0.
Proof.
  induction ts as [|t ts IH]; intros step tp s0 H; simpl; [reflexivity|]. rewrite H by lia. destruct (g step (t - tp) s0); simpl; [|reflexivity].
  destruct (newton _ _ _ _ _ _ _); simpl; [|reflexivity]. rewrite IH; [reflexivity|]. intros. apply H. lia.
Qed.
(** forces below the tolerance are ignored *)
Lemma predictor_rest o dt s i : (forall i, n_y s i = 0 /\ n_v s i = 0 /\ n_a s i = 0) ->
  n_y (predictor o dt s) i = 0 /\ n_v (predictor o dt s) i = 0 /\ n_a (predictor o dt s) i = 0.
Proof. intros H. destruct (H i) as (H1 & H2 & H3). unfold predictor, vzero. cbn [n_y n_v n_a]. rewrite H1, H2, H3. repeat split; ring. Qed.
Lemma loop_small la n o func ts : forall step tp s0, (forall i, n_y s0 i = 0 /\ n_v s0 i = 0 /\ n_a s0 i = 0) ->
  (forall k dt s, (step <= k < step + length ts)%nat -> exists M C K F, func k dt s = Ok (M, C, K, F) /\ norm n F < o_tol o) ->
  exists l, newmark_loop la n o func step tp ts s0 = Ok l /\ forall s, In s l -> forall i, n_y s i = 0 /\ n_v s i = 0 /\ n_a s i = 0.
Proof.
  induction ts as [|t ts IH]; intros step tp s0 H0 Hf.
  - exists []. split; [reflexivity|]. intros s [].
  - destruct (Hf step (t - tp) s0) as (M & C & K & F & HS & HF); [simpl; lia|]. simpl. rewrite HS. simpl.
    pose proof (fun i => predictor_rest o (t - tp) s0 i H0) as P.
    assert (Hr : norm n (residual n (M, C, K, F) (predictor o (t - tp) s0)) < o_tol o).
    { assert (E : norm n (residual n (M, C, K, F) (predictor o (t - tp) s0)) = norm n F).
      { unfold norm. f_equal. unfold dot. apply sumn_ext. intros i _. unfold residual.
        rewrite (rmulv_ext n K _ (fun _ => 0)) by (intros; apply P). rewrite (rmulv_ext n C _ (fun _ => 0)) by (intros; apply P). rewrite (rmulv_ext n M _ (fun _ => 0)) by (intros; apply P).
        rewrite !mulv_zero. ring. }
      rewrite E. exact HF. }
    destruct max_iter_S as [mi ->]. simpl. destruct (Rlt_dec _ _) as [_|N]; [|contradiction]. simpl.
    destruct (IH (Datatypes.S step) t (predictor o (t - tp) s0)) as (l & Hl & Hz).
    + exact P.
    + intros k dt s Hk. apply Hf. simpl. lia.
    + rewrite Hl. simpl. eexists. split; [reflexivity|]. intros s [<-|Hs]; auto.
Qed.

(** ** energy *)
Lemma bform_comb_l n A x y z c : bform n A (fun i => x i + c * y i) z = bform n A x z + c * bform n A y z.
Proof. unfold bform. rewrite <- sumn_scal, <- sumn_plus. apply sumn_ext. intros; ring. Qed.
Lemma bform_dot n A x y : bform n A x y = dot n x (mulv n A y).
Proof. reflexivity. Qed.
Lemma bform_sq_diff n A x y : symmetric n A -> bform n A x x - bform n A y y = bform n A (fun i => x i + y i) (fun i => x i - y i).
Proof.
  intros H. rewrite !bform_dot. unfold dot, mulv.
  assert (E : sumn n (fun i => x i * sumn n (fun j => A i j * y j)) = sumn n (fun i => y i * sumn n (fun j => A i j * x j))).
  { rewrite (sumn_ext n (fun i => x i * sumn n (fun j => A i j * y j)) (fun i => sumn n (fun j => x i * A i j * y j))) by (intros; rewrite <- sumn_scal; apply sumn_ext; intros; ring).
    rewrite sumn_swap. apply sumn_ext. intros i Hi. rewrite <- sumn_scal. apply sumn_ext. intros j Hj. rewrite (H i j) by auto. ring. }
  rewrite (sumn_ext n (fun i => (x i + y i) * sumn n (fun j => A i j * (x j - y j))) (fun i => x i * sumn n (fun j => A i j * x j) - y i * sumn n (fun j => A i j * y j) + (y i * sumn n (fun j => A i j * x j) - x i * sumn n (fun j => A i j * y j)))).
  - rewrite sumn_plus, !sumn_minus. lra.
  - intros i _. rewrite (sumn_ext n (fun j => A i j * (x j - y j)) (fun j => A i j * x j - A i j * y j)) by (intros; ring). rewrite sumn_minus. ring.
Qed.
Lemma energy_step n M C K dt s0 s1 : symmetric n M -> symmetric n K -> newmark_formulas (1 / 2) (1 / 4) dt s0 s1 ->
  let f s i := mulv n M (n_a s) i + mulv n C (n_v s) i + mulv n K (n_y s) i in
  let w i := n_v s0 i + n_v s1 i in
  energy n M K s1 - energy n M K s0 = dt / 4 * dot n w (fun i => f s0 i + f s1 i) - dt / 4 * bform n C w w.
Proof.
  intros SM SK NF f w. unfold energy.
  replace ((bform n M (n_v s1) (n_v s1) + bform n K (n_y s1) (n_y s1)) / 2 - (bform n M (n_v s0) (n_v s0) + bform n K (n_y s0) (n_y s0)) / 2)
    with ((bform n M (n_v s1) (n_v s1) - bform n M (n_v s0) (n_v s0)) / 2 + (bform n K (n_y s1) (n_y s1) - bform n K (n_y s0) (n_y s0)) / 2) by lra.
  rewrite !bform_sq_diff by auto.
  assert (EM : bform n M (fun i => n_v s1 i + n_v s0 i) (fun i => n_v s1 i - n_v s0 i) = dt / 2 * dot n w (fun i => mulv n M (n_a s0) i + mulv n M (n_a s1) i)).
  { rewrite bform_dot. unfold dot. rewrite <- sumn_scal. apply sumn_ext. intros i _.
    rewrite (rmulv_ext n M _ (fun j => 0 + dt / 2 * (n_a s0 j + 1 * n_a s1 j))) by (intros j _; destruct (NF j) as [-> _]; lra).
    rewrite mulv_comb, mulv_zero, mulv_comb. unfold w. ring. }
  assert (EK : bform n K (fun i => n_y s1 i + n_y s0 i) (fun i => n_y s1 i - n_y s0 i) = dt / 2 * dot n w (fun i => mulv n K (n_y s0) i + mulv n K (n_y s1) i)).
  { (* symmetry moves K to the sum *)
    transitivity (bform n K (fun i => n_y s1 i - n_y s0 i) (fun i => n_y s1 i + n_y s0 i)).
    - unfold bform. rewrite (sumn_ext n _ (fun i => sumn n (fun j => (n_y s1 i + n_y s0 i) * K i j * (n_y s1 j - n_y s0 j)))) by (intros; rewrite <- sumn_scal; apply sumn_ext; intros; ring).
      rewrite sumn_swap. apply sumn_ext. intros i Hi. rewrite <- sumn_scal. apply sumn_ext. intros j Hj. rewrite (SK i j) by auto. ring.
    - rewrite bform_dot. unfold dot. rewrite <- sumn_scal. apply sumn_ext. intros i _. destruct (NF i) as [Hv Hy].
      rewrite (rmulv_ext n K _ (fun j => n_y s0 j + 1 * n_y s1 j)) by (intros; ring). rewrite mulv_comb.
      assert (Ey : n_y s1 i - n_y s0 i = dt / 2 * w i) by (unfold w; rewrite Hy, Hv; field). rewrite Ey. ring. }
  rewrite EM, EK. unfold f. rewrite bform_dot. unfold dot.
  rewrite (sumn_ext n (fun i => w i * (mulv n M (n_a s0) i + mulv n C (n_v s0) i + mulv n K (n_y s0) i + (mulv n M (n_a s1) i + mulv n C (n_v s1) i + mulv n K (n_y s1) i)))
    (fun i => w i * (mulv n M (n_a s0) i + mulv n M (n_a s1) i) + w i * (mulv n K (n_y s0) i + mulv n K (n_y s1) i) + w i * mulv n C w i)).
  - rewrite !sumn_plus. lra.
  - intros i _. rewrite (rmulv_ext n C w (fun j => n_v s0 j + 1 * n_v s1 j)) by (intros; unfold w; ring). rewrite mulv_comb. ring.
Qed.

(** positive definiteness of the iteration matrix *)
Lemma iteration_pd n o dt M C K F : pos_def n M -> pos_semidef n C -> pos_semidef n K -> 0 <= o_gamma o * dt -> 0 <= o_beta o -> pos_def n (iteration_matrix o dt (M, C, K, F)).
Proof.
  intros PM PC PK Hg Hb x Hx. unfold iteration_matrix.
  assert (E : bform n (fun i j => M i j + C i j * o_gamma o * dt + K i j * o_beta o * dt ^ 2) x x = bform n M x x + (o_gamma o * dt) * bform n C x x + o_beta o * dt ^ 2 * bform n K x x).
  { unfold bform. rewrite <- !sumn_scal, <- !sumn_plus. apply sumn_ext. intros i _.
    transitivity (x i * (sumn n (fun j => M i j * x j) + o_gamma o * dt * sumn n (fun j => C i j * x j) + o_beta o * dt ^ 2 * sumn n (fun j => K i j * x j))); [|ring].
    f_equal. rewrite <- !sumn_scal, <- !sumn_plus. apply sumn_ext. intros; ring. }
  rewrite E. specialize (PM x Hx). specialize (PC x). specialize (PK x).
  assert (0 <= o_gamma o * dt * bform n C x x) by (apply Rmult_le_pos; auto).
  assert (0 <= o_beta o * dt ^ 2 * bform n K x x) by (apply Rmult_le_pos; [apply Rmult_le_pos; [auto|apply pow2_ge_0]|auto]). lra.
Qed.
