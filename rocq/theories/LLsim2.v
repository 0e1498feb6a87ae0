(** lsim returns the samples of the solution; interpolation of the sampled forces. *)
From Coq Require Import Reals String List Arith Bool Lia Lra.
From Coquelicot Require Import Coquelicot.
From Verif Require Import PyBase MatBase SpecMat LMat CMat LCMat MRotor MDynamics SpecDynamics LDynamics LTransfer MTime MPseudo MLsim SpecLsim LExpm LExpm2 LLsim LStoch.
Import ListNotations.
Open Scope R_scope.

Lemma spaced_nth h t k : equally_spaced h t -> (k < length t)%nat -> nth k t 0 = nth 0 t 0 + INR k * h.
Proof.
  intros H. induction k as [|k IH]; intros Hk; [cbn; ring|]. rewrite H by auto. rewrite IH by lia. rewrite S_INR. ring.
Qed.
Lemma no_input_zero U nrow ni : no_input U nrow ni = true <-> forall k i, (k < nrow)%nat -> (i < ni)%nat -> U k i = 0.
Proof.
  unfold no_input. rewrite forallb_forall. split.
  - intros H k i Hk Hi. specialize (H k). rewrite in_seq in H. specialize (H ltac:(lia)). rewrite forallb_forall in H. specialize (H i). rewrite in_seq in H.
    specialize (H ltac:(lia)). destruct (Req_EM_T (U k i) 0); [auto|discriminate].
  - intros H k Hk. apply in_seq in Hk. apply forallb_forall. intros i Hi. apply in_seq in Hi. destruct (Req_EM_T (U k i) 0) as [|N]; [reflexivity|]. exfalso. apply N, H; lia.
Qed.
Lemma nth_map_combine {A} (f : nat -> A -> vec) (l : list A) d k : forall s n, length l = n -> (k < n)%nat ->
  nth k (map (fun p => f (fst p) (snd p)) (combine (seq s n) l)) vzero = f (s + k)%nat (nth k l d).
Proof.
  revert l. induction k as [|k IH]; intros l s n Hl Hk; destruct l as [|x l]; cbn in Hl; subst n; cbn [length] in *; try lia.
  - cbn. f_equal. lia.
  - cbn [seq combine map nth]. rewrite IH by (auto; lia). f_equal. lia.
Qed.
Lemma ok_pair {A B} (a c : A) (b d : B) : Ok (a, b) = Ok (c, d) -> a = c /\ b = d.
Proof. intros H. injection H as -> ->. split; reflexivity. Qed.
Lemma lsim_shape expm sys ns ni U nrow T X0 yout xout : lsim expm sys ns ni U nrow T X0 = Ok (yout, xout) -> nrow = length T ->
  length yout = length T /\ length xout = length T /\
  (forall k i, (k < length T)%nat -> nth k yout vzero i = mulv ns (lti_C sys) (nth k xout vzero) i + mulv ni (lti_D sys) (U k) i) /\
  0 <= hd 0 T /\ ((1 < length T)%nat -> steps_close T (nth 1 T 0 - nth 0 T 0) = true) /\
  exists rest, xout = (match X0, Req_EM_T (hd 0 T) 0 with Some x, left _ => x | None, left _ => vzero
    | _, right _ => rowmul ns (match X0 with Some x => x | None => vzero end) (expm ns (mscale (hd 0 T) (mtrans (lti_A sys)))) end) :: rest.
Proof.
  intros H HN. unfold lsim in H. destruct T as [|t0 ts]; [discriminate|]. apply bind_ok in H as (first & Hf & H). cbn [hd].
  assert (F0 : 0 <= t0 /\ first = match X0, Req_EM_T t0 0 with Some x, left _ => x | None, left _ => vzero
    | _, right _ => rowmul ns (match X0 with Some x => x | None => vzero end) (expm ns (mscale t0 (mtrans (lti_A sys)))) end).
  { destruct (Req_EM_T t0 0) as [->|N]; [split; [lra|destruct X0; congruence]|]. destruct (Rlt_dec 0 t0); [|discriminate]. split; [lra|]. destruct X0; congruence. }
  destruct F0 as [T0 F0].
  assert (Z : no_input U nrow ni = true -> forall k i, (k < length (t0 :: ts))%nat -> mulv ni (lti_D sys) (U k) i = 0).
  { intros Hn k i Hk. unfold mulv. apply sumn_0. intros j Hj. rewrite (proj1 (no_input_zero _ _ _) Hn k j) by (auto; lia). ring. }
  destruct ts as [|t1 ts].
  - assert (X1 : xout = [first]) by (destruct (no_input U nrow ni); [|destruct (Nat.eqb nrow 1)]; congruence). subst xout.
    split; [destruct (no_input U nrow ni); [|destruct (Nat.eqb nrow 1)]; [injection H as <-|injection H as <-|discriminate]; reflexivity|].
    split; [reflexivity|]. split; [|split; [exact T0|split; [intros L; cbn in L; lia|exists []; rewrite F0; reflexivity]]].
    intros k i Hk. replace k with 0%nat by (cbn in Hk; lia). destruct (no_input U nrow ni) eqn:En.
    + injection H as <-. cbn [nth]. rewrite (Z eq_refl) by (cbn; lia). ring.
    + destruct (Nat.eqb nrow 1); [|discriminate]. injection H as <-. reflexivity.
  - cbv zeta in H. destruct (steps_close (t0 :: t1 :: ts) (t1 - t0)) eqn:Es; cbn [negb] in H; [|discriminate].
    destruct (no_input U nrow ni) eqn:En.
    + apply ok_pair in H as [<- <-]. split; [|split; [|split; [|split; [exact T0|split; [intros _; exact Es|eexists; rewrite F0; reflexivity]]]]].
      * rewrite map_length. cbn [length]. rewrite loop_length. reflexivity.
      * cbn [length]. rewrite loop_length. reflexivity.
      * intros k i Hk. rewrite (Z eq_refl) by auto.
        rewrite (nth_indep _ vzero (mulv ns (lti_C sys) vzero)) by (rewrite map_length; cbn [length]; rewrite loop_length; cbn [length] in Hk; lia).
        rewrite (map_nth (fun x => mulv ns (lti_C sys) x)). ring.
    + destruct (Nat.eqb nrow (length (t0 :: t1 :: ts))); cbn [negb] in H; [|discriminate]. apply ok_pair in H as [Hy Hx]. split; [|split; [|split; [|split; [exact T0|split; [intros _; exact Es|]]]]].
      * rewrite <- Hy. rewrite map_length, combine_length, seq_length. cbn [length]. rewrite loop_length. cbn [length]. lia.
      * rewrite <- Hx. cbn [length]. rewrite loop_length. reflexivity.
      * intros k i Hk. rewrite <- Hy, <- Hx. rewrite (nth_map_combine (fun a b => vadd (mulv ns (lti_C sys) b) (mulv ni (lti_D sys) (U a))) _ vzero k 0 (length (t0 :: t1 :: ts))) by
          (auto; cbn [length]; rewrite loop_length; reflexivity). reflexivity.
      * eexists. rewrite <- Hx, F0. reflexivity.
Qed.
Lemma lsim_exact expm sys ns ni U nrow T X0 yout xout h (x f : R -> vec) : expm_ok expm -> lsim expm sys ns ni U nrow T X0 = Ok (yout, xout) -> nrow = length T ->
  0 < h -> equally_spaced h T -> linear_between T U f ->
  (forall s i, nth 0 T 0 <= s <= nth (length T - 1) T 0 -> (i < ns)%nat -> is_derive (fun y => x y i) s (mulv ns (lti_A sys) (x s) i + mulv ni (lti_B sys) (f s) i)) ->
  (forall i, (i < ns)%nat -> nth 0 xout vzero i = x (nth 0 T 0) i) ->
  forall k i, (k < length T)%nat -> (i < ns)%nat -> nth k xout vzero i = x (nth k T 0) i.
Proof.
  intros HE H HN Hh Sp Lb Hx H0. unfold lsim in H. destruct T as [|t0 ts]; [discriminate|]. apply bind_ok in H as (first & Hf & H).
  destruct ts as [|t1 ts].
  - intros k i Hk Hi. replace k with 0%nat by (cbn in Hk; lia). apply H0; auto.
  - cbv zeta in H. set (T := t0 :: t1 :: ts) in *. assert (LT : length T = S (length (t1 :: ts))) by reflexivity.
    assert (Hdt : t1 - t0 = h) by (pose proof (Sp 0%nat ltac:(rewrite LT; cbn; lia)) as E; cbn in E; lra). rewrite Hdt in H.
    assert (Rng : forall k s, (S k < length T)%nat -> nth k T 0 <= s <= nth k T 0 + h -> nth 0 T 0 <= s <= nth (length T - 1) T 0).
    { intros k s Hk Hs. rewrite (spaced_nth h T k Sp) in Hs by lia. rewrite (spaced_nth h T (length T - 1) Sp) by lia.
      assert (0 <= INR k * h) by (apply Rmult_le_pos; [apply pos_INR|lra]).
      assert (INR (S k) * h <= INR (length T - 1) * h) by (apply Rmult_le_compat_r; [lra|apply le_INR; lia]). rewrite S_INR in *. lra. }
    destruct (steps_close T h); cbn [negb] in H; [|discriminate]. destruct (no_input U nrow ni) eqn:En.
    + apply ok_pair in H as [_ <-]. rewrite no_input_zero in En.
      assert (G : forall k y, (1 <= k < 1 + length (t1 :: ts))%nat -> (forall j, (j < ns)%nat -> y j = x (nth (k - 1) T 0) j) ->
        forall j, (j < ns)%nat -> free_step expm ns (lti_A sys) h k y j = x (nth k T 0) j).
      { intros k y Hk Hy j Hj. rewrite free_step_flow by auto. rewrite (mulv_ext ns _ (phi ns (lti_A sys) h) _ (x (nth (k - 1) T 0))) by auto.
        destruct k as [|k]; [lia|]. replace (S k - 1)%nat with k in * by lia. rewrite (Sp k) by (rewrite LT; lia).
        assert (FD : forall s i, nth k T 0 <= s <= nth k T 0 + h -> (i < ns)%nat -> is_derive (fun y => x y i) s (mulv ns (lti_A sys) (x s) i)).
        { intros s i Hs Hi. eapply derive_val; [|apply Hx; [apply (Rng k); auto; rewrite LT; lia|auto]].
          assert (Z : mulv ni (lti_B sys) (f s) i = 0); [|rewrite Z; ring].
          unfold mulv. apply sumn_0. intros l Hl. rewrite (Lb k s l); [|rewrite LT; lia|rewrite (Sp k) by (rewrite LT; lia); exact Hs].
          rewrite !En by (try lia; rewrite LT in HN; lia). ring. }
        rewrite (flow ns (lti_A sys) x (nth k T 0) (nth k T 0 + h) FD (nth k T 0 + h) j) by (auto; lra).
        replace (nth k T 0 + h - nth k T 0) with h by ring. reflexivity. }
      intros k i Hk Hi. exact (loop_follows ns (free_step expm ns (lti_A sys) h) (fun k => x (nth k T 0)) (length (t1 :: ts)) 1 first G Nat.lt_0_1 H0 k i ltac:(rewrite LT in Hk; lia) Hi).
    + destruct (Nat.eqb nrow (length T)); cbn [negb] in H; [|discriminate]. apply ok_pair in H as [_ Hxo].
      assert (G : forall k y, (1 <= k < 1 + length (t1 :: ts))%nat -> (forall j, (j < ns)%nat -> y j = x (nth (k - 1) T 0) j) ->
        forall j, (j < ns)%nat -> hold_step expm ns ni (lti_A sys) (lti_B sys) h U k y j = x (nth k T 0) j).
      { intros k y Hk Hy j Hj. destruct k as [|k]; [lia|]. replace (S k - 1)%nat with k in * by lia. rewrite (Sp k) by (rewrite LT; lia).
        apply (hold_step_flow expm ns ni (lti_A sys) (lti_B sys) h U k x (nth k T 0) f HE Hh); auto.
        - intros s i Hs Hi. apply Hx; auto. apply (Rng k); auto. rewrite LT. lia.
        - intros s i Hs Hi. rewrite (Lb k s i); rewrite ?(Sp k) by (rewrite LT; lia); auto; [|rewrite LT; lia]. replace (nth k T 0 + h - nth k T 0) with h by ring. reflexivity. }
      intros k i Hk Hi. rewrite <- Hxo in *. exact (loop_follows ns (hold_step expm ns ni (lti_A sys) (lti_B sys) h U) (fun k => x (nth k T 0)) (length (t1 :: ts)) 1 first G Nat.lt_0_1 H0 k i ltac:(rewrite LT in Hk; lia) Hi).
Qed.

(** ** a continuous force through the samples *)
Definition clamp (x : R) : R := (Rabs x - Rabs (x - 1) + 1) / 2.
Lemma clamp_0 x : x <= 0 -> clamp x = 0.
Proof. intros H. unfold clamp. rewrite !Rabs_left1 by lra. lra. Qed.
Lemma clamp_1 x : 1 <= x -> clamp x = 1.
Proof. intros H. unfold clamp. rewrite !Rabs_pos_eq by lra. lra. Qed.
Lemma clamp_id x : 0 <= x <= 1 -> clamp x = x.
Proof. intros H. unfold clamp. rewrite Rabs_pos_eq, Rabs_left1 by lra. lra. Qed.
Lemma clamp_continuous x : continuous clamp x.
Proof.
  unfold clamp. apply (continuous_mult (fun x => Rabs x - Rabs (x - 1) + 1) (fun _ => / 2)); [|apply continuous_const].
  apply (continuous_plus (fun x => Rabs x - Rabs (x - 1)) (fun _ => 1)); [|apply continuous_const].
  apply (continuous_minus (fun x => Rabs x) (fun x => Rabs (x - 1))); [apply continuous_Rabs|].
  apply (continuous_comp (fun x => x - 1) Rabs); [|apply continuous_Rabs].
  apply (continuous_minus (fun x => x) (fun _ => 1)); [apply continuous_id|apply continuous_const].
Qed.
Definition interp (t : list R) (h : R) (F : nat -> vec) (s : R) : vec := fun i =>
  F 0%nat i + sumn (length t - 1) (fun k => (F (S k) i - F k i) * clamp ((s - nth k t 0) / h)).
Lemma telescope (g : nat -> R) m : sumn m (fun k => g (S k) - g k) = g m - g 0%nat.
Proof. induction m as [|m IH]; cbn [sumn]; [ring|]. rewrite IH. ring. Qed.
Lemma interp_linear t h F : 0 < h -> equally_spaced h t -> linear_between t F (interp t h F).
Proof.
  intros Hh Sp k s i Hk Hs. unfold interp. rewrite (Sp k Hk) in *. replace (nth k t 0 + h - nth k t 0) with h by ring.
  replace (length t - 1)%nat with (k + S (length t - 2 - k))%nat by lia. rewrite sumn_split.
  assert (Tn : forall j, (j < length t)%nat -> (s - nth j t 0) / h = (s - nth k t 0) / h + (INR k - INR j)).
  { intros j Hj. rewrite (spaced_nth h t j Sp Hj), (spaced_nth h t k Sp) by lia. field. lra. }
  assert (X : 0 <= (s - nth k t 0) / h <= 1).
  { split; [apply Rmult_le_pos; [lra|left; apply Rinv_0_lt_compat; auto]|]. apply Rmult_le_reg_r with h; auto. unfold Rdiv. rewrite Rmult_assoc, Rinv_l by lra. lra. }
  rewrite (sumn_ext k _ (fun j => (fun m => F m i) (S j) - (fun m => F m i) j)).
  2: { intros j Hj. rewrite clamp_1; [ring|]. rewrite Tn by lia. assert (INR (S j) <= INR k) by (apply le_INR; lia). rewrite S_INR in *. lra. }
  rewrite (telescope (fun m => F m i)). rewrite (sumn_single (S (length t - 2 - k)) _ 0%nat); [|lia|].
  - rewrite Nat.add_0_r. rewrite clamp_id by exact X. ring.
  - intros j Hj Hne. rewrite clamp_0; [ring|]. rewrite Tn by lia. rewrite plus_INR. assert (1 <= INR j) by (apply (le_INR 1); lia). lra.
Qed.
Lemma interp_continuous t h F s i : continuous (fun x => interp t h F x i) s.
Proof.
  unfold interp. apply (continuous_plus (fun _ => F 0%nat i) (fun x => sumn (length t - 1) (fun k => (F (S k) i - F k i) * clamp ((x - nth k t 0) / h)))); [apply continuous_const|].
  apply (continuous_sumn (length t - 1) (fun k x => (F (S k) i - F k i) * clamp ((x - nth k t 0) / h))). intros l _.
  apply (continuous_mult (fun _ => F (S l) i - F l i) (fun x => clamp ((x - nth l t 0) / h))); [apply continuous_const|].
  apply (continuous_comp (fun x => (x - nth l t 0) / h) clamp); [|apply clamp_continuous].
  apply (continuous_mult (fun x => x - nth l t 0) (fun _ => / h)); [|apply continuous_const].
  apply (continuous_minus (fun x => x) (fun _ => nth l t 0)); [apply continuous_id|apply continuous_const].
Qed.

(** ** motions exist *)
Lemma motion_exists n M D K (f : R -> vec) a (q0 v0 : vec) : nonsingular n M -> (forall s i, (i < n)%nat -> continuous (fun x => f x i) s) ->
  exists q v, (forall b, motion n M D K f a b q v) /\ (forall i, (i < n)%nat -> q a i = q0 i /\ v a i = v0 i).
Proof.
  intros NS Hf. destruct (real_solve n M) as [[inv Hinv]|[x [[i [Hi Nx]] Hx]]]; [|exfalso; apply Nx; apply (NS x Hx); auto].
  set (col := fun P : mat => fun i j => inv (fun k => P k j) i).
  assert (HI : meq n (mulm n M (col mid)) mid) by (intros i j Hi Hj; unfold mulm, col; apply (Hinv (fun k => mid k j) i Hi)).
  assert (Hneg : forall P, meq n (mulm n (mscale (-1) M) (fun i j => - col P i j)) P).
  { intros P i j Hi Hj. transitivity (mulv n M (inv (fun k => P k j)) i); [|apply (Hinv (fun k => P k j) i Hi)]. unfold mulm, mulv, mscale, col. apply sumn_ext. intros; ring. }
  set (X := fun i j => - col K i j). set (Y := fun i j => - col D i j).
  destruct (forced_solution (n + n) (block n mzero mid X Y) (fun s => mulv n (input_matrix n (col mid)) (f s)) a (stack n q0 v0)) as (z & Z0 & Z1).
  { intros s i Hi. unfold mulv. apply (continuous_sumn n (fun j x => input_matrix n (col mid) i j * f x j)). intros l Hl.
    apply (continuous_mult (fun _ => input_matrix n (col mid) i l) (fun x => f x l)); [apply continuous_const|apply Hf; auto]. }
  exists z, (fun s i => z s (n + i)%nat). split.
  - intros b. apply (state_motion n M D K X Y (col mid) NS (Hneg K) (Hneg D) HI). intros s i Hs Hi. apply Z1; [lra|auto].
  - intros i Hi. rewrite !Z0 by lia. rewrite stack_lo, stack_hi by auto. split; reflexivity.
Qed.
