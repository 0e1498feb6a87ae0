(** More lemmas about bearings: the smoothing contract is satisfiable, linked bearings, reload,
    6-dof bearings, rolling and magnetic bearings. *)
From Coq Require Import Reals String List Bool Arith Lia Lra Psatz Classical FunctionalExtensionality.
From Coquelicot Require Import Coquelicot.
From Verif Require Import PyBase MatBase SpecMat MBearing SpecBearing LMat LBearing.
Import ListNotations.
Open Scope list_scope.
Open Scope R_scope.

(** * A function satisfying the smoothing contract *)
Lemma residual_mid f g xs ys : residual (fun x => (f x + g x) / 2) xs ys =
  (residual f xs ys + residual g xs ys) / 2 - residual (fun x => (f x - g x) / 2) xs (map (fun _ => 0) ys).
Proof.
  revert ys; induction xs as [|x xs IH]; intros [|y ys]; cbn [residual map]; try lra.
  rewrite IH. field.
Qed.
Lemma residual_0_pt f xs (ys : list R) : length xs = length ys -> residual f xs (map (fun _ => 0) ys) <= 0 ->
  forall x, In x xs -> f x = 0.
Proof.
  revert ys; induction xs as [|x xs IH]; intros [|y ys] L H z Hz; try discriminate; [destruct Hz|].
  cbn [residual map] in H. pose proof (pow2_ge_0 (f x - 0)). pose proof (residual_nonneg f xs (map (fun _ => 0) ys)).
  destruct Hz as [->|Hz].
  - assert (E : (f z - 0) ^ 2 = 0) by lra. replace ((f z - 0) ^ 2) with (f z * f z) in E by ring.
    apply Rmult_integral in E. tauto.
  - apply (IH ys); [simpl in L; congruence|lra|auto].
Qed.
Lemma cubic_roots a b c d x1 x2 x3 x4 : x1 < x2 -> x2 < x3 -> x3 < x4 ->
  cubic a b c d x1 = 0 -> cubic a b c d x2 = 0 -> cubic a b c d x3 = 0 -> cubic a b c d x4 = 0 ->
  forall w, cubic a b c d w = 0.
Proof.
  intros H1 H2 H3 E1 E2 E3 E4.
  assert (Q : forall u v, u <> v -> cubic a b c d u = 0 -> cubic a b c d v = 0 -> b + c * (u + v) + d * (u ^ 2 + u * v + v ^ 2) = 0).
  { intros u v N Eu Ev. apply (Rmult_eq_reg_l (u - v)); [|lra].
    transitivity (cubic a b c d u - cubic a b c d v); [unfold cubic; ring|rewrite Eu, Ev; ring]. }
  pose proof (Q x1 x2 ltac:(lra) E1 E2) as Q12. pose proof (Q x1 x3 ltac:(lra) E1 E3) as Q13. pose proof (Q x1 x4 ltac:(lra) E1 E4) as Q14.
  assert (P1 : c + d * (x1 + x2 + x3) = 0).
  { apply (Rmult_eq_reg_l (x2 - x3)); [|lra]. transitivity ((b + c * (x1 + x2) + d * (x1 ^ 2 + x1 * x2 + x2 ^ 2)) - (b + c * (x1 + x3) + d * (x1 ^ 2 + x1 * x3 + x3 ^ 2))); [ring|rewrite Q12, Q13; ring]. }
  assert (P2 : c + d * (x1 + x2 + x4) = 0).
  { apply (Rmult_eq_reg_l (x2 - x4)); [|lra]. transitivity ((b + c * (x1 + x2) + d * (x1 ^ 2 + x1 * x2 + x2 ^ 2)) - (b + c * (x1 + x4) + d * (x1 ^ 2 + x1 * x4 + x4 ^ 2))); [ring|rewrite Q12, Q14; ring]. }
  assert (D : d = 0).
  { apply (Rmult_eq_reg_l (x3 - x4)); [|lra]. transitivity ((c + d * (x1 + x2 + x3)) - (c + d * (x1 + x2 + x4))); [ring|rewrite P1, P2; ring]. }
  subst d. assert (C : c = 0) by lra. subst c. assert (B : b = 0) by lra. subst b.
  intros w. unfold cubic in *. lra.
Qed.
Lemma lsq_unique xs ys a b c d a' b' c' d' : increasing xs -> (4 <= length xs)%nat -> length xs = length ys ->
  lsq_cubic a b c d xs ys -> lsq_cubic a' b' c' d' xs ys -> forall w, cubic a b c d w = cubic a' b' c' d' w.
Proof.
  intros HI H4 HL L1 L2 w.
  pose proof (L1 ((a + a') / 2) ((b + b') / 2) ((c + c') / 2) ((d + d') / 2)) as M1.
  pose proof (L2 ((a + a') / 2) ((b + b') / 2) ((c + c') / 2) ((d + d') / 2)) as M2.
  assert (E : forall xs ys, residual (cubic ((a + a') / 2) ((b + b') / 2) ((c + c') / 2) ((d + d') / 2)) xs ys =
    residual (fun x => (cubic a b c d x + cubic a' b' c' d' x) / 2) xs ys).
  { clear. induction xs as [|x xs IH]; intros [|y ys]; cbn [residual]; auto. rewrite IH. f_equal. f_equal. unfold cubic. field. }
  rewrite E, residual_mid in M1, M2.
  assert (Z : forall x, In x xs -> (cubic a b c d x - cubic a' b' c' d' x) / 2 = 0).
  { apply (residual_0_pt (fun x => (cubic a b c d x - cubic a' b' c' d' x) / 2) xs ys HL). lra. }
  assert (Z2 : forall x, In x xs -> cubic (a - a') (b - b') (c - c') (d - d') x = 0).
  { intros x Hx. specialize (Z x Hx). transitivity (2 * ((cubic a b c d x - cubic a' b' c' d' x) / 2)); [unfold cubic; field|rewrite Z; ring]. }
  destruct xs as [|x1 [|x2 [|x3 [|x4 xs]]]]; simpl in H4; try lia. destruct HI as (I1 & I2 & I3 & _).
  assert (W := cubic_roots (a - a') (b - b') (c - c') (d - d') x1 x2 x3 x4 I1 I2 I3
    (Z2 x1 ltac:(simpl; auto)) (Z2 x2 ltac:(simpl; auto)) (Z2 x3 ltac:(simpl; auto)) (Z2 x4 ltac:(simpl; auto 6)) w).
  unfold cubic in *. lra.
Qed.

(** exact interpolation by look-up, used when no cubic is close enough *)
Fixpoint look (xs ys : list R) (w : R) : R :=
  match xs, ys with x :: xs, y :: ys => if Req_EM_T w x then y else look xs ys w | _, _ => 0 end.
Lemma look_pt xs ys : increasing xs -> length xs = length ys ->
  forall i x y, nth_error xs i = Some x -> nth_error ys i = Some y -> look xs ys x = y.
Proof.
  revert ys; induction xs as [|x0 xs IH]; intros [|y0 ys] HI HL [|i] x y Hx Hy; try discriminate; cbn [look].
  - simpl in Hx, Hy. inversion Hx; inversion Hy; subst. destruct (Req_EM_T x x); [auto|congruence].
  - simpl in Hx, Hy. pose proof (increasing_lt x0 xs x HI (nth_error_In _ _ Hx)).
    destruct (Req_EM_T x x0); [lra|]. apply (IH ys) with i; auto. destruct xs; [exact I|apply HI].
Qed.
Definition good_cubic xs ys a b c d : Prop := lsq_cubic a b c d xs ys /\ residual (cubic a b c d) xs ys <= INR (length xs).
Definition ex_spl (xs ys : list R) (w : R) : R :=
  iota (fun v : R => (exists a b c d, good_cubic xs ys a b c d /\ v = cubic a b c d w) \/
                     ((forall a b c d, ~ good_cubic xs ys a b c d) /\ v = look xs ys w)).
Lemma ex_spl_cubic xs ys a b c d w : increasing xs -> (4 <= length xs)%nat -> length xs = length ys ->
  good_cubic xs ys a b c d -> ex_spl xs ys w = cubic a b c d w.
Proof.
  intros HI H4 HL G. unfold ex_spl. refine (@iota_unique R_AbsRing R_CompleteNormedModule _ _ _ _).
  - intros y [(a' & b' & c' & d' & (G' & _) & ->)|(N & _)]; [|destruct (N _ _ _ _ G)].
    apply (lsq_unique xs ys); auto. apply G.
  - left. exists a, b, c, d. auto.
Qed.
Lemma ex_spl_look xs ys w : (forall a b c d, ~ good_cubic xs ys a b c d) -> ex_spl xs ys w = look xs ys w.
Proof.
  intros N. unfold ex_spl. refine (@iota_unique R_AbsRing R_CompleteNormedModule _ _ _ _).
  - intros y [(a' & b' & c' & d' & G & _)|(_ & ->)]; [destruct (N _ _ _ _ G)|reflexivity].
  - right. auto.
Qed.
Lemma residual_ext f g xs ys : (forall x, f x = g x) -> residual f xs ys = residual g xs ys.
Proof. intros E. revert ys; induction xs as [|x xs IH]; intros [|y ys]; cbn [residual]; auto. rewrite IH, E. reflexivity. Qed.
Lemma ex_spl_contract : smoothing_spline ex_spl.
Proof.
  split.
  - intros xs ys HI H4 HL. pose proof (pos_INR (length xs)).
    destruct (classic (exists a b c d, good_cubic xs ys a b c d)) as [(a & b & c & d & G)|N].
    + rewrite (residual_ext _ (cubic a b c d)) by (intros; apply ex_spl_cubic; auto).
      destruct G as (_ & G). lra.
    + rewrite residual_zero; auto; [lra|]. intros i x y Hx Hy. rewrite ex_spl_look.
      * eapply look_pt; eauto.
      * intros a b c d G. apply N. eauto.
  - intros xs ys a b c d HI H4 HL L R w. apply ex_spl_cubic; auto. split; auto.
Qed.

(** * Linked bearings *)
Lemma linked_mulv n M x i : (i < n)%nat ->
  mulv (2 * n) (linked n M) x i = sumn n (fun j => M i j * (x j - x (n + j)%nat)) /\
  mulv (2 * n) (linked n M) x (n + i)%nat = - sumn n (fun j => M i j * (x j - x (n + j)%nat)).
Proof.
  intros Hi. unfold mulv. replace (2 * n)%nat with (n + n)%nat by lia. rewrite !sumn_split, <- sumn_plus, <- sumn_plus.
  split.
  - apply sumn_ext. intros j Hj. unfold linked.
    destruct (Nat.ltb_spec i n), (Nat.ltb_spec j n), (Nat.ltb_spec (n + j) n); try lia.
    replace (n + j - n)%nat with j by lia. ring.
  - rewrite <- sumn_opp. apply sumn_ext. intros j Hj. unfold linked.
    destruct (Nat.ltb_spec (n + i) n), (Nat.ltb_spec j n), (Nat.ltb_spec (n + j) n); try lia.
    replace (n + j - n)%nat with j by lia. replace (n + i - n)%nat with i by lia. ring.
Qed.
Lemma linked_bform n M x y : bform (2 * n) (linked n M) x y =
  bform n M (fun i => x i - x (n + i)%nat) (fun i => y i - y (n + i)%nat).
Proof.
  rewrite bform_mulv. unfold dot. replace (2 * n)%nat with (n + n)%nat at 1 by lia. rewrite sumn_split, <- sumn_plus.
  rewrite bform_mulv. unfold dot, mulv at 3. apply sumn_ext. intros i Hi.
  destruct (linked_mulv n M y i Hi) as (E1 & E2). rewrite E1, E2. ring.
Qed.

Definition coef22 (vxx vxy vyx vyy : R) : mat := lmat [[vxx; vxy]; [vyx; vyy]].
Lemma block2_ok spl b w xx xy yx yy K : block2 spl b w xx xy yx yy = Ok K ->
  exists vxx vxy vyx vyy, eval_coef spl b xx w = Ok vxx /\ eval_coef spl b xy w = Ok vxy /\
    eval_coef spl b yx w = Ok vyx /\ eval_coef spl b yy w = Ok vyy /\
    K = match b_n_link b with Some _ => linked 2 (coef22 vxx vxy vyx vyy) | None => coef22 vxx vxy vyx vyy end.
Proof.
  unfold block2. destruct (eval_coef spl b xx w) as [vxx|]; [simpl|discriminate].
  destruct (eval_coef spl b yy w) as [vyy|]; [simpl|discriminate].
  destruct (eval_coef spl b xy w) as [vxy|]; [simpl|discriminate].
  destruct (eval_coef spl b yx w) as [vyx|]; [simpl|discriminate].
  intros E; inversion E. exists vxx, vxy, vyx, vyy. repeat split; auto.
Qed.
Definition coef33 (vxx vxy vyx vyy vzz : R) : mat := lmat [[vxx; vxy; 0]; [vyx; vyy; 0]; [0; 0; vzz]].
Lemma block3_ok spl b w xx xy yx yy zz K : block3 spl b w xx xy yx yy zz = Ok K ->
  exists vxx vxy vyx vyy vzz, eval_coef spl (b6 b) xx w = Ok vxx /\ eval_coef spl (b6 b) xy w = Ok vxy /\
    eval_coef spl (b6 b) yx w = Ok vyx /\ eval_coef spl (b6 b) yy w = Ok vyy /\ eval_interp spl zz w = Ok vzz /\
    K = match b_n_link (b6 b) with Some _ => linked 3 (coef33 vxx vxy vyx vyy vzz) | None => coef33 vxx vxy vyx vyy vzz end.
Proof.
  unfold block3. destruct (eval_coef spl (b6 b) xx w) as [vxx|]; [simpl|discriminate].
  destruct (eval_coef spl (b6 b) yy w) as [vyy|]; [simpl|discriminate].
  destruct (eval_coef spl (b6 b) xy w) as [vxy|]; [simpl|discriminate].
  destruct (eval_coef spl (b6 b) yx w) as [vyx|]; [simpl|discriminate].
  destruct (eval_interp spl zz w) as [vzz|]; [simpl|discriminate].
  intros E; inversion E. exists vxx, vxy, vyx, vyy, vzz. repeat split; auto.
Qed.

(** * Save and reload *)
Lemma process_again freq c p : process_coefficient freq c = Ok p -> process_coefficient freq (CArr (fst p)) = Ok p.
Proof.
  intros E. rewrite (process_fst _ _ _ E). unfold process_coefficient in *. fold (arg_list freq c) in E.
  exact E.
Qed.
Lemma reload_same a b : bearing_init a = Ok b -> bearing_reload b = Ok b.
Proof.
  intros E. destruct (bearing_init_ok _ _ E) as (_ & _ & _ & _ & _ & F & P).
  unfold bearing_reload. unfold bearing_init in E |- *.
  destruct (process_all (ba_frequency a) (resolve a) cnames) as [ps|] eqn:PA; [simpl in E|discriminate].
  assert (Q : process_all (ba_frequency (bearing_saved b)) (resolve (bearing_saved b)) cnames = Ok ps).
  { change (ba_frequency (bearing_saved b)) with (b_frequency b). rewrite F.
    apply process_all_ok in PA. destruct PA as (L & PA). apply process_all_ok. split; auto.
    intros i c Hc. destruct (PA i c Hc) as (p & H1 & H2). exists p. split; auto.
    rewrite P in H2. inversion H2; subst p.
    assert (RS : resolve (bearing_saved b) c = CArr (fst (b_coef b c))) by (destruct c; reflexivity).
    rewrite RS. apply (process_again _ (resolve a c)). apply P. }
  rewrite Q. simpl. rewrite F.
  destruct (length_check (ba_frequency a) (map (fun p => length (fst p)) ps)); [|discriminate].
  inversion E; subst; reflexivity.
Qed.
Definition with_scale (b : bearing) (s : R) : bearing :=
  mkBearing (b_n b) (b_n_link b) (b_tag b) (b_color b) s (b_frequency b) (b_coef b).
Definition args_scale (a : bargs) (s : R) : bargs :=
  mkBArgs (ba_n a) (ba_kxx a) (ba_cxx a) (ba_mxx a) (ba_kyy a) (ba_kxy a) (ba_kyx a) (ba_cyy a)
      (ba_cxy a) (ba_cyx a) (ba_myy a) (ba_mxy a) (ba_myx a) (ba_frequency a) (ba_tag a) (ba_n_link a) s (ba_color a).
Lemma init_scale a b s : bearing_init a = Ok b -> bearing_init (args_scale a s) = Ok (with_scale b s).
Proof.
  intros E. unfold bearing_init in *.
  change (ba_frequency (args_scale a s)) with (ba_frequency a).
  assert (R : resolve (args_scale a s) = resolve a) by reflexivity. rewrite R.
  destruct (process_all _ _ _) as [ps|]; [simpl in *|discriminate].
  destruct (length_check _ _); [|discriminate]. inversion E; subst. reflexivity.
Qed.
Lemma seal_reload_half a lk s : seal_init a lk = Ok s ->
  seal_reload s = Ok (mkSeal (with_scale (sl_bearing s) (b_scale_factor (sl_bearing s) / 2)) (sl_leakage s)).
Proof.
  unfold seal_init. fold (args_scale a (ba_scale_factor a / 2)).
  destruct (bearing_init (args_scale a (ba_scale_factor a / 2))) as [b|] eqn:E; [simpl|discriminate].
  intros H; inversion H; subst; simpl. unfold seal_reload, seal_init. simpl sl_bearing. simpl sl_leakage.
  fold (args_scale (bearing_saved b) (ba_scale_factor (bearing_saved b) / 2)).
  pose proof (reload_same _ _ E) as R. unfold bearing_reload in R.
  rewrite (init_scale _ _ (ba_scale_factor (bearing_saved b) / 2) R). reflexivity.
Qed.

(** * 6-dof bearings *)
Lemma bearing6_iff a kzz czz mzz : is_ok (bearing6_init a kzz czz mzz) <->
  is_ok (bearing_init a) /\ is_ok (process_coefficient (ba_frequency a) kzz) /\
  is_ok (process_coefficient (ba_frequency a) czz) /\ is_ok (process_coefficient (ba_frequency a) mzz).
Proof.
  unfold bearing6_init, is_ok.
  assert (LC : length_check (ba_frequency a) match ba_frequency a with Some f => [length f] | None => [] end = true).
  { destruct (ba_frequency a); simpl; [|reflexivity]. rewrite Nat.eqb_refl. reflexivity. }
  destruct (bearing_init a) as [b|]; simpl; [|split; [intros (x & H); discriminate|intros ((x & H) & _); discriminate]].
  destruct (process_coefficient _ kzz) as [pk|]; simpl; [|split; [intros (x & H); discriminate|intros (_ & (x & H) & _); discriminate]].
  destruct (process_coefficient _ czz) as [pc|]; simpl; [|split; [intros (x & H); discriminate|intros (_ & _ & (x & H) & _); discriminate]].
  destruct (process_coefficient _ mzz) as [pm|]; simpl; [|split; [intros (x & H); discriminate|intros (_ & _ & _ & (x & H)); discriminate]].
  rewrite LC. split; intros _; eauto 10.
Qed.
Lemma bearing6_ok a kzz czz mzz b : bearing6_init a kzz czz mzz = Ok b ->
  bearing_init a = Ok (b6 b) /\ process_coefficient (ba_frequency a) kzz = Ok (b6_kzz b) /\
  process_coefficient (ba_frequency a) czz = Ok (b6_czz b) /\ process_coefficient (ba_frequency a) mzz = Ok (b6_mzz b).
Proof.
  unfold bearing6_init.
  destruct (bearing_init a) as [b0|]; [simpl|discriminate].
  destruct (process_coefficient _ kzz) as [pk|]; [simpl|discriminate].
  destruct (process_coefficient _ czz) as [pc|]; [simpl|discriminate].
  destruct (process_coefficient _ mzz) as [pm|]; [simpl|discriminate].
  destruct (length_check _ _); [|discriminate]. intros E; inversion E; subst; simpl. auto.
Qed.

Lemma six_dof_refuted : exists a kzz b, ba_frequency a = Some [0; 1; 2; 3] /\ kzz = CArr [1; 2; 3; 4; 5] /\
  bearing6_init a kzz (CScal 0) (CScal 0) = Ok b /\ forall spl w, exists e, bearing6_K spl b w = Err e.
Proof.
  set (f := [0; 1; 2; 3]). set (a := ex_bargs (CScal 1) (Some f)). set (kz := CArr [1; 2; 3; 4; 5]).
  assert (HI : increasing f) by (unfold f; simpl; repeat split; lra).
  assert (HF : increasing f /\ f <> []) by (split; [auto|discriminate]).
  assert (PK : process_coefficient (Some f) kz = Ok ([1; 2; 3; 4; 5], INone)).
  { unfold process_coefficient, kz. simpl length. simpl Nat.ltb. cbn iota. unfold spline_accepts. reflexivity. }
  assert (P0 : is_ok (process_coefficient (Some f) (CScal 0))).
  { destruct (process_good (Some f) (CScal 0) HF I) as (i & P & _). exists (arg_list (Some f) (CScal 0), i). exact P. }
  assert (OK : is_ok (bearing6_init a kz (CScal 0) (CScal 0))).
  { apply bearing6_iff. change (ba_frequency a) with (Some f).
    split; [apply ex_bargs_ok; [exact HF|exact I]|]. split; [eexists; exact PK|]. auto. }
  destruct OK as (b & E). exists a, kz, b. refine (conj eq_refl (conj eq_refl (conj E _))).
  intros spl w. destruct (bearing6_ok _ _ _ _ _ E) as (_ & E2 & _).
  change (ba_frequency a) with (Some f) in E2. rewrite PK in E2. inversion E2 as [Q].
  unfold bearing6_K, block3. rewrite <- Q. simpl snd.
  destruct (eval_coef spl (b6 b) kxx w); simpl; [|eauto]. destruct (eval_coef spl (b6 b) kyy w); simpl; [|eauto].
  destruct (eval_coef spl (b6 b) kxy w); simpl; [|eauto]. destruct (eval_coef spl (b6 b) kyx w); simpl; eauto.
Qed.

(** * Which classes can be saved *)
Lemma save_classes c : is_ok (bclass_save c) <-> c = BBearing \/ c = BSeal \/ c = BMagnetic \/ c = BCylindrical \/ c = B6DoF.
Proof.
  split.
  - destruct c; auto; intros (l & H); vm_compute in H; try discriminate; auto.
  - intros [-> |[-> |[-> |[-> | ->]]]]; eexists; vm_compute; reflexivity.
Qed.

(** * Rolling bearings *)
Lemma ball_ratio_eq n : ball_ratio n = 46/100 + 225/1000 * ((INR n - 8) / 4) - 45/1000 * ((INR n - 8) / 4) ^ 2.
Proof.
  assert (L : forall w, lagrange [8; 12; 16] [46/100; 64/100; 73/100] w = 46/100 + 225/1000 * ((w - 8) / 4) - 45/1000 * ((w - 8) / 4) ^ 2).
  { intros w. unfold lagrange; cbn [lagr_from others_prod Nat.eqb]. field. }
  destruct (Nat.eq_dec n 8) as [->|]; [simpl; field|]. destruct (Nat.eq_dec n 12) as [->|]; [simpl; field|].
  destruct (Nat.eq_dec n 16) as [->|]; [simpl; field|].
  unfold ball_ratio. do 17 (destruct n as [|n]; [congruence || apply L|]). apply L.
Qed.
Lemma roller_ratio_eq n : roller_ratio n = 49/100 + 215/1000 * ((INR n - 8) / 4) - 45/1000 * ((INR n - 8) / 4) ^ 2.
Proof.
  assert (L : forall w, lagrange [8; 12; 16] [49/100; 66/100; 74/100] w = 49/100 + 215/1000 * ((w - 8) / 4) - 45/1000 * ((w - 8) / 4) ^ 2).
  { intros w. unfold lagrange; cbn [lagr_from others_prod Nat.eqb]. field. }
  destruct (Nat.eq_dec n 8) as [->|]; [simpl; field|]. destruct (Nat.eq_dec n 12) as [->|]; [simpl; field|].
  destruct (Nat.eq_dec n 16) as [->|]; [simpl; field|].
  unfold roller_ratio. do 17 (destruct n as [|n]; [congruence || apply L|]). apply L.
Qed.
Lemma ball_ratio_pos n : 0 < ball_ratio n <-> (2 <= n <= 34)%nat.
Proof.
  rewrite ball_ratio_eq. split.
  - intros H. split; apply Nat.nlt_ge; intros G.
    + assert (n = 0 \/ n = 1)%nat as [-> | ->] by lia; simpl in H; lra.
    + assert (35 <= INR n) by (apply (le_INR 35 n) in G; simpl in G; lra). nra.
  - intros (H1 & H2). apply le_INR in H1, H2. simpl in H1, H2. nra.
Qed.
Lemma roller_ratio_pos n : 0 < roller_ratio n <-> (2 <= n <= 33)%nat.
Proof.
  rewrite roller_ratio_eq. split.
  - intros H. split; apply Nat.nlt_ge; intros G.
    + assert (n = 0 \/ n = 1)%nat as [-> | ->] by lia; simpl in H; lra.
    + assert (34 <= INR n) by (apply (le_INR 34 n) in G; simpl in G; lra). nra.
  - intros (H1 & H2). apply le_INR in H1, H2. simpl in H1, H2. nra.
Qed.
Lemma rpower_pos x y : 0 < Rpower x y.
Proof. apply exp_pos. Qed.
Lemma ball_kyy_pos n d fs al : 0 < ball_kyy n d fs al.
Proof. unfold ball_kyy. repeat apply Rmult_lt_0_compat; try apply rpower_pos; lra. Qed.
Lemma roller_kyy_pos n d fs al : 0 < roller_kyy n d fs al.
Proof. unfold roller_kyy. repeat apply Rmult_lt_0_compat; try apply rpower_pos; lra. Qed.
Lemma mult_pos_iff r k : 0 < k -> (0 < r * k <-> 0 < r).
Proof. intros H. split; intros H2; [|apply Rmult_lt_0_compat; auto]. apply (Rmult_lt_reg_r k); auto. rewrite Rmult_0_l; auto. Qed.

Lemma scal_init_coef a b spl c v w : ba_frequency a = None -> bearing_init a = Ok b -> resolve a c = CScal v ->
  eval_coef spl b c w = Ok v.
Proof.
  intros F E R. destruct (bearing_init_ok _ _ E) as (_ & _ & _ & _ & _ & _ & P). specialize (P c). rewrite R, F in P.
  simpl in P. inversion P as [Q]. unfold eval_coef. rewrite <- Q. reflexivity.
Qed.
Lemma scal_init_ok a : ba_frequency a = None -> (forall c, exists v, resolve a c = CScal v) -> is_ok (bearing_init a).
Proof.
  intros F R. apply bearing_init_iff. intros c. destruct (R c) as (v & ->). rewrite F. eexists; split; reflexivity.
Qed.
Lemma rolling_K a b spl w : ba_frequency a = None -> ba_n_link a = None -> bearing_init a = Ok b ->
  forall kx ky, resolve a kxx = CScal kx -> resolve a kyy = CScal ky -> resolve a kxy = CScal 0 -> resolve a kyx = CScal 0 ->
  bearing_K spl b w = Ok (coef22 kx 0 0 ky).
Proof.
  intros F N E kx ky R1 R2 R3 R4. unfold bearing_K, block2.
  rewrite (scal_init_coef a b spl kxx kx w F E R1), (scal_init_coef a b spl kyy ky w F E R2),
    (scal_init_coef a b spl kxy 0 w F E R3), (scal_init_coef a b spl kyx 0 w F E R4). simpl.
  destruct (bearing_init_ok _ _ E) as (_ & L & _). rewrite L, N. reflexivity.
Qed.
Lemma rolling_C a b spl w : ba_frequency a = None -> ba_n_link a = None -> bearing_init a = Ok b ->
  forall kx ky, resolve a cxx = CScal kx -> resolve a cyy = CScal ky -> resolve a cxy = CScal 0 -> resolve a cyx = CScal 0 ->
  bearing_C spl b w = Ok (coef22 kx 0 0 ky).
Proof.
  intros F N E kx ky R1 R2 R3 R4. unfold bearing_C, block2.
  rewrite (scal_init_coef a b spl cxx kx w F E R1), (scal_init_coef a b spl cyy ky w F E R2),
    (scal_init_coef a b spl cxy 0 w F E R3), (scal_init_coef a b spl cyx 0 w F E R4). simpl.
  destruct (bearing_init_ok _ _ E) as (_ & L & _). rewrite L, N. reflexivity.
Qed.

(** * Magnetic bearings *)
Lemma mag_k_eq a i : mag_ki a i * mag_at (k_amp a) i * mag_at (k_sense a) i <> 0 ->
  mag_k a i = mag_ki a i * mag_at (k_amp a) i * mag_at (k_sense a) i * mag_at (kp_pid a) i + mag_ks a i.
Proof. intros H. unfold mag_k. field. repeat split; intros Z; apply H; rewrite Z; ring. Qed.
Lemma mag_ks_ki a i : mag_at (g0 a) i <> 0 -> mag_ks a i = - mag_ki a i * (mag_at (i0 a) i / mag_at (g0 a) i).
Proof. intros H. unfold mag_ks, mag_ki. field. exact H. Qed.
Lemma mag_ki_pos a i : 0 < mag_at (g0 a) i -> 0 < mag_at (i0 a) i -> 0 < mag_at (ag a) i -> 0 < mag_at (nw a) i ->
  0 < cos (mag_at (malpha a) i) -> 0 < mag_ki a i.
Proof.
  intros H1 H2 H3 H4 H5. unfold mag_ki. pose proof PI_RGT_0. unfold Rdiv.
  assert (G : 0 < mag_at (g0 a) i ^ 2) by nra. assert (W : 0 < mag_at (nw a) i ^ 2) by nra.
  apply Rmult_lt_0_compat; [|apply Rinv_0_lt_compat; lra].
  apply Rmult_lt_0_compat; [|lra]. apply Rmult_lt_0_compat; [|auto].
  apply Rmult_lt_0_compat; [|lra]. apply Rmult_lt_0_compat; [|lra]. apply Rmult_lt_0_compat; [|lra].
  apply Rmult_lt_0_compat; [|lra]. apply Rmult_lt_0_compat; lra.
Qed.
Lemma mag_k_pos a i : 0 < mag_at (g0 a) i -> 0 < mag_at (i0 a) i -> 0 < mag_at (ag a) i -> 0 < mag_at (nw a) i ->
  0 < cos (mag_at (malpha a) i) -> 0 < mag_at (k_amp a) i -> 0 < mag_at (k_sense a) i ->
  (0 < mag_k a i <-> mag_at (i0 a) i / mag_at (g0 a) i < mag_at (k_amp a) i * mag_at (k_sense a) i * mag_at (kp_pid a) i).
Proof.
  intros H1 H2 H3 H4 H5 H6 H7. pose proof (mag_ki_pos a i H1 H2 H3 H4 H5) as KP.
  assert (NZ : mag_ki a i * mag_at (k_amp a) i * mag_at (k_sense a) i <> 0).
  { apply Rgt_not_eq. apply Rmult_lt_0_compat; [apply Rmult_lt_0_compat|]; auto. }
  rewrite (mag_k_eq a i NZ), mag_ks_ki by lra.
  replace (mag_ki a i * mag_at (k_amp a) i * mag_at (k_sense a) i * mag_at (kp_pid a) i + - mag_ki a i * (mag_at (i0 a) i / mag_at (g0 a) i))
    with ((mag_at (k_amp a) i * mag_at (k_sense a) i * mag_at (kp_pid a) i - mag_at (i0 a) i / mag_at (g0 a) i) * mag_ki a i) by ring.
  rewrite mult_pos_iff by auto. split; lra.
Qed.
Lemma mag_validation : exists a, mag_len (g0 a) = Some 3%nat /\ is_ok (mag_coefs a).
Proof.
  exists (mkMag (MList [1; 1; 1]) (MScal 1) (MScal 1) (MScal 1) (MScal 0) (MScal 1) (MScal 1) (MScal 1) (MScal 1)).
  split; [reflexivity|]. unfold mag_coefs. simpl. eexists; reflexivity.
Qed.

Lemma short_tables_checked a f l czz mzz : ba_frequency a = Some f -> length f = 2%nat \/ length f = 3%nat ->
  (1 < length l)%nat -> length l <> length f -> forall b, bearing6_init a (CArr l) czz mzz <> Ok b.
Proof.
  intros F H23 HL NE b E. destruct (bearing6_ok _ _ _ _ _ E) as (_ & P & _). rewrite F in P.
  unfold process_coefficient in P. destruct (Nat.ltb_spec 1 (length l)); [|lia].
  unfold spline_accepts, interp1d_accepts in P. destruct (Nat.eqb_spec (length f) (length l)) as [Q|Q]; [congruence|]. simpl in P.
  destruct H23 as [Q2|Q2]; rewrite Q2 in P; simpl in P; discriminate.
Qed.
Lemma none_tables_checked a l czz mzz : ba_frequency a = None ->
  (1 < length l)%nat -> forall b, bearing6_init a (CArr l) czz mzz <> Ok b.
Proof.
  intros F HL b E. destruct (bearing6_ok _ _ _ _ _ E) as (_ & P & _). rewrite F in P.
  unfold process_coefficient in P. destruct (Nat.ltb_spec 1 (length l)); [discriminate|lia].
Qed.

(** Bundled statements. *)
Lemma resolve_spec a :
  resolve a kxx = ba_kxx a /\ resolve a cxx = ba_cxx a /\
  resolve a kxy = ba_kxy a /\ resolve a kyx = ba_kyx a /\ resolve a cxy = ba_cxy a /\ resolve a cyx = ba_cyx a /\
  resolve a mxy = ba_mxy a /\ resolve a myx = ba_myx a /\
  (forall v, ba_kyy a = Some v -> resolve a kyy = v) /\ (ba_kyy a = None -> resolve a kyy = ba_kxx a) /\
  (forall v, ba_cyy a = Some v -> resolve a cyy = v) /\ (ba_cyy a = None -> resolve a cyy = ba_cxx a) /\
  (forall v, ba_mxx a = Some v -> resolve a mxx = v) /\ (ba_mxx a = None -> resolve a mxx = CScal 0) /\
  (forall v, ba_myy a = Some v -> resolve a myy = v) /\
  (forall v, ba_myy a = None -> ba_mxx a = Some v -> resolve a myy = v) /\
  (ba_myy a = None -> ba_mxx a = None -> resolve a myy = CScal 0).
Proof.
  repeat split; simpl; intros; repeat match goal with H : _ = Some _ |- _ => rewrite H | H : _ = None |- _ => rewrite H end; reflexivity.
Qed.
Lemma linked_ar n M x i : (i < n)%nat ->
  mulv (2 * n) (linked n M) x (n + i)%nat = - mulv (2 * n) (linked n M) x i /\
  ((forall j, (j < n)%nat -> x (n + j)%nat = x j) -> mulv (2 * n) (linked n M) x i = 0).
Proof.
  intros Hi. destruct (linked_mulv n M x i Hi) as (E1 & E2). rewrite E1, E2. split; [reflexivity|].
  intros H. apply sumn_0. intros j Hj. rewrite H by auto. ring.
Qed.
Lemma action_reaction spl b w b6d n :
  (b_n_link b = Some n -> forall A, bearing_K spl b w = Ok A \/ bearing_C spl b w = Ok A \/ bearing_M spl b w = Ok A ->
     forall x i, (i < 2)%nat -> mulv 4 A x (2 + i)%nat = - mulv 4 A x i /\
       ((forall j, (j < 2)%nat -> x (2 + j)%nat = x j) -> mulv 4 A x i = 0)) /\
  (b_n_link (b6 b6d) = Some n -> forall A, bearing6_K spl b6d w = Ok A \/ bearing6_C spl b6d w = Ok A \/ bearing6_M spl b6d w = Ok A ->
     forall x i, (i < 3)%nat -> mulv 6 A x (3 + i)%nat = - mulv 6 A x i /\
       ((forall j, (j < 3)%nat -> x (3 + j)%nat = x j) -> mulv 6 A x i = 0)).
Proof.
  split.
  - intros N A HA x i Hi.
    assert (D : exists M, A = linked 2 M).
    { destruct HA as [H|[H|H]]; destruct (block2_ok _ _ _ _ _ _ _ _ H) as (p & q & r & s & _ & _ & _ & _ & ->); rewrite N; eauto. }
    destruct D as (M & ->). exact (linked_ar 2 M x i Hi).
  - intros N A HA x i Hi.
    assert (D : exists M, A = linked 3 M).
    { destruct HA as [H|[H|H]]; destruct (block3_ok _ _ _ _ _ _ _ _ _ H) as (p & q & r & s & t & _ & _ & _ & _ & _ & ->); rewrite N; eauto. }
    destruct D as (M & ->). exact (linked_ar 3 M x i Hi).
Qed.
Lemma seal_reload_facts a lk s : seal_init a lk = Ok s ->
  exists s', seal_reload s = Ok s' /\ b_scale_factor (sl_bearing s') = b_scale_factor (sl_bearing s) / 2 /\
    b_coef (sl_bearing s') = b_coef (sl_bearing s) /\ b_frequency (sl_bearing s') = b_frequency (sl_bearing s) /\
    b_n (sl_bearing s') = b_n (sl_bearing s) /\ b_n_link (sl_bearing s') = b_n_link (sl_bearing s) /\
    b_tag (sl_bearing s') = b_tag (sl_bearing s) /\ sl_leakage s' = sl_leakage s.
Proof. intros E. eexists; split; [exact (seal_reload_half _ _ _ E)|]. simpl. repeat split. Qed.
Lemma seal_refuted : exists a lk s, seal_init a lk = Ok s /\ seal_reload s <> Ok s.
Proof.
  destruct (ex_bargs_ok (CScal 1) None I I) as (b & E).
  exists (ex_bargs (CScal 1) None), None, (mkSeal (with_scale b (1 / 2)) None).
  assert (S : seal_init (ex_bargs (CScal 1) None) None = Ok (mkSeal (with_scale b (1 / 2)) None)).
  { unfold seal_init. fold (args_scale (ex_bargs (CScal 1) None) (ba_scale_factor (ex_bargs (CScal 1) None) / 2)).
    rewrite (init_scale _ _ _ E). reflexivity. }
  split; [exact S|]. rewrite (seal_reload_half _ _ _ S). simpl. intros H. 
  assert (F : b_scale_factor (with_scale (with_scale b (1 / 2)) (1 / 2 / 2)) = b_scale_factor (with_scale b (1 / 2))).
  { f_equal. congruence. }
  simpl in F. lra.
Qed.
Lemma ball_facts n nb d fs al cx cy tag scale : exists b, ball_init n nb d fs al cx cy tag None scale = Ok b /\
  forall spl w, exists K C, bearing_K spl b w = Ok K /\ bearing_C spl b w = Ok C /\
    K 0%nat 0%nat = ball_kxx nb d fs al /\ K 1%nat 1%nat = ball_kyy nb d fs al /\ K 0%nat 1%nat = 0 /\ K 1%nat 0%nat = 0 /\
    C 0%nat 0%nat = default (125/10000000 * ball_kxx nb d fs al) cx /\
    C 1%nat 1%nat = default (125/10000000 * ball_kyy nb d fs al) cy.
Proof.
  unfold ball_init. match goal with |- exists b, bearing_init ?x = _ /\ _ => set (a := x) end.
  assert (OK : is_ok (bearing_init a)) by (apply scal_init_ok; [reflexivity|intros c; destruct c; eexists; reflexivity]).
  destruct OK as (b & E). exists b. split; [exact E|]. intros spl w.
  exists (coef22 (ball_kxx nb d fs al) 0 0 (ball_kyy nb d fs al)),
    (coef22 (rolling_c cx (ball_kxx nb d fs al)) 0 0 (rolling_c cy (ball_kyy nb d fs al))).
  split; [apply (rolling_K a b spl w); auto|]. split; [apply (rolling_C a b spl w); auto|].
  unfold coef22, lmat; simpl. unfold rolling_c. auto 10.
Qed.
Lemma ball_refuted : exists nb, (nb = 40)%nat /\ forall d fs al, ball_kxx nb d fs al <= 0.
Proof.
  exists 40%nat. split; [reflexivity|]. intros d fs al. apply Rnot_lt_le. intros H.
  apply (proj1 (mult_pos_iff (ball_ratio 40) _ (ball_kyy_pos 40 d fs al))) in H. apply ball_ratio_pos in H. lia.
Qed.
Lemma mag_closed_loop a i : mag_ki a i * mag_at (k_amp a) i * mag_at (k_sense a) i <> 0 ->
  mag_k a i = mag_ki a i * (mag_at (k_amp a) i * mag_at (kp_pid a) i * mag_at (k_sense a) i) + mag_ks a i /\
  mag_c a i = mag_ki a i * (mag_at (k_amp a) i * mag_at (kd_pid a) i * mag_at (k_sense a) i).
Proof. intros H. rewrite mag_k_eq by auto. unfold mag_c. split; ring. Qed.

Lemma block2_entries spl b w xx xy yx yy : 
  forall vxx vxy vyx vyy, eval_coef spl b xx w = Ok vxx -> eval_coef spl b xy w = Ok vxy ->
    eval_coef spl b yx w = Ok vyx -> eval_coef spl b yy w = Ok vyy ->
  exists A, block2 spl b w xx xy yx yy = Ok A /\
    (b_n_link b = None -> A 0%nat 0%nat = vxx /\ A 0%nat 1%nat = vxy /\ A 1%nat 0%nat = vyx /\ A 1%nat 1%nat = vyy) /\
    (forall n, b_n_link b = Some n -> forall x,
       mulv 4 A x 0%nat = vxx * (x 0%nat - x 2%nat) + vxy * (x 1%nat - x 3%nat) /\
       mulv 4 A x 1%nat = vyx * (x 0%nat - x 2%nat) + vyy * (x 1%nat - x 3%nat)).
Proof.
  intros vxx vxy vyx vyy E1 E2 E3 E4. unfold block2. rewrite E1, E2, E3, E4. simpl.
  eexists; split; [reflexivity|]. split.
  - intros ->. auto.
  - intros n -> x. fold (coef22 vxx vxy vyx vyy).
    destruct (linked_mulv 2 (coef22 vxx vxy vyx vyy) x 0 ltac:(lia)) as (F1 & _).
    destruct (linked_mulv 2 (coef22 vxx vxy vyx vyy) x 1 ltac:(lia)) as (F2 & _).
    change 4%nat with (2 * 2)%nat. rewrite F1, F2. unfold coef22, lmat. cbn [sumn nth Nat.add]. split; ring.
Qed.
Lemma block3_entries spl b w xx xy yx yy zz : 
  forall vxx vxy vyx vyy vzz, eval_coef spl (b6 b) xx w = Ok vxx -> eval_coef spl (b6 b) xy w = Ok vxy ->
    eval_coef spl (b6 b) yx w = Ok vyx -> eval_coef spl (b6 b) yy w = Ok vyy -> eval_interp spl zz w = Ok vzz ->
  exists A, block3 spl b w xx xy yx yy zz = Ok A /\
    (b_n_link (b6 b) = None -> forall x,
       mulv 3 A x 0%nat = vxx * x 0%nat + vxy * x 1%nat /\ mulv 3 A x 1%nat = vyx * x 0%nat + vyy * x 1%nat /\
       mulv 3 A x 2%nat = vzz * x 2%nat) /\
    (forall n, b_n_link (b6 b) = Some n -> forall x,
       mulv 6 A x 0%nat = vxx * (x 0%nat - x 3%nat) + vxy * (x 1%nat - x 4%nat) /\
       mulv 6 A x 1%nat = vyx * (x 0%nat - x 3%nat) + vyy * (x 1%nat - x 4%nat) /\
       mulv 6 A x 2%nat = vzz * (x 2%nat - x 5%nat)).
Proof.
  intros vxx vxy vyx vyy vzz E1 E2 E3 E4 E5. unfold block3. rewrite E1, E2, E3, E4, E5. simpl bind.
  eexists; split; [reflexivity|]. split.
  - intros -> x. unfold mulv, lmat. cbn [sumn nth]. repeat split; ring.
  - intros n -> x. fold (coef33 vxx vxy vyx vyy vzz).
    destruct (linked_mulv 3 (coef33 vxx vxy vyx vyy vzz) x 0 ltac:(lia)) as (F1 & _).
    destruct (linked_mulv 3 (coef33 vxx vxy vyx vyy vzz) x 1 ltac:(lia)) as (F2 & _).
    destruct (linked_mulv 3 (coef33 vxx vxy vyx vyy vzz) x 2 ltac:(lia)) as (F3 & _).
    change 6%nat with (2 * 3)%nat. rewrite F1, F2, F3. unfold coef33, lmat. cbn [sumn nth Nat.add]. repeat split; ring.
Qed.
