(** Lemmas about bearings built from tables. *)
From Coq Require Import Reals List String Arith Bool Lia Lra.
From Verif Require Import PyBase PyDict MatBase SpecMat MBearing SpecBearing LMat LBearing LBearing2 MTable SpecTable MBrgTable SpecBrgTable.
Import ListNotations.
Open Scope list_scope.
Open Scope R_scope.

Lemma block2_couples spl b w cxx' cxy' cyx' cyy' vxx vxy vyx vyy : eval_coef spl b cxx' w = Ok vxx -> eval_coef spl b cxy' w = Ok vxy ->
  eval_coef spl b cyx' w = Ok vyx -> eval_coef spl b cyy' w = Ok vyy ->
  exists A, block2 spl b w cxx' cxy' cyx' cyy' = Ok A /\ couples (b_n_link b) vxx vxy vyx vyy A.
Proof.
  intros E1 E2 E3 E4. unfold block2. rewrite E1, E2, E3, E4. cbn [bind]. eexists. split; [reflexivity|]. unfold couples. destruct (b_n_link b).
  - intros x. unfold mulv, linked, lmat. cbn. repeat split; ring.
  - repeat split; reflexivity.
Qed.

(** The arguments of a bearing whose eight coefficients are tables. *)
Definition tb_args (n : nat) (v : cname -> list R) (f : list R) tag link sc col : bargs :=
  mkBArgs n (CArr (v kxx)) (CArr (v cxx)) None (Some (CArr (v kyy))) (CArr (v kxy)) (CArr (v kyx)) (Some (CArr (v cyy))) (CArr (v cxy)) (CArr (v cyx))
    None (CScal 0) (CScal 0) (Some f) tag link sc col.
Definition massc (c : cname) : bool := match c with mxx | myy | mxy | myx => true | _ => false end.
Lemma tb_resolve n v f tag link sc col c : resolve (tb_args n v f tag link sc col) c = if massc c then CScal 0 else CArr (v c).
Proof. destruct c; reflexivity. Qed.
Lemma tb_args_ext n v v' f tag link sc col : (forall c, massc c = false -> v c = v' c) -> tb_args n v f tag link sc col = tb_args n v' f tag link sc col.
Proof. intros H. unfold tb_args. rewrite !H by reflexivity. reflexivity. Qed.
Lemma tb_fst n v f tag link sc col b c : bearing_init (tb_args n v f tag link sc col) = Ok b -> massc c = false -> fst (b_coef b c) = v c.
Proof.
  intros E M. destruct (bearing_init_ok _ _ E) as (_ & _ & _ & _ & _ & _ & P). specialize (P c). rewrite tb_resolve, M in P.
  unfold process_coefficient in P. cbn [ba_frequency tb_args] in P. destruct (Nat.ltb 1 (List.length (v c))).
  - destruct (spline_accepts f (v c)); [injection P as <-; reflexivity|]. destruct (Nat.eqb (List.length f) 2 || Nat.eqb (List.length f) 3)%bool; [|injection P as <-; reflexivity].
    destruct (interp1d_accepts f (v c)); [injection P as <-; reflexivity|discriminate].
  - destruct (v c) as [|x l]; [discriminate|]. injection P as <-. reflexivity.
Qed.
Lemma tb_ok n v f tag link sc col : increasing f -> f <> [] -> (forall c, massc c = false -> List.length (v c) = List.length f) -> exists b, bearing_init (tb_args n v f tag link sc col) = Ok b.
Proof.
  intros I N L. apply (bearing_length_iff (tb_args n v f tag link sc col)); [cbn; auto|]. intros c. rewrite tb_resolve. cbn [ba_frequency tb_args arg_length_ok]. destruct (massc c) eqn:E; cbn; auto.
Qed.
Lemma tb_fields n v f tag link sc col b : bearing_init (tb_args n v f tag link sc col) = Ok b ->
  b_n b = n /\ b_n_link b = link /\ b_tag b = tag /\ b_color b = col /\ b_scale_factor b = sc /\ b_frequency b = Some f.
Proof. intros E. destruct (bearing_init_ok _ _ E) as (H1 & H2 & H3 & H4 & H5 & H6 & _). repeat split; assumption. Qed.
Lemma tb_mass n v f tag link sc col b spl w : smoothing_spline spl -> increasing f -> f <> [] -> bearing_init (tb_args n v f tag link sc col) = Ok b ->
  exists A, bearing_M spl b w = Ok A /\ couples link 0 0 0 0 A.
Proof.
  intros S I N E. destruct (tb_fields _ _ _ _ _ _ _ _ E) as (_ & Hl & _). rewrite <- Hl. unfold bearing_M.
  apply block2_couples; apply (coef_scalar spl (tb_args n v f tag link sc col)); auto; cbn; auto.
Qed.
Lemma tb_short n v f tag link sc col b spl i w x1 x2 x3 x4 y1 y2 y3 y4 : smoothing_spline spl -> increasing f -> (1 <= List.length f <= 4)%nat -> bearing_init (tb_args n v f tag link sc col) = Ok b ->
  nth_error f i = Some w -> nth_error (v kxx) i = Some x1 -> nth_error (v kxy) i = Some x2 -> nth_error (v kyx) i = Some x3 -> nth_error (v kyy) i = Some x4 ->
  nth_error (v cxx) i = Some y1 -> nth_error (v cxy) i = Some y2 -> nth_error (v cyx) i = Some y3 -> nth_error (v cyy) i = Some y4 ->
  (exists A, bearing_K spl b w = Ok A /\ couples link x1 x2 x3 x4 A) /\ (exists A, bearing_C spl b w = Ok A /\ couples link y1 y2 y3 y4 A).
Proof.
  intros S I L E Hw. intros. destruct (tb_fields _ _ _ _ _ _ _ _ E) as (_ & Hl & _). rewrite <- Hl. unfold bearing_K, bearing_C.
  split; apply block2_couples; match goal with |- eval_coef _ _ ?c _ = _ => apply (coef_table spl (tb_args n v f tag link sc col) b c (v c) f i) end; auto.
Qed.
Lemma tb_long n v f tag link sc col b spl i w x1 x2 x3 x4 y1 y2 y3 y4 : smoothing_spline spl -> increasing f -> (5 <= List.length f)%nat -> bearing_init (tb_args n v f tag link sc col) = Ok b ->
  nth_error f i = Some w -> nth_error (v kxx) i = Some x1 -> nth_error (v kxy) i = Some x2 -> nth_error (v kyx) i = Some x3 -> nth_error (v kyy) i = Some x4 ->
  nth_error (v cxx) i = Some y1 -> nth_error (v cxy) i = Some y2 -> nth_error (v cyx) i = Some y3 -> nth_error (v cyy) i = Some y4 ->
  (exists A a1 a2 a3 a4, bearing_K spl b w = Ok A /\ couples link a1 a2 a3 a4 A /\ close (List.length f) a1 x1 /\ close (List.length f) a2 x2 /\ close (List.length f) a3 x3 /\ close (List.length f) a4 x4) /\
  (exists A a1 a2 a3 a4, bearing_C spl b w = Ok A /\ couples link a1 a2 a3 a4 A /\ close (List.length f) a1 y1 /\ close (List.length f) a2 y2 /\ close (List.length f) a3 y3 /\ close (List.length f) a4 y4).
Proof.
  intros S I L E Hw. intros. destruct (tb_fields _ _ _ _ _ _ _ _ E) as (_ & Hl & _). rewrite <- Hl.
  assert (Q : forall c y, massc c = false -> nth_error (v c) i = Some y -> exists u, eval_coef spl b c w = Ok u /\ close (List.length f) u y).
  { intros c y M Hy. apply (coef_table_close spl (tb_args n v f tag link sc col) b c (v c) f i w y); auto. rewrite tb_resolve, M. reflexivity. }
  split.
  - destruct (Q kxx x1) as (a1 & E1 & C1); auto. destruct (Q kxy x2) as (a2 & E2 & C2); auto. destruct (Q kyx x3) as (a3 & E3 & C3); auto. destruct (Q kyy x4) as (a4 & E4 & C4); auto.
    destruct (block2_couples spl b w _ _ _ _ _ _ _ _ E1 E2 E3 E4) as (A & EA & CA). exists A, a1, a2, a3, a4. auto 10.
  - destruct (Q cxx y1) as (a1 & E1 & C1); auto. destruct (Q cxy y2) as (a2 & E2 & C2); auto. destruct (Q cyx y3) as (a3 & E3 & C3); auto. destruct (Q cyy y4) as (a4 & E4 & C4); auto.
    destruct (block2_couples spl b w _ _ _ _ _ _ _ _ E1 E2 E3 E4) as (A & EA & CA). exists A, a1, a2, a3, a4. auto 10.
Qed.
Lemma tb_one n v w0 tag link sc col b spl w x1 x2 x3 x4 y1 y2 y3 y4 : bearing_init (tb_args n v [w0] tag link sc col) = Ok b ->
  v kxx = [x1] -> v kxy = [x2] -> v kyx = [x3] -> v kyy = [x4] -> v cxx = [y1] -> v cxy = [y2] -> v cyx = [y3] -> v cyy = [y4] ->
  (exists A, bearing_K spl b w = Ok A /\ couples link x1 x2 x3 x4 A) /\ (exists A, bearing_C spl b w = Ok A /\ couples link y1 y2 y3 y4 A).
Proof.
  intros E. intros. destruct (tb_fields _ _ _ _ _ _ _ _ E) as (_ & Hl & _). rewrite <- Hl. destruct (bearing_init_ok _ _ E) as (_ & _ & _ & _ & _ & _ & P).
  assert (Q : forall c y, massc c = false -> v c = [y] -> eval_coef spl b c w = Ok y).
  { intros c y M Hy. specialize (P c). rewrite tb_resolve, M, Hy in P. cbn in P. unfold eval_coef. injection P as <-. reflexivity. }
  unfold bearing_K, bearing_C. split; apply block2_couples; apply Q; auto.
Qed.
