(** Lemmas about the synchronous mass matrix. *)
From Coq Require Import Reals String List Arith Bool Lia Lra Permutation.
From Coquelicot Require Import Coquelicot.
From Verif Require Import PyBase MatBase SpecMat LMat CMat LCMat MMaterial MShaft SpecShaft MDisk MBearing MRotor SpecRotor LAssembly LRotor LRotor2 LRotor3 MDynamics SpecDynamics LDynamics SpecSync.
Import ListNotations.
Open Scope list_scope.
Open Scope R_scope.

(** ** a quarter turn of every pair *)
Definition turn (z : vec) : vec := fun i => if Nat.even i then - z (i + 1)%nat else z (i - 1)%nat.
Lemma turn_even z j : turn z (2 * j)%nat = - z (2 * j + 1)%nat.
Proof. unfold turn. rewrite Nat.even_mul. reflexivity. Qed.
Lemma turn_odd z j : turn z (2 * j + 1)%nat = z (2 * j)%nat.
Proof. unfold turn. rewrite Nat.even_add, Nat.even_mul. simpl. f_equal. lia. Qed.
Lemma pair_ind (P : nat -> Prop) : (forall j, P (2 * j)%nat) -> (forall j, P (2 * j + 1)%nat) -> forall i, P i.
Proof. intros H0 H1 i. destruct (Nat.Even_or_Odd i) as [[j ->]|[j ->]]; auto. Qed.

(** ** one element *)
Definition odd_part (G : mat) : Prop := forall i j, (i < 8)%nat -> (j < 8)%nat ->
  existsb (Nat.eqb i) [0; 3; 4; 7]%nat = existsb (Nat.eqb j) [0; 3; 4; 7]%nat -> G i j = 0.
Lemma sync_shaft_entry M G i j : (i < 8)%nat -> (j < 8)%nat -> sync_shaft M G i j =
  if Bool.eqb (existsb (Nat.eqb i) [0; 3; 4; 7]%nat) (existsb (Nat.eqb j) [0; 3; 4; 7]%nat)
  then (if Nat.even j then M i j - G i (j + 1)%nat else M i j + G i (j - 1)%nat) else M i j.
Proof. intros Hi Hj. do 8 (destruct i as [|i]; [do 8 (destruct j as [|j]; [reflexivity|]); lia|]); lia. Qed.
Lemma shaft_G_odd s : odd_part (shaft_G s).
Proof.
  intros i j Hi Hj. unfold shaft_G. destruct (s_gyroscopic s); [|reflexivity].
  do 8 (destruct i as [|i]; [do 8 (destruct j as [|j]; [intros E; first [discriminate E|unfold G_tab; cbn; unfold Rdiv; ring]|]); lia|]); lia.
Qed.
Lemma sync_shaft_acts M G i z : odd_part G -> (i < 8)%nat -> mulv 8 (sync_shaft M G) z i = mulv 8 M z i - mulv 8 G (turn z) i.
Proof.
  intros O Hi. unfold mulv.
  rewrite (sumn_ext 8 (fun j => sync_shaft M G i j * z j) (fun j => (if Bool.eqb (existsb (Nat.eqb i) [0; 3; 4; 7]%nat) (existsb (Nat.eqb j) [0; 3; 4; 7]%nat)
    then (if Nat.even j then M i j - G i (j + 1)%nat else M i j + G i (j - 1)%nat) else M i j) * z j)).
  2:{ intros j Hj. rewrite sync_shaft_entry by auto. reflexivity. }
  pose proof (fun j Hj => O i j Hi Hj) as O'. clear O.
  pose proof (O' 0%nat ltac:(lia)). pose proof (O' 1%nat ltac:(lia)). pose proof (O' 2%nat ltac:(lia)). pose proof (O' 3%nat ltac:(lia)).
  pose proof (O' 4%nat ltac:(lia)). pose proof (O' 5%nat ltac:(lia)). pose proof (O' 6%nat ltac:(lia)). pose proof (O' 7%nat ltac:(lia)). clear O'.
  cbn [existsb Nat.eqb orb] in *.
  unfold turn. cbn [sumn Nat.even Nat.add Nat.sub].
  destruct (existsb (Nat.eqb i) [0; 3; 4; 7]%nat) eqn:E; cbn [existsb] in E; rewrite E in *; cbn [Bool.eqb existsb Nat.eqb orb];
    repeat match goal with H : _ = _ -> G _ _ = 0 |- _ => first [specialize (H eq_refl); rewrite H|clear H] end; ring.
Qed.
Lemma sync_disk_acts d i z : (i < 4)%nat -> mulv 4 (sync_disk (disk_M d) (disk_G d)) z i = mulv 4 (disk_M d) z i - mulv 4 (disk_G d) (turn z) i.
Proof.
  intros Hi. unfold mulv, turn. do 4 (destruct i as [|i]; [cbn; ring|]). lia.
Qed.

(** ** the rotor *)
Definition basis (i : nat) : vec := fun j => if Nat.eqb j i then 1 else 0.
Lemma bform_basis n A i z : (i < n)%nat -> bform n A (basis i) z = mulv n A z i.
Proof.
  intros Hi. rewrite bform_mulv. unfold dot. rewrite (sumn_single n _ i Hi).
  - unfold basis. rewrite Nat.eqb_refl. ring.
  - intros j _ Hj. unfold basis. apply Nat.eqb_neq in Hj. rewrite Hj. ring.
Qed.
Lemma dot_ext3 k x (a b c : vec) : (forall i, (i < k)%nat -> a i = b i - c i) -> dot k x a = dot k x b - dot k x c.
Proof. intros H. unfold dot, Rminus. rewrite <- sumn_opp, <- sumn_plus. apply sumn_ext; intros i Hi. rewrite (H i Hi). ring. Qed.
Lemma turn_shift b a (z : vec) : turn z (2 * b + a)%nat = turn (fun c => z (2 * b + c)%nat) a.
Proof.
  unfold turn. rewrite Nat.even_add, Nat.even_mul. cbn [Nat.even orb].
  destruct (Nat.even a) eqn:E; cbn [Bool.eqb]; [do 2 f_equal; lia|].
  destruct a as [|a]; [discriminate|]. f_equal. lia.
Qed.
Lemma node_start_even last n : exists b, node_start 4 last n = (2 * b)%nat.
Proof. unfold node_start. destruct (n <=? last + 1)%nat; [exists (2 * n)%nat; lia|]. exists (2 * (last + 2) + (n - (last + 2)))%nat. change (4 / 2)%nat with 2%nat. lia. Qed.
Lemma gather_disk4 last t d x a : (a < 4)%nat -> gather (acts_on 4 last (EDisk false t d)) x a = x (node_start 4 last (d_n d) + a)%nat.
Proof. intros Ha. unfold gather, acts_on. rewrite seq_nth by lia. reflexivity. Qed.
Lemma el_M_sync_other spl w e : match e with EBrg _ _ | EPm _ _ _ => True | _ => False end -> el_M_sync spl w e = el_M spl w e.
Proof. unfold el_M_sync. destruct e; try contradiction; intros _; destruct (el_M spl w _); reflexivity. Qed.
Lemma el_sync spl w r e x z : rfacts r -> r_nd r = 4%nat -> In e (r_elements r) ->
  bform (el_size (el_M_sync spl w) e) (el_mat (el_M_sync spl w) e) (gather (r_dofs r e) x) (gather (r_dofs r e) z) =
  bform (el_size (el_M spl w) e) (el_mat (el_M spl w) e) (gather (r_dofs r e) x) (gather (r_dofs r e) z)
  - bform (el_size (el_G spl) e) (el_mat (el_G spl) e) (gather (r_dofs r e) x) (gather (r_dofs r e) (turn z)).
Proof.
  intros F N4 He. pose proof (rf_fam _ F _ He) as Hf. pose proof (rf_n_cond _ _ F He) as Hn. rewrite N4 in Hf.
  destruct e as [six n t s|six t d|t b|six t p].
  - cbn [el_fam] in Hf. unfold fam in Hf. destruct six; [discriminate|].
    assert (E : r_dofs r (EShaft false n t s) = acts_on 4 (r_n_last r) (EShaft false n t s)).
    { unfold r_dofs. rewrite N4. apply el_dofs_acts; [left; reflexivity|reflexivity|exact I|exact Hn|discriminate]. }
    rewrite E. set (l := acts_on _ _ _). unfold el_size, el_mat. cbn [el_M_sync el_M el_G bind fst snd].
    rewrite !bform_mulv. apply dot_ext3. intros i Hi. rewrite sync_shaft_acts by (auto using shaft_G_odd). f_equal. unfold mulv. apply sumn_ext; intros j Hj. f_equal.
    unfold l. rewrite gather_shaft by auto. replace (4 * n)%nat with (2 * (2 * n))%nat by lia. rewrite turn_shift. unfold turn.
    destruct (Nat.even j) eqn:Ej; rewrite gather_shaft; auto; try lia; try (replace (4 * n)%nat with (2 * (2 * n))%nat by lia; reflexivity).
    assert (j <> 7)%nat by (intros ->; discriminate). lia.
  - cbn [el_fam] in Hf. unfold fam in Hf. destruct six; [discriminate|].
    assert (E : r_dofs r (EDisk false t d) = acts_on 4 (r_n_last r) (EDisk false t d)).
    { unfold r_dofs. rewrite N4. apply el_dofs_acts; [left; reflexivity|reflexivity|exact I|exact I|discriminate]. }
    rewrite E. set (l := acts_on _ _ _). unfold el_size, el_mat. cbn [el_M_sync el_M el_G bind fst snd].
    rewrite !bform_mulv. apply dot_ext3. intros i Hi. rewrite sync_disk_acts by auto. f_equal. unfold mulv. apply sumn_ext; intros j Hj. f_equal.
    unfold l. rewrite gather_disk4 by auto. destruct (node_start_even (r_n_last r) (d_n d)) as [b Eb]. rewrite Eb, turn_shift. unfold turn.
    destruct (Nat.even j) eqn:Ej; rewrite gather_disk4; rewrite ?Eb; auto; try lia.
    assert (j <> 3)%nat by (intros ->; discriminate). lia.
  - assert (Z : el_mat (el_G spl) (EBrg t b) = mzero). { unfold el_mat, el_G. destruct (el_K spl 0 (EBrg t b)); reflexivity. }
    rewrite Z, mzero_bform. unfold el_size, el_mat. rewrite el_M_sync_other by exact I. ring.
  - assert (Z : el_mat (el_G spl) (EPm six t p) = mzero) by (destruct six; reflexivity).
    rewrite Z, mzero_bform. unfold el_size, el_mat. rewrite el_M_sync_other by exact I. ring.
Qed.

Lemma sync_nodup spl w r A : rfacts r -> assemble (r_ndof r) (r_dofs r) (el_M_sync spl w) (r_elements r) mzero = Ok A ->
  forall e, In e (r_elements r) -> NoDup (r_dofs r e).
Proof.
  intros F HA e He. destruct (assemble_ok _ _ _ _ _ _ HA) as [H1 _]. destruct (H1 e He) as (k & M & Hf & Hl & _). apply el_nodup; auto. rewrite Hl.
  unfold el_M_sync in Hf. destruct (el_M spl w e) as [[k' M']|] eqn:E; [|discriminate]. cbn [bind fst snd] in Hf.
  assert (k = k') by (destruct e as [[]|[]| |]; cbn in Hf; congruence). subst k'. apply (el_size_nat _ _ _ _ _ _ (is_M spl w) E).
Qed.
(** M_sync z = M z - G (z turned by a quarter) *)
Lemma sync_acts spl r f Ms M G z i : rfacts r -> r_nd r = 4%nat -> rotor_M_sync spl r f = Ok Ms -> rotor_M spl r f = Ok M -> rotor_G spl r = Ok G ->
  (i < r_ndof r)%nat -> mulv (r_ndof r) Ms z i = mulv (r_ndof r) M z i - mulv (r_ndof r) G (turn z) i.
Proof.
  intros F N4 Hs HM HG Hi. rewrite <- !bform_basis by auto. unfold rotor_M_sync, rotor_M, rotor_G in *. pose proof (sync_nodup _ _ _ _ F Hs) as Nd.
  rewrite (assemble_bform _ _ _ _ _ _ _ Hs Nd), (assemble_bform _ _ _ _ _ _ _ HM Nd), (assemble_bform _ _ _ _ _ _ _ HG Nd).
  rewrite (suml_map_ext _ _ _ (fun e He => el_sync spl (default 0 f) r e (basis i) z F N4 He)).
  rewrite (suml_map_plus (fun e => bform (el_size (el_M spl (default 0 f)) e) (el_mat (el_M spl (default 0 f)) e) (gather (r_dofs r e) (basis i)) (gather (r_dofs r e) z))
    (fun e => - bform (el_size (el_G spl) e) (el_mat (el_G spl) e) (gather (r_dofs r e) (basis i)) (gather (r_dofs r e) (turn z)))).
  unfold Rminus. f_equal. match goal with |- _ = - ?b => replace (- b) with (-1 * b) by ring end. rewrite <- suml_map_scal. apply suml_map_ext. intros e _. ring.
Qed.

(** ** circular motions *)
Lemma circular_moves w q v a t i : circular w q -> moves q v a -> v t i = w * turn (q t) i /\ a t i = - (w ^ 2) * q t i.
Proof.
  intros Hc Hm.
  assert (V : forall t i, v t i = w * turn (q t) i).
  { clear t i. intros t i. destruct (Hm t i) as [D _]. apply is_derive_unique in D. rewrite <- D. clear D. apply is_derive_unique.
    revert i. apply pair_ind; intros j.
    - rewrite turn_even. destruct (Hc t j) as [_ E]. rewrite E.
      apply (is_derive_ext (fun u => cos (w * u) * q 0 (2 * j)%nat - sin (w * u) * q 0 (2 * j + 1)%nat)); [intros u; symmetry; apply (proj1 (Hc u j))|].
      auto_derive; [exact I|]. replace (j + (j + 0))%nat with (2 * j)%nat by lia. ring.
    - rewrite turn_odd. destruct (Hc t j) as [E _]. rewrite E.
      apply (is_derive_ext (fun u => sin (w * u) * q 0 (2 * j)%nat + cos (w * u) * q 0 (2 * j + 1)%nat)); [intros u; symmetry; apply (proj2 (Hc u j))|].
      auto_derive; [exact I|]. replace (j + (j + 0))%nat with (2 * j)%nat by lia. ring. }
  split; [apply V|]. destruct (Hm t i) as [_ D]. apply is_derive_unique in D. rewrite <- D. clear D. apply is_derive_unique.
  apply (is_derive_ext (fun u => w * turn (q u) i)); [intros u; symmetry; apply V|].
  revert i. apply pair_ind; intros j.
  - apply (is_derive_ext (fun u => w * - q u (2 * j + 1)%nat)); [intros u; rewrite turn_even; reflexivity|].
    destruct (Hm t (2 * j + 1)%nat) as [D _]. rewrite V, turn_odd in D.
    replace (- w ^ 2 * q t (2 * j)%nat) with (w * - (w * q t (2 * j)%nat)) by ring.
    apply (is_derive_scal (fun u => - q u (2 * j + 1)%nat)). apply (is_derive_opp (fun u => q u (2 * j + 1)%nat)). exact D.
  - apply (is_derive_ext (fun u => w * q u (2 * j)%nat)); [intros u; rewrite turn_odd; reflexivity|].
    destruct (Hm t (2 * j)%nat) as [D _]. rewrite V, turn_even in D.
    replace (- w ^ 2 * q t (2 * j + 1)%nat) with (w * (w * - q t (2 * j + 1)%nat)) by ring.
    apply (is_derive_scal (fun u => q u (2 * j)%nat)). exact D.
Qed.
(** a circular motion from any starting position *)
Definition whirl (w : R) (x : vec) : R -> vec := fun t i => cos (w * t) * x i + sin (w * t) * turn x i.
Lemma whirl_circular w x : circular w (whirl w x).
Proof.
  intros t j. unfold whirl. rewrite !turn_even, !turn_odd. rewrite Rmult_0_r, cos_0, sin_0. split; ring.
Qed.
Lemma whirl_moves w x : moves (whirl w x) (fun t i => - w * sin (w * t) * x i + w * cos (w * t) * turn x i) (fun t i => - w ^ 2 * whirl w x t i).
Proof. intros t i. unfold whirl. split; (auto_derive; [exact I|]; ring). Qed.

(** ** complex shapes *)
Lemma forward_turn N (z : cvec) i : Nat.Even N -> forward_shape N z -> (i < N)%nat ->
  turn (fun j => Re (z j)) i = - Im (z i) /\ turn (fun j => Im (z j)) i = Re (z i).
Proof.
  intros [k EN] Hf Hi. destruct (Nat.Even_or_Odd i) as [[j ->]|[j ->]]; rewrite ?turn_even, ?turn_odd.
  - rewrite (Hf j) by lia. destruct (z (2 * j)%nat) as [x y]. unfold Re, Im, Ci, Cmult, Copp. simpl. split; ring.
  - rewrite (Hf j) by lia. destruct (z (2 * j)%nat) as [x y]. unfold Re, Im, Ci, Cmult, Copp. simpl. split; ring.
Qed.
Lemma mulv_vext n A x y i : (forall j, (j < n)%nat -> x j = y j) -> mulv n A x i = mulv n A y i.
Proof. intros H. unfold mulv. apply sumn_ext; intros j Hj. rewrite (H j Hj). reflexivity. Qed.
Lemma mulv_opp n A x i : mulv n A (fun j => - x j) i = - mulv n A x i.
Proof. unfold mulv. rewrite <- sumn_opp. apply sumn_ext; intros. ring. Qed.
Lemma ndof_even r : rfacts r -> r_nd r = 4%nat -> Nat.Even (r_ndof r).
Proof. intros F N4. rewrite (rf_ndof _ F), N4. change (4 / 2)%nat with 2%nat. exists (2 * (r_n_last r + 2) + length (r_pm r))%nat. lia. Qed.
Lemma sync_shape spl r f Ms M G z i : rfacts r -> r_nd r = 4%nat -> rotor_M_sync spl r f = Ok Ms -> rotor_M spl r f = Ok M -> rotor_G spl r = Ok G ->
  forward_shape (r_ndof r) z -> (i < r_ndof r)%nat ->
  cmulv (r_ndof r) (of_mat Ms) z i = Cminus (cmulv (r_ndof r) (of_mat M) z i) (Cmult Ci (cmulv (r_ndof r) (of_mat G) z i)).
Proof.
  intros F N4 Hs HM HG Hf Hi. pose proof (fun j => forward_turn _ z j (ndof_even r F N4) Hf) as Ht.
  apply C_eq.
  - rewrite cmulv_Re, (sync_acts _ _ _ _ _ _ _ _ F N4 Hs HM HG Hi), (mulv_vext _ G (turn _) (fun j => - Im (z j))) by (intros j Hj; apply Ht; exact Hj).
    rewrite mulv_opp, <- cmulv_Re, <- cmulv_Im. destruct (cmulv _ (of_mat M) z i), (cmulv _ (of_mat G) z i). unfold Re, Im, Ci, Cmult, Cminus, Cplus, Copp. simpl. ring.
  - rewrite cmulv_Im, (sync_acts _ _ _ _ _ _ _ _ F N4 Hs HM HG Hi), (mulv_vext _ G (turn _) (fun j => Re (z j))) by (intros j Hj; apply Ht; exact Hj).
    rewrite <- cmulv_Re, <- cmulv_Im. destruct (cmulv _ (of_mat M) z i), (cmulv _ (of_mat G) z i). unfold Re, Im, Ci, Cmult, Cminus, Cplus, Copp. simpl. ring.
Qed.
Lemma dyn_parts n M D G w K s (z : cvec) i : cmulv n (dyn M (damp_gyro D G w) K s) z i =
  Cplus (Cplus (Cmult (Cmult s s) (cmulv n (of_mat M) z i)) (Cmult s (Cplus (cmulv n (of_mat D) z i) (Cmult (RtoC w) (cmulv n (of_mat G) z i))))) (cmulv n (of_mat K) z i).
Proof.
  unfold cmulv, dyn, damp_gyro, of_mat. rewrite <- !csumn_scal, <- !csumn_plus, <- csumn_scal, <- !csumn_plus. apply csumn_ext; intros j _.
  rewrite RtoC_plus, RtoC_mult. ring.
Qed.
Lemma sync_dyn spl r f Ms M G D K z w0 w i : rfacts r -> r_nd r = 4%nat -> rotor_M_sync spl r f = Ok Ms -> rotor_M spl r f = Ok M -> rotor_G spl r = Ok G ->
  forward_shape (r_ndof r) z -> (i < r_ndof r)%nat ->
  cmulv (r_ndof r) (dyn Ms (damp_gyro D G w0) K (Cmult Ci (RtoC w))) z i = cmulv (r_ndof r) (dyn M (damp_gyro D G (w0 + w)) K (Cmult Ci (RtoC w))) z i.
Proof.
  intros F N4 Hs HM HG Hf Hi. rewrite !dyn_parts, (sync_shape _ _ _ _ _ _ _ _ F N4 Hs HM HG Hf Hi), RtoC_plus.
  assert (I2 : Cmult Ci Ci = RtoC (-1)) by (unfold Ci, Cmult, RtoC; simpl; f_equal; ring).
  set (m := cmulv _ (of_mat M) z i). set (g := cmulv _ (of_mat G) z i). set (d := cmulv _ (of_mat D) z i). set (k := cmulv _ (of_mat K) z i).
  transitivity (Cplus (Cplus (Cplus (Cmult (Cmult (Cmult Ci (RtoC w)) (Cmult Ci (RtoC w))) m) (Cmult (Cmult Ci (RtoC w)) (Cplus d (Cmult (RtoC w0) g)))) k)
     (Copp (Cmult (Cmult Ci (RtoC w)) (Cmult (Cmult (Cmult Ci Ci) (RtoC w)) g)))); [ring|].
  rewrite I2. replace (RtoC (-1)) with (Copp (RtoC 1)) by (unfold Copp, RtoC; simpl; f_equal; ring). ring.
Qed.

(** ** existence *)
Lemma assemble_same_sizes N dofs f g l : (forall e k M, In e l -> f e = Ok (k, M) -> exists M', g e = Ok (k, M')) ->
  forall acc acc' A, assemble N dofs f l acc = Ok A -> is_ok (assemble N dofs g l acc').
Proof.
  induction l as [|e l IH]; intros H acc acc' A HA; [eexists; reflexivity|]. cbn [assemble] in *.
  destruct (f e) as [[k M]|] eqn:E; [|discriminate]. destruct (H e k M (or_introl eq_refl) E) as [M' E']. rewrite E'. cbn [bind] in *.
  unfold add_at in *. destruct (existsb _ (dofs e)); [discriminate|]. cbn [fst] in *. destruct (negb _); [discriminate|]. cbn [bind] in *.
  eapply IH; [|exact HA]. intros e' k' M'' He'. apply H. right; exact He'.
Qed.
Lemma sync_exists spl r f : is_ok (rotor_M spl r f) -> is_ok (rotor_M_sync spl r f).
Proof.
  intros [M HM]. unfold rotor_M, rotor_M_sync in *. eapply assemble_same_sizes; [|exact HM]. intros e k A _ E. unfold el_M_sync. rewrite E. cbn [bind].
  destruct e as [[]|[]| |]; eexists; reflexivity.
Qed.
