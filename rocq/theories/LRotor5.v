(** Stiffness of an assembled rotor: rigid motions and grounded rotors. *)
From Coq Require Import Reals String List Arith Bool Lia Lra Permutation Sorted Psatz.
From Verif Require Import PyBase MatBase SpecMat LMat SpecBeam MMaterial MShaft SpecShaft LShaft LShaftEnergy LShaftProps LShaft6 LShaftEx
  MDisk LDisk MBearing LBearing LBearing2 MRotor SpecRotor LAssembly LRotor LRotor2 LRotorPos LRotor3 LRotor4.
Import ListNotations.
Open Scope list_scope.
Open Scope R_scope.

(** ** the null vectors of a symmetric positive semidefinite matrix are its kernel *)
Lemma bform_comb n A x y t : symmetric n A ->
  bform n A (fun i => x i + t * y i) (fun i => x i + t * y i) = bform n A x x + 2 * t * bform n A y x + t ^ 2 * bform n A y y.
Proof.
  intros Hs. unfold bform.
  rewrite (sumn_ext n (fun i => (x i + t * y i) * sumn n (fun j => A i j * (x j + t * y j)))
    (fun i => x i * sumn n (fun j => A i j * x j) + t * (y i * sumn n (fun j => A i j * x j)) + t * (x i * sumn n (fun j => A i j * y j)) + t ^ 2 * (y i * sumn n (fun j => A i j * y j)))).
  - rewrite !sumn_plus, !sumn_scal.
    assert (E : sumn n (fun i => x i * sumn n (fun j => A i j * y j)) = sumn n (fun i => y i * sumn n (fun j => A i j * x j))).
    { change (bform n A x y = bform n A y x). apply bform_sym; auto. }
    rewrite E. ring.
  - intros i Hi. rewrite (sumn_ext n (fun j => A i j * (x j + t * y j)) (fun j => A i j * x j + t * (A i j * y j))) by (intros; ring).
    rewrite sumn_plus, sumn_scal. ring.
Qed.
Lemma quad_zero b c : (forall t, 0 <= 2 * t * b + t ^ 2 * c) -> b = 0.
Proof.
  intros H. destruct (Req_dec b 0) as [|Hb]; [auto|]. exfalso.
  destruct (Rle_lt_dec c 0) as [Hc|Hc].
  - specialize (H (- b)). nra.
  - specialize (H (- b / c)). replace (2 * (- b / c) * b + (- b / c) ^ 2 * c) with (- (b * b / c)) in H by (field; lra).
    assert (0 < b * b / c) by (apply Rdiv_lt_0_compat; nra). lra.
Qed.
Lemma unit_row n A x i : (i < n)%nat -> bform n A (fun j => if Nat.eqb j i then 1 else 0) x = mulv n A x i.
Proof.
  intros Hi. unfold bform, mulv. rewrite (sumn_single _ _ i Hi).
  - rewrite Nat.eqb_refl. ring.
  - intros k Hk Hne. destruct (Nat.eqb_spec k i); [congruence|ring].
Qed.
Lemma psd_kernel n A x : symmetric n A -> pos_semidef n A ->
  (bform n A x x = 0 <-> forall i, (i < n)%nat -> mulv n A x i = 0).
Proof.
  intros Hs Hp. split.
  - intros H i Hi. rewrite <- unit_row by auto. apply (quad_zero _ (bform n A (fun j => if Nat.eqb j i then 1 else 0) (fun j => if Nat.eqb j i then 1 else 0))).
    intros t. pose proof (Hp (fun k => x k + t * (if Nat.eqb k i then 1 else 0))) as P. rewrite bform_comb in P by auto. rewrite H in P. lra.
  - intros H. rewrite bform_mulv. unfold dot. apply sumn_0. intros i Hi. rewrite (H i Hi). ring.
Qed.

(** ** element stiffness *)
Lemma el_K_psd spl w e : no_compression e -> (match e with EBrg _ _ => pos_semidef (el_size (el_K spl w) e) (el_mat (el_K spl w) e) | _ => True end) ->
  pos_semidef (el_size (el_K spl w) e) (el_mat (el_K spl w) e).
Proof.
  destruct e as [[] n t s|[] t d|t b|[] t p]; auto; unfold el_size, el_mat; simpl.
  - intros (a & Hi & Hg & HT & HA) _. apply (K_psd_all a s Hi Hg HT HA).
  - intros (a & Hi & Hg & HT & HA) _. apply (K_psd_all a s Hi Hg HT HA).
  - intros _ _ x. apply Req_le. symmetry. apply mzero_bform.
  - intros _ _ x. apply Req_le. symmetry. apply mzero_bform.
  - intros _ _ x. apply Req_le. symmetry. apply mzero_bform.
  - intros _ _ x. apply Req_le. symmetry. apply mzero_bform.
Qed.
Lemma el_K_sym spl w e : no_compression e -> (match e with EBrg _ _ => eval_sym (el_K spl w) e | _ => True end) -> eval_sym (el_K spl w) e.
Proof.
  destruct e as [[] n t s|[] t d|t b|[] t p]; auto; unfold eval_sym, el_size, el_mat; simpl.
  - intros (a & Hi & Hg & HT & HA) _. apply (K_psd_all a s Hi Hg HT HA).
  - intros (a & Hi & Hg & HT & HA) _. apply (K_psd_all a s Hi Hg HT HA).
  - intros _ _. apply mzero_sym.
  - intros _ _. apply mzero_sym.
  - intros _ _. apply mzero_sym.
  - intros _ _. apply mzero_sym.
Qed.
Lemma no_load_compression e : no_load e -> no_compression e.
Proof. destruct e; simpl; auto. intros (a & H1 & H2 & H3 & H4). exists a. split; [exact H1|]. split; [exact H2|]. split; [exact H3|lra]. Qed.

(** ** rigid motions *)
Definition rigid_el (nd : nat) (e : elem) (x : vec) : Prop := if Nat.eqb nd 6 then rigid6 (sh_L e) x else rigid4 (sh_L e) x.
Lemma shaft_zero_rigid spl w nd e x : (exists six n t s, e = EShaft six n t s) -> el_fam nd e -> no_load e ->
  (bform (el_size (el_K spl w) e) (el_mat (el_K spl w) e) x x = 0 <-> rigid_el nd e x).
Proof.
  intros (six & n & t & s & ->) Hf (a & Hi & Hg & HT & HA). simpl in Hf. unfold fam in Hf. subst nd. unfold rigid_el, el_size, el_mat.
  destruct (K_kernel_all a s x Hi Hg HT HA) as (K1 & _ & K3). simpl sh_L. rewrite (f_L _ _ (shaft_init_facts _ _ Hi)).
  destruct six; simpl; assumption.
Qed.

Lemma rigid_all r x : rfacts r -> (forall k, (k <= r_n_last r)%nat -> exists e, In e (r_shaft r) /\ el_n e = k) -> layers_match r ->
  ((forall e, In e (r_shaft r) -> rigid_el (r_nd r) e (gather (acts_on (r_nd r) (r_n_last r) e) x)) <-> rigid_motion r x).
Proof.
  intros F Hc Hl. destruct (layer_lengths r Hl) as [lam HL].
  destruct (nodes_pos_spec lam (r_shaft r) (r_n_last r) (rf_nonempty _ F) (rf_sorted _ F) (rf_last _ F) Hc HL) as [E _].
  pose proof (rf_nd _ F) as Hnd. unfold rigid_motion. rewrite (rf_pos _ F), E. clear E.
  assert (Hnth : forall n z, nth_error (map (fun n => sumn n lam) (seq 0 (r_n_last r + 2))) n = Some z <-> (n <= r_n_last r + 1)%nat /\ z = sumn n lam).
  { intros n z. destruct (Nat.le_gt_cases n (r_n_last r + 1)) as [H|H].
    - rewrite (map_nth_error (fun n => sumn n lam) n (seq 0 (r_n_last r + 2)) (d := n)).
      + split; [intros [= <-]; auto|intros [_ ->]; reflexivity].
      + rewrite (nth_error_nth' _ 0%nat) by (rewrite seq_length; lia). rewrite seq_nth by lia. reflexivity.
    - split; [|lia]. intros He. assert (n < length (map (fun n => sumn n lam) (seq 0 (r_n_last r + 2))))%nat by (apply nth_error_Some; congruence).
      rewrite map_length, seq_length in H0. lia. }
  assert (Hg : forall e k, In e (r_shaft r) -> (k < 2 * r_nd r)%nat -> gather (acts_on (r_nd r) (r_n_last r) e) x k = x (r_nd r * el_n e + k)%nat).
  { intros e k He Hk. destruct (rf_shaft _ F _ He) as (six & n & t & s & ->). apply gather_shaft; auto.
    apply (rf_shaft_n _ six n t s F). unfold r_elements. apply in_app_iff. auto. }
  set (nd := r_nd r) in *. set (last := r_n_last r) in *. split.
  - intros H.
    destruct Hnd as [E4 | E6].
    + rewrite E4 in *. simpl Nat.eqb in *.
      exists (x 0%nat), (x 1%nat), (x 2%nat), (x 3%nat), 0, 0. intros n z Hn. apply Hnth in Hn as [Hn ->]. cbv zeta.
      revert Hn. induction n as [|n IH]; intros Hn.
      * simpl. repeat split; ring.
      * specialize (IH ltac:(lia)). destruct IH as (I0 & I1 & I2 & I3).
        destruct (Hc n ltac:(lia)) as (e & He & En). pose proof (H e He) as (R1 & R2 & R3 & R4).
        rewrite !Hg in * by (auto; lia). rewrite (HL e He), En in *.
        replace (4 * S n + 0)%nat with (4 * n + 4)%nat by lia. replace (4 * S n + 1)%nat with (4 * n + 5)%nat by lia.
        replace (4 * S n + 2)%nat with (4 * n + 6)%nat by lia. replace (4 * S n + 3)%nat with (4 * n + 7)%nat by lia.
        cbn [sumn]. rewrite R1, R2, R3, R4, I0, I1, I2, I3. repeat split; ring.
    + rewrite E6 in *. simpl Nat.eqb in *.
      exists (x 0%nat), (x 1%nat), (x 3%nat), (x 4%nat), (x 2%nat), (x 5%nat). intros n z Hn. apply Hnth in Hn as [Hn ->]. cbv zeta.
      revert Hn. induction n as [|n IH]; intros Hn.
      * simpl. repeat split; ring.
      * specialize (IH ltac:(lia)). destruct IH as (I0 & I1 & I2 & I3 & I4 & I5).
        destruct (Hc n ltac:(lia)) as (e & He & En). pose proof (H e He) as (R1 & R2 & R3 & R4 & R5 & R6).
        rewrite !Hg in * by (auto; lia). rewrite (HL e He), En in *.
        replace (6 * S n + 0)%nat with (6 * n + 6)%nat by lia. replace (6 * S n + 1)%nat with (6 * n + 7)%nat by lia.
        replace (6 * S n + 2)%nat with (6 * n + 8)%nat by lia. replace (6 * S n + 3)%nat with (6 * n + 9)%nat by lia.
        replace (6 * S n + 4)%nat with (6 * n + 10)%nat by lia. replace (6 * S n + 5)%nat with (6 * n + 11)%nat by lia.
        cbn [sumn]. rewrite R1, R2, R3, R4, R5, R6, I0, I1, I2, I3, I4, I5. repeat split; ring.
  - intros (a & b & p & q & c & th & H) e He.
    assert (Hn : (el_n e <= last)%nat).
    { unfold last. rewrite (rf_last _ F). apply max_list_ge. apply in_map. exact He. }
    assert (Hn1 : (el_n e <= last + 1)%nat) by lia. assert (Hn2 : (S (el_n e) <= last + 1)%nat) by lia.
    pose proof (H (el_n e) (sumn (el_n e) lam) (proj2 (Hnth (el_n e) _) (conj Hn1 eq_refl))) as H0.
    pose proof (H (S (el_n e)) (sumn (S (el_n e)) lam) (proj2 (Hnth (S (el_n e)) _) (conj Hn2 eq_refl))) as H1.
    cbv zeta in H0, H1. unfold rigid_el. rewrite (HL e He).
    destruct Hnd as [E4 | E6].
    + rewrite E4 in *. simpl Nat.eqb in *.
      destruct H0 as (A0 & A1 & A2 & A3). destruct H1 as (B0 & B1 & B2 & B3).
      replace (4 * S (el_n e) + 0)%nat with (4 * (el_n e) + 4)%nat in B0 by lia. replace (4 * S (el_n e) + 1)%nat with (4 * (el_n e) + 5)%nat in B1 by lia.
      replace (4 * S (el_n e) + 2)%nat with (4 * (el_n e) + 6)%nat in B2 by lia. replace (4 * S (el_n e) + 3)%nat with (4 * (el_n e) + 7)%nat in B3 by lia.
      unfold rigid4. rewrite !Hg by (auto; lia). rewrite A0, A1, A2, A3, B0, B1, B2, B3. cbn [sumn]. repeat split; ring.
    + rewrite E6 in *. simpl Nat.eqb in *.
      destruct H0 as (A0 & A1 & A2 & A3 & A4 & A5). destruct H1 as (B0 & B1 & B2 & B3 & B4 & B5).
      replace (6 * S (el_n e) + 0)%nat with (6 * (el_n e) + 6)%nat in B0 by lia. replace (6 * S (el_n e) + 1)%nat with (6 * (el_n e) + 7)%nat in B1 by lia.
      replace (6 * S (el_n e) + 2)%nat with (6 * (el_n e) + 8)%nat in B2 by lia. replace (6 * S (el_n e) + 3)%nat with (6 * (el_n e) + 9)%nat in B3 by lia.
      replace (6 * S (el_n e) + 4)%nat with (6 * (el_n e) + 10)%nat in B4 by lia. replace (6 * S (el_n e) + 5)%nat with (6 * (el_n e) + 11)%nat in B5 by lia.
      unfold rigid6. rewrite !Hg by (auto; lia). rewrite A0, A1, A2, A3, A4, A5, B0, B1, B2, B3, B4, B5. cbn [sumn]. repeat split; ring.
Qed.

(** ** the assembled stiffness matrix *)
Lemma rotor_K_form spl w r A x y : rfacts r -> pm_matches r -> rotor_K spl r w [] = Ok A ->
  bform (r_ndof r) A x y =
  suml (map (fun e => bform (el_size (el_K spl w) e) (el_mat (el_K spl w) e) (gather (acts_on (r_nd r) (r_n_last r) e) x)
                            (gather (acts_on (r_nd r) (r_n_last r) e) y)) (r_elements r)).
Proof.
  intros F Hp HA. unfold rotor_K in HA. rewrite kept_nil in HA.
  apply (assembled_form spl w _ _ _ _ x y F Hp (is_K spl w) (incl_refl _) HA).
Qed.
Lemma rotor_K_sympsd spl w r A : rfacts r -> pm_matches r -> (forall e, In e (r_shaft r) -> no_compression e) ->
  (forall e, In e (r_brg r) -> pos_semidef (el_size (el_K spl w) e) (el_mat (el_K spl w) e)) ->
  rotor_K spl r w [] = Ok A ->
  pos_semidef (r_ndof r) A /\ ((forall e, In e (r_brg r) -> eval_sym (el_K spl w) e) -> symmetric (r_ndof r) A).
Proof.
  intros F Hp Hs Hb HA.
  assert (Hall : forall e, In e (r_elements r) -> no_compression e).
  { intros e He. unfold r_elements in He. rewrite !in_app_iff in He. destruct He as [He|[He|[He|He]]]; [auto| | |].
    - destruct (rf_disk _ F _ He) as (? & ? & ? & ->); exact I.
    - destruct (rf_brg _ F _ He) as (? & ? & ->); exact I.
    - destruct (rf_pm _ F _ He) as (? & ? & ? & ->); exact I. }
  split.
  - intros x. rewrite (rotor_K_form spl w r A x x F Hp HA). apply suml_nonneg. intros v Hv.
    apply in_map_iff in Hv as (e & <- & He). apply el_K_psd; [auto|]. destruct e; auto. apply Hb. apply rf_brg_in; auto.
  - intros Hsy. unfold rotor_K in HA. rewrite kept_nil in HA.
    apply (assemble_symmetric _ _ _ _ _ HA); [eapply assembled_nodup; eauto using is_K, incl_refl|].
    intros e He. apply el_K_sym; [auto|]. destruct e; auto. apply Hsy. apply rf_brg_in; auto.
Qed.

Lemma in_shaft_elements r e : In e (r_shaft r) -> In e (r_elements r).
Proof. intros H. unfold r_elements. rewrite !in_app_iff. auto. Qed.
Lemma in_brg_elements r e : In e (r_brg r) -> In e (r_elements r).
Proof. intros H. unfold r_elements. rewrite !in_app_iff. auto. Qed.

Lemma el_K_zero spl w e x : match e with EShaft _ _ _ _ | EBrg _ _ => False | _ => True end ->
  bform (el_size (el_K spl w) e) (el_mat (el_K spl w) e) x x = 0.
Proof. destruct e as [[] n t s|[] t d|t b|[] t p]; simpl; try tauto; intros _; apply mzero_bform. Qed.

(** a rotor without bearings: the kernel of K are the rigid motions *)
Lemma bare_kernel spl w r A x : rfacts r -> (forall k, (k <= r_n_last r)%nat -> exists e, In e (r_shaft r) /\ el_n e = k) ->
  layers_match r -> r_brg r = [] -> (forall e, In e (r_shaft r) -> no_load e) -> rotor_K spl r w [] = Ok A ->
  ((forall i, (i < r_ndof r)%nat -> mulv (r_ndof r) A x i = 0) <-> rigid_motion r x).
Proof.
  intros F Hc Hl Hb Hs HA.
  assert (Hpm : r_pm r = []).
  { pose proof (rf_pmok _ F) as P. rewrite Hb in P. destruct (r_pm r); [reflexivity|]. discriminate. }
  assert (Hp : pm_matches r) by (intros six t p H; rewrite Hpm in H; destruct H).
  assert (Hnb : forall e, In e (r_brg r) -> pos_semidef (el_size (el_K spl w) e) (el_mat (el_K spl w) e)) by (rewrite Hb; intros e []).
  destruct (rotor_K_sympsd spl w r A F Hp (fun e He => no_load_compression _ (Hs e He)) Hnb HA) as [Psd Sym].
  assert (Sy : symmetric (r_ndof r) A) by (apply Sym; rewrite Hb; intros e []).
  rewrite <- (psd_kernel _ _ _ Sy Psd), <- (rigid_all r x F Hc Hl).
  rewrite (rotor_K_form spl w r A x x F Hp HA).
  assert (Hfam : forall e, In e (r_shaft r) -> el_fam (r_nd r) e) by (intros; apply rf_fam; auto using in_shaft_elements).
  split.
  - intros H e He. apply (shaft_zero_rigid spl w); [apply (rf_shaft _ F); auto|auto|auto|].
    apply (suml_zero _ _ H); [|apply in_shaft_elements; auto].
    intros y Hy. unfold r_elements in Hy. rewrite Hb, Hpm, !in_app_iff in Hy. destruct Hy as [Hy|[Hy|[[]|[]]]].
    + apply el_K_psd; [apply no_load_compression; auto|]. destruct (rf_shaft _ F _ Hy) as (? & ? & ? & ? & ->). exact I.
    + rewrite el_K_zero; [lra|]. destruct (rf_disk _ F _ Hy) as (? & ? & ? & ->). exact I.
  - intros H. unfold r_elements. rewrite Hb, Hpm. simpl. rewrite app_nil_r, map_app, suml_app.
    rewrite (suml_map_ext _ (fun _ => 0) (r_shaft r)), (suml_map_ext _ (fun _ => 0) (r_disk r)).
    + assert (Z : forall l : list elem, suml (map (fun _ => 0) l) = 0) by (induction l; unfold suml in *; simpl; lra). rewrite !Z. ring.
    + intros e He. apply el_K_zero. destruct (rf_disk _ F _ He) as (? & ? & ? & ->). exact I.
    + intros e He. apply (shaft_zero_rigid spl w (r_nd r)); [apply (rf_shaft _ F); auto|auto|auto|auto].
Qed.

(** ** grounded rotors *)
Lemma held_zero spl w r x : rfacts r ->
  (forall e, In e (r_brg r) -> is_ok (el_K spl w e) /\
     bform (el_size (el_K spl w) e) (el_mat (el_K spl w) e) (gather (acts_on (r_nd r) (r_n_last r) e) x) (gather (acts_on (r_nd r) (r_n_last r) e) x) = 0) ->
  forall n, held (el_K spl w) r n -> forall v, (v < r_nd r / 2)%nat -> x (node_start (r_nd r) (r_n_last r) n + v)%nat = 0.
Proof.
  intros F HZ n Hh.
  assert (Hcore : forall e, In e (r_brg r) -> grips (el_K spl w) e -> forall v, (v < r_nd r / 2)%nat ->
     x (node_start (r_nd r) (r_n_last r) (el_n e) + v)%nat =
       match el_link e with None => 0 | Some m => x (node_start (r_nd r) (r_n_last r) m + v)%nat end).
  { intros e He Hgr v Hv. destruct (HZ e He) as [[[k A] Hok] Hz]. pose proof (rf_fam _ F _ (in_brg_elements _ _ He)) as Hf.
    destruct (rf_brg _ F _ He) as (t & b & ->).
    pose proof (brg_block spl w _ t b k A (is_K spl w) Hok) as Hb.
    assert (Hh2 : half b = (r_nd r / 2)%nat) by (destruct b; simpl in Hf; unfold fam in Hf; rewrite Hf; reflexivity).
    unfold grips in Hgr. replace (match EBrg t b with EBrg _ (RB6 _) => 3 | _ => 2 end)%nat with (half b) in Hgr by (destruct b; reflexivity).
    unfold el_size, el_mat in *. rewrite Hok in *. cbn [fst snd] in *. cbn [el_link el_n] in *.
    destruct (b_n_link (brg_base b)) as [m|] eqn:El.
    - destruct Hb as [-> _]. 
      destruct (Req_dec (x (node_start (r_nd r) (r_n_last r) (b_n (brg_base b)) + v)%nat) (x (node_start (r_nd r) (r_n_last r) m + v)%nat)) as [|Hne]; [auto|].
      exfalso. pose proof (Hgr (gather (acts_on (r_nd r) (r_n_last r) (EBrg t b)) x)) as P.
      assert (0 < 0); [|lra]. rewrite <- Hz at 2. apply P. exists v. split; [lia|]. rewrite Hh2, gather_brg, (gather_brg2 _ _ _ _ _ _ m) by auto. exact Hne.
    - subst k. destruct (Req_dec (x (node_start (r_nd r) (r_n_last r) (b_n (brg_base b)) + v)%nat) 0) as [|Hne]; [auto|].
      exfalso. assert (0 < 0); [|lra]. rewrite <- Hz at 2. apply Hgr. exists v. split; [lia|]. rewrite gather_brg by auto. exact Hne. }
  induction Hh as [e He El Hg|e m He El Hg Hm IH|e m He El Hg Hm IH]; intros v Hv.
  - rewrite (Hcore e He Hg v Hv), El. reflexivity.
  - rewrite (Hcore e He Hg v Hv), El. auto.
  - pose proof (Hcore e He Hg v Hv) as E. rewrite El in E. rewrite <- E. auto.
Qed.

Lemma sumn_increasing lam n m N : (forall k, (k < N)%nat -> 0 < lam k) -> (n < m)%nat -> (m <= N)%nat -> sumn n lam < sumn m lam.
Proof.
  intros H Hnm HN. induction m; [lia|]. simpl. destruct (Nat.eq_dec n m) as [->|].
  - specialize (H m ltac:(lia)). lra.
  - specialize (IHm ltac:(lia) ltac:(lia)). specialize (H m ltac:(lia)). lra.
Qed.

Lemma two_zero a q z1 z2 : z1 <> z2 -> a + z1 * q = 0 -> a + z2 * q = 0 -> a = 0 /\ q = 0.
Proof.
  intros Hz H1 H2. assert (Hq : (z1 - z2) * q = 0) by lra. apply Rmult_integral in Hq as [Hq|Hq]; [lra|]. subst. split; lra.
Qed.

Lemma grounded_kernel spl w r A x : rfacts r -> regular r -> layers_match r ->
  (forall e, In e (r_shaft r) -> no_load e) ->
  (forall e, In e (r_brg r) -> pos_semidef (el_size (el_K spl w) e) (el_mat (el_K spl w) e)) ->
  (exists n m, (n < m <= r_n_last r + 1)%nat /\ held (el_K spl w) r n /\ held (el_K spl w) r m) ->
  (forall e, In e (r_pm r) -> held (el_K spl w) r (el_n e)) ->
  rotor_K spl r w [] = Ok A -> bform (r_ndof r) A x x = 0 ->
  if Nat.eqb (r_nd r) 6 then axis_rotation r x else forall i, (i < r_ndof r)%nat -> x i = 0.
Proof.
  intros F G Hl Hs Hb (n1 & n2 & Hn & Hh1 & Hh2) Hpmh HA H.
  pose proof (reg_pm_dof _ G) as Hp.
  pose proof (rotor_K_form spl w r A x x F Hp HA) as Form. rewrite H in Form. symmetry in Form.
  assert (Hnn : forall e, In e (r_elements r) -> 0 <= bform (el_size (el_K spl w) e) (el_mat (el_K spl w) e) (gather (acts_on (r_nd r) (r_n_last r) e) x) (gather (acts_on (r_nd r) (r_n_last r) e) x)).
  { intros e He. unfold r_elements in He. rewrite !in_app_iff in He. destruct He as [He|[He|[He|He]]].
    - apply el_K_psd; [apply no_load_compression; auto|]. destruct (rf_shaft _ F _ He) as (? & ? & ? & ? & ->). exact I.
    - rewrite el_K_zero; [lra|]. destruct (rf_disk _ F _ He) as (? & ? & ? & ->). exact I.
    - apply Hb; auto.
    - rewrite el_K_zero; [lra|]. destruct (rf_pm _ F _ He) as (? & ? & ? & ->). exact I. }
  pose proof (suml_zero _ _ Form Hnn) as Z.
  assert (Hr : rigid_motion r x).
  { apply (rigid_all r x F (reg_shaft _ G) Hl). intros e He.
    apply (shaft_zero_rigid spl w); [apply (rf_shaft _ F); auto|apply rf_fam; auto using in_shaft_elements|auto|].
    apply Z. apply in_shaft_elements; auto. }
  assert (HZ := held_zero spl w r x F).
  assert (HZb : forall e, In e (r_brg r) -> is_ok (el_K spl w e) /\
     bform (el_size (el_K spl w) e) (el_mat (el_K spl w) e) (gather (acts_on (r_nd r) (r_n_last r) e) x) (gather (acts_on (r_nd r) (r_n_last r) e) x) = 0).
  { intros e He. split; [|apply Z; apply in_brg_elements; auto].
    unfold rotor_K in HA. rewrite kept_nil in HA. destruct (assemble_ok _ _ _ _ _ _ HA) as [H1 _].
    destruct (H1 e (in_brg_elements _ _ He)) as (k & M & Hf & _). exists (k, M). exact Hf. }
  specialize (HZ HZb). clear HZb Z Hnn Form.
  destruct (layer_lengths r Hl) as [lam HL].
  destruct (nodes_pos_spec lam (r_shaft r) (r_n_last r) (rf_nonempty _ F) (rf_sorted _ F) (rf_last _ F) (reg_shaft _ G) HL) as [E _].
  assert (Hpos : sumn n1 lam < sumn n2 lam).
  { apply (sumn_increasing lam n1 n2 (r_n_last r + 1)); [|lia|lia]. intros k Hk. destruct (reg_shaft _ G k) as (e & He & En); [lia|].
    rewrite <- En, <- (HL e He). destruct (rf_shaft _ F _ He) as (six & n & t & s & ->). destruct (Hs _ He) as (a & Hi & Hg & _).
    simpl. rewrite (f_L _ _ (shaft_init_facts _ _ Hi)). apply Hg. }
  destruct Hr as (a & b & p & q & c & th & Hr). rewrite (rf_pos _ F), E in Hr.
  assert (Hr' : forall n, (n <= r_n_last r + 1)%nat -> let at_ l := x (r_nd r * n + l)%nat in
    at_ 0%nat = a + sumn n lam * q /\ at_ 1%nat = b - sumn n lam * p /\
    if Nat.eqb (r_nd r) 6 then at_ 2%nat = c /\ at_ 3%nat = p /\ at_ 4%nat = q /\ at_ 5%nat = th
    else at_ 2%nat = p /\ at_ 3%nat = q).
  { intros n Hn'. apply Hr. apply (map_nth_error (fun n => sumn n lam)). rewrite (nth_error_nth' _ 0%nat) by (rewrite seq_length; lia). rewrite seq_nth by lia. reflexivity. }
  clear Hr. rename Hr' into Hr. pose proof (rf_nd _ F) as Hnd.
  assert (Hz1 := HZ n1 Hh1). assert (Hz2 := HZ n2 Hh2). rewrite start_shaft in Hz1, Hz2 by lia.
  pose proof (Hr n1 ltac:(lia)) as R1. pose proof (Hr n2 ltac:(lia)) as R2. cbv zeta in R1, R2.
  assert (Hsup : forall e v, In e (r_pm r) -> (v < r_nd r / 2)%nat -> x (node_start (r_nd r) (r_n_last r) (el_n e) + v)%nat = 0) by (intros; apply HZ; auto).
  assert (Hlat : a = 0 /\ q = 0 /\ b = 0 /\ p = 0).
  { destruct R1 as (R10 & R11 & _). destruct R2 as (R20 & R21 & _).
    rewrite Hz1 in R10, R11 by (destruct Hnd as [-> | ->]; simpl; lia). rewrite Hz2 in R20, R21 by (destruct Hnd as [-> | ->]; simpl; lia).
    destruct (two_zero a q _ _ (Rlt_not_eq _ _ Hpos)) as [-> ->]; [lra|lra|].
    destruct (two_zero b (- p) _ _ (Rlt_not_eq _ _ Hpos)) as [-> Hpp]; [lra|lra|]. repeat split; lra. }
  destruct Hlat as (-> & -> & -> & ->).
  assert (Hcov : forall i, (i < r_ndof r)%nat -> exists n v, (n < r_n_last r + 2 + length (r_pm r))%nat /\ (v < node_dofs (r_nd r) (r_n_last r) n)%nat /\
      (node_start (r_nd r) (r_n_last r) n + v = i)%nat).
  { intros i Hi. rewrite (rf_ndof _ F), <- node_start_total in Hi by auto. apply node_cover; auto. }
  assert (Hsupn : forall n v, (r_n_last r + 1 < n < r_n_last r + 2 + length (r_pm r))%nat -> (v < node_dofs (r_nd r) (r_n_last r) n)%nat ->
      x (node_start (r_nd r) (r_n_last r) n + v)%nat = 0).
  { intros n v Hn' Hv. assert (Hpn : In n (map el_n (r_pm r))).
    { eapply Permutation_in; [apply Permutation_sym, (reg_pm _ G)|]. apply in_seq. lia. }
    apply in_map_iff in Hpn as (e & <- & He). apply Hsup; auto. unfold node_dofs in Hv. destruct (Nat.leb_spec (el_n e) (r_n_last r + 1)); [lia|exact Hv]. }
  destruct Hnd as [E4|E6].
  - rewrite E4 in *. simpl Nat.eqb in *. cbv iota in *. intros i Hi. destruct (Hcov i Hi) as (n & v & Hn' & Hv & <-).
    destruct (Nat.le_gt_cases n (r_n_last r + 1)) as [Hsn|Hsn]; [|apply Hsupn; auto; lia].
    rewrite (dofs_shaft _ _ _ Hsn) in Hv. rewrite (start_shaft _ _ _ Hsn). destruct (Hr n Hsn) as (Q0 & Q1 & Q2 & Q3).
    do 4 (destruct v as [|v]; [lra|]). lia.
  - rewrite E6 in *. simpl Nat.eqb in *. cbv iota in *.
    assert (Hc : c = 0). { destruct R1 as (_ & _ & R12 & _). rewrite Hz1 in R12 by (simpl; lia). auto. }
    subst c. exists th. intros i Hi. rewrite E6. destruct (Hcov i Hi) as (n & v & Hn' & Hv & <-).
    destruct (Nat.le_gt_cases n (r_n_last r + 1)) as [Hsn|Hsn].
    + rewrite (dofs_shaft _ _ _ Hsn) in Hv. rewrite (start_shaft _ _ _ Hsn). destruct (Hr n Hsn) as (Q0 & Q1 & Q2 & Q3 & Q4 & Q5).
      destruct (Nat.ltb_spec (6 * n + v) (6 * (r_n_last r + 2))); [|lia].
      rewrite (Nat.add_comm (6 * n)), (Nat.mul_comm 6 n), Nat.mod_add, Nat.mod_small by lia. rewrite (Nat.add_comm v), (Nat.mul_comm n 6).
      do 6 (destruct v as [|v]; [simpl Nat.eqb; cbn [andb]; lra|]). lia.
    + destruct (Nat.ltb_spec (node_start 6 (r_n_last r) n + v) (6 * (r_n_last r + 2))) as [Hlt|]; [|simpl; apply Hsupn; auto; lia].
      unfold node_start in Hlt. destruct (Nat.leb_spec n (r_n_last r + 1)); lia.
Qed.

(** rotation about the axis is never resisted *)
Lemma axis_rotation_free spl w r A x : rfacts r -> regular r -> layers_match r -> r_nd r = 6%nat ->
  (forall e, In e (r_shaft r) -> no_load e) -> rotor_K spl r w [] = Ok A ->
  axis_rotation r x -> bform (r_ndof r) A x x = 0.
Proof.
  intros F G Hl H6 Hs HA [th Hx]. pose proof (reg_pm_dof _ G) as Hp.
  rewrite (rotor_K_form spl w r A x x F Hp HA).
  rewrite (suml_map_ext _ (fun _ => 0)).
  { generalize (r_elements r). induction l; unfold suml in *; simpl; lra. }
  pose proof (rf_ndof _ F) as Hndof. rewrite H6 in *. change (6 / 2)%nat with 3%nat in Hndof.
  assert (Hok : forall e, In e (r_elements r) -> exists k M, el_K spl w e = Ok (k, M) /\ length (r_dofs r e) = k /\ forall d, In d (r_dofs r e) -> (d < r_ndof r)%nat).
  { unfold rotor_K in HA. rewrite kept_nil in HA. apply (assemble_ok _ _ _ _ _ _ HA). }
  assert (Hacts : forall e, In e (r_elements r) -> r_dofs r e = acts_on 6 (r_n_last r) e).
  { unfold rotor_K in HA. rewrite kept_nil in HA. intros e He. rewrite (assembled_acts spl w _ _ _ _ _ F Hp (is_K spl w) (incl_refl _) HA e He). rewrite H6. reflexivity. }
  assert (Hlow : forall n v, (v < 3)%nat -> (node_start 6 (r_n_last r) n + v < r_ndof r)%nat -> x (node_start 6 (r_n_last r) n + v)%nat = 0).
  { intros n v Hv Hb. rewrite (Hx _ Hb).
    destruct (Nat.le_gt_cases n (r_n_last r + 1)) as [Hsn|Hsn].
    - rewrite (start_shaft _ _ _ Hsn). rewrite (Nat.add_comm (6 * n)), (Nat.mul_comm 6 n), Nat.mod_add, Nat.mod_small by lia.
      destruct (Nat.eqb_spec v 5); [lia|]. rewrite andb_false_r. reflexivity.
    - destruct (Nat.ltb_spec (node_start 6 (r_n_last r) n + v) (6 * (r_n_last r + 2))) as [Hlt|]; [|reflexivity].
      unfold node_start in Hlt. destruct (Nat.leb_spec n (r_n_last r + 1)); lia. }
  intros e He. destruct (Hok e He) as (k & M & Hf & Hlen & Hd). rewrite (Hacts e He) in Hlen, Hd.
  destruct e as [six n t s|six t d|t b|six t p].
  - assert (Hsh : In (EShaft six n t s) (r_shaft r)).
    { unfold r_elements in He. rewrite !in_app_iff in He. destruct He as [He|[He|[He|He]]]; [exact He| | |].
      - destruct (rf_disk _ F _ He) as (? & ? & ? & ?); discriminate.
      - destruct (rf_brg _ F _ He) as (? & ? & ?); discriminate.
      - destruct (rf_pm _ F _ He) as (? & ? & ? & ?); discriminate. }
    apply (shaft_zero_rigid spl w 6); [repeat eexists|rewrite <- H6; apply rf_fam; auto|auto|].
    pose proof (rf_shaft_n _ _ _ _ _ F He) as Hn. unfold rigid_el. simpl Nat.eqb. cbv iota.
    assert (V : forall l, (l < 12)%nat -> gather (acts_on 6 (r_n_last r) (EShaft six n t s)) x l = if Nat.eqb (l mod 6) 5 then th else 0).
    { intros l Hl'. rewrite gather_shaft by (auto; lia). rewrite Hx by (rewrite Hndof; lia).
      destruct (Nat.ltb_spec (6 * n + l) (6 * (r_n_last r + 2))); [|lia].
      rewrite (Nat.add_comm (6 * n)), (Nat.mul_comm 6 n), Nat.mod_add by lia. reflexivity. }
    unfold rigid6. rewrite !V by lia. cbn. repeat split; ring.
  - apply el_K_zero. exact I.
  - unfold el_size, el_mat. rewrite Hf. cbn [fst snd].
    assert (V : forall l, (l < k)%nat -> gather (acts_on 6 (r_n_last r) (EBrg t b)) x l = 0).
    { intros l Hl'. rewrite <- Hlen in Hl'. assert (Hin : In (nth l (acts_on 6 (r_n_last r) (EBrg t b)) 0%nat) (acts_on 6 (r_n_last r) (EBrg t b))) by (apply nth_In; lia).
      unfold gather. specialize (Hd _ Hin). revert Hin Hd. generalize (nth l (acts_on 6 (r_n_last r) (EBrg t b)) 0%nat). intros z Hin Hd.
      unfold acts_on in Hin. change (6 / 2)%nat with 3%nat in Hin. apply in_app_iff in Hin as [Hin|Hin].
      - apply in_seq in Hin. replace z with (node_start 6 (r_n_last r) (b_n (brg_base b)) + (z - node_start 6 (r_n_last r) (b_n (brg_base b))))%nat by lia.
        apply Hlow; lia.
      - destruct (b_n_link (brg_base b)) as [m|]; [|destruct Hin]. apply in_seq in Hin.
        replace z with (node_start 6 (r_n_last r) m + (z - node_start 6 (r_n_last r) m))%nat by lia. apply Hlow; lia. }
    unfold bform. apply sumn_0. intros i Hi. rewrite V by auto. ring.
  - apply el_K_zero. exact I.
Qed.
