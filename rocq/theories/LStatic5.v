(** Equilibrium: reactions against weight and weight moment. *)
From Coq Require Import Reals String List Arith Bool Lia Lra Permutation Sorted.
From Verif Require Import PyBase PyDict MatBase SpecMat LMat MMaterial MShaft MDisk MBearing MRotor SpecBeam SpecShaft SpecRotor LShaft LShaftEnergy LShaftProps LShaft6 LShaftEx LBearing LBearing2
  LAssembly LRotor LRotor2 LRotor3 LRotor4 LRotor5 LRotor6 LRotor7 LRotorInit2 MDynamics MResults MSection LSection LSection2 MStatic SpecStatic LResults7 LResults8 LStatic LStatic2 LStatic3 LStatic4.
Import ListNotations.
Open Scope list_scope.
Open Scope R_scope.

(** ** every node of the shaft starts an element *)
Lemma group_max_distinct (l : list (nat * R)) : StronglySorted (fun p q => (fst p <= fst q)%nat) l -> (length (group_max l) <= length (nodup Nat.eq_dec (map fst l)))%nat.
Proof.
  induction l as [|[n p] l IH]; intros Hs; [simpl; lia|]. apply StronglySorted_inv in Hs as [Hs Hf]. specialize (IH Hs).
  destruct l as [|[n' p'] l]; [simpl; lia|]. rewrite group_max_cons2. cbv zeta. cbn [map fst] in *. cbn [nodup].
  destruct (Nat.eqb_spec n n') as [->|Hne].
  - destruct (in_dec Nat.eq_dec n' (n' :: map fst l)) as [_|N]; [|exfalso; apply N; left; reflexivity].
    destruct (group_max ((n', p') :: l)) as [|g g'] eqn:E.
    + cbn [length]. exfalso. destruct l as [|[? ?] ?]; [discriminate|]. rewrite group_max_cons2 in E. cbv zeta in E. destruct (Nat.eqb _ _); [destruct (group_max _); discriminate|discriminate].
    + cbn [length] in *. exact IH.
  - destruct (in_dec Nat.eq_dec n (n' :: map fst l)) as [I|_].
    + exfalso. rewrite Forall_forall in Hf. change (n' :: map fst l) with (map fst ((n', p') :: l)) in I. apply in_map_iff in I as ([a b] & E & I). cbn [fst] in E. subst a.
      apply StronglySorted_inv in Hs as [_ Hf']. rewrite Forall_forall in Hf'. destruct I as [I|I].
      * congruence.
      * pose proof (Hf (n', p') (or_introl eq_refl)). pose proof (Hf' (n, b) I). cbn [fst] in *. lia.
    + cbn [length]. apply le_n_S. exact IH.
Qed.
Lemma nodup_incl_all l m : incl l (seq 0 m) -> (m <= length (nodup Nat.eq_dec l))%nat -> forall k, (k < m)%nat -> In k l.
Proof.
  intros Hi Hl k Hk. apply (nodup_In Nat.eq_dec). apply (NoDup_length_incl (NoDup_nodup Nat.eq_dec l) (l' := seq 0 m)).
  - rewrite seq_length. exact Hl.
  - intros a Ha. apply nodup_In in Ha. apply Hi, Ha.
  - apply in_seq. lia.
Qed.
Lemma cover_of r : rfacts r -> (forall e, In e (r_shaft r) -> (el_n e < length (r_nodes_pos r) - 1)%nat) ->
  forall k, (k <= r_n_last r)%nat -> exists e, In e (r_shaft r) /\ el_n e = k.
Proof.
  intros F H k Hk.
  assert (HL : (r_n_last r + 2 <= length (r_nodes_pos r))%nat).
  { assert (I : In (max_list (map el_n (r_shaft r))) (map el_n (r_shaft r))) by (apply max_list_in; intros E; apply map_eq_nil in E; apply (rf_nonempty _ F E)).
    rewrite <- (rf_last _ F) in I. apply in_map_iff in I as (e & E & I). specialize (H e I). lia. }
  rewrite (rf_pos _ F) in HL. unfold nodes_pos in HL. rewrite app_length in HL. cbn [length] in HL.
  set (l := combine (map el_n (r_shaft r)) (map fst (MRotor.shaft_pos (r_shaft r)))) in *.
  assert (Hs : StronglySorted (fun p q => (fst p <= fst q)%nat) l) by (apply sorted_combine, sorted_map_n, rf_sorted; auto).
  pose proof (group_max_distinct l Hs) as D.
  assert (I : In k (map fst l)).
  { apply (nodup_incl_all (map fst l) (r_n_last r + 1)); [|lia|lia]. intros a Ha. apply in_map_iff in Ha as ([b c] & <- & Ha). cbn [fst].
    apply in_combine_l in Ha. apply in_seq. pose proof (max_list_ge _ _ Ha). rewrite <- (rf_last _ F) in H0. lia. }
  apply in_map_iff in I as ([b c] & <- & I). cbn [fst]. apply in_combine_l in I. apply in_map_iff in I as (e & E & I). eauto.
Qed.

(** ** rigid motions do no elastic work *)
Lemma shaft_K_rigid_work a s x y : shaft_init a = Ok s -> good_args a -> a_torque a = 0 -> a_axial_force a = 0 ->
  rigid4 (s_L s) x -> bform 8 (shaft_K s) x y = 0.
Proof.
  intros Hi Hg HT HA Hr. destruct (K_kernel_all a s x Hi Hg HT HA) as (_ & K & _). rewrite (f_L _ _ (shaft_init_facts _ _ Hi)) in Hr.
  pose proof (proj2 K Hr) as Z. destruct (K_psd_all a s Hi Hg HT ltac:(lra)) as (S & _). rewrite (bform_sym _ _ _ _ S), bform_mulv. unfold dot. apply sumn_0. intros i Hi8. rewrite Z by auto. ring.
Qed.
Lemma no_load_good e : no_load e -> good_shaft e.
Proof. destruct e; simpl; auto. intros (a & H1 & H2 & _). exists a. auto. Qed.
Lemma work_fam r e six n t s : rfacts r -> In e (r_shaft r) -> e = EShaft six n t s -> (r_nd r = if six then 6 else 4)%nat.
Proof. intros F He ->. pose proof (rf_fam _ F _ (in_shaft_elements _ _ He)) as Hf. simpl in Hf. unfold fam in Hf. exact Hf. Qed.
Lemma shaft_node r e : rfacts r -> In e (r_shaft r) -> (el_n e <= r_n_last r)%nat.
Proof. intros F He. rewrite (rf_last _ F). apply max_list_ge, in_map, He. Qed.
Lemma disk_fam r six t d : rfacts r -> In (EDisk six t d) (r_disk r) -> (r_nd r = if six then 6 else 4)%nat /\ (d_n d <= r_n_last r + 1)%nat.
Proof.
  intros F He. pose proof (rf_fam _ F (EDisk six t d)) as Hf. split.
  - assert (I : In (EDisk six t d) (r_elements r)) by (unfold r_elements; rewrite !in_app_iff; auto). specialize (Hf I). simpl in Hf. unfold fam in Hf. exact Hf.
  - destruct (rf_dpos _ F) as (dpos & Hd & _). pose proof (disk_pos_bound _ _ _ _ Hd He) as B. pose proof (pos_length r F) as Q. rewrite (rf_pos _ F) in Q. cbn [el_n] in B. lia.
Qed.

(** a rigid lateral motion in the vertical plane *)
Definition plane (r : rotor) (b q : R) : vec := fun i =>
  if Nat.eqb (i mod 4) 1 then b + q * zpos r (i / 4) else if Nat.eqb (i mod 4) 2 then - q else 0.
Lemma div4 k d : (d < 4)%nat -> ((4 * k + d) / 4 = k /\ (4 * k + d) mod 4 = d)%nat.
Proof. intros H. split; [symmetry; apply Nat.div_unique with d; lia|symmetry; apply Nat.mod_unique with k; lia]. Qed.
Lemma plane_at r b q k d : (d < 4)%nat -> plane r b q (4 * k + d)%nat = if Nat.eqb d 1 then b + q * zpos r k else if Nat.eqb d 2 then - q else 0.
Proof. intros H. unfold plane. destruct (div4 k d H) as [-> ->]. reflexivity. Qed.
Lemma plane_el r b q n : let x := at_n (plane r b q) n in
  x 0%nat = 0 /\ x 1%nat = b + q * zpos r n /\ x 2%nat = - q /\ x 3%nat = 0 /\ x 4%nat = 0 /\ x 5%nat = b + q * zpos r (S n) /\ x 6%nat = - q /\ x 7%nat = 0.
Proof.
  cbv zeta. unfold at_n. repeat match goal with |- _ /\ _ => split end;
    [rewrite plane_at by lia| rewrite plane_at by lia| rewrite plane_at by lia| rewrite plane_at by lia
    |replace (4 * n + 4)%nat with (4 * S n + 0)%nat by lia; rewrite plane_at by lia
    |replace (4 * n + 5)%nat with (4 * S n + 1)%nat by lia; rewrite plane_at by lia
    |replace (4 * n + 6)%nat with (4 * S n + 2)%nat by lia; rewrite plane_at by lia
    |replace (4 * n + 7)%nat with (4 * S n + 3)%nat by lia; rewrite plane_at by lia]; reflexivity.
Qed.
Section Eq.
Variables (spl : list R -> list R -> R -> R) (r : rotor).
Hypothesis F : rfacts r.
Hypothesis Hc : forall k, (k <= r_n_last r)%nat -> exists e, In e (r_shaft r) /\ el_n e = k.
Hypothesis Hl : layers_match r.
Hypothesis Hs : forall e, In e (r_shaft r) -> no_load e.
Lemma plane_W b q y : W spl r (plane r b q) y = 0.
Proof.
  unfold W. rewrite (suml_map_ext _ (fun _ => 0 * 0)); [rewrite suml_map_scal; ring|]. intros e He. destruct (rf_shaft _ F e He) as (six & n & t & s & E). subst e.
  pose proof (work_fam r _ _ _ _ _ F He eq_refl) as Hnd. pose proof (shaft_node r _ F He) as Hn. cbn [el_n] in Hn. rewrite (work_shaft_K spl 0 r six n t s) by auto.
  destruct (Hs _ He) as (a & Hi & Hg & HT & HA). rewrite (shaft_K_rigid_work a s); [ring|auto..].
  destruct (positions r F Hc Hl) as (_ & _ & Hp & _). specialize (Hp _ He). cbn [el_n sh_L] in Hp.
  destruct (plane_el r b q n) as (E0 & E1 & E2 & E3 & E4 & E5 & E6 & E7). unfold rigid4. rewrite E0, E1, E2, E3, E4, E5, E6, E7. unfold zpos. rewrite Hp. repeat split; ring.
Qed.
Lemma plane_P b q : P spl r (plane r b q) up4 =
  suml (map (fun e => sh_m e * (b + q * (zpos r (el_n e) + sh_cg e))) (r_shaft r)) + suml (map (fun e => dk_m e * (b + q * zpos r (el_n e))) (r_disk r)).
Proof.
  unfold P. rewrite map_app, suml_app. f_equal; apply suml_map_ext; intros e He.
  - destruct (rf_shaft _ F e He) as (six & n & t & s & E). subst e.
    pose proof (work_fam r _ _ _ _ _ F He eq_refl) as Hnd. pose proof (shaft_node r _ F He) as Hn. cbn [el_n] in Hn. rewrite (work_shaft_M spl 0 r six n t s) by auto.
    destruct (Hs _ He) as (a & Hi & Hg & _). destruct (positions r F Hc Hl) as (_ & _ & Hp & _). specialize (Hp _ He). cbn [el_n sh_L] in Hp.
    destruct (plane_el r b q n) as (E0 & E1 & E2 & E3 & E4 & E5 & E6 & E7).
    rewrite (shaft_rigid_up a s _ _ (b + q * zpos r n) q); auto.
    + cbn [sh_m sh_cg el_n]. ring.
    + intros i _. apply up4_at.
    + rewrite E5. unfold zpos. rewrite Hp. ring.
  - destruct (rf_disk _ F e He) as (six & t & d & E). subst e. destruct (disk_fam r _ _ _ F He) as [Hnd Hn]. rewrite (work_disk_M spl 0 r six t d) by auto.
    rewrite disk_up by (intros i _; apply up4_at). destruct (plane_el r b q (d_n d)) as (E0 & E1 & _). rewrite E1. reflexivity.
Qed.
Lemma plane_mass b q : (q = 0 \/ r_m r <> 0) -> P spl r (plane r b q) up4 = r_m r * (b + q * r_CG r).
Proof.
  intros Hm. rewrite plane_P.
  rewrite (suml_map_ext (fun e => sh_m e * (b + q * (zpos r (el_n e) + sh_cg e))) (fun e => b * sh_m e + q * (sh_m e * (zpos r (el_n e) + sh_cg e)))) by (intros; ring).
  rewrite (suml_map_ext (fun e => dk_m e * (b + q * zpos r (el_n e))) (fun e => b * dk_m e + q * (dk_m e * zpos r (el_n e)))) by (intros; ring).
  rewrite !suml_map_plus, !suml_map_scal. replace (r_m r * (b + q * r_CG r)) with (b * r_m r + q * (r_m r * r_CG r)) by ring.
  destruct Hm as [-> | Hm].
  - rewrite (rf_mass _ F). ring.
  - rewrite (cg_value r F Hc Hl Hm). unfold zpos. rewrite (rf_mass _ F). ring.
Qed.
Variables (ra : rotor) (u nodal weight : vec).
Hypothesis C : core spl r ra u nodal weight.
Lemma unit_dot i v : (i < n4 r)%nat -> dotv (n4 r) (fun j => if Nat.eqb j i then 1 else 0) v = v i.
Proof. intros Hi. unfold dotv. rewrite (sumn_single _ _ i Hi); [rewrite Nat.eqb_refl; ring|]. intros j _ Hj. destruct (Nat.eqb_spec j i); [congruence|ring]. Qed.
Lemma support_node k : In k (supports r) -> (k <= r_n_last r + 1)%nat.
Proof. intros H. unfold supports in H. apply in_map_iff in H as (e & <- & He). apply (carrier_node r e F He). Qed.
Definition cnt (k : nat) : R := suml (map (fun n => if Nat.eqb n k then 1 else 0) (supports r)).
Lemma reaction_value k : (k <= r_n_last r + 1)%nat -> reaction_of nodal weight k = - 10 ^ 20 * cnt k * u (4 * k + 1)%nat.
Proof.
  intros Hk. set (i := (4 * k + 1)%nat). assert (Hi : (i < n4 r)%nat) by (unfold i, n4; lia). set (x := fun j => if Nat.eqb j i then 1 else 0 : R).
  pose proof (co_nodal _ _ _ _ _ _ C x) as E1. pose proof (co_weight _ _ _ _ _ _ C x) as E2. pose proof (co_eq _ _ _ _ _ _ C x) as E3.
  unfold x in E1, E2. rewrite unit_dot in E1, E2 by auto. fold x in E1, E2. unfold reaction_of. fold i. rewrite E1, E2, <- E3.
  assert (EG : G r x u = cnt k * u i).
  { unfold G, cnt. rewrite Rmult_comm, <- suml_map_scal. apply suml_map_ext. intros n Hn. unfold grip, x, i.
    destruct (Nat.eqb_spec (4 * n) (4 * k + 1)); [lia|]. destruct (Nat.eqb_spec n k) as [->|N].
    - rewrite Nat.eqb_refl. ring.
    - destruct (Nat.eqb_spec (4 * n + 1) (4 * k + 1)); [lia|ring]. }
  rewrite EG. ring.
Qed.
Lemma balance b q : (q = 0 \/ r_m r <> 0) -> - 10 ^ 20 * suml (map (fun n => (b + q * zpos r n) * u (4 * n + 1)%nat) (supports r)) = g0 * (r_m r * (b + q * r_CG r)).
Proof.
  intros Hm. pose proof (co_eq _ _ _ _ _ _ C (plane r b q)) as E. rewrite plane_W, (plane_mass b q Hm) in E.
  assert (EG : G r (plane r b q) u = suml (map (fun n => (b + q * zpos r n) * u (4 * n + 1)%nat) (supports r))).
  { apply suml_map_ext. intros n _. unfold grip. replace (4 * n)%nat with (4 * n + 0)%nat at 1 by lia. rewrite !plane_at by lia. cbn [Nat.eqb]. ring. }
  rewrite <- EG. lra.
Qed.
End Eq.

(** ** dictionaries *)
Fixpoint nmem (d : list (nat * R)) (n : nat) : bool := match d with [] => false | (m, _) :: d => (Nat.eqb n m || nmem d n)%bool end.
Definition keys (d : list (nat * R)) : list nat := map fst d.
Lemma nset_keys d n v : keys (nset d n v) = if in_dec Nat.eq_dec n (keys d) then keys d else keys d ++ [n].
Proof.
  induction d as [|[m w] d IH]; [reflexivity|]. unfold keys in *. cbn [nset map fst]. destruct (Nat.eqb_spec n m) as [->|N].
  - cbn [map fst]. destruct (in_dec Nat.eq_dec m (m :: map fst d)) as [_|X]; [reflexivity|exfalso; apply X; left; reflexivity].
  - cbn [map fst]. rewrite IH. destruct (in_dec Nat.eq_dec n (map fst d)) as [I|I]; destruct (in_dec Nat.eq_dec n (m :: map fst d)) as [J|J]; try reflexivity.
    + exfalso. apply J. right. exact I.
    + exfalso. destruct J as [J|J]; [congruence|contradiction].
Qed.
Lemma nset_in d n v p : In p (nset d n v) -> p = (n, v) \/ In p d.
Proof.
  induction d as [|[m w] d IH]; cbn [nset]; [intros [<-|[]]; auto|]. destruct (Nat.eqb n m).
  - intros [<-|H]; [auto|right; right; exact H].
  - intros [<-|H]; [right; left; reflexivity|]. destruct (IH H); [auto|right; right; auto].
Qed.
Lemma NoDup_snoc {A} (l : list A) a : NoDup l -> ~ In a l -> NoDup (l ++ [a]).
Proof. intros H1 H2. apply (Permutation_NoDup (l := a :: l)); [apply Permutation_cons_append|constructor; auto]. Qed.
Lemma nset_fold {A} (key : A -> nat) (val : nat -> R) l : forall d, NoDup (keys d) -> (forall p, In p d -> snd p = val (fst p)) ->
  let d' := fold_left (fun d e => nset d (key e) (val (key e))) l d in
  NoDup (keys d') /\ (forall p, In p d' -> snd p = val (fst p)) /\ (forall n, In n (keys d') <-> In n (keys d) \/ In n (map key l)).
Proof.
  induction l as [|e l IH]; intros d Hd Hv; cbn [fold_left]; cbv zeta; [repeat split; auto; intros [H|[]]; auto|].
  assert (Hk := nset_keys d (key e) (val (key e))).
  destruct (IH (nset d (key e) (val (key e)))) as (I1 & I2 & I3).
  - rewrite Hk. destruct (in_dec _ _ _) as [I|I]; [auto|apply NoDup_snoc; auto].
  - intros p Hp. apply nset_in in Hp as [->|Hp]; [reflexivity|auto].
  - split; [exact I1|]. split; [exact I2|]. intros n. rewrite I3, Hk. cbn [map]. destruct (in_dec _ _ _) as [I|I]; [|rewrite in_app_iff; cbn [In]]; cbn [In]; split; intros; intuition (subst; auto).
Qed.
Lemma keys_sum (h : nat -> R) ks l : NoDup ks -> (forall n, In n l -> In n ks) ->
  suml (map (fun k => h k * suml (map (fun n => if Nat.eqb n k then 1 else 0) l)) ks) = suml (map h l).
Proof.
  intros Hn. induction l as [|a l IH]; intros Hi.
  - rewrite (suml_map_ext _ (fun _ => 0 * 0)) by (intros; unfold suml; simpl; ring). rewrite suml_map_scal. unfold suml. simpl. ring.
  - rewrite (suml_map_ext _ (fun k => h k * (if Nat.eqb a k then 1 else 0) + h k * suml (map (fun n => if Nat.eqb n k then 1 else 0) l))).
    2:{ intros k _. unfold suml. cbn [map fold_right]. ring. }
    rewrite suml_map_plus, IH by (intros; apply Hi; right; auto).
    assert (E : suml (map (fun k => h k * (if Nat.eqb a k then 1 else 0)) ks) = h a).
    { specialize (Hi a (or_introl eq_refl)). clear IH. induction ks as [|k ks IHk]; [destruct Hi|]. apply NoDup_cons_iff in Hn as [N1 N2].
      unfold suml in *. cbn [map fold_right]. destruct (Nat.eqb_spec a k) as [->|Ne].
      - assert (Z : fold_right Rplus 0 (map (fun k0 => h k0 * (if Nat.eqb k k0 then 1 else 0)) ks) = 0).
        { clear IHk Hi N2. induction ks as [|b ks IH2]; [reflexivity|]. cbn [map fold_right]. rewrite IH2 by (intros X; apply N1; right; auto).
          destruct (Nat.eqb_spec k b); [exfalso; apply N1; left; auto|ring]. }
        rewrite Z. ring.
      - destruct Hi as [Hi|Hi]; [congruence|]. rewrite IHk by auto. ring. }
    rewrite E. reflexivity.
Qed.
Lemma lookup_in d n v : NoDup (keys d) -> (lookup d n = Some v <-> In (n, v) d).
Proof.
  induction d as [|[m w] d IH]; intros H; cbn [lookup]; [split; [discriminate|intros []]|]. unfold keys in H. cbn [map fst] in H. apply NoDup_cons_iff in H as [H1 H2].
  destruct (Nat.eqb_spec n m) as [->|N].
  - split; [intros [=->]; left; reflexivity|]. intros [E|E]; [congruence|]. exfalso. apply H1. change m with (fst (m, v)). apply in_map, E.
  - rewrite IH by exact H2. split; [right; auto|]. intros [E|E]; [congruence|auto].
Qed.
Lemma aux_brg_nodes r k ra : aux_facts r k ra -> Permutation (map el_n (r_brg ra)) (supports r).
Proof.
  intros Fa. destruct (af_brg _ _ _ Fa) as (brgs & Hl & ->).
  rewrite (Permutation_map el_n (sort_n_perm _)).
  assert (E : forall i, map el_n (mapi mk_brg i brgs) = map brg_n brgs) by (clear; induction brgs as [|b l IH]; intros i; simpl; [reflexivity|]; rewrite IH; reflexivity).
  rewrite E. clear E. unfold supports, aux_list in *. induction Hl as [|e b l l' H Hl IH]; [constructor|]. cbn [map]. rewrite (as_n _ _ _ _ _ H). constructor. exact IH.
Qed.
