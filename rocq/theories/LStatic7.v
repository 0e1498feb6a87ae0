(** When run_static succeeds. *)
From Coq Require Import Reals String List Arith Bool Lia Lra Permutation Sorted.
From Verif Require Import PyBase PyDict MatBase CMat SpecMat LMat MMaterial MShaft MDisk MBearing MRotor SpecBeam SpecShaft SpecRotor LShaft LShaftEnergy LShaftProps LShaft6 LShaftEx LBearing LBearing2
  LAssembly LRotor LRotor2 LRotor3 LRotor4 LRotor5 LRotor6 LRotor7 LRotorInit2 LRotorInit3 LRotorInit LRotor2 MDynamics MResults MSection LSection LSection2 MStatic SpecStatic LResults7 LResults8 LStatic LStatic2 LStatic3 LStatic4 LStatic5 LStatic6.
Import ListNotations.
Open Scope list_scope.
Open Scope string_scope.
Open Scope R_scope.

(** ** the auxiliary rotor can be built *)
Lemma aux_tags (brgs : list rbrg) : (forall b, In b brgs -> b_tag (brg_base b) = None /\ match b with RB4 true _ => False | _ => True end) ->
  forall i, map el_tag (mapi mk_brg i brgs) = map (fun j => "Bearing " ++ str j)%string (seq i (length brgs)).
Proof.
  induction brgs as [|b l IH]; intros H i; [reflexivity|]. cbn [mapi map length seq]. rewrite IH by (intros; apply H; right; auto). f_equal.
  destruct (H b (or_introl eq_refl)) as [H1 H2]. unfold mk_brg. cbn [el_tag]. rewrite H1. destruct b as [[] b|b]; [destruct H2| |]; reflexivity.
Qed.
Lemma NoDup_map_inj {A B} (f : A -> B) l : (forall x y, f x = f y -> x = y) -> NoDup l -> NoDup (map f l).
Proof. intros Hf. induction 1 as [|a l H1 H2 IH]; [constructor|]. cbn [map]. constructor; [|exact IH]. intros X. apply in_map_iff in X as (b & E & Hb). apply Hf in E. subst b. contradiction. Qed.
Lemma NoDup_app_intro {A} (l l' : list A) : NoDup l -> NoDup l' -> (forall x, In x l -> ~ In x l') -> NoDup (l ++ l').
Proof. induction 1 as [|a l H1 H2 IH]; intros H' H; [exact H'|]. cbn [app]. constructor.
  - rewrite in_app_iff. intros [X|X]; [contradiction|]. apply (H a (or_introl eq_refl) X).
  - apply IH; auto. intros x Hx. apply H. right. exact Hx. Qed.
Lemma NoDup_app_l {A} (l l' : list A) : NoDup (l ++ l') -> NoDup l.
Proof. induction l as [|a l IH]; intros H; [constructor|]. cbn [app] in H. apply NoDup_cons_iff in H as [H1 H2]. constructor; [|auto]. intros X. apply H1, in_app_iff. auto. Qed.
Lemma aux_rotor_ok r k : rfacts r -> apart r -> (forall k, (k <= r_n_last r)%nat -> exists e, In e (r_shaft r) /\ el_n e = k) -> layers_match r ->
  (forall e, In e (r_shaft r) -> no_load e) -> NoDup (supports r) -> free_tags r -> exists ra, aux_rotor r k = Ok ra.
Proof.
  intros F Ha Hc Hl Hs Hnd Ht. destruct (aux_collect_ok r k F Ha) as (brgs & E). unfold aux_rotor. rewrite E. cbn [bind]. pose proof (aux_collect r k brgs F Ha E) as L.
  assert (Es : mapi mk_shaft 0 (flat_map el_rshaft (r_shaft r)) = map place_elem (r_shaft r)).
  { apply (mapi_place mk_shaft el_rshaft). intros e He. destruct (rf_shaft _ F e He) as (six & n & t & s & ->). simpl. eexists. split; [reflexivity|]. intros i. reflexivity. }
  assert (Ed : mapi mk_disk 0 (flat_map el_disk (r_disk r)) = map place_elem (r_disk r)).
  { apply (mapi_place mk_disk el_disk). intros e He. destruct (rf_disk _ F e He) as (six & t & d & ->). simpl. eexists. split; [reflexivity|]. intros i. reflexivity. }
  assert (Bs : forall b, In b brgs -> exists e, In e (carriers r) /\ aux_spec (el_six e) (el_n e) k None b) by (intros b Hb; apply (forall2_in_r _ _ _ _ L Hb)).
  assert (En : map brg_n brgs = supports r).
  { unfold supports. clear -L. unfold aux_list in L. induction L as [|e b l l' H L IH]; [reflexivity|]. cbn [map]. rewrite IH, (as_n _ _ _ _ _ H). reflexivity. }
  destruct (init_final (flat_map el_rshaft (r_shaft r)) (flat_map el_disk (r_disk r)) brgs [] (r_n_last r)) as (ra & Hra & _); [|exists ra; exact Hra].
  assert (Six : exists six : bool, r_nd r = (if six then 6 else 4)%nat) by (destruct (rf_nd _ F) as [X|X]; [exists false|exists true]; exact X).
  constructor.
  - rewrite Es, Ed. cbn [mapi]. rewrite app_nil_r, !map_app, app_assoc. rewrite !map_map. rewrite !(map_ext (fun e => el_tag (place_elem e)) el_tag) by (intros; apply place_tag).
    rewrite <- map_app. rewrite (aux_tags brgs).
    2:{ intros b Hb. destruct (Bs b Hb) as (e & _ & S). split; [apply (as_tag _ _ _ _ _ S)|apply (as_seal _ _ _ _ _ S)]. }
    apply NoDup_app_intro.
    + pose proof (rf_tags _ F) as T. apply tags_unique_iff in T. unfold r_elements in T. rewrite app_assoc, map_app in T. apply NoDup_app_l in T. exact T.
    + apply NoDup_map_inj; [|apply seq_NoDup]. intros i j X. apply prefix_inj in X. apply str_inj, X.
    + intros t X Y. apply in_map_iff in X as (e & <- & He). apply in_map_iff in Y as (j & X & _). symmetry in X. apply (Ht e j He X).
  - destruct Six as [six Six]. exists six. split; [|split].
    + intros s X. apply in_flat_map in X as (e & He & X). destruct (rf_shaft _ F e He) as (six' & n & t & s' & E'). subst e. destruct X as [<-|[]]. cbn [rs_six].
      pose proof (work_fam r _ _ _ _ _ F He eq_refl). destruct six, six'; congruence.
    + intros d X. apply in_flat_map in X as (e & He & X). destruct (rf_disk _ F e He) as (six' & t & d' & E'). subst e. destruct X as [<-|[]]. cbn [rd_six].
      destruct (disk_fam r _ _ _ F He). destruct six, six'; congruence.
    + intros b Hb. destruct (Bs b Hb) as (e & He & S). rewrite (as_six _ _ _ _ _ S). destruct (carrier_node r e F He) as (_ & _ & _ & X). destruct six, (el_six e); congruence.
  - intros e X. rewrite Es in X. apply in_map_iff in X as (e' & <- & X). rewrite place_n. apply shaft_node; auto.
  - intros j Hj. destruct (Hc j Hj) as (e & He & Ee). exists (place_elem e). rewrite Es, place_n. split; [apply in_map, He|exact Ee].
  - intros e e' X Y. rewrite Es in X, Y. apply in_map_iff in X as (a & <- & X). apply in_map_iff in Y as (b & <- & Y). rewrite !place_n, !place_L. apply Hl; auto.
  - intros s X. apply in_flat_map in X as (e & He & X). pose proof (Hs e He) as Hn. destruct (rf_shaft _ F e He) as (six' & n & t & s' & E'). subst e. destruct X as [<-|[]]. cbn [rs_s place_shaft s_L].
    destruct Hn as (a & Hi & Hg & _). pose proof (shaft_positive _ _ Hi Hg) as Ps. destruct Ps. assumption.
  - intros d X. apply in_flat_map in X as (e & He & X). destruct (rf_disk _ F e He) as (six' & t & d' & E'). subst e. destruct X as [<-|[]]. cbn [rd_d d_n]. apply (disk_fam r _ _ _ F He).
  - rewrite En. exact Hnd.
  - intros b Hb. left. apply (support_node r F). rewrite <- En. apply in_map, Hb.
  - intros b m Hb X. destruct (Bs b Hb) as (e & He & S). rewrite (as_link _ _ _ _ _ S) in X. discriminate.
  - intros p [].
Qed.
Lemma aux_matrices spl r k ra : aux_facts r k ra -> rfacts r -> (forall k, (k <= r_n_last r)%nat -> exists e, In e (r_shaft r) /\ el_n e = k) ->
  is_ok (rotor_M spl ra (Some 0)) /\ is_ok (rotor_K spl ra 0 []).
Proof.
  intros Fa F Hc. pose proof (af_facts _ _ _ Fa) as Fr.
  assert (Bs : forall e, In e (r_brg ra) -> exists b t c, e = EBrg t b /\ aux_spec (el_six c) (el_n c) k None b).
  { intros e He. destruct (af_brg _ _ _ Fa) as (brgs & L & E). rewrite E in He. apply sort_n_in, mapi_in in He as (j & b & Hb & ->).
    destruct (forall2_in_r _ _ _ _ L Hb) as (c & _ & S). unfold mk_brg. eauto. }
  assert (G : regular ra).
  { constructor.
    - intros j Hj. rewrite (af_last _ _ _ Fa) in Hj. destruct (Hc j Hj) as (e & He & Ee). exists (place_elem e). rewrite (af_shaft _ _ _ Fa), place_n. split; [apply in_map, He|exact Ee].
    - rewrite (af_pm _ _ _ Fa). constructor.
    - apply (aux_matches _ _ _ Fa). }
  assert (Lk : links_ok ra).
  { intros e m He X. destruct (Bs e He) as (b & t & c & -> & S). cbn [el_link] in X. pose proof (as_link _ _ _ _ _ S) as Y. unfold brg_link in Y. congruence. }
  assert (X : forall (f : elem -> res (nat * mat)), (forall e, match e with EBrg _ _ => True | _ => is_ok (f e) end) -> (forall e, In e (r_brg ra) -> is_ok (f e)) -> forall e, In e (r_elements ra) -> is_ok (f e)).
  { intros f Hf Hb e He. destruct e as [six n t s|six t d|t b|six t p]; try apply (Hf (EShaft six n t s)); try apply (Hf (EDisk six t d)); try apply (Hf (EPm six t p)). apply Hb, rf_brg_in; auto. }
  split.
  - apply (assembled_exists spl 0 _ ra _ Fr G Lk (is_M _ _) (incl_refl _)). apply X.
    + intros [[] ? ? ?|[] ? ?|? ?|[] ? ?]; simpl; try exact I; eexists; reflexivity.
    + intros e He. destruct (Bs e He) as (b & t & c & -> & S). rewrite (as_M _ _ _ _ _ S) by reflexivity. eexists. reflexivity.
  - apply (assembled_exists spl 0 _ ra _ Fr G Lk (is_K _ _) (kept_incl _ _)). intros e He. apply kept_incl in He. revert e He. apply X.
    + intros [[] ? ? ?|[] ? ?|? ?|[] ? ?]; simpl; try exact I; eexists; reflexivity.
    + intros e He. destruct (Bs e He) as (b & t & c & -> & S). rewrite (as_K _ _ _ _ _ S) by reflexivity. eexists. reflexivity.
Qed.

Section Def.
Variables (spl : list R -> list R -> R -> R) (r : rotor).
Hypothesis F : rfacts r.
Hypothesis Hc : forall k, (k <= r_n_last r)%nat -> exists e, In e (r_shaft r) /\ el_n e = k.
Hypothesis Hl : layers_match r.
Hypothesis Hs : forall e, In e (r_shaft r) -> no_load e.
Lemma W_psd x : 0 <= W spl r x x.
Proof.
  unfold W. apply suml_nonneg. intros y Hy. apply in_map_iff in Hy as (e & <- & He). destruct (rf_shaft _ F e He) as (six & n & t & s & E). subst e.
  pose proof (work_fam r _ _ _ _ _ F He eq_refl) as Hnd. pose proof (shaft_node r _ F He) as Hn. cbn [el_n] in Hn. rewrite (work_shaft_K spl 0 r six n t s) by auto.
  destruct (Hs _ He) as (a & Hi & Hg & HT & HA). destruct (K_psd_all a s Hi Hg HT ltac:(lra)) as (_ & S & _). apply S.
Qed.
Lemma suml_zero l : (forall x, In x l -> 0 <= x) -> suml l = 0 -> forall x, In x l -> x = 0.
Proof.
  induction l as [|a l IH]; intros H E x []; unfold suml in *; cbn [fold_right] in E; fold (suml l) in E; pose proof (H a (or_introl eq_refl)); pose proof (suml_nonneg l (fun y Hy => H y (or_intror Hy))).
  - subst. lra.
  - apply IH; auto; [intros; apply H; right; auto|unfold suml in *; lra].
Qed.
Lemma W_rigid x : W spl r x x = 0 -> forall e, In e (r_shaft r) -> rigid4 (sh_L e) (at_n x (el_n e)).
Proof.
  intros E e He. assert (Z : work (el_K spl 0) r (wide (r_nd r) x) (wide (r_nd r) x) e = 0).
  { apply (suml_zero _) with (2 := E); [|apply in_map, He]. intros y Hy. apply in_map_iff in Hy as (e' & <- & He'). destruct (rf_shaft _ F e' He') as (six & n & t & s & E'). subst e'.
    pose proof (work_fam r _ _ _ _ _ F He' eq_refl) as Hnd. pose proof (shaft_node r _ F He') as Hn. cbn [el_n] in Hn. rewrite (work_shaft_K spl 0 r six n t s) by auto.
    destruct (Hs _ He') as (a & Hi & Hg & HT & HA). destruct (K_psd_all a s Hi Hg HT ltac:(lra)) as (_ & S & _). apply S. }
  pose proof (Hs e He) as Hn. destruct (rf_shaft _ F e He) as (six & n & t & s & E'). subst e.
  pose proof (work_fam r _ _ _ _ _ F He eq_refl) as Hnd. pose proof (shaft_node r _ F He) as Hn'. cbn [el_n] in Hn'. rewrite (work_shaft_K spl 0 r six n t s) in Z by auto.
  destruct Hn as (a & Hi & Hg & HT & HA). destruct (K_kernel_all a s (at_n x n) Hi Hg HT HA) as (K1 & _). cbn [sh_L el_n]. rewrite (f_L _ _ (shaft_init_facts _ _ Hi)). apply K1, Z.
Qed.
Lemma rigid_nodes x : (forall e, In e (r_shaft r) -> rigid4 (sh_L e) (at_n x (el_n e))) -> forall k, (k <= r_n_last r + 1)%nat ->
  x (4 * k + 3)%nat = x 3%nat /\ x (4 * k)%nat = x 0%nat + zpos r k * x 3%nat /\ x (4 * k + 2)%nat = x 2%nat /\ x (4 * k + 1)%nat = x 1%nat - zpos r k * x 2%nat.
Proof.
  intros H. destruct (positions r F Hc Hl) as (_ & Z0 & Hp & _). induction k as [|k IH]; intros Hk.
  - unfold zpos. rewrite Z0. cbn [Nat.mul Nat.add]. repeat split; ring.
  - destruct (IH ltac:(lia)) as (I1 & I2 & I3 & I4). destruct (Hc k ltac:(lia)) as (e & He & En). specialize (H e He). specialize (Hp e He). rewrite En in *. destruct H as (R1 & R2 & R3 & R4). unfold at_n in *.
    rewrite Nat.add_0_r in *. unfold zpos in *. rewrite Hp.
    replace (4 * S k + 3)%nat with (4 * k + 7)%nat by lia. replace (4 * S k)%nat with (4 * k + 4)%nat by lia. replace (4 * k + 4 + 2)%nat with (4 * k + 6)%nat by lia. replace (4 * k + 4 + 1)%nat with (4 * k + 5)%nat by lia.
    rewrite R1, R2, R3, R4, I1, I2, I3, I4. repeat split; ring.
Qed.
Lemma zpos_increasing k m : (k < m <= r_n_last r + 1)%nat -> zpos r k < zpos r m.
Proof.
  destruct (positions r F Hc Hl) as (_ & _ & Hp & _). induction m as [|m IH]; intros Hk; [lia|].
  destruct (Hc m ltac:(lia)) as (e & He & En). specialize (Hp e He). rewrite En in Hp.
  assert (0 < sh_L e). { pose proof (Hs e He) as Hn. destruct (rf_shaft _ F e He) as (six & n & t & s & E'). subst e. destruct Hn as (a & Hi & Hg & _). pose proof (shaft_positive _ _ Hi Hg) as Ps. destruct Ps. assumption. }
  unfold zpos in *. rewrite Hp. destruct (Nat.eq_dec k m) as [->|N]; [lra|]. specialize (IH ltac:(lia)). lra.
Qed.
Lemma held_zero x n m : In n (supports r) -> In m (supports r) -> n <> m -> W spl r x x + 10 ^ 20 * G r x x = 0 -> forall i, (i < n4 r)%nat -> x i = 0.
Proof.
  intros Hn Hm Hne E i Hi. pose proof (W_psd x) as PW.
  assert (PG : forall y, In y (map (grip x x) (supports r)) -> 0 <= y) by (intros y Hy; apply in_map_iff in Hy as (k & <- & _); unfold grip; nra).
  assert (0 <= G r x x) by (apply suml_nonneg, PG). assert (EG : G r x x = 0) by nra. assert (EW : W spl r x x = 0) by nra.
  assert (Z : forall k, In k (supports r) -> x (4 * k)%nat = 0 /\ x (4 * k + 1)%nat = 0).
  { intros k Hk. pose proof (suml_zero _ PG EG (grip x x k) (in_map _ _ _ Hk)) as Q. unfold grip in Q. split; nra. }
  destruct (Z n Hn) as [N0 N1]. destruct (Z m Hm) as [M0 M1]. pose proof (rigid_nodes x (W_rigid x EW)) as Rg.
  pose proof (support_node r F n Hn) as Bn. pose proof (support_node r F m Hm) as Bm. destruct (Rg n Bn) as (_ & A0 & _ & A1). destruct (Rg m Bm) as (_ & B0 & _ & B1).
  assert (D : zpos r n <> zpos r m).
  { destruct (Nat.lt_total n m) as [L|[L|L]]; [|congruence|]; [pose proof (zpos_increasing n m ltac:(lia))|pose proof (zpos_increasing m n ltac:(lia))]; lra. }
  rewrite N0 in A0. rewrite N1 in A1. rewrite M0 in B0. rewrite M1 in B1.
  assert (X3 : x 3%nat = 0) by (apply (Rmult_eq_reg_l (zpos r n - zpos r m)); [lra|lra]). assert (X2 : x 2%nat = 0) by (apply (Rmult_eq_reg_l (zpos r n - zpos r m)); [lra|lra]).
  rewrite X3 in *. rewrite X2 in *. assert (X0 : x 0%nat = 0) by lra. assert (X1 : x 1%nat = 0) by lra.
  assert (Dv := Nat.div_mod i 4 ltac:(lia)). assert (Bd := Nat.mod_upper_bound i 4 ltac:(lia)). set (k := (i / 4)%nat) in *. set (d := (i mod 4)%nat) in *. clearbody k d. subst i.
  destruct (Rg k ltac:(unfold n4 in Hi; lia)) as (C3 & C0 & C2 & C1). rewrite X0 in C0. rewrite X1 in C1.
  destruct d as [|[|[|[|d]]]]; [rewrite Nat.add_0_r, C0; ring|rewrite C1; ring|exact C2|exact C3|lia].
Qed.
Lemma G_sym x y : G r x y = G r y x.
Proof. apply suml_map_ext. intros k _. unfold grip. ring. Qed.
Lemma W_sym x y : W spl r x y = W spl r y x.
Proof.
  apply suml_map_ext. intros e He. destruct (rf_shaft _ F e He) as (six & n & t & s & E). subst e.
  pose proof (work_fam r _ _ _ _ _ F He eq_refl) as Hnd. pose proof (shaft_node r _ F He) as Hn. cbn [el_n] in Hn. rewrite !(work_shaft_K spl 0 r six n t s) by auto.
  destruct (Hs _ He) as (a & Hi & Hg & HT & HA). destruct (K_psd_all a s Hi Hg HT ltac:(lra)) as (S & _). apply bform_sym, S.
Qed.
(** with at most one supported node the shaft can turn about it *)
Lemma loose : (forall n m, In n (supports r) -> In m (supports r) -> n = m) -> exists b, forall y, W spl r y (plane r b 1) + 10 ^ 20 * G r y (plane r b 1) = 0.
Proof.
  intros H. exists (match supports r with [] => 0 | n :: _ => - zpos r n end). intros y. set (b := match supports r with [] => 0 | n :: _ => - zpos r n end).
  rewrite W_sym, (plane_W spl r F Hc Hl Hs). assert (Z : G r y (plane r b 1) = 0); [|rewrite Z; ring].
  unfold G. rewrite (suml_map_ext _ (fun _ => 0 * 0)); [rewrite suml_map_scal; ring|]. intros n Hn. unfold grip. replace (4 * n)%nat with (4 * n + 0)%nat at 2 by lia. rewrite !plane_at by lia. cbn [Nat.eqb].
  assert (Eb : b = - zpos r n). { unfold b. destruct (supports r) as [|m l] eqn:E; [destruct Hn|]. rewrite (H m n (or_introl eq_refl) Hn). reflexivity. }
  rewrite Eb. ring.
Qed.
End Def.

Lemma run_static_total la spl r : rfacts r -> apart r -> linalg_ok la -> (forall k, (k <= r_n_last r)%nat -> exists e, In e (r_shaft r) /\ el_n e = k) -> layers_match r ->
  (forall e, In e (r_shaft r) -> no_load e) -> NoDup (supports r) -> free_tags r -> forallb is_seal (r_brg r) = false ->
  ((exists n m, In n (supports r) /\ In m (supports r) /\ n <> m) -> is_ok (run_static la spl r)) /\
  ((forall n m, In n (supports r) -> In m (supports r) -> n = m) -> run_static la spl r = Err LinAlgError).
Proof.
  intros F Ha Hla Hc Hl Hs Hnd Ht Hb. unfold run_static. rewrite Hb.
  destruct (aux_rotor_ok r (10 ^ 20) F Ha Hc Hl Hs Hnd Ht) as (ra & Ea). destruct (aux_rotor_ok r 0 F Ha Hc Hl Hs Hnd Ht) as (rb & Eb). rewrite Ea, Eb. cbn [bind].
  pose proof (aux_rotor_facts _ _ _ F Ha Ea) as Fa. pose proof (aux_rotor_facts _ _ _ F Ha Eb) as Fb.
  destruct (aux_matrices spl r _ ra Fa F Hc) as [[Ma EM] [Ka EK]]. destruct (aux_matrices spl r _ rb Fb F Hc) as [_ [Kb EKb]]. rewrite EM, EK, EKb.
  rewrite <- (af_nd _ _ _ Fa).
  destruct (lateral_form ra Ma (af_facts _ _ _ Fa) (af_pm _ _ _ Fa)) as (M4 & LM & FM). rewrite LM. cbn [bind].
  destruct (lateral_form ra Ka (af_facts _ _ _ Fa) (af_pm _ _ _ Fa)) as (K4 & LK & FK). rewrite LK. cbn [bind].
  rewrite (af_nd _ _ _ Fa), <- (af_nd _ _ _ Fb).
  destruct (lateral_form rb Kb (af_facts _ _ _ Fb) (af_pm _ _ _ Fb)) as (K1 & LK1 & FK1). rewrite LK1. cbn [bind fst snd].
  rewrite (af_last _ _ _ Fa) in *. rewrite (af_last _ _ _ Fb) in *. fold (n4 r) in *. rewrite (af_nd _ _ _ Fa) in FK.
  assert (HK : forall x y, bform (n4 r) K4 x y = W spl r x y + 10 ^ 20 * G r x y) by (intros x y; rewrite FK, (aux_K_form spl r (10 ^ 20) ra Ka) by auto; rewrite wide_G by apply (rf_nd _ F); reflexivity).
  set (B := fun i (_ : nat) => mulv (n4 r) M4 gravity i). split.
  - intros (n & m & Hn & Hm & Hne).
    assert (NS : nonsingular (n4 r) K4).
    { intros x Hx. apply (held_zero spl r F Hc Hl Hs x n m Hn Hm Hne). rewrite <- HK. unfold bform. apply sumn_0. intros i Hi. fold (mulv (n4 r) K4 x i). rewrite Hx by auto. ring. }
    destruct (la_solve la (n4 r) K4 B) as [X|e] eqn:ES; [|exfalso; apply (solve_err _ Hla _ _ _ _ ES), NS]. cbn [bind].
    assert (Ec : forallb (fun e => (el_n e <? length (r_nodes_pos r) - 1)%nat) (r_shaft r) = true).
    { apply forallb_forall. intros e He. apply Nat.ltb_lt. rewrite (nodes_pos_length r F Hc). pose proof (shaft_node r e F He). lia. }
    rewrite Ec. cbn [negb]. eexists. reflexivity.
  - intros H1. destruct (loose spl r F Hc Hl Hs H1) as (b & Hb').
    assert (NS : ~ nonsingular (n4 r) K4).
    { intros NS. specialize (NS (plane r b 1)). assert (X : plane r b 1 2%nat = 0).
      - apply NS; [|unfold n4; lia]. intros i Hi. rewrite <- unit_row by auto. rewrite HK. apply Hb'.
      - unfold plane in X. cbn in X. lra. }
    destruct (la_solve la (n4 r) K4 B) as [X|e] eqn:ES; [exfalso; apply NS, (solve_sol _ Hla _ _ _ _ ES)|]. cbn [bind]. f_equal. apply (solve_err _ Hla _ _ _ _ ES).
Qed.
