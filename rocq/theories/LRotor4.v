(** Total mass of an assembled rotor. *)
From Coq Require Import Reals String List Arith Bool Lia Lra Permutation Sorted Psatz.
From Coquelicot Require Import Coquelicot.
From Verif Require Import PyBase MatBase SpecMat LMat SpecBeam MMaterial MShaft SpecShaft LShaft LShaftEnergy LShaftProps LShaft6 LShaftEx
  MDisk LDisk MBearing LBearing LBearing2 MRotor SpecRotor LAssembly LRotor LRotor2 LRotorPos LRotor3.
Import ListNotations.
Open Scope list_scope.
Open Scope R_scope.

(** *** translations in element coordinates *)
Lemma translation_shaft nd last c n v : (v < nd)%nat -> (n <= last + 1)%nat ->
  translation nd last c (nd * n + v)%nat = if Nat.eqb v c then 1 else 0.
Proof.
  intros Hv Hn. unfold translation. destruct (Nat.ltb_spec (nd * n + v) (nd * (last + 2))); [|nia].
  rewrite Nat.add_comm, Nat.mul_comm, Nat.mod_add, Nat.mod_small by lia. reflexivity.
Qed.
Lemma translation_node nd last c n v : (nd = 4 \/ nd = 6)%nat -> (v < nd / 2)%nat ->
  translation nd last c (node_start nd last n + v)%nat = if Nat.eqb v c then 1 else 0.
Proof.
  intros Hnd Hv. destruct (Nat.le_gt_cases n (last + 1)) as [H|H].
  - rewrite start_shaft by auto. apply translation_shaft; auto. assert (nd / 2 <= nd)%nat by (apply Nat.div_le_upper_bound; lia). lia.
  - unfold node_start. destruct (Nat.leb_spec n (last + 1)); [lia|]. unfold translation.
    match goal with |- context [(?a <? ?b)%nat] => destruct (Nat.ltb_spec a b) end; [lia|].
    replace (nd * (last + 2) + nd / 2 * (n - (last + 2)) + v - nd * (last + 2))%nat with (v + (n - (last + 2)) * (nd / 2))%nat by lia.
    rewrite Nat.mod_add, Nat.mod_small by (destruct Hnd as [-> | ->]; simpl in *; lia). reflexivity.
Qed.

Lemma tw_const L phi z : L <> 0 -> 1 + phi <> 0 -> tw L phi 1 0 1 0 z = 1 /\ tt L phi 1 0 1 0 z = 0.
Proof. intros. unfold tw, tt; cbv zeta. split; field; auto. Qed.
Lemma tw_0 L phi z : L <> 0 -> 1 + phi <> 0 -> tw L phi 0 0 0 0 z = 0 /\ tt L phi 0 0 0 0 z = 0.
Proof. intros. unfold tw, tt; cbv zeta. split; field; auto. Qed.

Lemma shaft_translate a s c (v : vec) : shaft_init a = Ok s -> good_args a -> (c = 0 \/ c = 1)%nat ->
  (forall i, (i < 8)%nat -> v i = if Nat.eqb (i mod 4) c then 1 else 0) -> bform 8 (shaft_M s) v v = s_m s.
Proof.
  intros Hi Hg Hc Hv. pose proof (shaft_positive _ _ Hi Hg) as Ps. pose proof (shaft_init_facts _ _ Hi) as F.
  rewrite (shaft_kinetic _ _ _ Hi Hg), (geometry_mass _ _ Hi Hg), <- (f_L _ _ F).
  assert (HL : s_L s <> 0) by (destruct Ps; lra). assert (HP : 1 + s_phi s <> 0) by (destruct Ps; lra).
  assert (E : forall z, ux (s_L s) (s_phi s) v z ^ 2 + uy (s_L s) (s_phi s) v z ^ 2 = 1 /\
     rx (s_L s) (s_phi s) v z ^ 2 + ry (s_L s) (s_phi s) v z ^ 2 = 0).
  { intros z. unfold ux, uy, rx, ry. rewrite !Hv by lia.
    destruct (tw_const (s_L s) (s_phi s) z HL HP) as [T1 T2]. destruct (tw_0 (s_L s) (s_phi s) z HL HP) as [T3 T4].
    destruct Hc as [-> | ->]; cbn -[pow Ropp]; rewrite ?Ropp_0, T1, T2, T3, T4; split; ring. }
  rewrite (RInt_ext _ (fun z => mrho (s_material s) * arg_area a z)) by (intros z _; rewrite (proj1 (E z)); req; ring).
  destruct (a_rotary_inertia a); [|apply Rplus_0_r].
  rewrite (RInt_ext (fun z => mrho (s_material s) * arg_inertia a z * _) (fun z => 0)) by (intros z _; rewrite (proj2 (E z)); req; ring).
  rewrite RInt_const. unfold scal; simpl; unfold mult; simpl. req; ring.
Qed.

Lemma bform_vext2 n A x y : (forall i, (i < n)%nat -> x i = y i) -> bform n A x x = bform n A y y.
Proof. intros H. unfold bform. apply sumn_ext. intros i Hi. rewrite (H i Hi). f_equal. apply sumn_ext. intros j Hj. rewrite (H j Hj). reflexivity. Qed.

Lemma shaft6_translate a s c (v : vec) : shaft_init a = Ok s -> good_args a -> (c = 0 \/ c = 1)%nat ->
  (forall i, (i < 12)%nat -> v i = if Nat.eqb (i mod 6) c then 1 else 0) -> bform 12 (shaft6_M s) v v = s_m s.
Proof.
  intros Hi Hg Hc Hv. rewrite shaft6_M_bform, (shaft_translate a s c (latv v) Hi Hg Hc).
  - rewrite !Hv by lia. destruct Hc as [-> | ->]; cbn; ring.
  - intros i Hi8. unfold latv. do 8 (destruct i as [|i]; [rewrite Hv by (cbv; lia); destruct Hc as [-> | ->]; reflexivity|]). lia.
Qed.
Lemma shaft6_axial a s (v : vec) : shaft_init a = Ok s -> cylindrical a ->
  (forall i, (i < 12)%nat -> v i = if Nat.eqb (i mod 6) 2 then 1 else 0) -> bform 12 (shaft6_M s) v v = s_m s.
Proof.
  intros Hi Hc Hv. rewrite <- (axial_mass_cyl a s Hi Hc). apply bform_vext2. intros i Hi'. rewrite (Hv i Hi'). unfold axial6.
  do 12 (destruct i as [|i]; [reflexivity|]). lia.
Qed.

(** *** coefficient block of a bearing *)
Definition half (b : rbrg) : nat := match b with RB4 _ _ => 2 | RB6 _ => 3 end%nat.
Lemma brg_block spl w f t b k A : mkind spl w f -> f (EBrg t b) = Ok (k, A) ->
  match b_n_link (brg_base b) with
  | None => k = half b
  | Some _ => k = (2 * half b)%nat /\ exists B, A = linked (half b) B
  end.
Proof.
  intros Hk Hf. pose proof (el_size_nat _ _ _ _ _ _ Hk Hf) as E. simpl in E. unfold brg_size in E.
  destruct (b_n_link (brg_base b)) as [m|] eqn:El; [|destruct b; exact E].
  split; [destruct b; exact E|].
  assert (Hb : forall M, (match b with RB4 _ b => exists xx xy yx yy, block2 spl b w xx xy yx yy = Ok M
                                | RB6 b => exists xx xy yx yy zz, block3 spl b w xx xy yx yy zz = Ok M end) -> exists B, M = linked (half b) B).
  { intros M. destruct b as [sl b|b]; simpl in El.
    - intros (xx & xy & yx & yy & H). apply block2_ok in H as (? & ? & ? & ? & _ & _ & _ & _ & ->). rewrite El. eexists; reflexivity.
    - intros (xx & xy & yx & yy & zz & H). apply block3_ok in H as (? & ? & ? & ? & ? & _ & _ & _ & _ & _ & ->). rewrite El. eexists; reflexivity. }
  destruct Hk; simpl in Hf.
  - apply sized_ok in Hf as [_ Hf]. apply Hb. destruct b; repeat eexists; exact Hf.
  - apply sized_ok in Hf as [_ Hf]. apply Hb. destruct b; repeat eexists; exact Hf.
  - apply sized_ok in Hf as [_ Hf]. apply Hb. destruct b; repeat eexists; exact Hf.
  - unfold bind in Hf. destruct (sized _ _) as [[]|]; [|discriminate]. injection Hf as _ <-. exists mzero.
    apply FunctionalExtensionality.functional_extensionality. intros i. apply FunctionalExtensionality.functional_extensionality. intros j.
    unfold linked, mzero. destruct (i <? half b)%nat, (j <? half b)%nat; try reflexivity; ring.
Qed.

Lemma unit_bform n A c (x : vec) : (c < n)%nat -> (forall i, (i < n)%nat -> x i = if Nat.eqb i c then 1 else 0) -> bform n A x x = A c c.
Proof.
  intros Hc Hx. unfold bform. rewrite (sumn_single _ _ c Hc).
  - rewrite (sumn_single _ _ c Hc).
    + rewrite (Hx c Hc), Nat.eqb_refl. ring.
    + intros k Hk Hne. rewrite (Hx k Hk). destruct (Nat.eqb_spec k c); [congruence|ring].
  - intros k Hk Hne. rewrite (Hx k Hk). destruct (Nat.eqb_spec k c); [congruence|ring].
Qed.

Lemma el_translate spl w r e c : rfacts r -> pm_matches r -> In e (r_elements r) -> is_ok (el_M spl w e) ->
  (forall e, In e (r_disk r) -> (el_n e <= r_n_last r + 1)%nat) ->
  (c = 0 \/ c = 1 \/ c = 2 /\ r_nd r = 6 /\ (forall e, In e (r_shaft r) -> cylinder e))%nat -> good_shaft e ->
  let x := gather (acts_on (r_nd r) (r_n_last r) e) (translation (r_nd r) (r_n_last r) c) in
  bform (el_size (el_M spl w) e) (el_mat (el_M spl w) e) x x = moved_mass (el_M spl w) c e.
Proof.
  intros F Hp He [[k A] Hok] Hdk Hc Hg x. pose proof (rf_nd _ F) as Hnd. pose proof (rf_fam _ F _ He) as Hf.
  assert (Hc2 : (c < r_nd r / 2)%nat).
  { destruct Hc as [-> | [-> | (-> & H6 & _)]]; [destruct Hnd as [-> | ->]; simpl; lia|destruct Hnd as [-> | ->]; simpl; lia|rewrite H6; simpl; lia]. }
  destruct e as [six n t s|six t d|t b|six t p].
  - pose proof (rf_shaft_n _ _ _ _ _ F He) as Hn. simpl in Hf. unfold fam in Hf.
    assert (Hx : forall i, (i < 2 * r_nd r)%nat -> x i = if Nat.eqb (i mod r_nd r) c then 1 else 0).
    { intros i Hi. unfold x. rewrite gather_shaft by auto. destruct (Nat.lt_ge_cases i (r_nd r)).
      - rewrite translation_shaft by lia. rewrite Nat.mod_small by auto. reflexivity.
      - replace (r_nd r * n + i)%nat with (r_nd r * (S n) + (i - r_nd r))%nat by lia. rewrite translation_shaft by lia.
        replace (i mod r_nd r)%nat with (i - r_nd r)%nat; [reflexivity|].
        replace i with ((i - r_nd r) + 1 * r_nd r)%nat at 2 by lia. rewrite Nat.mod_add, Nat.mod_small by lia. reflexivity. }
    destruct Hg as (a & Hi & Ha). simpl moved_mass. unfold el_size, el_mat.
    rewrite Hf in Hx. destruct six; simpl el_M; cbn [fst snd]; simpl Nat.mul in Hx.
    + destruct Hc as [Hc|[Hc|(Hc & H6 & Hcy)]].
      * apply (shaft6_translate a s c x Hi Ha); auto.
      * apply (shaft6_translate a s c x Hi Ha); auto.
      * assert (Hs : In (EShaft true n t s) (r_shaft r)).
        { unfold r_elements in He. rewrite !in_app_iff in He. destruct He as [He|[He|[He|He]]]; [exact He| | |].
          - destruct (rf_disk _ F _ He) as (? & ? & ? & ?); discriminate.
          - destruct (rf_brg _ F _ He) as (? & ? & ?); discriminate.
          - destruct (rf_pm _ F _ He) as (? & ? & ? & ?); discriminate. }
        destruct (Hcy _ Hs) as (a' & Hi' & Hcc). subst c. apply (shaft6_axial a' s x); auto.
    + destruct Hc as [Hc|[Hc|(_ & H6 & _)]]; [| |congruence]; apply (shaft_translate a s c x Hi Ha); auto.
  - assert (Hn : (d_n d <= r_n_last r + 1)%nat) by (apply (Hdk (EDisk six t d)), rf_disk_in; auto).
    assert (Hx : forall i, (i < r_nd r)%nat -> x i = if Nat.eqb i c then 1 else 0).
    { intros i Hi. unfold x. rewrite gather_disk by auto. apply translation_shaft; auto. }
    simpl moved_mass. simpl in Hf. unfold fam in Hf. unfold el_size, el_mat. rewrite Hf in Hx.
    destruct six; simpl el_M; cbn [fst snd]; [rewrite disk6_M_form|rewrite disk_M_form]; rewrite !Hx by lia;
    (destruct Hc as [-> | [-> | (-> & H6 & _)]]; [cbn; ring|cbn; ring|]); [cbn; ring|congruence].
  - pose proof (brg_block spl w _ t b k A (is_M spl w) Hok) as Hb.
    assert (Hh : half b = (r_nd r / 2)%nat) by (destruct b; simpl in Hf; unfold fam in Hf; rewrite Hf; reflexivity).
    simpl moved_mass. unfold el_size, el_mat in *. rewrite Hok. cbn [fst snd].
    destruct (b_n_link (brg_base b)) as [m|] eqn:El.
    + destruct Hb as [-> [B ->]]. rewrite linked_bform. unfold bform. apply sumn_0. intros i Hi.
      replace (x i - x (half b + i)%nat) with 0; [ring|].
      unfold x. rewrite Hh in *. rewrite gather_brg, (gather_brg2 _ _ _ _ _ _ m) by auto. rewrite !translation_node by auto. ring.
    + subst k. apply unit_bform; [lia|]. intros i Hi. unfold x. rewrite gather_brg by lia. apply translation_node; auto. lia.
  - assert (Hf2 := Hp _ _ _ (rf_pm_in _ _ _ _ F He)).
    assert (Hx : forall i, (i < r_nd r / 2)%nat -> x i = if Nat.eqb i c then 1 else 0).
    { intros i Hi. unfold x. rewrite gather_pm by auto. apply translation_node; auto. }
    simpl moved_mass. unfold el_size, el_mat. rewrite Hf2 in Hx.
    destruct six; simpl el_M; cbn [fst snd]; simpl Nat.div in Hx; [rewrite pmass6_M_form|rewrite pmass_M_form]; rewrite !Hx by lia;
    (destruct Hc as [-> | [-> | (-> & H6 & _)]]; [cbn; ring|cbn; ring|]); [cbn; ring|congruence].
Qed.

Lemma group_max_length ns : forall a ps, length ps = S (length ns) -> steps a ns ->
  length (group_max (combine (a :: ns) ps)) = S (last ns a - a) /\ (a <= last ns a)%nat.
Proof.
  induction ns as [|b ns IH]; intros a ps Hl Hs.
  - destruct ps as [|p [|? ?]]; try discriminate. simpl. rewrite Nat.sub_diag. auto.
  - destruct ps as [|p [|q ps]]; try discriminate. destruct Hs as [Hb Hs].
    destruct (IH b (q :: ps) ltac:(simpl in *; lia) Hs) as [IH1 IH2]. rewrite last_default. split; [|destruct Hb; lia].
    change (combine (a :: b :: ns) (p :: q :: ps)) with ((a, p) :: (b, q) :: combine ns ps).
    change (combine (b :: ns) (q :: ps)) with ((b, q) :: combine ns ps) in IH1.
    rewrite group_max_cons2. destruct (Nat.eqb_spec a b) as [->|Hne].
    + destruct (group_max ((b, q) :: combine ns ps)) as [|g g']; simpl in *; lia.
    + destruct Hb as [Hb|Hb]; [congruence|]. subst b. cbn [length]. rewrite IH1. lia.
Qed.
Lemma shaft_pos_from_length sh prev a b : length (shaft_pos_from prev a b sh) = length sh.
Proof. revert prev a b. induction sh; intros; simpl; auto. Qed.
Lemma nodes_pos_length r : rfacts r -> (forall k, (k <= r_n_last r)%nat -> exists e, In e (r_shaft r) /\ el_n e = k) ->
  length (r_nodes_pos r) = (r_n_last r + 2)%nat.
Proof.
  intros F Hc. rewrite (rf_pos _ F). pose proof (rf_sorted _ F) as Hs. pose proof (rf_last _ F) as Hm. pose proof (rf_nonempty _ F) as Hne.
  set (m := r_n_last r) in *. clearbody m. destruct (r_shaft r) as [|e0 sh]; [congruence|].
  assert (HsN := sorted_map _ Hs). simpl in HsN.
  assert (E0 : el_n e0 = 0%nat).
  { destruct (Hc 0%nat) as (e & He & E); [lia|]. destruct He as [->|He]; [exact E|].
    inversion HsN as [|? ? _ HF]; subst. rewrite Forall_forall in HF. specialize (HF (el_n e) (in_map _ _ _ He)). lia. }
  assert (Hst : steps 0 (map el_n sh)).
  { rewrite E0 in HsN. apply (steps_of_cover 0 _ m); [exact HsN| |].
    - intros k Hk. destruct (Hc k) as (e & [->|He] & E); [lia|left; lia|]. right. rewrite <- E. apply in_map. exact He.
    - intros k Hk. rewrite Hm. apply max_list_ge. simpl. rewrite E0. exact Hk. }
  unfold nodes_pos. rewrite app_length. simpl length at 2.
  assert (Hlen : length (map fst (MRotor.shaft_pos (e0 :: sh))) = S (length (map el_n sh))).
  { rewrite !map_length. simpl. rewrite shaft_pos_from_length. reflexivity. }
  cbn [map]. rewrite E0. destruct (group_max_length (map el_n sh) 0 _ Hlen Hst) as [E _]. rewrite E.
  rewrite E0 in HsN. rewrite (last_max 0 _ HsN). rewrite Hm. simpl. rewrite E0. lia.
Qed.
Lemma disk_node_bound r : rfacts r -> regular r -> forall e, In e (r_disk r) -> (el_n e <= r_n_last r + 1)%nat.
Proof.
  intros F G e He. destruct (rf_dpos _ F) as (dpos & Hd & _).
  pose proof (nodes_pos_length r F (reg_shaft _ G)) as E. rewrite (rf_pos _ F) in E.
  revert dpos Hd. induction (r_disk r) as [|d dk IH]; intros dpos Hd; [destruct He|].
  simpl in Hd. destruct (nth_error _ (el_n d)) as [p|] eqn:En; [|discriminate].
  destruct (disk_positions _ dk) as [l|] eqn:El; [|discriminate].
  destruct He as [->|He]; [|eapply IH; eauto].
  assert (el_n e < length (nodes_pos (r_shaft r)))%nat by (apply nth_error_Some; congruence). lia.
Qed.

Lemma rotor_total_mass spl freq r A c : rfacts r -> regular r ->
  (forall e, In e (r_shaft r) -> good_shaft e) ->
  (c = 0 \/ c = 1 \/ c = 2 /\ r_nd r = 6 /\ (forall e, In e (r_shaft r) -> cylinder e))%nat ->
  rotor_M spl r freq = Ok A ->
  let x := translation (r_nd r) (r_n_last r) c in
  bform (r_ndof r) A x x = r_m r + suml (map (moved_mass (el_M spl (default 0 freq)) c) (r_brg r ++ r_pm r)).
Proof.
  intros F G Hg Hc HA x. unfold rotor_M in HA. set (w := default 0 freq) in *.
  rewrite (assembled_form spl w _ _ _ _ x x F (reg_pm_dof _ G) (is_M spl w) (incl_refl _) HA).
  rewrite (suml_map_ext _ (moved_mass (el_M spl w) c)).
  - unfold r_elements. rewrite !map_app, !suml_app, (rf_mass _ F).
    rewrite (suml_map_ext (moved_mass (el_M spl w) c) sh_m (r_shaft r)), (suml_map_ext (moved_mass (el_M spl w) c) dk_m (r_disk r)); [ring| |].
    + intros e He. destruct (rf_disk _ F _ He) as (? & ? & ? & ->). reflexivity.
    + intros e He. destruct (rf_shaft _ F _ He) as (? & ? & ? & ? & ->). reflexivity.
  - intros e He. apply el_translate; auto.
    + apply G.
    + destruct (assemble_ok _ _ _ _ _ _ HA) as [H1 _]. destruct (H1 e He) as (k & M & Hf & _). exists (k, M). exact Hf.
    + apply disk_node_bound; auto.
    + destruct e as [six n t s| | |]; try exact I.
      apply Hg. unfold r_elements in He. rewrite !in_app_iff in He. destruct He as [He|[He|[He|He]]]; [exact He| | |].
      * destruct (rf_disk _ F _ He) as (? & ? & ? & ?); discriminate.
      * destruct (rf_brg _ F _ He) as (? & ? & ?); discriminate.
      * destruct (rf_pm _ F _ He) as (? & ? & ? & ?); discriminate.
Qed.
