(** Lemmas for C74 and C75. *)
From Coq Require Import Reals String List Arith Bool ZArith Lia Lra Permutation Sorted.
From Coquelicot Require Import Complex.
From Verif Require Import PyBase MatBase SpecMat LMat CMat LCMat MMaterial MShaft MDisk MBearing MRotor SpecRotor LAssembly LRotor LRotor2 LRotor3 LRotor4 LRotor5 LRotor6 MDynamics SpecDynamics MResults MModal SpecModal LModal MSave SpecSave LSave LSave2 LSave3 LSave4 LResponse LStoch MUcs SpecUcs.
Import ListNotations.
Open Scope list_scope.
Open Scope R_scope.

(** ** elements that carry their names *)
Definition Fn (e : elem) : elem :=
  match e with
  | EShaft six n t s => EShaft six n t (shaft_with s n t)
  | EDisk six t d => EDisk six t (mkDisk (d_n d) (d_m d) (d_Id d) (d_Ip d) (Some t))
  | EBrg t (RB4 sl b) => EBrg t (RB4 sl (bearing_with b t))
  | EBrg t (RB6 b) => EBrg t (RB6 (mkBearing6 (bearing_with (b6 b) t) (b6_kzz b) (b6_czz b) (b6_mzz b)))
  | EPm six t p => EPm six t (mkPMass (p_n p) (p_mx p) (p_my p) (p_mz p) (Some t))
  end.
Lemma Fn_keeps : keeps Fn.
Proof. constructor; [constructor|..]; intros; destruct e as [[]| |? [[]|]|]; reflexivity. Qed.
Lemma Fn_acts nd last e : acts_on nd last (Fn e) = acts_on nd last e.
Proof. destruct e as [[]| |? [[]|]|]; reflexivity. Qed.

Section Rebuilt.
Variables (sh : list oshaft) (dk : list odisk) (br : list obrg) (pm : list opm) (mn mx rt : option R) (tag : option string) (ro : robj).
Hypothesis Hro : robj_init sh dk br pm mn mx rt tag = Ok ro.

Lemma ro_init : rotor_init (map to_rshaft sh) (map to_rdisk dk) (map to_rbrg br) (map to_rpm pm) = Ok (ro_val ro) /\
  ro_sh ro = sort_by os_n (mapi name_shaft 0 sh) /\ ro_dk ro = mapi name_disk 0 dk /\ ro_br ro = sort_by ob_n (mapi name_brg 0 br).
Proof. revert Hro. unfold robj_init. destruct (rotor_init _ _ _ _) as [v|]; [|discriminate]. cbn [bind]. intros [= <-]. auto. Qed.
Lemma named_shafts : sort_n (mapi mk_shaft 0 (map to_rshaft (ro_sh ro))) = map Fn (r_shaft (ro_val ro)).
Proof.
  destruct ro_init as (I & E & _). destruct (rotor_init_lists _ _ _ _ _ I) as (L & _). rewrite L, E.
  rewrite <- (sort_f Fn Fn_keeps). rewrite (mapi_pre to_rshaft mk_shaft sh), mapi_comp.
  rewrite (mapi_ext (fun i x => Fn (mk_shaft i (to_rshaft x))) (fun i x => (fun y => mk_shaft 0 (to_rshaft y)) (name_shaft i x))) by reflexivity.
  rewrite <- (mapi_comp name_shaft (fun y => mk_shaft 0 (to_rshaft y))).
  assert (K : forall x, In x (mapi name_shaft 0 sh) -> el_n (mk_shaft 0 (to_rshaft x)) = os_n x) by (intros x Hx; apply mapi_in in Hx as (i & y & _ & ->); reflexivity).
  rewrite (sort_n_map os_n _ _ K). rewrite (mapi_pre to_rshaft). rewrite (mapi_same _ (fun y => mk_shaft 0 (to_rshaft y))).
  - rewrite (sort_n_map os_n). + rewrite sort_by_id by apply sort_by_sorted. reflexivity. + intros x Hx. apply K. apply (proj1 (sort_by_in _ _ _)) in Hx. exact Hx.
  - intros i x Hx. apply (proj1 (sort_by_in _ _ _)) in Hx. apply mapi_in in Hx as (k & y & _ & ->). reflexivity.
Qed.
Lemma named_disks : mapi mk_disk 0 (map to_rdisk (ro_dk ro)) = map Fn (r_disk (ro_val ro)).
Proof.
  destruct ro_init as (I & _ & E & _). destruct (rotor_init_lists _ _ _ _ _ I) as (_ & L & _). rewrite L, E, !mapi_pre, mapi_comp.
  generalize 0%nat. clear. induction dk as [|o dk' IH]; intros i; [reflexivity|]. cbn [mapi]. rewrite IH. reflexivity.
Qed.
Lemma brg_named_n j i o : mk_brg j (to_rbrg (name_brg i o)) = Fn (mk_brg i (to_rbrg o)).
Proof. destruct o; reflexivity. Qed.
Lemma named_brgs i : mapi mk_brg i (map to_rbrg (ro_br ro)) = map Fn (r_brg (ro_val ro)).
Proof.
  destruct ro_init as (I & _ & _ & E). destruct (rotor_init_lists _ _ _ _ _ I) as (_ & _ & L & _). rewrite L, E.
  set (e := fun y => mk_brg 0 (to_rbrg y)).
  rewrite <- (sort_f Fn Fn_keeps). rewrite (mapi_pre to_rbrg mk_brg br), mapi_comp.
  rewrite (mapi_ext (fun i x => Fn (mk_brg i (to_rbrg x))) (fun i x => e (name_brg i x))) by (intros j x; symmetry; apply brg_named_n).
  rewrite <- (mapi_comp name_brg e). rewrite (sort_n_map ob_n e) by (intros [] _; reflexivity). rewrite (mapi_pre to_rbrg). rewrite (mapi_same _ e); [reflexivity|].
  intros j x Hx. apply (proj1 (sort_by_in _ _ _)) in Hx. apply mapi_in in Hx as (k & y & _ & ->). unfold e. rewrite !brg_named_n. reflexivity.
Qed.
Lemma brg_nodes : map el_n (r_brg (ro_val ro)) = map ob_n (ro_br ro).
Proof.
  rewrite <- (map_f Fn el_n) by apply Fn_keeps. rewrite <- (named_brgs 0). rewrite mapi_pre, mapi_comp. rewrite (mapi_same _ ob_n); [reflexivity|]. intros i x _. destruct x; reflexivity.
Qed.

Section Again.
Variables (brs : list obrg) (u : robj).
Hypothesis Hu : robj_init (ro_sh ro) (ro_dk ro) brs [] None None None None = Ok u.
Lemma again_lists : r_shaft (ro_val u) = map Fn (r_shaft (ro_val ro)) /\ r_disk (ro_val u) = map Fn (r_disk (ro_val ro)) /\
  r_brg (ro_val u) = sort_n (mapi mk_brg 0 (map to_rbrg brs)) /\ r_pm (ro_val u) = [].
Proof.
  revert Hu. unfold robj_init. destruct (rotor_init _ _ _ _) as [v|] eqn:I; [|discriminate]. cbn [bind]. intros [= <-]. cbn [ro_val].
  destruct (rotor_init_lists _ _ _ _ _ I) as (-> & -> & -> & ->). rewrite named_shafts, named_disks. auto.
Qed.
Lemma rfacts_ro : rfacts (ro_val ro).
Proof. destruct ro_init as (I & _). exact (rotor_facts _ _ _ _ _ I). Qed.
Lemma rfacts_u : rfacts (ro_val u).
Proof. revert Hu. unfold robj_init. destruct (rotor_init _ _ _ _) as [v|] eqn:I; [|discriminate]. cbn [bind]. intros [= <-]. exact (rotor_facts _ _ _ _ _ I). Qed.
Lemma again_sizes : r_nd (ro_val u) = r_nd (ro_val ro) /\ r_n_last (ro_val u) = r_n_last (ro_val ro) /\ r_ndof (ro_val u) = (r_nd (ro_val ro) * (r_n_last (ro_val ro) + 2))%nat.
Proof.
  pose proof rfacts_ro as F. pose proof rfacts_u as Fu. destruct again_lists as (L1 & _ & _ & L4).
  assert (E1 : r_nd (ro_val u) = r_nd (ro_val ro)).
  { pose proof (rf_nonempty _ F) as Hne. destruct (r_shaft (ro_val ro)) as [|e l] eqn:E; [congruence|].
    assert (H1 : In e (r_elements (ro_val ro))) by (apply in_shaft_elements; rewrite E; left; reflexivity).
    assert (H2 : In (Fn e) (r_elements (ro_val u))) by (apply in_shaft_elements; rewrite L1; left; reflexivity).
    apply (rf_fam _ F) in H1. apply (rf_fam _ Fu) in H2.
    destruct (rf_shaft _ F e ltac:(rewrite E; left; reflexivity)) as (six & n & t & s & ->). cbn [Fn el_fam] in *. unfold fam in *. congruence. }
  assert (E2 : r_n_last (ro_val u) = r_n_last (ro_val ro)).
  { rewrite (rf_last _ F), (rf_last _ Fu), L1. rewrite (map_f Fn el_n) by apply Fn_keeps. reflexivity. }
  repeat split; auto. rewrite (rf_ndof _ Fu), L4, E1, E2. cbn [List.length]. lia.
Qed.
Lemma again_bound e : In e (r_brg (ro_val u)) -> (el_n e <= r_n_last (ro_val ro) + 1)%nat.
Proof.
  intros He. pose proof rfacts_u as Fu. pose proof rfacts_ro as F. destruct again_lists as (_ & _ & _ & L4). destruct again_sizes as (_ & E2 & _).
  pose proof (rf_loc _ Fu) as Hl. unfold location_ok in Hl. apply Nat.leb_le in Hl. rewrite L4 in Hl. cbn [map max_list fold_right] in Hl.
  assert (H1 : (el_n e <= max_list (map el_n (r_shaft (ro_val u) ++ r_disk (ro_val u) ++ r_brg (ro_val u))))%nat).
  { apply max_list_ge. apply in_map. rewrite !in_app_iff. auto. }
  assert (H2 : (max_list (map (fun e => S (el_n e)) (r_shaft (ro_val u))) <= S (r_n_last (ro_val u)))%nat).
  { apply max_list_le. intros x Hx. apply in_map_iff in Hx as (e' & <- & He'). rewrite (rf_last _ Fu). apply le_n_S. apply max_list_ge. apply in_map. exact He'. }
  change (max_list []) with 0%nat in Hl. lia.
Qed.
Lemma frame_u f : (forall e, f (Fn e) = f e) -> forall i j,
  suml (map (fun e => contribution (acts_on (r_nd (ro_val u)) (r_n_last (ro_val u)) e) (el_size f e) (el_mat f e) i j) (r_shaft (ro_val u) ++ r_disk (ro_val u))) = frame f (ro_val ro) i j.
Proof.
  intros Hf i j. destruct again_lists as (-> & -> & _ & _). destruct again_sizes as (-> & -> & _). rewrite <- map_app, map_map. unfold frame.
  apply suml_map_ext. intros e _. unfold el_size, el_mat. rewrite Hf, Fn_acts. reflexivity.
Qed.
Lemma again_entries spl w f A : mkind spl w f -> (forall e, f (Fn e) = f e) ->
  assemble (r_ndof (ro_val u)) (r_dofs (ro_val u)) f (r_elements (ro_val u)) mzero = Ok A -> forall i j,
  A i j = frame f (ro_val ro) i j + suml (map (fun e => contribution (acts_on (r_nd (ro_val ro)) (r_n_last (ro_val ro)) e) (el_size f e) (el_mat f e) i j) (mapi mk_brg 0 (map to_rbrg brs))).
Proof.
  intros Hk Hf HA i j. destruct again_lists as (_ & _ & L3 & L4). destruct again_sizes as (E1 & E2 & _).
  assert (Hp : pm_matches (ro_val u)) by (intros six t p Hp; rewrite L4 in Hp; destruct Hp).
  rewrite (assembled_entries spl w f (ro_val u) _ A rfacts_u Hp Hk (incl_refl _) HA).
  unfold r_elements. rewrite L4, app_nil_r, app_assoc, map_app, suml_app, frame_u by exact Hf. f_equal. rewrite L3, E1, E2. apply suml_perm. apply Permutation_map. apply sort_n_perm.
Qed.
End Again.
End Rebuilt.

(** ** springs and cross couplings *)
Definition springb (n : nat) (k a b : R) : bearing :=
  mkBearing n None None "#355d7a" 1 None (fun c => let v := match c with kxx | kyy => k | kxy => a | kyx => b | _ => 0 end in ([v], IConst v)).
Lemma init_spring n k a b : exists s, bearing_init (spring_args n k a b) = Ok s /\ b_n s = n /\ b_n_link s = None /\ b_tag s = None /\ b_frequency s = None /\
  forall spl c w, eval_coef spl s c w = Ok (match c with kxx | kyy => k | kxy => a | kyx => b | _ => 0 end).
Proof. eexists. split; [reflexivity|]. repeat split; auto. intros spl c w. destruct c; reflexivity. Qed.
Lemma seal_spring n k a b : exists s, seal_init (spring_args n k a b) None = Ok s /\ b_n (sl_bearing s) = n /\ b_n_link (sl_bearing s) = None /\ b_tag (sl_bearing s) = None /\
  forall spl c w, eval_coef spl (sl_bearing s) c w = Ok (match c with kxx | kyy => k | kxy => a | kyx => b | _ => 0 end).
Proof. eexists. split; [reflexivity|]. repeat split; auto. intros spl c w. destruct c; reflexivity. Qed.
(** an element of a bearing without link whose coefficients are known *)
Definition plain_brg (t : string) (sl : bool) (s : bearing) (n : nat) (k a b : R) : Prop := b_n s = n /\ b_n_link s = None /\
  forall spl c w, eval_coef spl s c w = Ok (match c with kxx | kyy => k | kxy => a | kyx => b | _ => 0 end).
Lemma plain_K t sl s n k a b : plain_brg t sl s n k a b -> forall spl w, el_K spl w (EBrg t (RB4 sl s)) = Ok (2%nat, lmat [[k; a]; [b; k]]).
Proof. intros (_ & L & E) spl w. cbn [el_K brg_size]. unfold bearing_K, block2. rewrite !E. cbn [bind]. unfold brg_size, bearing_size. cbn [brg_base]. rewrite L. reflexivity. Qed.
Lemma plain_C t sl s n k a b : plain_brg t sl s n k a b -> forall spl w, el_C spl w (EBrg t (RB4 sl s)) = Ok (2%nat, lmat [[0; 0]; [0; 0]]).
Proof. intros (_ & L & E) spl w. cbn [el_C brg_size]. unfold bearing_C, block2. rewrite !E. cbn [bind]. unfold brg_size, bearing_size. cbn [brg_base]. rewrite L. reflexivity. Qed.
Lemma plain_M t sl s n k a b : plain_brg t sl s n k a b -> forall spl w, el_M spl w (EBrg t (RB4 sl s)) = Ok (2%nat, lmat [[0; 0]; [0; 0]]).
Proof. intros (_ & L & E) spl w. cbn [el_M brg_size]. unfold bearing_M, block2. rewrite !E. cbn [bind]. unfold brg_size, bearing_size. cbn [brg_base]. rewrite L. reflexivity. Qed.
Lemma plain_G t sl s n k a b : plain_brg t sl s n k a b -> forall spl, el_G spl (EBrg t (RB4 sl s)) = Ok (2%nat, mzero).
Proof. intros P spl. cbn [el_G]. rewrite (plain_K _ _ _ _ _ _ _ P). reflexivity. Qed.
Lemma plain_acts t sl s n k a b last : plain_brg t sl s n k a b -> (n <= last + 1)%nat -> acts_on 4 last (EBrg t (RB4 sl s)) = [4 * n; 4 * n + 1]%nat.
Proof.
  intros (N & L & _) B. unfold acts_on. cbn [brg_base]. rewrite N, L, app_nil_r. unfold node_start. destruct (Nat.leb_spec n (last + 1)); [|lia].
  change (4 / 2)%nat with 2%nat. cbn [seq]. f_equal. f_equal. lia.
Qed.
Lemma contribution2 n M i j : contribution [4 * n; 4 * n + 1]%nat 2 M i j =
  (if (Nat.eqb i (4 * n) && Nat.eqb j (4 * n))%bool then M 0%nat 0%nat else 0) + (if (Nat.eqb i (4 * n) && Nat.eqb j (4 * n + 1))%bool then M 0%nat 1%nat else 0) +
  (if (Nat.eqb i (4 * n + 1) && Nat.eqb j (4 * n))%bool then M 1%nat 0%nat else 0) + (if (Nat.eqb i (4 * n + 1) && Nat.eqb j (4 * n + 1))%bool then M 1%nat 1%nat else 0).
Proof.
  unfold contribution. cbn [sumn nth]. rewrite !(Nat.eqb_sym (4 * n)), !(Nat.eqb_sym (4 * n + 1)). lra.
Qed.
Lemma contribution_zero l k M i j : (forall a b, (a < k)%nat -> (b < k)%nat -> M a b = 0) -> contribution l k M i j = 0.
Proof.
  intros H. unfold contribution. apply sumn_0. intros a Ha. apply sumn_0. intros b Hb. rewrite H by auto. destruct (_ && _)%bool; reflexivity.
Qed.
Lemma suml_all_zero {A} (f : A -> R) l : (forall x, In x l -> f x = 0) -> suml (map f l) = 0.
Proof. intros H. induction l as [|x l IH]; [reflexivity|]. cbn [map suml fold_right]. change (f x + suml (map f l) = 0). rewrite IH, H; simpl; auto. lra. intros; apply H; simpl; auto. Qed.

Section Ucs.
Variables (sh : list oshaft) (dk : list odisk) (br : list obrg) (pm : list opm) (mn mx rt : option R) (tag : option string) (ro : robj).
Hypothesis Hro : robj_init sh dk br pm mn mx rt tag = Ok ro.
Lemma mapM_springs k l brs : mapM (fun o => spring (ob_n o) k) l = Ok brs ->
  Forall2 (fun o b => exists s, b = OBearing s /\ b_n s = ob_n o /\ b_tag s = None /\ forall t sl, plain_brg t sl s (ob_n o) k 0 0) l brs.
Proof.
  intros H. apply mapM_F2 in H. induction H as [|o b l brs H1 H2 IH]; constructor; [|exact IH]. revert H1. unfold spring.
  destruct (init_spring (ob_n o) k 0 0) as (s & -> & N & L & T & _ & E). cbn [bind]. intros [= <-]. exists s. repeat split; auto.
Qed.
Lemma ucs_rotor_ok k u : ucs_rotor ro k = Ok u -> exists brs, mapM (fun o => spring (ob_n o) k) (ucs_bearings ro) = Ok brs /\ robj_init (ro_sh ro) (ro_dk ro) brs [] None None None None = Ok u.
Proof. unfold ucs_rotor. destruct (mapM _ _) as [brs|] eqn:E; [|discriminate]. cbn [bind]. eauto. Qed.
Lemma sprung_sum k u brs f : r_nd (ro_val ro) = 4%nat -> mapM (fun o => spring (ob_n o) k) (ucs_bearings ro) = Ok brs -> robj_init (ro_sh ro) (ro_dk ro) brs [] None None None None = Ok u ->
  forall (g : nat -> nat -> nat -> R), (forall t s n i j, plain_brg t false s n k 0 0 -> contribution [4 * n; 4 * n + 1]%nat (el_size f (EBrg t (RB4 false s))) (el_mat f (EBrg t (RB4 false s))) i j = g n i j) ->
  forall i j, suml (map (fun e => contribution (acts_on (r_nd (ro_val ro)) (r_n_last (ro_val ro)) e) (el_size f e) (el_mat f e) i j) (mapi mk_brg 0 (map to_rbrg brs))) =
    suml (map (fun n => g n i j) (bearing_nodes ro)).
Proof.
  intros Hnd Hb Hu g Hg i j. apply mapM_springs in Hb.
  assert (B : forall e, In e (mapi mk_brg 0 (map to_rbrg brs)) -> (el_n e <= r_n_last (ro_val ro) + 1)%nat).
  { intros e He. apply (again_bound _ _ _ _ _ _ _ _ _ Hro _ _ Hu). destruct (again_lists _ _ _ _ _ _ _ _ _ Hro _ _ Hu) as (_ & _ & -> & _).
    apply (Permutation_in _ (Permutation_sym (sort_n_perm _))). exact He. }
  rewrite Hnd. unfold bearing_nodes. fold (ucs_bearings ro). clear Hu.
  enough (G : forall z, (forall e, In e (mapi mk_brg z (map to_rbrg brs)) -> (el_n e <= r_n_last (ro_val ro) + 1)%nat) ->
    suml (map (fun e => contribution (acts_on 4 (r_n_last (ro_val ro)) e) (el_size f e) (el_mat f e) i j) (mapi mk_brg z (map to_rbrg brs))) =
    suml (map (fun n => g n i j) (map ob_n (ucs_bearings ro)))) by (exact (G 0%nat B)).
  clear B. induction Hb as [|o b l brs (s & -> & N & T & P) H2 IH]; intros z B; [reflexivity|].
  cbn [map mapi suml fold_right]. change (mapi mk_brg (S z) (map to_rbrg brs)) with (mapi mk_brg (S z) (map to_rbrg brs)).
  assert (E := P (default_tag "Bearing " z (b_tag s)) false). f_equal.
  - change (mk_brg z (to_rbrg (OBearing s))) with (EBrg (default_tag "Bearing " z (b_tag s)) (RB4 false s)). rewrite (plain_acts _ _ _ _ _ _ _ _ E). + apply Hg. exact E.
    + assert (Bz := B (mk_brg z (to_rbrg (OBearing s))) (or_introl eq_refl)). cbn [el_n mk_brg to_rbrg brg_of brg_base] in Bz. lia.
  - apply IH. intros e He. apply B. right. exact He.
Qed.
Lemma sprung_K spl w k u K : r_nd (ro_val ro) = 4%nat -> ucs_rotor ro k = Ok u -> rotor_K spl (ro_val u) w [] = Ok K ->
  forall i j, K i j = frame (el_K spl w) (ro_val ro) i j + ground_springs k (bearing_nodes ro) i j.
Proof.
  intros Hnd Hk HK i j. destruct (ucs_rotor_ok _ _ Hk) as (brs & Hb & Hu). unfold rotor_K in HK. rewrite kept_nil in HK.
  rewrite (again_entries _ _ _ _ _ _ _ _ _ Hro _ _ Hu spl w _ _ (is_K spl w) (kp_K _ Fn_keeps spl w) HK). f_equal.
  apply (sprung_sum k u brs _ Hnd Hb Hu (fun n i j => if (Nat.eqb i j && (Nat.eqb i (4 * n) || Nat.eqb i (4 * n + 1)))%bool then k else 0)).
  intros t s n i0 j0 P. unfold el_size, el_mat. rewrite (plain_K _ _ _ _ _ _ _ P). cbn [fst snd]. rewrite contribution2. cbn [lmat nth].
  destruct (Nat.eqb_spec i0 (4 * n)), (Nat.eqb_spec i0 (4 * n + 1)), (Nat.eqb_spec j0 (4 * n)), (Nat.eqb_spec j0 (4 * n + 1)), (Nat.eqb_spec i0 j0); cbn [andb orb]; try lia; unfold lmat; cbn [nth]; lra.
Qed.
Lemma sprung_zero spl w k u f A : r_nd (ro_val ro) = 4%nat -> ucs_rotor ro k = Ok u -> mkind spl w f -> (forall e, f (Fn e) = f e) ->
  (forall t s n, plain_brg t false s n k 0 0 -> exists Z, f (EBrg t (RB4 false s)) = Ok (2%nat, Z) /\ forall a b, (a < 2)%nat -> (b < 2)%nat -> Z a b = 0) ->
  assemble (r_ndof (ro_val u)) (r_dofs (ro_val u)) f (r_elements (ro_val u)) mzero = Ok A -> forall i j, A i j = frame f (ro_val ro) i j.
Proof.
  intros Hnd Hk Hf Hn Hz HA i j. destruct (ucs_rotor_ok _ _ Hk) as (brs & Hb & Hu).
  rewrite (again_entries _ _ _ _ _ _ _ _ _ Hro _ _ Hu spl w _ _ Hf Hn HA). rewrite (sprung_sum k u brs f Hnd Hb Hu (fun _ _ _ => 0)).
  - rewrite suml_all_zero by auto. lra.
  - intros t s n i0 j0 P. destruct (Hz _ _ _ P) as (Z & E & EZ). unfold el_size, el_mat. rewrite E. cbn [fst snd]. apply contribution_zero. exact EZ.
Qed.
End Ucs.

Section Level1.
Variables (sh : list oshaft) (dk : list odisk) (br : list obrg) (pm : list opm) (mn mx rt : option R) (tag : option string) (ro : robj).
Hypothesis Hro : robj_init sh dk br pm mn mx rt tag = Ok ro.
Lemma level1_ok n Q u : level1_rotor ro n Q = Ok u -> exists b0 c, nth_error (ro_br ro) 0 = Some b0 /\ cross_coupling b0 n Q = Ok c /\ robj_init (ro_sh ro) (ro_dk ro) (ro_br ro ++ [c]) [] None None None None = Ok u.
Proof.
  unfold level1_rotor. destruct (item (ro_br ro) 0) as [b0|] eqn:E; [|discriminate]. apply item_ok in E. cbn [bind]. destruct (cross_coupling b0 n Q) as [c|] eqn:Ec; [|discriminate]. cbn [bind]. eauto.
Qed.
Lemma cross_plain b0 n Q c : cross_coupling b0 n Q = Ok c -> exists sl s, to_rbrg c = RB4 sl s /\ ob_n c = n /\ forall t, plain_brg t sl s n 0 Q (- Q).
Proof.
  unfold cross_coupling. destruct b0; try discriminate.
  - destruct (init_spring n 0 Q (- Q)) as (s & -> & N & L & T & _ & E). cbn [bind]. intros [= <-]. exists false, s. repeat split; auto.
  - destruct (seal_spring n 0 Q (- Q)) as (s1 & -> & N & L & T & E). cbn [bind]. intros [= <-]. exists true, (sl_bearing s1). repeat split; auto.
Qed.
Lemma mapi_app {A B} (f : nat -> A -> B) l l' : forall i, mapi f i (l ++ l') = mapi f i l ++ mapi f (i + List.length l) l'.
Proof. induction l as [|x l IH]; intros i; cbn [mapi app List.length]; [rewrite Nat.add_0_r; reflexivity|]. rewrite IH. do 3 f_equal. lia. Qed.
Lemma crossed n Q u spl w f A B : r_nd (ro_val ro) = 4%nat -> r_pm (ro_val ro) = [] -> level1_rotor ro n Q = Ok u -> mkind spl w f -> (forall e, f (Fn e) = f e) ->
  assemble (r_ndof (ro_val u)) (r_dofs (ro_val u)) f (r_elements (ro_val u)) mzero = Ok A ->
  assemble (r_ndof (ro_val ro)) (r_dofs (ro_val ro)) f (r_elements (ro_val ro)) mzero = Ok B ->
  exists t sl s, plain_brg t sl s n 0 Q (- Q) /\ forall i j, A i j = B i j + contribution [4 * n; 4 * n + 1]%nat (el_size f (EBrg t (RB4 sl s))) (el_mat f (EBrg t (RB4 sl s))) i j.
Proof.
  intros Hnd Hpm Hl Hk Hf HA HB. destruct (level1_ok _ _ _ Hl) as (b0 & c & _ & Hc & Hu). destruct (cross_plain _ _ _ _ Hc) as (sl & s & Es & En & P).
  pose proof (again_entries _ _ _ _ _ _ _ _ _ Hro _ _ Hu spl w _ _ Hk Hf HA) as E. rewrite map_app, mapi_app in E. cbn [map mapi] in E. rewrite (named_brgs _ _ _ _ _ _ _ _ _ Hro) in E.
  set (z := (0 + List.length (map to_rbrg (ro_br ro)))%nat) in *. 
  assert (Em : mk_brg z (to_rbrg c) = EBrg (el_tag (mk_brg z (to_rbrg c))) (RB4 sl s)) by (rewrite Es; reflexivity).
  exists (el_tag (mk_brg z (to_rbrg c))), sl, s. split; [apply P|]. intros i j. rewrite E, map_app, suml_app. cbn [map]. 
  assert (Hp : pm_matches (ro_val ro)) by (intros six t p Hp; rewrite Hpm in Hp; destruct Hp).
  rewrite (assembled_entries spl w f (ro_val ro) _ B (rfacts_ro _ _ _ _ _ _ _ _ _ Hro) Hp Hk (incl_refl _) HB). unfold r_elements. rewrite Hpm, app_nil_r, app_assoc, map_app, suml_app.
  unfold frame. rewrite <- Rplus_assoc. f_equal. { f_equal. rewrite map_map. apply suml_map_ext. intros e _. unfold el_size, el_mat. rewrite Hf, Fn_acts. reflexivity. }
  unfold suml. cbn [fold_right]. rewrite Rplus_0_r. rewrite <- Em. f_equal. rewrite Em, Hnd. apply (plain_acts _ _ _ _ _ _ _ _ (P _)).
  assert (Bd := again_bound _ _ _ _ _ _ _ _ _ Hro _ _ Hu (mk_brg z (to_rbrg c))). rewrite Em in Bd. cbn [el_n brg_base] in Bd.
  destruct (P (el_tag (mk_brg z (to_rbrg c)))) as (N & _). rewrite N in Bd. apply Bd.
  destruct (again_lists _ _ _ _ _ _ _ _ _ Hro _ _ Hu) as (_ & _ & -> & _). apply (Permutation_in _ (Permutation_sym (sort_n_perm _))).
  rewrite map_app, mapi_app. apply in_or_app. right. cbn [map mapi]. left. exact Em.
Qed.

(** ** nodes beyond the shaft *)
Lemma check_other s d b b' nd : check_number_dof s d b = Ok nd -> (forall e, In e b' -> List.length (dof_mapping e) = Nat.div2 nd) -> check_number_dof s d b' = Ok nd.
Proof.
  unfold check_number_dof. destruct s as [|s0 s]; [discriminate|]. cbv zeta. destruct (existsb _ (s0 :: s)); [discriminate|]. destruct (existsb _ d); [discriminate|]. destruct (existsb _ b); [discriminate|].
  intros [= <-] Hb. destruct (existsb _ b') eqn:E; [|reflexivity]. apply existsb_exists in E as (e & He & Hn). rewrite (Hb e He), Nat.eqb_refl in Hn. discriminate.
Qed.
Lemma beyond brs : r_nd (ro_val ro) = 4%nat -> (forall o, In o brs -> exists sl b, to_rbrg o = RB4 sl b) -> (exists o, In o brs /\ (r_n_last (ro_val ro) + 1 < ob_n o)%nat) ->
  robj_init (ro_sh ro) (ro_dk ro) brs [] None None None None = Err ValueError.
Proof.
  intros Hnd H4 (o & Ho & Hn). unfold robj_init, rotor_init. rewrite (named_shafts _ _ _ _ _ _ _ _ _ Hro), (named_disks _ _ _ _ _ _ _ _ _ Hro).
  destruct (tags_unique _); [|reflexivity]. cbn [negb map mapi].
  assert (Hc : check_number_dof (r_shaft (ro_val ro)) (r_disk (ro_val ro)) (r_brg (ro_val ro)) = Ok 4%nat).
  { destruct (ro_init _ _ _ _ _ _ _ _ _ Hro) as (I & _). revert I Hnd. generalize (ro_val ro). intros v. unfold rotor_init. destruct (tags_unique _); [|discriminate]. cbn [negb].
    destruct (check_number_dof _ _ _) as [nd|] eqn:E; [|discriminate]. cbn [bind]. destruct (location_ok _ _ _ _); [|discriminate]. cbn [negb]. cbv zeta.
    destruct (disk_positions _ _); [|discriminate]. cbn [bind]. destruct (locate_all _ _); [|discriminate]. cbn [bind]. destruct (heights_ok _ _ _ _); [|discriminate]. cbn [bind].
    destruct (pm_ok _ _); [|discriminate]. cbn [negb]. intros [= <-]. cbn [r_nd r_shaft r_disk r_brg]. intros ->. exact E. }
  rewrite <- (check_f Fn Fn_keeps) in Hc. rewrite (check_other _ _ _ _ _ Hc).
  2:{ intros e He. apply (Permutation_in _ (sort_n_perm _)) in He. rewrite mapi_pre in He. apply mapi_in in He as (i & y & Hy & ->). destruct (H4 y Hy) as (sl & b & E). rewrite E. reflexivity. }
  cbn [bind]. destruct (location_ok _ _ _ _) eqn:E; [|reflexivity]. exfalso. unfold location_ok in E. apply Nat.leb_le in E.
  pose proof (rfacts_ro _ _ _ _ _ _ _ _ _ Hro) as F. change (max_list (map el_n [])) with 0%nat in E. rewrite Nat.max_0_r in E.
  assert (H2 : (max_list (map (fun e => S (el_n e)) (map Fn (r_shaft (ro_val ro)))) <= S (r_n_last (ro_val ro)))%nat).
  { apply max_list_le. intros x Hx. apply in_map_iff in Hx as (e' & <- & He'). rewrite (rf_last _ F). apply le_n_S. apply in_map_iff in He' as (e & <- & He). rewrite (kp_n _ Fn_keeps). apply max_list_ge. apply in_map. exact He. }
  assert (H1 : (ob_n o <= max_list (map el_n (map Fn (r_shaft (ro_val ro)) ++ map Fn (r_disk (ro_val ro)) ++ sort_n (mapi mk_brg 0 (map to_rbrg brs)))))%nat).
  { apply max_list_ge. rewrite !map_app, !in_app_iff. right. right. apply (Permutation_in _ (Permutation_map el_n (Permutation_sym (sort_n_perm _)))).
    rewrite mapi_pre, mapi_comp. rewrite (mapi_same _ ob_n) by (intros i x _; destruct x; reflexivity). apply in_map. exact Ho. }
  lia.
Qed.
End Level1.

(** ** lists *)
Lemma evens_nth {A} (l : list A) : forall j, nth_error (evens l) j = nth_error l (2 * j).
Proof.
  assert (G : forall n (l : list A), (List.length l <= n)%nat -> forall j, nth_error (evens l) j = nth_error l (2 * j)).
  { induction n as [|n IH]; intros [|x [|y m]] H j; try (cbn [List.length] in H; lia); cbn [evens].
    - destruct j; reflexivity.
    - destruct j; reflexivity.
    - destruct j as [|j]; [reflexivity|]. replace (2 * S j)%nat with (S (S (2 * j))) by lia. reflexivity || (cbn [nth_error]; destruct j; reflexivity).
    - destruct j as [|j]; [reflexivity|]. replace (2 * S j)%nat with (S (S (2 * j))) by lia. cbn [nth_error]. apply IH. cbn [List.length] in H. lia. }
  exact (G _ l (Nat.le_refl _)).
Qed.
Lemma evens_length {A} (l : list A) : List.length (evens l) = ((List.length l + 1) / 2)%nat.
Proof.
  assert (G : forall n (l : list A), (List.length l <= n)%nat -> List.length (evens l) = ((List.length l + 1) / 2)%nat).
  { induction n as [|n IH]; intros [|x [|y m]] H; try (cbn [List.length] in H; lia); try reflexivity. cbn [evens List.length]. rewrite IH by (cbn [List.length] in H; lia).
    replace (S (S (List.length m)) + 1)%nat with ((List.length m + 1) + 1 * 2)%nat by lia. rewrite Nat.div_add by lia. lia. }
  exact (G _ l (Nat.le_refl _)).
Qed.
Lemma linspace_nth a b num i : (i < num)%nat -> nth_error (linspace a b num) i = Some (evenly a b num i).
Proof.
  intros H. unfold linspace, evenly. rewrite (map_nth_error _ i (seq 0 num) (d := i)).
  - f_equal. destruct (Nat.leb_spec num 1). + assert (i = 0%nat) as -> by lia. simpl. lra. + unfold Rdiv. ring.
  - rewrite (nth_error_nth' _ 0%nat) by (rewrite seq_length; lia). rewrite seq_nth by lia. reflexivity.
Qed.
Lemma linspace_length a b num : List.length (linspace a b num) = num.
Proof. unfold linspace. rewrite map_length, seq_length. reflexivity. Qed.

(** ** the bracket of the default stiffness range *)
Lemma trunc_bounds x : IZR (trunc x - 3) < x < IZR (trunc x + 3).
Proof.
  rewrite minus_IZR, plus_IZR. unfold trunc. destruct (Rle_dec 0 x).
  - destruct (base_Int_part x). lra.
  - destruct (base_Int_part (- x)). rewrite opp_IZR. lra.
Qed.
Lemma log_bracket k : 0 < k -> let z := trunc (ln k / ln 10) in Rpower 10 (IZR (z - 3)) < k < Rpower 10 (IZR (z + 3)).
Proof.
  intros Hk z. assert (H10 : 0 < ln 10) by (rewrite <- ln_1; apply ln_increasing; lra). destruct (trunc_bounds (ln k / ln 10)) as [H1 H2]. fold z in H1, H2.
  assert (E : ln k = ln k / ln 10 * ln 10) by (field; lra). unfold Rpower. split.
  - rewrite <- (exp_ln k Hk) at 1. apply exp_increasing. rewrite E. apply Rmult_lt_compat_r; auto.
  - rewrite <- (exp_ln k Hk) at 1. apply exp_increasing. rewrite E. apply Rmult_lt_compat_r; auto.
Qed.
