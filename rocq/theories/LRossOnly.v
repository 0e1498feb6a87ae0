(** Lemmas for C87: rebuilding a rotor with plain bearings and seals. *)
From Coq Require Import Reals String List Bool Arith Lia Lra Sorted Permutation.
From Coquelicot Require Import Complex.
From Verif Require Import PyBase PyDict MatBase MMaterial MShaft MDisk MBearing SpecBearing LBearing LBearing2 MRotor MDynamics MSave SpecSave LRotor LRotor2 LRotor6 LSave LSave2 LSave3 LSave4 LUcs LEq5 LShare MRossOnly SpecRossOnly.
Import ListNotations.
Open Scope list_scope.
Open Scope R_scope.

(** ** one bearing *)
Definition is_mass (c : cname) : bool := match c with mxx | myy | mxy | myx => true | _ => false end.
Definition zeros (f : option (list R)) : list R * interp := match process_coefficient f (CScal 0) with Ok p => p | Err _ => ([], INone) end.
Definition ross_coef (b : bearing) (c : cname) : list R * interp := if is_mass c then zeros (b_frequency b) else b_coef b c.
Definition rossb (sc : R) (b : bearing) : bearing :=
  mkBearing (b_n b) (b_n_link b) (b_tag b) (b_color b) sc (b_frequency b) (fun c => nth (cindex c) (map (ross_coef b) cnames) ([], INone)).
Lemma rossb_coef sc b c : b_coef (rossb sc b) c = ross_coef b c.
Proof. destruct c; reflexivity. Qed.

Lemma process_len freq c c' p : length (arg_list freq c) = length (arg_list freq c') -> process_coefficient freq c = Ok p -> exists p', process_coefficient freq c' = Ok p'.
Proof.
  unfold process_coefficient. fold (arg_list freq c) (arg_list freq c'). generalize (arg_list freq c) (arg_list freq c'). intros l l' L. rewrite <- L. destruct (1 <? length l)%nat.
  - destruct freq as [f|]; [|discriminate]. assert (S : spline_accepts f l' = spline_accepts f l) by (unfold spline_accepts; rewrite L; reflexivity).
    assert (I : interp1d_accepts f l' = interp1d_accepts f l) by (unfold interp1d_accepts; rewrite L; reflexivity). rewrite S, I.
    destruct (spline_accepts f l); [eauto|]. destruct (_ || _)%bool; [|eauto]. destruct (interp1d_accepts f l); [eauto|discriminate].
  - destruct l, l'; try discriminate; eauto.
Qed.
Lemma process_all_map freq arg g l : (forall c, process_coefficient freq (arg c) = Ok (g c)) -> process_all freq arg l = Ok (map g l).
Proof. intros H. induction l as [|c l IH]; [reflexivity|]. cbn [process_all map]. rewrite H, IH. reflexivity. Qed.
Lemma built_facts b : built_bearing b ->
  (forall c, process_coefficient (b_frequency b) (CArr (fst (b_coef b c))) = Ok (b_coef b c)) /\
  (forall c, length (fst (b_coef b c)) = match b_frequency b with Some f => length f | None => 1%nat end).
Proof.
  intros (a & b0 & I & S). pose proof (saved_again _ _ _ I S) as SA. destruct (bearing_init_ok _ _ SA) as (_ & _ & _ & _ & _ & _ & P). 
  assert (P' : forall c, process_coefficient (b_frequency b) (CArr (fst (b_coef b c))) = Ok (b_coef b c)) by (intros c; specialize (P c); destruct c; exact P).
  split; [exact P'|]. unfold bearing_init in SA. rewrite (process_all_map _ _ (b_coef b) cnames P) in SA. cbn [bind] in SA. destruct (length_check _ _) eqn:LC; [|discriminate].
  apply length_check_spec in LC; [|discriminate]. change (ba_frequency (bearing_saved b)) with (b_frequency b) in LC.
  assert (IC : forall c, In (length (fst (b_coef b c))) (map (fun p => length (fst p)) (map (b_coef b) cnames))).
  { intros c. rewrite map_map. apply in_map_iff. exists c. split; [reflexivity|]. unfold cnames. destruct c; simpl; tauto. }
  intros c. destruct (b_frequency b); apply LC, IC.
Qed.
Lemma zeros_ok b : built_bearing b -> process_coefficient (b_frequency b) (CScal 0) = Ok (zeros (b_frequency b)) /\
  fst (zeros (b_frequency b)) = repeat 0 (match b_frequency b with Some f => length f | None => 1%nat end).
Proof.
  intros B. destruct (built_facts b B) as (P & L). destruct (process_len (b_frequency b) (CArr (fst (b_coef b kxx))) (CScal 0) (b_coef b kxx)) as (p & E); [|exact (P kxx)|].
  - cbn [arg_list]. rewrite L. destruct (b_frequency b); [rewrite repeat_length|]; reflexivity.
  - unfold zeros. rewrite E. split; [reflexivity|]. rewrite (process_fst _ _ _ E). destruct (b_frequency b); reflexivity.
Qed.
Lemma ross_init b sc : built_bearing b -> bearing_init (args_scale (ross_args b) sc) = Ok (rossb sc b).
Proof.
  intros B. destruct (built_facts b B) as (P & L). destruct (zeros_ok b B) as (Z & ZL). unfold bearing_init.
  change (ba_frequency (args_scale (ross_args b) sc)) with (b_frequency b).
  rewrite (process_all_map _ _ (ross_coef b)) by (intros []; cbn; first [apply P|apply Z]). cbn [bind].
  destruct (length_check _ _) eqn:LC; [reflexivity|]. exfalso.
  assert (X : length_check (b_frequency b) (map (fun p => length (fst p)) (map (ross_coef b) cnames)) = true); [|congruence].
  apply length_check_spec; [discriminate|].
  assert (Q : forall n, In n (map (fun p => length (fst p)) (map (ross_coef b) cnames)) -> n = match b_frequency b with Some f => length f | None => 1%nat end).
  { intros n Hn. rewrite map_map in Hn. apply in_map_iff in Hn as (c & <- & _). unfold ross_coef. destruct (is_mass c); [rewrite ZL; apply repeat_length|apply L]. }
  destruct (b_frequency b); exact Q.
Qed.
Lemma built_base o : built_brg o -> built_bearing (brg_of o).
Proof.
  destruct o; cbn [built_brg brg_of]; auto.
  - intros (a & lk & s0 & I & S & _). unfold seal_init in I. destruct (bearing_init _) as [b|] eqn:E; [|discriminate]. cbn [bind] in I. injection I as <-. exists (args_scale a (ba_scale_factor a / 2)), b. split; [exact E|exact S].
  - intros (a & k & c & m & b0 & I & S & _). unfold bearing6_init in I. destruct (bearing_init a) as [b1|] eqn:E; [|discriminate]. cbn [bind] in I.
    destruct (process_coefficient _ k); [|discriminate]. destruct (process_coefficient _ c); [|discriminate]. destruct (process_coefficient _ m); [|discriminate]. cbn [bind] in I.
    destruct (length_check _ _); [|discriminate]. injection I as <-. exists a, b1. split; [exact E|exact S].
  - intros (n & t & l & sc & b0 & I & S). unfold magnetic_init in I. destruct (mag_coefs a) as [[[[x1 x2] x3] x4]|]; [|discriminate]. cbn [bind] in I. eexists. exists b0. split; [exact I|exact S].
Qed.
Definition conv (o : obrg) : obrg :=
  match o with OSeal s => OSeal (mkSeal (rossb (1 / 2) (sl_bearing s)) (sl_leakage s)) | o => OBearing (rossb 1 (brg_of o)) end.
Lemma ross_brg_ok o : built_brg o -> ross_brg o = Ok (conv o).
Proof.
  intros B. pose proof (built_base o B) as BB. assert (E : forall b, built_bearing b -> bearing_init (ross_args b) = Ok (rossb 1 b)) by (intros b Hb; exact (ross_init b 1 Hb)).
  destruct o; cbn [ross_brg conv]; rewrite ?E by exact BB; try reflexivity.
  unfold seal_init. fold (args_scale (ross_args (sl_bearing s)) (ba_scale_factor (ross_args (sl_bearing s)) / 2)). cbn [brg_of] in BB. rewrite ross_init by exact BB. reflexivity.
Qed.
Lemma conv_base o : exists sc, brg_of (conv o) = rossb sc (brg_of o).
Proof. destruct o; cbn [conv brg_of sl_bearing]; eauto. Qed.
Lemma conv_stands o : built_brg o -> stands_for o (conv o).
Proof.
  intros B. pose proof (built_base o B) as BB. destruct (conv_base o) as (sc & E). destruct (built_facts _ BB) as (_ & L). destruct (zeros_ok _ BB) as (_ & Z).
  assert (SE : forall s, o = OSeal s -> is_seal o) by (intros s ->; exists s; reflexivity).
  assert (NS : ~ is_seal o -> conv o = OBearing (rossb 1 (brg_of o))) by (intros N; destruct o; try reflexivity; destruct N; eexists; reflexivity).
  constructor.
  - split; [intros (s & ->); reflexivity|intros N; rewrite NS by exact N; reflexivity].
  - intros s ->. eexists. split; reflexivity.
  - rewrite E. repeat split.
  - intros c Hc. rewrite E, rossb_coef. simpl in Hc. unfold ross_coef. destruct c; try reflexivity; exfalso; intuition discriminate.
  - intros c Hc. rewrite E, rossb_coef. unfold ross_coef. replace (is_mass c) with true by (simpl in Hc; destruct c; try reflexivity; exfalso; intuition discriminate).
    rewrite Z, L, repeat_length. split; [reflexivity|]. intros x Hx. apply repeat_spec in Hx. exact Hx.
  - split; [intros (s & ->); reflexivity|intros N; rewrite NS by exact N; reflexivity].
Qed.

(** a bearing without masses keeps all its coefficients *)
Lemma all_zero (l : list R) : (forall x, In x l -> x = 0) -> l = repeat 0 (length l).
Proof. induction l as [|x l IH]; intros H; [reflexivity|]. cbn [length repeat]. rewrite (H x) by (simpl; auto). f_equal. apply IH. intros; apply H; simpl; auto. Qed.
Lemma massless_coef o : built_brg o -> massless o -> forall c, ross_coef (brg_of o) c = b_coef (brg_of o) c.
Proof.
  intros B M c. pose proof (built_base o B) as BB. destruct (built_facts _ BB) as (P & L). destruct (zeros_ok _ BB) as (Z & _). unfold ross_coef. destruct (is_mass c) eqn:IM; [|reflexivity].
  assert (A : fst (b_coef (brg_of o) c) = arg_list (b_frequency (brg_of o)) (CScal 0)).
  { rewrite (all_zero (fst (b_coef (brg_of o) c))).
    - rewrite L. destruct (b_frequency (brg_of o)); reflexivity.
    - intros x Hx. apply (M c); [|exact Hx]. destruct c; try discriminate; simpl; tauto. }
  specialize (P c). rewrite A in P. assert (E : process_coefficient (b_frequency (brg_of o)) (CArr (arg_list (b_frequency (brg_of o)) (CScal 0))) = process_coefficient (b_frequency (brg_of o)) (CScal 0)).
  { unfold process_coefficient. destruct (b_frequency (brg_of o)); reflexivity. }
  congruence.
Qed.

(** the mass matrix of a rebuilt bearing is zero *)
Lemma zero_eval spl b w : smoothing_spline spl -> built_bearing b -> match b_frequency b with Some f => increasing f /\ f <> [] | None => True end ->
  eval_interp spl (snd (zeros (b_frequency b))) w = Ok 0.
Proof.
  intros S B T. pose proof (ross_init b 1 B) as I. pose proof (coef_scalar spl (args_scale (ross_args b) 1) _ mxx 0 w S T I eq_refl) as E. exact E.
Qed.
Lemma zero_block a b : coef22 0 0 0 0 a b = 0.
Proof. destruct a as [|[|[|a]]], b as [|[|[|b]]]; reflexivity. Qed.
Lemma ross_M spl sc b w : smoothing_spline spl -> built_bearing b -> match b_frequency b with Some f => increasing f /\ f <> [] | None => True end ->
  exists M, bearing_M spl (rossb sc b) w = Ok M /\ forall i j, M i j = 0.
Proof.
  intros S B T. pose proof (zero_eval spl b w S B T) as Z.
  assert (E : forall c, is_mass c = true -> eval_coef spl (rossb sc b) c w = Ok 0) by (intros c Hc; unfold eval_coef; rewrite rossb_coef; unfold ross_coef; rewrite Hc; exact Z).
  unfold bearing_M, block2. rewrite !E by reflexivity. cbn [bind]. eexists. split; [reflexivity|]. intros i j. fold (coef22 0 0 0 0).
  destruct (b_n_link (rossb sc b)); [|apply zero_block]. unfold linked. destruct (Nat.ltb i 2), (Nat.ltb j 2); rewrite zero_block; ring.
Qed.

(** ** the elements of the rebuilt rotor *)
Definition Fg (e : elem) : elem :=
  match e with
  | EBrg t (RB4 true b) => EBrg t (RB4 true (rossb (1 / 2) b))
  | EBrg t (RB4 false b) => EBrg t (RB4 false (rossb 1 b))
  | EBrg t (RB6 b) => EBrg t (RB4 false (rossb 1 (b6 b)))
  | e => e
  end.
(** ... when there is no 6-dof bearing *)
Definition Fr (e : elem) : elem := match e with EBrg t (RB6 b) => Fn e | e => Fg (Fn e) end.
Lemma Fr_keeps : keeps_but_mass Fr.
Proof. constructor; intros; destruct e as [[]| |? [[]|]|]; reflexivity. Qed.
Lemma mk_conv i o : mk_brg i (to_rbrg (conv o)) = Fg (mk_brg i (to_rbrg o)).
Proof. destruct o; reflexivity. Qed.
Lemma sort_n_by l : sort_n l = sort_by el_n l.
Proof. rewrite <- (map_id l) at 1. rewrite (sort_n_map el_n) by reflexivity. apply map_id. Qed.
Lemma is_brg_mk i r : exists t b, mk_brg i r = EBrg t b.
Proof. unfold mk_brg. eauto. Qed.

Section Rebuilt.
Variables (sh : list oshaft) (dk : list odisk) (br : list obrg) (pm : list opm) (mn mx rt : option R) (tag : option string) (ro : robj).
Hypothesis Hro : robj_init sh dk br pm mn mx rt tag = Ok ro.
Hypothesis Hbuilt : forall o, In o br -> built_brg o.

Lemma built_ro o : In o (ro_br ro) -> built_brg o.
Proof.
  destruct (ro_init _ _ _ _ _ _ _ _ _ Hro) as (_ & _ & _ & ->). intros H. apply (proj1 (sort_by_in _ _ _)) in H. apply mapi_in in H as (i & y & Hy & ->).
  exact (built_name_brg i y (Hbuilt y Hy)).
Qed.
Lemma ross_list : mapM ross_brg (ro_br ro) = Ok (map conv (ro_br ro)).
Proof. apply mapM_const. intros o Ho. apply ross_brg_ok, built_ro, Ho. Qed.
Lemma lists_ro : r_shaft (ro_val ro) = sort_n (mapi mk_shaft 0 (map to_rshaft sh)) /\ r_disk (ro_val ro) = mapi mk_disk 0 (map to_rdisk dk) /\
  r_brg (ro_val ro) = sort_n (mapi mk_brg 0 (map to_rbrg br)) /\ r_pm (ro_val ro) = mapi mk_pm 0 (map to_rpm pm).
Proof. destruct (ro_init _ _ _ _ _ _ _ _ _ Hro) as (I & _). exact (rotor_init_lists _ _ _ _ _ I). Qed.
Lemma ross_brgs : sort_n (mapi mk_brg 0 (map to_rbrg (map conv (ro_br ro)))) = map (fun e => Fg (Fn e)) (r_brg (ro_val ro)).
Proof.
  rewrite map_map, mapi_pre. rewrite (mapi_ext (fun i x => mk_brg i (to_rbrg (conv x))) (fun i x => Fg (mk_brg i (to_rbrg x)))) by (intros; apply mk_conv).
  rewrite <- (mapi_comp (fun i x => mk_brg i (to_rbrg x)) Fg), <- (mapi_pre to_rbrg mk_brg), (named_brgs _ _ _ _ _ _ _ _ _ Hro 0), map_map.
  rewrite (sort_n_map el_n) by (intros e _; destruct e as [| |? [[]|]|]; reflexivity). f_equal. destruct lists_ro as (_ & _ & L & _). rewrite L, sort_n_by. apply sort_by_id, sort_by_sorted.
Qed.
Lemma ross_pms : mapi mk_pm 0 (map to_rpm (ro_pm ro)) = map Fn (r_pm (ro_val ro)).
Proof.
  destruct lists_ro as (_ & _ & _ & L). rewrite L. assert (E : ro_pm ro = mapi name_pm 0 pm).
  { revert Hro. unfold robj_init. destruct (rotor_init _ _ _ _) as [v|]; [|discriminate]. cbn [bind]. intros [= <-]. reflexivity. }
  rewrite E, !mapi_pre, mapi_comp. generalize 0%nat. clear. induction pm as [|o pm' IH]; intros i; [reflexivity|]. cbn [mapi]. rewrite IH. reflexivity.
Qed.
Lemma kinds_ro : (forall e, In e (r_shaft (ro_val ro)) -> Fr e = Fn e) /\ (forall e, In e (r_disk (ro_val ro)) -> Fr e = Fn e) /\ (forall e, In e (r_pm (ro_val ro)) -> Fr e = Fn e).
Proof.
  destruct lists_ro as (-> & -> & _ & ->). repeat split; intros e He.
  - apply (Permutation_in _ (sort_n_perm _)) in He. apply mapi_in in He as (i & y & _ & ->). reflexivity.
  - apply mapi_in in He as (i & y & _ & ->). reflexivity.
  - apply mapi_in in He as (i & y & _ & ->). reflexivity.
Qed.
Lemma check_ro : check_number_dof (r_shaft (ro_val ro)) (r_disk (ro_val ro)) (r_brg (ro_val ro)) = Ok (r_nd (ro_val ro)).
Proof.
  destruct (ro_init _ _ _ _ _ _ _ _ _ Hro) as (I & _). revert I. generalize (ro_val ro). intros v. unfold rotor_init. destruct (tags_unique _); [|discriminate]. cbn [negb].
  destruct (check_number_dof _ _ _) as [nd|] eqn:E; [|discriminate]. cbn [bind]. destruct (location_ok _ _ _ _); [|discriminate]. cbn [negb]. cbv zeta.
  destruct (disk_positions _ _); [|discriminate]. cbn [bind]. destruct (locate_all _ _); [|discriminate]. cbn [bind]. destruct (heights_ok _ _ _ _); [|discriminate]. cbn [bind].
  destruct (pm_ok _ _); [|discriminate]. cbn [negb]. intros [= <-]. exact E.
Qed.
Lemma brgs4 : r_nd (ro_val ro) = 4%nat -> forall e, In e (r_brg (ro_val ro)) -> exists t sl b, e = EBrg t (RB4 sl b).
Proof.
  intros H4 e He. pose proof check_ro as C. unfold check_number_dof in C. destruct (r_shaft (ro_val ro)) as [|s0 s]; [discriminate|]. cbv zeta in C. destruct (existsb _ (s0 :: s)); [discriminate|].
  destruct (existsb _ (r_disk _)); [discriminate|]. destruct (existsb _ (r_brg _)) eqn:E; [discriminate|]. injection C as C.
  assert (X : Nat.eqb (length (dof_mapping e)) (Nat.div2 (r_nd (ro_val ro))) = true).
  { destruct (Nat.eqb (length (dof_mapping e)) (Nat.div2 (r_nd (ro_val ro)))) eqn:Q; [reflexivity|]. exfalso. rewrite <- C in Q. assert (Y : existsb (fun b => negb (Nat.eqb (length (dof_mapping b)) (Nat.div2 (Nat.div2 (length (dof_mapping s0)))))) (r_brg (ro_val ro)) = true) by (apply existsb_exists; exists e; rewrite Q; auto). congruence. }
  rewrite H4 in X. destruct lists_ro as (_ & _ & L & _). rewrite L in He. apply (Permutation_in _ (sort_n_perm _)) in He. rewrite mapi_pre in He. apply mapi_in in He as (i & y & _ & ->).
  unfold mk_brg in *. destruct (to_rbrg y) as [sl b|b]; [eauto|discriminate X].
Qed.
Definition rossr : robj :=
  mkRobj (ro_sh ro) (ro_dk ro) (map conv (ro_br ro)) (ro_pm ro) (f_rotor Fr (ro_val ro)) (ro_min ro) (ro_max ro) (ro_rated ro) (ro_tag ro).
Lemma rossr_ok : r_nd (ro_val ro) = 4%nat -> to_ross_only ro = Ok rossr.
Proof.
  intros H4. unfold to_ross_only. rewrite ross_list. cbn [bind]. destruct kinds_ro as (K1 & K2 & K3). destruct lists_ro as (L1 & L2 & L3 & L4).
  destruct (ro_init _ _ _ _ _ _ _ _ _ Hro) as (I & E1 & E2 & E3).
  assert (E4 : ro_pm ro = mapi name_pm 0 pm).
  { revert Hro. unfold robj_init. destruct (rotor_init _ _ _ _) as [v|]; [|discriminate]. cbn [bind]. intros [= <-]. reflexivity. }
  unfold robj_init. rewrite (init_f Fr Fr_keeps (map to_rshaft sh) (map to_rdisk dk) (map to_rbrg br) (map to_rpm pm)).
  - rewrite I. cbn [res_map bind]. unfold rossr. f_equal. f_equal.
    + rewrite E1. rewrite (mapi_same _ (fun x => x)) by (intros i x Hx; apply (proj1 (sort_by_in _ _ _)) in Hx; apply mapi_in in Hx as (k & y & _ & ->); reflexivity). rewrite map_id. apply sort_by_id, sort_by_sorted.
    + rewrite E2. rewrite (mapi_same _ (fun x => x)) by (intros i x Hx; apply mapi_in in Hx as (k & y & _ & ->); reflexivity). apply map_id.
    + rewrite E3. rewrite mapi_pre. rewrite (mapi_same _ conv) by (intros i x Hx; apply (proj1 (sort_by_in _ _ _)) in Hx; apply mapi_in in Hx as (k & y & _ & ->); destruct y; reflexivity).
      assert (N : forall x, ob_n (conv x) = ob_n x) by (intros []; reflexivity).
      rewrite (sort_by_map _ conv) by exact N. rewrite sort_by_id by apply sort_by_sorted. reflexivity.
    + rewrite E4. rewrite (mapi_same _ (fun x => x)) by (intros i x Hx; apply mapi_in in Hx as (k & y & _ & ->); reflexivity). apply map_id.
  - rewrite (named_shafts _ _ _ _ _ _ _ _ _ Hro), <- L1. apply map_ext_in. intros e He. symmetry. auto.
  - rewrite (named_disks _ _ _ _ _ _ _ _ _ Hro), <- L2. apply map_ext_in. intros e He. symmetry. auto.
  - rewrite ross_brgs, <- L3. apply map_ext_in. intros e He. destruct (brgs4 H4 e He) as (t & sl & b & ->). reflexivity.
  - rewrite ross_pms, <- L4. apply map_ext_in. intros e He. symmetry. auto.
Qed.

(** 6-dof rotors with a bearing cannot be rebuilt *)
Lemma ross_six : r_nd (ro_val ro) = 6%nat -> ro_br ro <> [] -> to_ross_only ro = Err RuntimeErr.
Proof.
  intros H6 NE. unfold to_ross_only. rewrite ross_list. cbn [bind]. unfold robj_init, rotor_init.
  rewrite (named_shafts _ _ _ _ _ _ _ _ _ Hro), (named_disks _ _ _ _ _ _ _ _ _ Hro), ross_brgs, ross_pms.
  assert (T : map el_tag (map Fn (r_shaft (ro_val ro)) ++ map Fn (r_disk (ro_val ro)) ++ map (fun e => Fg (Fn e)) (r_brg (ro_val ro)) ++ map Fn (r_pm (ro_val ro))) = map el_tag (r_elements (ro_val ro))).
  { unfold r_elements. rewrite !map_app, !(map_f Fn el_tag) by apply Fn_keeps. rewrite map_map. rewrite (map_ext (fun x => el_tag (Fg (Fn x))) el_tag) by (intros [| |? [[]|]|]; reflexivity). reflexivity. }
  rewrite T. rewrite (rf_tags _ (rfacts_ro _ _ _ _ _ _ _ _ _ Hro)). cbn [negb].
  pose proof check_ro as C. rewrite <- (check_f Fn Fn_keeps) in C. rewrite H6 in C.
  assert (NB : exists e l, r_brg (ro_val ro) = e :: l /\ exists t b, e = EBrg t b).
  { pose proof (named_brgs _ _ _ _ _ _ _ _ _ Hro 0) as NB. destruct lists_ro as (_ & _ & L & _). destruct (r_brg (ro_val ro)) as [|e l] eqn:Er.
    - destruct (ro_br ro); [contradiction|discriminate NB].
    - exists e, l. split; [reflexivity|]. assert (He : In e (e :: l)) by (simpl; auto). rewrite L in He. apply (Permutation_in _ (sort_n_perm _)) in He. apply mapi_in in He as (i & y & _ & ->). apply is_brg_mk. }
  destruct NB as (e & l & -> & t & b & ->). revert C. unfold check_number_dof. destruct (map Fn (r_shaft (ro_val ro))) as [|s0 s]; [discriminate|]. cbv zeta. destruct (existsb _ (s0 :: s)); [discriminate|].
  destruct (existsb _ (map Fn (r_disk _))); [discriminate|]. destruct (existsb _ (map Fn _)); [discriminate|]. intros [= C]. rewrite C. destruct b as [[]|]; reflexivity.
Qed.

(** ** masses *)
Lemma assemble_in N D f g (F : elem -> elem) l : (forall e, In e l -> D (F e) = D e) -> (forall e, In e l -> f (F e) = g e) -> forall acc, assemble N D f (map F l) acc = assemble N D g l acc.
Proof.
  induction l as [|e l IH]; intros E1 E2 acc; simpl; [reflexivity|]. rewrite E1, E2 by (simpl; auto). destruct (g e); [|reflexivity]. cbn [bind]. destruct (add_at _ _ _ _); [|reflexivity]. cbn [bind].
  apply IH; intros; [apply E1|apply E2]; simpl; auto.
Qed.
Lemma brg_from e : In e (r_brg (ro_val ro)) -> exists o, In o (ro_br ro) /\ Fn e = mk_brg 0 (to_rbrg o).
Proof.
  intros He. pose proof (named_brgs _ _ _ _ _ _ _ _ _ Hro 0) as NB. rewrite mapi_pre in NB. assert (Hf : In (Fn e) (map Fn (r_brg (ro_val ro)))) by (apply in_map; exact He).
  rewrite <- NB in Hf. apply mapi_in in Hf as (i & o & Ho & E). exists o. split; [exact Ho|]. rewrite E.
  destruct (ro_init _ _ _ _ _ _ _ _ _ Hro) as (_ & _ & _ & E3). rewrite E3 in Ho. apply (proj1 (sort_by_in _ _ _)) in Ho. apply mapi_in in Ho as (k & y & _ & ->). rewrite !brg_named_n. reflexivity.
Qed.
Lemma el_M_massless spl w e : r_nd (ro_val ro) = 4%nat -> (forall o, In o (ro_br ro) -> massless o) -> In e (r_elements (ro_val ro)) -> el_M spl w (Fr e) = el_M spl w e /\ el_M_sync spl w (Fr e) = el_M_sync spl w e.
Proof.
  intros H4 HM He. destruct kinds_ro as (K1 & K2 & K3).
  assert (KN : forall e, Fr e = Fn e -> el_M spl w (Fr e) = el_M spl w e /\ el_M_sync spl w (Fr e) = el_M_sync spl w e) by (intros x ->; split; [apply (kp_M _ Fn_keeps)|apply (kp_Ms _ Fn_keeps)]).
  unfold r_elements in He. rewrite !in_app_iff in He. destruct He as [He|[He|[He|He]]]; auto.
  destruct (brg_from e He) as (o & Ho & E). destruct (brgs4 H4 e He) as (t & sl & b & ->).
  pose proof (massless_coef o (built_ro o Ho) (HM o Ho)) as MC.
  assert (B : brg_of o = bearing_with b t) by (destruct o; cbn [to_rbrg Fn] in E; unfold mk_brg in E; cbn [brg_of] in *; congruence).
  rewrite B in MC. assert (Q : el_M spl w (Fr (EBrg t (RB4 sl b))) = el_M spl w (EBrg t (RB4 sl b))).
  { assert (Q : forall sc, bearing_M spl (rossb sc (bearing_with b t)) w = bearing_M spl b w).
    { intros sc. unfold bearing_M, block2, eval_coef. rewrite !rossb_coef, !MC. reflexivity. }
    destruct sl; cbn [Fr Fg Fn el_M]; rewrite Q; reflexivity. }
  split; [exact Q|]. unfold el_M_sync. rewrite Q. destruct sl; reflexivity.
Qed.
Lemma mass_same : r_nd (ro_val ro) = 4%nat -> (forall o, In o (ro_br ro) -> massless o) ->
  (forall spl w, rotor_M spl (f_rotor Fr (ro_val ro)) w = rotor_M spl (ro_val ro) w) /\ (forall spl w, rotor_M_sync spl (f_rotor Fr (ro_val ro)) w = rotor_M_sync spl (ro_val ro) w).
Proof.
  intros H4 HM. split; intros spl w; unfold rotor_M, rotor_M_sync; rewrite f_elements; cbn [f_rotor r_ndof]; change (r_dofs (f_rotor Fr (ro_val ro))) with (r_dofs (ro_val ro));
    (apply assemble_in; [intros e _; apply (dofs_f Fr Fr_keeps (ro_val ro))|intros e He; apply el_M_massless; assumption]).
Qed.

(** leaving out elements whose matrix is zero *)
Definition agree (A B : mat) : Prop := forall i j, A i j = B i j.
Lemma add_agree N d km acc acc' A : agree acc acc' -> add_at N d km acc = Ok A -> exists A', add_at N d km acc' = Ok A' /\ agree A A'.
Proof.
  intros E. unfold add_at. destruct (existsb _ _); [discriminate|]. destruct (negb _); [discriminate|]. intros [= <-]. eexists. split; [reflexivity|].
  intros i j. cbv beta. destruct (last_index i d), (last_index j d); rewrite E; reflexivity.
Qed.
Lemma add_zero N d km acc A : (forall i j, snd km i j = 0) -> add_at N d km acc = Ok A -> agree A acc.
Proof.
  intros Z. unfold add_at. destruct (existsb _ _); [discriminate|]. destruct (negb _); [discriminate|]. intros [= <-] i j. cbv beta. destruct (last_index i d), (last_index j d); rewrite ?Z; ring.
Qed.
Lemma assemble_agree N D f l : forall acc acc' A, agree acc acc' -> assemble N D f l acc = Ok A -> exists A', assemble N D f l acc' = Ok A' /\ agree A A'.
Proof.
  induction l as [|e l IH]; intros acc acc' A E H; cbn [assemble] in *.
  - injection H as <-. eauto.
  - destruct (f e) as [km|]; [|discriminate]. cbn [bind] in *. destruct (add_at N (D e) km acc) as [B|] eqn:EB; [|discriminate]. cbn [bind] in H.
    destruct (add_agree _ _ _ _ acc' _ E EB) as (B' & -> & EB'). cbn [bind]. exact (IH B B' A EB' H).
Qed.
Lemma assemble_skip N D f l : (forall e, In e l -> exists k M, f e = Ok (k, M) /\ forall i j, M i j = 0) -> forall acc A, assemble N D f l acc = Ok A -> agree A acc.
Proof.
  induction l as [|e l IH]; intros H acc A; cbn [assemble].
  - intros [= <-] i j. reflexivity.
  - destruct (H e (or_introl eq_refl)) as (k & M & E & Z). rewrite E. cbn [bind]. destruct (add_at N (D e) (k, M) acc) as [B|] eqn:EB; [|discriminate]. cbn [bind]. intros HA.
    pose proof (add_zero _ _ (k, M) _ _ Z EB) as Q. intros i j. rewrite (IH (fun e He => H e (or_intror He)) B A HA i j). apply Q.
Qed.
Lemma assemble_app N D f l l' acc : assemble N D f (l ++ l') acc = bind (assemble N D f l acc) (assemble N D f l').
Proof.
  revert acc. induction l as [|e l IH]; intros acc; [reflexivity|]. cbn [app assemble]. destruct (f e); [|reflexivity]. cbn [bind]. destruct (add_at _ _ _ _); [|reflexivity]. cbn [bind]. apply IH.
Qed.
Lemma brg_zero spl w e : smoothing_spline spl -> r_nd (ro_val ro) = 4%nat -> (forall o, In o (ro_br ro) -> increasing_table o) -> In e (r_brg (ro_val ro)) ->
  exists k M, el_M spl w (Fr e) = Ok (k, M) /\ el_M_sync spl w (Fr e) = Ok (k, M) /\ forall i j, M i j = 0.
Proof.
  intros S H4 HT He. destruct (brg_from e He) as (o & Ho & E). destruct (brgs4 H4 e He) as (t & sl & b & ->).
  assert (B : brg_of o = bearing_with b t) by (destruct o; cbn [to_rbrg Fn] in E; unfold mk_brg in E; cbn [brg_of] in *; congruence). pose proof (built_base o (built_ro o Ho)) as BB. specialize (HT o Ho). unfold increasing_table in HT. rewrite B in BB, HT.
  destruct sl; [destruct (ross_M spl (1 / 2) _ w S BB HT) as (M & EM & Z)|destruct (ross_M spl 1 _ w S BB HT) as (M & EM & Z)]; unfold el_M_sync; cbn [Fr Fg Fn el_M]; rewrite EM; cbn [sized bind]; eauto 10.
Qed.
Lemma mass_gone f spl w A : f = el_M spl w \/ f = el_M_sync spl w -> smoothing_spline spl -> r_nd (ro_val ro) = 4%nat -> (forall o, In o (ro_br ro) -> increasing_table o) ->
  assemble (r_ndof (ro_val ro)) (r_dofs (ro_val ro)) f (r_elements (f_rotor Fr (ro_val ro))) mzero = Ok A ->
  exists A0, assemble (r_ndof (ro_val ro)) (r_dofs (ro_val ro)) f (r_elements (without_bearings (ro_val ro))) mzero = Ok A0 /\ agree A A0.
Proof.
  intros Hf S H4 HT H. set (D := r_dofs (ro_val ro)) in *. set (N := r_ndof (ro_val ro)) in *. destruct kinds_ro as (K1 & K2 & K3).
  assert (FN : forall e, Fr e = Fn e -> f (Fr e) = f e) by (intros e ->; destruct Hf as [-> | ->]; [apply (kp_M _ Fn_keeps)|apply (kp_Ms _ Fn_keeps)]).
  assert (DN : forall e, D (Fr e) = D e) by (intros e; apply (dofs_f Fr Fr_keeps (ro_val ro))).
  unfold r_elements in H |- *. cbn [f_rotor without_bearings r_shaft r_disk r_brg r_pm app] in *.
  assert (Q : forall l acc, (forall e, In e l -> Fr e = Fn e) -> assemble N D f (map Fr l) acc = assemble N D f l acc) by (intros l acc Hl; apply assemble_in; auto).
  rewrite !assemble_app in H |- *. rewrite Q in H by exact K1. destruct (assemble N D f (r_shaft (ro_val ro)) mzero) as [A1|]; [|discriminate]. cbn [bind] in *.
  rewrite assemble_app in H |- *. rewrite Q in H by exact K2. destruct (assemble N D f (r_disk (ro_val ro)) A1) as [A2|]; [|discriminate]. cbn [bind] in *.
  rewrite assemble_app in H. destruct (assemble N D f (map Fr (r_brg (ro_val ro))) A2) as [A3|] eqn:EB; [|discriminate]. cbn [bind] in H.
  assert (G : agree A3 A2).
  { apply (assemble_skip _ _ _ _) with (2 := EB). intros e' He'. apply in_map_iff in He' as (e & <- & He). destruct (brg_zero spl w e S H4 HT He) as (k & M & E1 & E2 & Z). exists k, M. destruct Hf as [-> | ->]; auto. }
  rewrite Q in H by exact K3. exact (assemble_agree _ _ _ _ _ _ _ G H).
Qed.
Lemma assemble_sizes N D f g l : (forall e k M, In e l -> f e = Ok (k, M) -> exists M', g e = Ok (k, M')) -> forall acc acc', is_ok (assemble N D f l acc) -> is_ok (assemble N D g l acc').
Proof.
  induction l as [|e l IH]; intros H acc acc'; cbn [assemble]; [intros _; eexists; reflexivity|]. intros (A & E). destruct (f e) as [[k M]|] eqn:Ef; [|discriminate]. cbn [bind] in E.
  destruct (H e k M (or_introl eq_refl) Ef) as (M' & ->). cbn [bind]. unfold add_at in *. cbn [fst] in *. destruct (existsb _ _); [discriminate|]. destruct (negb _); [discriminate|]. cbn [bind] in *.
  eapply (IH (fun e k M He => H e k M (or_intror He))). exists A. exact E.
Qed.
Lemma mass_exists f spl w : f = el_M spl w \/ f = el_M_sync spl w -> smoothing_spline spl -> r_nd (ro_val ro) = 4%nat -> (forall o, In o (ro_br ro) -> increasing_table o) ->
  is_ok (assemble (r_ndof (ro_val ro)) (r_dofs (ro_val ro)) f (r_elements (ro_val ro)) mzero) ->
  is_ok (assemble (r_ndof (ro_val ro)) (r_dofs (ro_val ro)) f (r_elements (f_rotor Fr (ro_val ro))) mzero).
Proof.
  intros Hf S H4 HT H. rewrite f_elements. rewrite (assemble_in _ _ f (fun e => f (Fr e)) Fr) by (intros; try reflexivity; apply (dofs_f Fr Fr_keeps (ro_val ro))).
  revert H. apply assemble_sizes. intros e k M He E. destruct kinds_ro as (K1 & K2 & K3).
  assert (FN : forall e, Fr e = Fn e -> f (Fr e) = f e) by (intros x ->; destruct Hf as [-> | ->]; [apply (kp_M _ Fn_keeps)|apply (kp_Ms _ Fn_keeps)]).
  unfold r_elements in He. rewrite !in_app_iff in He. destruct He as [He|[He|[He|He]]]; try (rewrite FN by auto; eauto; fail).
  destruct (brg_zero spl w e S H4 HT He) as (k' & M' & E1 & E2 & _). destruct (brgs4 H4 e He) as (t & sl & b & ->).
  assert (Q : forall b' : bearing, forall x, sized (brg_size (RB4 sl b')) x = Ok (k', M') -> k' = brg_size (RB4 sl b')) by (intros b' [y|] Hq; [injection Hq; auto|discriminate]).
  assert (KK : k = k').
  { assert (E0 : el_M spl w (EBrg t (RB4 sl b)) = Ok (k, M)) by (destruct Hf as [-> | ->]; [exact E|unfold el_M_sync in E; destruct (el_M _ _ _) as [[]|]; [exact E|discriminate]]).
    cbn [el_M] in E0. unfold sized in E0. destruct (bearing_M spl b w); [|discriminate]. injection E0 as <- _.
    destruct sl; cbn [Fr Fg Fn el_M] in E1; rewrite (Q _ _ E1); reflexivity. }
  subst k'. exists M'. destruct Hf as [-> | ->]; assumption.
Qed.
End Rebuilt.
