(** Lemmas for C58: every saveable element reads back. *)
From Coq Require Import Reals String Ascii List Bool Arith Lia Lra.
From Verif Require Import PyBase PyDict MatBase MMaterial MShaft MDisk MBearing LBearing LBearing2 MRotor MSave SpecSave LSave.
Import ListNotations.
Open Scope string_scope.
Open Scope list_scope.
Open Scope R_scope.

Lemma material_again m : built_material m -> mG_s m <> 0 -> material_init (mname m) (mrho m) (Some (mE m)) (Some (mG_s m)) None (mcolor m) = Ok m.
Proof.
  intros (name & rho & E & G & nu & color & H) NZ. unfold material_init in *.
  destruct (has_space name) eqn:S; [discriminate|].
  assert (X : forall m0, mE m0 / (2 * mG_s m0) - 1 = mPoisson m0 -> mG_s m0 <> 0 -> has_space (mname m0) = false ->
    (if has_space (mname m0) then Err ValueError else if negb (Nat.eqb (given (Some (mE m0)) + given (Some (mG_s m0)) + given None) 2) then Err ValueError else
     if Req_EM_T (2 * mG_s m0) 0 then Err ZeroDivision else Ok (mkMaterial (mname m0) (mrho m0) (mE m0) (mG_s m0) (mE m0 / (2 * mG_s m0) - 1) (mcolor m0))) = Ok m0).
  { intros m0 P N Q. rewrite Q. cbn [given Nat.add Nat.eqb negb]. destruct (Req_EM_T _ _); [lra|]. rewrite P. destruct m0; reflexivity. }
  destruct E as [e|], G as [g|], nu as [p|]; cbn [given Nat.add Nat.eqb negb] in H; try discriminate.
  - destruct (Req_EM_T _ _); [discriminate|]. injection H as <-. apply X; cbn [mname mG_s mE mPoisson] in *; auto.
  - destruct (Req_EM_T _ _) as [|N]; [discriminate|]. injection H as <-. apply X; cbn [mname mG_s mE mPoisson] in *; auto.
    assert (e <> 0). { intros ->. apply NZ. unfold Rdiv. ring. } field. repeat split; first [assumption|lra].
  - injection H as <-. apply X; cbn [mname mG_s mE mPoisson] in *; auto. field. assumption.
Qed.

(** one argument read from a saved section *)
Ltac got E := rewrite (saved_get _ _ _ E) by (cbn; tauto); cbn [option_map drop stored obj_attrs].

Lemma opt_saved {A} (conv : tval -> res A) o d k dflt v : section_of o = Ok d -> In k (obj_args o) -> dget (obj_attrs o) k = Some v -> is_none (stored o k v) = false ->
  opt conv (dump_section d) k dflt = conv (stored o k v).
Proof. intros E H G N. unfold opt. rewrite (saved_get _ _ _ E H), G. cbn [option_map drop]. destruct (stored o k v); try discriminate; reflexivity. Qed.
Lemma need_saved {A} (conv : tval -> res A) o d k v : section_of o = Ok d -> In k (obj_args o) -> dget (obj_attrs o) k = Some v -> is_none (stored o k v) = false ->
  need conv (dump_section d) k = conv (stored o k v).
Proof. intros E H G N. unfold need. rewrite (saved_get _ _ _ E H), G. cbn [option_map drop]. destruct (stored o k v); try discriminate; reflexivity. Qed.
(** an optional argument, stored as None or as a value *)
Lemma opt_none {A} (conv : tval -> res A) o d k (x : option A) (f : A -> tval) (g : option A -> tval) : section_of o = Ok d -> In k (obj_args o) ->
  dget (obj_attrs o) k = Some (g x) -> g None = TNone -> (forall a, g (Some a) = f a) -> stored o k TNone = TNone ->
  (forall a, x = Some a -> is_none (stored o k (f a)) = false /\ conv (stored o k (f a)) = Ok a) ->
  opt (some conv) (dump_section d) k None = Ok x.
Proof.
  intros E H G N S0 ST C. unfold opt. rewrite (saved_get _ _ _ E H), G. cbn [option_map]. destruct x as [a|].
  - destruct (C a eq_refl) as (I & V). rewrite S0. unfold drop, some. destruct (stored o k (f a)) eqn:Es; try discriminate; rewrite V; reflexivity.
  - rewrite N, ST. reflexivity.
Qed.

Ltac args := cbn; tauto.
Ltac rd_opt E := rewrite (opt_saved _ _ _ _ _ _ E); [|args|reflexivity|reflexivity].
Ltac rd_need E := rewrite (need_saved _ _ _ _ _ E); [|args|reflexivity|reflexivity].

Lemma load_mat_saved s d : section_of (IShaft s) = Ok d -> built_material (s_material (os_s s)) -> mG_s (s_material (os_s s)) <> 0 -> load_mat (dump_section d) = Ok (s_material (os_s s)).
Proof.
  intros E B N. unfold load_mat.
  assert (G : dget (dump_section d) "material" = Some (material_table (s_material (os_s s)))).
  { rewrite (saved_get _ _ _ E); [reflexivity|]. unfold obj_args, obj_class. destruct (os_six s); cbn; tauto. }
  rewrite G. unfold material_table. cbn [need opt dget String.eqb Ascii.eqb Bool.eqb as_str as_num bind some]. exact (material_again _ B N).
Qed.

Lemma shaft_again a s s' meth : shaft_init a = Ok s -> a_method a = meth -> same_but_place s s' ->
  shaft_init (mkShaftArgs (s_L s') (s_idl s') (s_odl s') (Some (s_idr s')) (Some (s_odr s')) (Some (s_material s')) (s_n s') (s_axial_force s') (s_torque s')
    (s_shear_effects s') (s_rotary_inertia s') (s_gyroscopic s') meth (s_tag s') (s_alpha s') (s_beta s')) = Ok s'.
Proof.
  intros I M (n & t & ->). cbn. destruct a as [L idl odl idr odr mt an af tq se ri gy me tg al be]. cbn [a_method] in M. subst me.
  unfold shaft_init in *. cbn [a_L a_idl a_odl a_idr a_odr a_material a_n a_axial_force a_torque a_shear_effects a_rotary_inertia a_gyroscopic a_method a_tag a_alpha a_beta] in *.
  destruct mt as [mt|]; [|discriminate]. cbv zeta in *. destruct se.
  - destruct (shear_kappa meth _ _ _ _ _) as [ka|] eqn:K; [|discriminate]. injection I as <-. cbn [default s_material s_L s_idl s_odl s_idr s_odr s_shear_effects s_axial_force s_torque s_rotary_inertia s_gyroscopic s_alpha s_beta s_n s_tag].
    rewrite K. reflexivity.
  - injection I as <-. reflexivity.
Qed.

Lemma args_shaft s : obj_args (IShaft s) = class_params CShaft.
Proof. unfold obj_args, obj_class. destruct (os_six s); reflexivity. Qed.
Lemma read_shaft s d : built_shaft s -> mG_s (s_material (os_s s)) <> 0 -> section_of (IShaft s) = Ok d ->
  read_data (obj_class (IShaft s)) (dump_section d) = Ok (IShaft s).
Proof.
  intros (BM & a & s0 & M & I & SP) N E. pose proof (args_shaft s) as AS.
  assert (L : load_shaft (os_six s) (dump_section d) = Ok s).
  { unfold load_shaft. rewrite (load_mat_saved _ _ E BM N). cbn [bind].
    assert (O : forall k, In k (class_params CShaft) -> In k (obj_args (IShaft s))) by (intros; rewrite AS; assumption).
    do 3 (rewrite (need_saved _ _ _ _ _ E) by (try (apply O; args); reflexivity); cbn [stored String.eqb Ascii.eqb Bool.eqb as_num bind]).
    rewrite (opt_saved _ _ _ "idr" _ _ E) by (try (apply O; args); reflexivity). cbn [stored String.eqb Ascii.eqb Bool.eqb some as_num bind].
    rewrite (opt_saved _ _ _ "odr" _ _ E) by (try (apply O; args); reflexivity). cbn [stored String.eqb Ascii.eqb Bool.eqb some as_num bind].
    rewrite (opt_none as_int _ _ "n" (s_n (os_s s)) TInt oInt E) by (try (apply O; args); try reflexivity; intros ? _; split; reflexivity). cbn [bind].
    do 6 (rewrite (opt_saved _ _ _ _ _ _ E) by (try (apply O; args); reflexivity); cbn [stored String.eqb Ascii.eqb Bool.eqb as_num as_bool as_meth bind]).
    rewrite (opt_none as_str _ _ "tag" (s_tag (os_s s)) TStr oStr E) by (try (apply O; args); try reflexivity; intros ? _; split; reflexivity). cbn [bind].
    do 2 (rewrite (opt_saved _ _ _ _ _ _ E) by (try (apply O; args); reflexivity); cbn [stored String.eqb Ascii.eqb Bool.eqb as_num bind]).
    replace (if String.eqb (meth_str (os_meth s)) "hutchinson" then Hutchinson else if String.eqb (meth_str (os_meth s)) "cowper" then Cowper else OtherMethod) with (os_meth s) by (destruct (os_meth s); reflexivity).
    rewrite (shaft_again a s0 (os_s s) (os_meth s) I M SP). cbn [bind]. destruct s; reflexivity. }
  assert (A : forall c, class_params c = class_params CShaft -> accepts (class_params c) (dump_section d) = true).
  { intros c Hc. apply (accepts_saved _ _ _ E). intros k Hk. rewrite AS in Hk. rewrite Hc. exact Hk. }
  unfold read_data, obj_class. destruct (os_six s); rewrite (load_mat_saved _ _ E BM N); cbn [bind]; rewrite A by reflexivity; rewrite L; reflexivity.
Qed.

Ltac names := cbn [stored String.eqb Ascii.eqb Bool.eqb as_num as_int as_bool as_str as_list as_coef as_mag some plain_list bind].
Lemma read_disk s d : section_of (IDisk s) = Ok d -> read_data (obj_class (IDisk s)) (dump_section d) = Ok (IDisk s).
Proof.
  intros E. assert (AS : obj_args (IDisk s) = class_params CDisk) by (unfold obj_args, obj_class; destruct (od_six s); reflexivity).
  assert (O : forall k, In k (class_params CDisk) -> In k (obj_args (IDisk s))) by (intros; rewrite AS; assumption).
  assert (L : load_disk (od_six s) (dump_section d) = Ok s).
  { unfold load_disk. do 4 (rewrite (need_saved _ _ _ _ _ E) by (try (apply O; args); reflexivity); names).
    rewrite (opt_none as_str _ _ "tag" (d_tag (od_d s)) TStr oStr E) by (try (apply O; args); try reflexivity; intros ? _; split; reflexivity). names.
    do 2 (rewrite (opt_saved _ _ _ _ _ _ E) by (try (apply O; args); reflexivity); names). destruct s as [? [] ? ?]; reflexivity. }
  assert (A : forall c, class_params c = class_params CDisk -> accepts (class_params c) (dump_section d) = true).
  { intros c Hc. apply (accepts_saved _ _ _ E). intros k Hk. rewrite AS in Hk. rewrite Hc. exact Hk. }
  unfold read_data, obj_class. destruct (od_six s); rewrite A by reflexivity; rewrite L; reflexivity.
Qed.

Lemma read_pm p d : built_pm p -> op_six p = false -> section_of (IPm p) = Ok d -> read_data (obj_class (IPm p)) (dump_section d) = Ok (IPm p).
Proof.
  intros (n & m & mx & my & mz & t & p0 & I & M & t' & P) S E.
  assert (AS : obj_args (IPm p) = class_params CPm) by (unfold obj_args, obj_class; rewrite S; reflexivity).
  assert (AT : obj_attrs (IPm p) = [("m", oNum (op_m p)); ("n", TInt (p_n (op_p p))); ("mx", TNum (p_mx (op_p p))); ("my", TNum (p_my (op_p p))); ("tag", oStr (p_tag (op_p p))); ("color", TStr (op_color p))]) by (unfold obj_attrs, pm_attrs; rewrite S; reflexivity).
  assert (O : forall k, In k (class_params CPm) -> In k (obj_args (IPm p))) by (intros; rewrite AS; assumption).
  assert (Z : p_mz (op_p p) = 0).
  { rewrite P. rewrite S in I. unfold pmass_init in I. cbn [p_mz]. destruct (match mx, my with None, None => (m, m) | _, _ => (mx, my) end) as (a, b). destruct (to_float a); [|discriminate]. destruct (to_float b); [|discriminate]. cbn [bind] in I. injection I as <-. reflexivity. }
  assert (L : load_pm false (dump_section d) = Ok p).
  { unfold load_pm. rewrite (need_saved _ _ _ _ _ E) by (try (apply O; args); rewrite ?AT; reflexivity). names.
    rewrite (opt_none as_num _ _ "m" (op_m p) TNum oNum E) by (try (apply O; args); rewrite ?AT; try reflexivity; intros ? _; split; reflexivity). names.
    do 2 (rewrite (opt_saved _ _ _ _ _ _ E) by (try (apply O; args); rewrite ?AT; reflexivity); names).
    unfold opt at 1. rewrite (saved_no _ _ "mz" E) by (rewrite AS; reflexivity). names.
    rewrite (opt_none as_str _ _ "tag" (p_tag (op_p p)) TStr oStr E) by (try (apply O; args); rewrite ?AT; try reflexivity; intros ? _; split; reflexivity). names.
    rewrite (opt_saved _ _ _ _ _ _ E) by (try (apply O; args); rewrite ?AT; reflexivity). names. unfold pmass_init. cbn [to_float bind]. rewrite <- Z. destruct p as [six [] pm col]; cbn in *. subst six. reflexivity. }
  unfold read_data, obj_class. rewrite S. change (class_params CPm) with (class_params (if op_six p then CPm6 else CPm)) || idtac.
  rewrite (accepts_saved _ _ CPm E) by (intros k Hk; rewrite AS in Hk; exact Hk). rewrite L. reflexivity.
Qed.

(** ** bearings *)
Definition base_keys : list string := ["n"; "kxx"; "cxx"; "mxx"; "kyy"; "kxy"; "kyx"; "cyy"; "cxy"; "cyx"; "myy"; "mxy"; "myx"; "frequency"; "tag"; "n_link"; "scale_factor"; "color"].
Lemma dget_app {A} (d e : dict A) k v : dget d k = Some v -> dget (d ++ e) k = Some v.
Proof. induction d as [|(q, w) d IH]; cbn [dget app]; [discriminate|]. destruct (String.eqb k q); auto. Qed.
Lemma plain_str s : s <> "" -> plain_list (TStr s) = TStr s.
Proof. destruct s; [congruence|reflexivity]. Qed.

Lemma load_base o d col : section_of (IBrg o) = Ok d -> (forall k, In k base_keys -> In k (obj_args (IBrg o))) ->
  b_tag (brg_of o) <> Some "" -> b_color (brg_of o) <> "" -> load_bargs col (dump_section d) = Ok (bearing_saved (brg_of o)).
Proof.
  intros E O T C. set (b := brg_of o) in *.
  assert (G : forall k v, dget (base_dict b) k = Some v -> dget (obj_attrs (IBrg o)) k = Some v) by (intros; apply dget_app; assumption).
  assert (Q : forall c, dget (base_dict b) (cname_str c) = Some (TList (fst (b_coef b c)))) by (intros []; reflexivity).
  unfold load_bargs.
  rewrite (need_saved _ _ _ "n" _ E) by (first [apply O; args|apply G; reflexivity|reflexivity]). names.
  rewrite (need_saved _ _ _ "kxx" _ E) by (first [apply O; args|apply G, (Q kxx)|reflexivity]). names.
  rewrite (need_saved _ _ _ "cxx" _ E) by (first [apply O; args|apply G, (Q cxx)|reflexivity]). names.
  rewrite (opt_saved _ _ _ "mxx" _ _ E) by (first [apply O; args|apply G, (Q mxx)|reflexivity]). names.
  rewrite (opt_saved _ _ _ "kyy" _ _ E) by (first [apply O; args|apply G, (Q kyy)|reflexivity]). names.
  rewrite (opt_saved _ _ _ "kxy" _ _ E) by (first [apply O; args|apply G, (Q kxy)|reflexivity]). names.
  rewrite (opt_saved _ _ _ "kyx" _ _ E) by (first [apply O; args|apply G, (Q kyx)|reflexivity]). names.
  rewrite (opt_saved _ _ _ "cyy" _ _ E) by (first [apply O; args|apply G, (Q cyy)|reflexivity]). names.
  rewrite (opt_saved _ _ _ "cxy" _ _ E) by (first [apply O; args|apply G, (Q cxy)|reflexivity]). names.
  rewrite (opt_saved _ _ _ "cyx" _ _ E) by (first [apply O; args|apply G, (Q cyx)|reflexivity]). names.
  rewrite (opt_saved _ _ _ "myy" _ _ E) by (first [apply O; args|apply G, (Q myy)|reflexivity]). names.
  rewrite (opt_saved _ _ _ "mxy" _ _ E) by (first [apply O; args|apply G, (Q mxy)|reflexivity]). names.
  rewrite (opt_saved _ _ _ "myx" _ _ E) by (first [apply O; args|apply G, (Q myx)|reflexivity]). names.
  rewrite (opt_none as_list _ _ "frequency" (b_frequency b) TList oList E) by (first [apply O; args|apply G; reflexivity|reflexivity|intros ? _; split; reflexivity]). names.
  rewrite (opt_none as_str _ _ "tag" (b_tag b) TStr oStr E);
    [|apply O; args|apply G; reflexivity|reflexivity|reflexivity|reflexivity|intros a Ha; cbn [stored]; rewrite plain_str by congruence; split; reflexivity]. names.
  rewrite (opt_none as_int _ _ "n_link" (b_n_link b) TInt oInt E) by (first [apply O; args|apply G; reflexivity|reflexivity|intros ? _; split; reflexivity]). names.
  rewrite (opt_saved _ _ _ "scale_factor" _ _ E) by (first [apply O; args|apply G; reflexivity|reflexivity]). names.
  rewrite (opt_saved _ _ _ "color" (TStr (b_color b)) _ E) || rewrite (opt_saved _ _ _ "color" _ (TStr (b_color b)) E) by (first [apply O; args|apply G; reflexivity|cbn [stored]; rewrite plain_str by assumption; reflexivity]).
  cbn [stored]. rewrite plain_str by assumption. names. reflexivity.
Qed.

Lemma saved_again a b0 b : bearing_init a = Ok b0 -> same_but_tag b0 b -> bearing_init (bearing_saved b) = Ok b.
Proof.
  intros I (t & ->). pose proof (reload_same _ _ I) as RS. clear I. unfold bearing_reload, bearing_init in *.
  change (resolve (bearing_saved (mkBearing (b_n b0) (b_n_link b0) t (b_color b0) (b_scale_factor b0) (b_frequency b0) (b_coef b0)))) with (resolve (bearing_saved b0)).
  change (ba_frequency (bearing_saved (mkBearing (b_n b0) (b_n_link b0) t (b_color b0) (b_scale_factor b0) (b_frequency b0) (b_coef b0)))) with (ba_frequency (bearing_saved b0)).
  destruct (process_all _ _ _) as [ps|]; [|discriminate]. cbn [bind] in *. destruct (length_check _ _); [|discriminate].
  assert (CO : (fun c => nth (cindex c) ps ([], INone)) = b_coef b0) by exact (f_equal (fun r => match r with Ok b => b_coef b | Err _ => fun _ => ([], INone) end) RS).
  rewrite CO. reflexivity.
Qed.
Lemma seal_again a lk s0 s : seal_init a lk = Ok s0 -> same_but_tag (sl_bearing s0) (sl_bearing s) -> sl_leakage s = lk ->
  seal_init (bearing_saved (sl_bearing s)) lk = Ok (mkSeal (half (sl_bearing s)) lk).
Proof.
  intros I S L. unfold seal_init in I. destruct (bearing_init _) as [b|] eqn:B; [|discriminate]. cbn [bind] in I. injection I as <-. cbn [sl_bearing] in S.
  pose proof (saved_again _ _ _ B S) as RS. unfold seal_init.
  fold (args_scale (bearing_saved (sl_bearing s)) (ba_scale_factor (bearing_saved (sl_bearing s)) / 2)).
  rewrite (init_scale _ _ (ba_scale_factor (bearing_saved (sl_bearing s)) / 2) RS). reflexivity.
Qed.
Lemma bearing6_again a k c m b0 b : bearing6_init a k c m = Ok b0 -> same_but_tag (b6 b0) (b6 b) -> b6_kzz b = b6_kzz b0 -> b6_czz b = b6_czz b0 -> b6_mzz b = b6_mzz b0 ->
  bearing6_init (bearing_saved (b6 b)) (CArr (fst (b6_kzz b))) (CArr (fst (b6_czz b))) (CArr (fst (b6_mzz b))) = Ok b.
Proof.
  unfold bearing6_init. intros I S HK HC HM. destruct (bearing_init a) as [bb|] eqn:B; [|discriminate]. cbn [bind] in I.
  destruct (process_coefficient (ba_frequency a) k) as [pk|] eqn:PK; [|discriminate]. destruct (process_coefficient (ba_frequency a) c) as [pc|] eqn:PC; [|discriminate].
  destruct (process_coefficient (ba_frequency a) m) as [pm|] eqn:PM; [|discriminate]. cbn [bind] in I. destruct (length_check _ _) eqn:LC; [|discriminate]. injection I as <-.
  cbn [b6 b6_kzz b6_czz b6_mzz] in *. rewrite (saved_again _ _ _ B S). cbn [bind].
  assert (F : ba_frequency (bearing_saved (b6 b)) = ba_frequency a).
  { destruct S as (t & S). rewrite S. cbn. destruct (bearing_init_ok _ _ B) as (_ & _ & _ & _ & _ & F & _). exact F. }
  rewrite F, HK, HC, HM, (process_again _ _ _ PK), (process_again _ _ _ PC), (process_again _ _ _ PM). cbn [bind]. rewrite LC. destruct b; cbn in *; congruence.
Qed.
Lemma magnetic_again a n t l sc b0 b : magnetic_init a n t l sc = Ok b0 -> same_but_tag b0 b -> magnetic_init a (b_n b) (b_tag b) (b_n_link b) (b_scale_factor b) = Ok b.
Proof.
  unfold magnetic_init. intros I (t' & ->). destruct (mag_coefs a) as [[[[x1 x2] x3] x4]|]; [|discriminate]. cbn [bind b_n b_tag b_n_link b_scale_factor] in *.
  unfold bearing_init in *.
  match goal with H : context [process_all ?f (resolve ?x) cnames] |- context [process_all ?f' (resolve ?y) cnames] => change f' with f; change (resolve y) with (resolve x) end.
  destruct (process_all _ _ _) as [ps|]; [|discriminate]. cbn [bind] in *. destruct (length_check _ _) eqn:LC; [|discriminate].
  injection I as <-. reflexivity.
Qed.
Lemma need_mag o d k x : section_of (IBrg o) = Ok d -> In k (obj_args (IBrg o)) -> dget (obj_attrs (IBrg o)) k = Some (mag_val x) -> need as_mag (dump_section d) k = Ok x.
Proof. intros E H G. rewrite (need_saved _ _ _ k _ E H G) by (destruct x; reflexivity). destruct x; reflexivity. Qed.

Lemma read_brg o d : built_brg o -> saveable (IBrg o) -> loadable (IBrg o) -> section_of (IBrg o) = Ok d -> read_data (obj_class (IBrg o)) (dump_section d) = Ok (back (IBrg o)).
Proof.
  intros B SV LD E. destruct o as [b|s|b|a b|sp w l di c v b|c b]; cbn [saveable] in SV; try contradiction; cbn [loadable] in LD; try contradiction; destruct LD as (T & C); cbn [brg_of] in T, C;
    unfold read_data, obj_class, brg_class, load_brg.
  - change (accepts (bclass_params BBearing) (dump_section d)) with true. cbn [negb]. rewrite (load_base _ _ _ E) by (try assumption; cbn; tauto). cbn [bind brg_of].
    destruct B as (a & b0 & I & S). cbn [brg_of] in S. rewrite (saved_again _ _ _ I S). reflexivity.
  - change (accepts (bclass_params BSeal) (dump_section d)) with true. cbn [negb]. rewrite (load_base _ _ _ E) by (try assumption; cbn; tauto). cbn [bind brg_of].
    rewrite (opt_none as_num _ _ "seal_leakage" (sl_leakage s) TNum oNum E) by (try (cbn; tauto); try reflexivity; intros ? _; split; reflexivity). cbn [bind].
    destruct B as (a & lk & s0 & I & S & L). rewrite L. rewrite (seal_again _ _ _ _ I S L). cbn [bind back back_brg]. rewrite L. reflexivity.
  - assert (A : accepts (bclass_params B6DoF) (dump_section d) = true). { apply (accepts_saved _ _ (CB B6DoF) E). intros k Hk. cbn in Hk |- *. tauto. }
    rewrite A. cbn [negb]. rewrite (load_base _ _ _ E) by (try assumption; cbn; tauto). cbn [bind brg_of].
    do 3 (rewrite (opt_saved _ _ _ _ _ _ E) by (try (cbn; tauto); reflexivity); names).
    destruct B as (a & k & c & m & b0 & I & S & H1 & H2 & H3). rewrite (bearing6_again _ _ _ _ _ _ I S H1 H2 H3). reflexivity.
  - change (accepts (bclass_params BMagnetic) (dump_section d)) with true. cbn [negb]. unfold load_magnetic.
    rewrite (need_saved _ _ _ "n" _ E) by (try (cbn; tauto); reflexivity). names.
    rewrite (need_mag _ _ "g0" (g0 a) E) by (first [reflexivity|cbn; tauto]). cbn [bind].
    rewrite (need_mag _ _ "i0" (i0 a) E) by (first [reflexivity|cbn; tauto]). cbn [bind].
    rewrite (need_mag _ _ "ag" (ag a) E) by (first [reflexivity|cbn; tauto]). cbn [bind].
    rewrite (need_mag _ _ "nw" (nw a) E) by (first [reflexivity|cbn; tauto]). cbn [bind].
    rewrite (need_mag _ _ "alpha" (malpha a) E) by (first [reflexivity|cbn; tauto]). cbn [bind].
    rewrite (need_mag _ _ "kp_pid" (kp_pid a) E) by (first [reflexivity|cbn; tauto]). cbn [bind].
    rewrite (need_mag _ _ "kd_pid" (kd_pid a) E) by (first [reflexivity|cbn; tauto]). cbn [bind].
    rewrite (need_mag _ _ "k_amp" (k_amp a) E) by (first [reflexivity|cbn; tauto]). cbn [bind].
    rewrite (need_mag _ _ "k_sense" (k_sense a) E) by (first [reflexivity|cbn; tauto]). cbn [bind].
    rewrite (opt_none as_str _ _ "tag" (b_tag b) TStr oStr E);
      [|cbn; tauto|reflexivity|reflexivity|reflexivity|reflexivity|intros x Hx; cbn [stored]; rewrite plain_str by congruence; split; reflexivity]. names.
    rewrite (opt_none as_int _ _ "n_link" (b_n_link b) TInt oInt E) by (try (cbn; tauto); try reflexivity; intros ? _; split; reflexivity). names.
    rewrite (opt_saved _ _ _ "scale_factor" _ _ E) by (try (cbn; tauto); reflexivity). names.
    destruct B as (n & t & l & sc & b0 & I & S). cbv zeta. replace (mkMag (g0 a) (i0 a) (ag a) (nw a) (malpha a) (kp_pid a) (kd_pid a) (k_amp a) (k_sense a)) with a by (destruct a; reflexivity).
    rewrite (magnetic_again _ _ _ _ _ _ _ I S). reflexivity.
Qed.

Lemma read_back o d : built o -> saveable o -> loadable o -> section_of o = Ok d -> read_data (obj_class o) (dump_section d) = Ok (back o).
Proof.
  destruct o as [s|s|b|p]; cbn [built]; intros B SV LD E.
  - exact (read_shaft _ _ B LD E).
  - exact (read_disk _ _ E).
  - exact (read_brg _ _ B SV LD E).
  - exact (read_pm _ _ B SV E).
Qed.

(** ** which classes can be saved *)
Lemma section_ok o : saveable o <-> is_ok (section_of o).
Proof.
  unfold is_ok. destruct o as [s|s|[b|s|b|a b|sp w l di c v b|c b]|p]; cbn [saveable].
  - split; [intros _|trivial]. unfold section_of, obj_class. destruct (os_six s); eexists; reflexivity.
  - split; [intros _|trivial]. unfold section_of, obj_class. destruct (od_six s); eexists; reflexivity.
  - split; [intros _|trivial]. eexists; reflexivity.
  - split; [intros _|trivial]. eexists; reflexivity.
  - split; [intros _|trivial]. eexists; reflexivity.
  - split; [intros _|trivial]. eexists; reflexivity.
  - split; [intros _|trivial]. eexists; reflexivity.
  - split; [intros []|]. intros (d & H). destruct c; discriminate H.
  - unfold section_of, obj_class, pm_attrs. destruct (op_six p).
    + split; [discriminate|]. intros (d & H). discriminate H.
    + split; [intros _; eexists; reflexivity|reflexivity].
Qed.
Lemma section_err o : ~ saveable o -> section_of o = Err (match o with IBrg _ => KeyError | _ => AttributeError end).
Proof.
  destruct o as [s|s|[b|s|b|a b|sp w l di c v b|c b]|p]; cbn [saveable]; intros H; try (destruct H; exact I).
  - destruct c; reflexivity.
  - unfold section_of, obj_class, pm_attrs. destruct (op_six p); [reflexivity|destruct H; reflexivity].
Qed.
