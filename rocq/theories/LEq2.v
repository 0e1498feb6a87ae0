(** Comparison of two bearings. *)
From Coq Require Import Reals Lra Lia String List Bool Arith.
From Verif Require Import PyBase PyDict MatBase MMaterial MShaft MDisk MBearing MRotor MDynamics MSave MEq SpecBearing SpecSave SpecEq LBearing LBearing2 LEq.
Import ListNotations.
Open Scope list_scope.
Open Scope R_scope.

Lemma brg_split np o o' d d' : py_eq np (IBrg o, d) (IBrg o', d') = if bclass_eqb (brg_class o) (brg_class o') then brg_eq np o o' else Ok false.
Proof.
  unfold py_eq, self_eq. cbn [fst snd obj_class proper_subclass]. unfold brg_eq, is_instance.
  destruct o as [b|s|b|a b|sp w l dd c v b|[] b], o' as [b'|s'|b'|a' b'|sp' w' l' d1' c' v' b'|[] b']; reflexivity.
Qed.

Lemma arg_any np k v w : is_array k = false -> exists c, arg_eq np k v w = Ok c.
Proof. intros A. unfold arg_eq. rewrite A. destruct v, w; eexists; reflexivity. Qed.
Lemma arg_speed np l l' : fit (length l) (length l') -> exists c, arg_eq np "speed" (TList l) (TList l') = Ok c.
Proof. intros F. destruct (broadcast_fit _ _ F) as (b & E). exists b. unfold arg_eq. cbn [is_array String.eqb Ascii.eqb Bool.eqb orb]. rewrite E. destruct np; reflexivity. Qed.
Lemma arg_freq np f f' : fit (table_length f) (table_length f') -> exists c, arg_eq np "frequency" (oList f) (oList f') = Ok c.
Proof.
  destruct f as [f|], f' as [f'|]; intros F; try (eexists; reflexivity). destruct (broadcast_fit _ _ F) as (b & E). exists b. unfold arg_eq, oList.
  cbn [is_array String.eqb Ascii.eqb Bool.eqb orb]. rewrite E. destruct np; reflexivity.
Qed.
Lemma attr_list np l l' : fit (length l) (length l') -> exists c, attr_eq np (TList l) (TList l') = Ok c.
Proof. intros F. destruct (broadcast_fit _ _ F) as (b & E). exists b. unfold attr_eq. rewrite E. destruct np; reflexivity. Qed.
Lemma attr_freq np f f' : fit (table_length f) (table_length f') -> exists c, attr_eq np (oList f) (oList f') = Ok c.
Proof. destruct f as [f|], f' as [f'|]; intros F; try (eexists; reflexivity). apply attr_list, F. Qed.

(** a value that is not a table *)
Definition plain_val (v : tval) : Prop := match v with TNone | TNum _ | TInt _ | TStr _ | TBool _ | TList _ => True | _ => False end.
Lemma arg_inj np k v w : is_array k = false -> arg_eq np k v w = Ok true -> v = w.
Proof.
  intros A. unfold arg_eq. rewrite A. destruct v, w; cbn [andb]; intros E; try discriminate; try reflexivity; injection E as E.
  all: first [apply req_iff in E|apply Nat.eqb_eq in E|apply Bool.eqb_prop in E|apply String.eqb_eq in E|apply reals_eq in E]; congruence.
Qed.
Lemma arg_refl np k v : plain_val v -> arg_eq np k v v = Ok true.
Proof.
  destruct v; cbn [plain_val]; try contradiction; intros _; unfold arg_eq; try reflexivity.
  1-4: f_equal; first [apply Nat.eqb_refl|apply Bool.eqb_reflx|apply String.eqb_refl|apply req_iff; reflexivity].
  - destruct (is_array k); [rewrite broadcast_same; destruct np; reflexivity|f_equal; apply reals_eq; reflexivity].
Qed.
Lemma attr_refl np v : match v with TNone | TList _ => True | _ => False end -> attr_eq np v v = Ok true.
Proof. destruct v; try contradiction; intros _; unfold attr_eq; [reflexivity|rewrite broadcast_same; destruct np; reflexivity]. Qed.

Ltac each H := cbn [filter bclass_params brg_class compared_attributes negb String.eqb Ascii.eqb Bool.eqb In] in H; repeat destruct H as [<-|H]; [..|destruct H].
Ltac field_get := do 2 eexists; split; [reflexivity|split; [reflexivity|]].

(** ** comparisons that end *)
Lemma coef_fit o o' c : sound (brg_of o) -> sound (brg_of o') -> fit (entries o) (entries o') ->
  fit (length (fst (b_coef (brg_of o) c))) (length (fst (b_coef (brg_of o') c))) /\ fit (table_length (b_frequency (brg_of o))) (table_length (b_frequency (brg_of o'))).
Proof. intros [_ L] [_ L']. unfold entries. rewrite !L, !L'. auto. Qed.

Lemma brg_ok np o o' : built_brg o -> built_brg o' -> brg_class o = brg_class o' -> keeps_arguments o -> tables_fit o o' -> exists c, brg_eq np o o' = Ok c.
Proof.
  intros B B' CL KA (FE & FX). assert (D := fun c => coef_fit o o' c (built_sound _ B) (built_sound _ B') FE). clear B B' FE.
  unfold brg_eq. rewrite <- CL. unfold is_instance. rewrite (proj2 (bclass_eqb_iff _ _) eq_refl), orb_true_r.
  destruct (args_ok np (brg_attrs o) (brg_attrs o') (filter (fun p => negb (String.eqb p "kwargs")) (bclass_params (brg_class o)))) as (c & ->).
  - intros k Hk. destruct o as [b|s|b|a b|sp w l dd cc v b|[] b], o' as [b'|s'|b'|a' b'|sp' w' l' dd' cc' v' b'|[] b']; try discriminate CL; try contradiction KA; clear CL KA;
      cbn [brg_of] in D; each Hk; field_get;
      first [apply arg_any; reflexivity | apply arg_freq; exact (proj2 (D kxx)) | apply arg_speed; exact FX].
  - cbn [bind]. destruct (attrs_ok np (brg_attrs o) (brg_attrs o') (compared_attributes (brg_class o))) as (c' & ->); [|eexists; reflexivity].
    intros k Hk. destruct o as [b|s|b|a b|sp w l dd cc v b|[] b], o' as [b'|s'|b'|a' b'|sp' w' l' dd' cc' v' b'|[] b']; try discriminate CL; try contradiction KA; clear CL KA;
      cbn [brg_of] in D; each Hk; field_get;
      first [apply attr_freq; exact (proj2 (D kxx)) | apply attr_list; first [exact (proj1 FX)|exact (proj1 (proj2 FX))|exact (proj2 (proj2 FX))|exact (proj1 (D _))]].
Qed.
Lemma brg_misfit np o o' : brg_class o = brg_class o' -> ~ fit (entries o) (entries o') -> exists e, brg_eq np o o' = Err e.
Proof.
  intros CL N. unfold brg_eq. rewrite <- CL. unfold is_instance. rewrite (proj2 (bclass_eqb_iff _ _) eq_refl), orb_true_r.
  destruct (args_eq _ _ _ _) as [c|e]; [|eexists; reflexivity]. cbn [bind].
  assert (E : exists e, attrs_eq np (brg_attrs o) (brg_attrs o') (compared_attributes (brg_class o)) = Err e).
  { destruct (compared_attributes (brg_class o)) as [|k ks] eqn:EC; [revert EC; destruct (brg_class o); discriminate|].
    assert (Ek : k = cname_str kxx) by (revert EC; destruct (brg_class o); intros EC; injection EC as <- _; reflexivity). rewrite Ek. cbn [attrs_eq].
    rewrite (get_coef o kxx), (get_coef o' kxx). unfold attr_eq. rewrite (broadcast_misfit _ _ N). destruct np; eexists; reflexivity. }
  destruct E as (e & ->). eexists. reflexivity.
Qed.
Lemma brg_plain np c b b' : brg_eq np (OPlain c b) (OPlain c b') = Err AttributeError.
Proof. destruct c; reflexivity. Qed.

(** ** when the comparison says yes *)
Lemma freq_inj np k f f' : table_length f = table_length f' -> is_array k = true -> arg_eq np k (oList f) (oList f') = Ok true -> f = f'.
Proof.
  intros L A. unfold arg_eq. destruct f as [f|], f' as [f'|]; cbn [oList table_length] in *; rewrite ?A; cbn [andb].
  - unfold broadcast_eq. rewrite L, Nat.eqb_refl. destruct np; intros E; injection E as E; apply reals_eq in E; congruence.
  - destruct f; discriminate.
  - destruct f'; discriminate.
  - reflexivity.
Qed.
Lemma attr_inj np l l' : length l = length l' -> attr_eq np (TList l) (TList l') = Ok true -> l = l'.
Proof. unfold attr_eq, broadcast_eq. intros ->. rewrite Nat.eqb_refl. destruct np; intros E; injection E as E; apply reals_eq, E. Qed.

Definition is_cyl (o : obrg) : Prop := brg_class o = BCylindrical.
Lemma brg_refl np o : keeps_arguments o -> brg_eq np o o = Ok true.
Proof.
  intros KA. unfold brg_eq, is_instance. rewrite (proj2 (bclass_eqb_iff _ _) eq_refl), orb_true_r.
  rewrite (proj2 (args_true np (brg_attrs o) (brg_attrs o) _)).
  - cbn [bind]. rewrite (proj2 (attrs_true np (brg_attrs o) (brg_attrs o) _)); [reflexivity|].
    intros k Hk. destruct o as [b|s|b|a b|sp w l dd c v b|[] b]; try contradiction KA; clear KA; each Hk; field_get; apply attr_refl;
      first [exact I | match goal with |- context [oList ?f] => destruct f; exact I end].
  - intros k Hk. destruct o as [b|s|b|a b|sp w l dd c v b|[] b]; try contradiction KA; clear KA; each Hk; field_get; apply arg_refl;
      first [exact I | match goal with |- context [oList ?f] => destruct f; exact I | |- context [oInt ?f] => destruct f; exact I | |- context [oStr ?f] => destruct f; exact I
            | |- context [oNum ?f] => destruct f; exact I | |- context [mag_val ?f] => destruct f; exact I end].
Qed.
Lemma brg_parts np o o' : brg_class o = brg_class o' -> brg_eq np o o' = Ok true ->
  (forall k, In k (filter (fun p => negb (String.eqb p "kwargs")) (bclass_params (brg_class o))) -> exists v w, dget (brg_attrs o) k = Some v /\ dget (brg_attrs o') k = Some w /\ arg_eq np k v w = Ok true) /\
  (forall k, In k (compared_attributes (brg_class o)) -> exists v w, dget (brg_attrs o) k = Some v /\ dget (brg_attrs o') k = Some w /\ attr_eq np v w = Ok true).
Proof.
  intros CL. unfold brg_eq. rewrite <- CL. unfold is_instance. rewrite (proj2 (bclass_eqb_iff _ _) eq_refl), orb_true_r.
  destruct (args_eq _ _ _ _) as [c|] eqn:A; [|discriminate]. cbn [bind]. destruct (attrs_eq _ _ _ _) as [c'|] eqn:B; [|discriminate]. cbn [bind]. intros E.
  injection E as E. apply andb_true_iff in E as (-> & ->). split; [apply args_true, A|apply attrs_true, B].
Qed.
Lemma oInt_inj a b : oInt a = oInt b -> a = b.
Proof. destruct a, b; cbn; congruence. Qed.
Lemma oStr_inj a b : oStr a = oStr b -> a = b.
Proof. destruct a, b; cbn; congruence. Qed.
Lemma oNum_inj a b : oNum a = oNum b -> a = b.
Proof. destruct a, b; cbn; congruence. Qed.
Lemma mag_inj a b : mag_val a = mag_val b -> a = b.
Proof. destruct a, b; cbn; congruence. Qed.
Lemma magnetic_built a b : built_brg (OMagnetic a b) -> b_color b = "#355d7a"%string /\ b_frequency b = None.
Proof.
  intros (n & t & l & sc & b0 & I & (t' & ->)). unfold magnetic_init in I. destruct (mag_coefs a) as [[[[x1 x2] x3] x4]|]; [|discriminate]. cbn [bind] in I.
  destruct (bearing_init_ok _ _ I) as (_ & _ & _ & C & _ & F & _). cbn [b_color b_frequency] in *. cbn in C, F. auto.
Qed.
