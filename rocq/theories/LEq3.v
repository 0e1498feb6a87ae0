(** Equal bearings are the same. *)
From Coq Require Import Reals Lra Lia String List Bool Arith.
From Verif Require Import PyBase PyDict MatBase MMaterial MShaft MDisk MBearing MRotor MDynamics MSave MEq SpecBearing SpecSave SpecEq LBearing LBearing2 LEq LEq2.
Import ListNotations.
Open Scope list_scope.
Open Scope R_scope.

Definition compared (o : obrg) : list string := filter (fun p => negb (String.eqb p "kwargs")) (bclass_params (brg_class o)).
Definition agree np (o o' : obrg) : Prop := forall k, In k (compared o) -> exists v w, dget (brg_attrs o) k = Some v /\ dget (brg_attrs o') k = Some w /\ arg_eq np k v w = Ok true.
Lemma arg_at np o o' k v w : agree np o o' -> In k (compared o) -> dget (brg_attrs o) k = Some v -> dget (brg_attrs o') k = Some w -> arg_eq np k v w = Ok true.
Proof. intros A H E E'. destruct (A k H) as (v' & w' & E1 & E2 & E3). congruence. Qed.
Lemma same_at np o o' k v w : agree np o o' -> In k (compared o) -> is_array k = false -> dget (brg_attrs o) k = Some v -> dget (brg_attrs o') k = Some w -> v = w.
Proof. intros A H N E E'. exact (arg_inj _ _ _ _ N (arg_at _ _ _ _ _ _ A H E E')). Qed.

Ltac at_ A k := eapply (fun H E E' => same_at _ _ _ k _ _ A H eq_refl E E'); [cbn; tauto|reflexivity|reflexivity].
Lemma base_same np o o' : sound (brg_of o) -> sound (brg_of o') -> agree np o o' ->
  In "color"%string (compared o) -> In "frequency"%string (compared o) -> (forall c, In (cname_str c) (compared o)) ->
  In "n"%string (compared o) -> In "n_link"%string (compared o) -> In "tag"%string (compared o) -> In "scale_factor"%string (compared o) -> brg_of o = brg_of o'.
Proof.
  intros S S' A IC IF IN I1 I2 I3 I4.
  assert (CO : forall c, fst (b_coef (brg_of o) c) = fst (b_coef (brg_of o') c)).
  { intros c. assert (E : TList (fst (b_coef (brg_of o) c)) = TList (fst (b_coef (brg_of o') c))) by (apply (same_at np o o' (cname_str c)); auto using get_coef; destruct c; reflexivity). congruence. }
  apply sound_same; auto.
  - assert (E : TInt (b_n (brg_of o)) = TInt (b_n (brg_of o'))) by (apply (same_at np o o' "n"); auto). congruence.
  - apply oInt_inj. apply (same_at np o o' "n_link"); auto.
  - apply oStr_inj. apply (same_at np o o' "tag"); auto.
  - assert (E : TStr (b_color (brg_of o)) = TStr (b_color (brg_of o'))) by (apply (same_at np o o' "color"); auto). congruence.
  - assert (E : TNum (b_scale_factor (brg_of o)) = TNum (b_scale_factor (brg_of o'))) by (apply (same_at np o o' "scale_factor"); auto). congruence.
  - assert (L : table_length (b_frequency (brg_of o)) = table_length (b_frequency (brg_of o'))) by (rewrite <- (sd_length _ S kxx), <- (sd_length _ S' kxx), CO; reflexivity).
    apply (freq_inj np "frequency" _ _ L eq_refl). apply (arg_at np o o' "frequency"); auto.
Qed.
Ltac mem := cbn; tauto.
Lemma pair_again freq k p p0 : process_coefficient freq k = Ok p0 -> p = p0 -> process_coefficient freq (CArr (fst p)) = Ok p.
Proof. intros E ->. exact (process_again _ _ _ E). Qed.
Lemma six_built b : built_brg (OBearing6 b) -> forall p, In p [b6_kzz b; b6_czz b; b6_mzz b] -> process_coefficient (b_frequency (b6 b)) (CArr (fst p)) = Ok p.
Proof.
  intros (a & k & c & m & b0 & I & (t & T) & EK & EC & EM). unfold bearing6_init in I. destruct (bearing_init a) as [bb|] eqn:B; [|discriminate]. cbn [bind] in I.
  destruct (process_coefficient _ k) as [pk|] eqn:PK; [|discriminate]. destruct (process_coefficient _ c) as [pc|] eqn:PC; [|discriminate]. destruct (process_coefficient _ m) as [pm|] eqn:PM; [|discriminate]. cbn [bind] in I.
  destruct (length_check _ _); [|discriminate]. injection I as <-. cbn [b6 b6_kzz b6_czz b6_mzz] in *. destruct (bearing_init_ok _ _ B) as (_ & _ & _ & _ & _ & F & _).
  rewrite T. cbn [b_frequency]. rewrite F. intros p [<-|[<-|[<-|[]]]]; [exact (pair_again _ _ _ _ PK EK)|exact (pair_again _ _ _ _ PC EC)|exact (pair_again _ _ _ _ PM EM)].
Qed.
Lemma brg_equal np o o' : built_brg o -> built_brg o' -> brg_class o = brg_class o' -> keeps_arguments o -> brg_class o <> BCylindrical -> brg_eq np o o' = Ok true -> o = o'.
Proof.
  intros B B' CL KA NC E. destruct (brg_parts np o o' CL E) as (A & AT). fold (compared o) in A. fold (agree np o o') in A.
  assert (S := built_sound _ B). assert (S' := built_sound _ B').
  destruct o as [b|s|b|a b|sp w l dd c v b|[] b], o' as [b'|s'|b'|a' b'|sp' w' l' dd' c' v' b'|[] b']; try discriminate CL; try contradiction KA; try (exfalso; apply NC; reflexivity); clear CL KA E.
  - f_equal. apply (base_same np (OBearing b) (OBearing b') S S' A); first [mem|intros []; mem].
  - assert (EB : sl_bearing s = sl_bearing s') by (apply (base_same np (OSeal s) (OSeal s') S S' A); first [mem|intros []; mem]).
    assert (EL : sl_leakage s = sl_leakage s') by (apply oNum_inj; apply (same_at np _ _ "seal_leakage" _ _ A); first [mem|reflexivity]).
    f_equal. destruct s, s'; cbn in *; congruence.
  - assert (EB : b6 b = b6 b') by (apply (base_same np (OBearing6 b) (OBearing6 b') S S' A); first [mem|intros []; mem]).
    assert (EK : TList (fst (b6_kzz b)) = TList (fst (b6_kzz b'))) by (apply (same_at np _ _ "kzz" _ _ A); first [mem|reflexivity]).
    assert (EC : TList (fst (b6_czz b)) = TList (fst (b6_czz b'))) by (apply (same_at np _ _ "czz" _ _ A); first [mem|reflexivity]).
    assert (EM : TList (fst (b6_mzz b)) = TList (fst (b6_mzz b'))) by (apply (same_at np _ _ "mzz" _ _ A); first [mem|reflexivity]).
    injection EK as EK. injection EC as EC. injection EM as EM.
    pose proof (six_built _ B) as P. pose proof (six_built _ B') as P'. rewrite <- EB in P'.
    assert (X : forall p p', In p [b6_kzz b; b6_czz b; b6_mzz b] -> In p' [b6_kzz b'; b6_czz b'; b6_mzz b'] -> fst p = fst p' -> p = p').
    { intros p p' H H' F. apply P in H. apply P' in H'. rewrite F, H' in H. congruence. }
    f_equal. destruct b as [b k c m], b' as [b' k' c' m']. cbn [b6 b6_kzz b6_czz b6_mzz] in *. subst b'. f_equal; apply X; auto; cbn; auto.
  - destruct (magnetic_built _ _ B) as (C1 & F1). destruct (magnetic_built _ _ B') as (C2 & F2). cbn [brg_of] in S, S'.
    assert (EB : b = b').
    { apply sound_same; auto; try congruence.
      - assert (E : TInt (b_n b) = TInt (b_n b')) by (apply (same_at np _ _ "n" _ _ A); first [mem|reflexivity]). congruence.
      - apply oInt_inj. apply (same_at np _ _ "n_link" _ _ A); first [mem|reflexivity].
      - apply oStr_inj. apply (same_at np _ _ "tag" _ _ A); first [mem|reflexivity].
      - assert (E : TNum (b_scale_factor b) = TNum (b_scale_factor b')) by (apply (same_at np _ _ "scale_factor" _ _ A); first [mem|reflexivity]). congruence.
      - intros c. apply (attr_inj np); [rewrite !sd_length by assumption; congruence|].
        assert (IC : In (cname_str c) (compared_attributes BMagnetic)) by (destruct c; mem).
        destruct (AT _ IC) as (v & w & E1 & E2 & E3). rewrite (get_coef (OMagnetic a b) c) in E1. rewrite (get_coef (OMagnetic a' b') c) in E2. cbn [brg_of] in E1, E2. congruence. }
    f_equal; [|exact EB]. destruct a as [x1 x2 x3 x4 x5 x6 x7 x8 x9], a' as [y1 y2 y3 y4 y5 y6 y7 y8 y9].
    f_equal; apply mag_inj;
      [apply (same_at np _ _ "g0" _ _ A)|apply (same_at np _ _ "i0" _ _ A)|apply (same_at np _ _ "ag" _ _ A)|apply (same_at np _ _ "nw" _ _ A)|apply (same_at np _ _ "alpha" _ _ A)
      |apply (same_at np _ _ "kp_pid" _ _ A)|apply (same_at np _ _ "kd_pid" _ _ A)|apply (same_at np _ _ "k_amp" _ _ A)|apply (same_at np _ _ "k_sense" _ _ A)]; first [mem|reflexivity].
Qed.
(** what two equal CylindricalBearings share *)
Lemma cyl_node np o o' : brg_class o = BCylindrical -> brg_class o' = BCylindrical -> brg_eq np o o' = Ok true -> b_n (brg_of o) = b_n (brg_of o').
Proof.
  intros C C' E. destruct (brg_parts np o o' (eq_trans C (eq_sym C')) E) as (A & _). fold (compared o) in A. fold (agree np o o') in A.
  assert (X : TInt (b_n (brg_of o)) = TInt (b_n (brg_of o'))).
  { apply (same_at np _ _ "n" _ _ A); [unfold compared; rewrite C; mem|reflexivity|reflexivity|reflexivity]. }
  congruence.
Qed.
