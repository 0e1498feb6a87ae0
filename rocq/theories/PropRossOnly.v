(** Property C87: what Rotor.to_ross_only keeps of a rotor and what it drops. *)
From Coq Require Import Reals String List Bool Arith Lia Lra.
From Coquelicot Require Import Complex.
From Verif Require Import PyBase MatBase MMaterial MShaft MDisk MBearing SpecBearing LBearing2 MRotor SpecRotor LRotor LRotor2 LRotor6 LRotorInit2 LRotorInit LRotorEx MDynamics MSave SpecSave LSave LSave2 LSave3 LSave4 PropSave LUcs LUcsEx MRossOnly SpecRossOnly LRossOnly.
Import ListNotations.
Open Scope list_scope.
Open Scope R_scope.

(** Every bearing or seal made by a constructor of the package is converted, and what replaces it has its place and its stiffness and damping tables. *)
Theorem C87_bearing : forall o, built (IBrg o) -> exists o', ross_brg o = Ok o' /\ stands_for o o' /\ built (IBrg o').
Proof.
  intros o B. exists (conv o). split; [exact (ross_brg_ok o B)|]. split; [exact (conv_stands o B)|].
  pose proof (built_base o B) as BB. assert (S : forall b, same_but_tag b b) by (intros []; eexists; reflexivity).
  destruct o; try (exists (ross_args (brg_of (conv (OBearing b)))); fail).
  2:{ exists (ross_args (sl_bearing s)), (sl_leakage s), (mkSeal (rossb (1 / 2) (sl_bearing s)) (sl_leakage s)). split; [|split; [apply S|reflexivity]].
      unfold seal_init. fold (args_scale (ross_args (sl_bearing s)) (ba_scale_factor (ross_args (sl_bearing s)) / 2)). rewrite ross_init by exact BB. reflexivity. }
  all: cbn [conv built built_brg brg_of] in *; match goal with |- built_bearing (rossb 1 ?x) => exists (ross_args x), (rossb 1 x); split; [exact (ross_init x 1 BB)|apply S] end.
Qed.

Section Built.
Variables (sh : list oshaft) (dk : list odisk) (br : list obrg) (pm : list opm) (mn mx rt : option R) (tag : option string) (r : robj).
Hypothesis Hr : robj_init sh dk br pm mn mx rt tag = Ok r.
Hypothesis Hb : forall o, In o br -> built (IBrg o).

(** A 4-dof rotor is always converted. Shaft elements, disks, point masses, speeds and tag are kept; bearing by bearing the new one stands for the old
    one; the stiffness, damping and gyroscopic matrices are the same at every frequency, and so are the positions, masses and sizes. *)
Theorem C87_rotor : r_nd (ro_val r) = 4%nat -> exists r', to_ross_only r = Ok r' /\
  ro_sh r' = ro_sh r /\ ro_dk r' = ro_dk r /\ ro_pm r' = ro_pm r /\ (ro_min r', ro_max r', ro_rated r', ro_tag r') = (ro_min r, ro_max r, ro_rated r, ro_tag r) /\
  Forall2 stands_for (ro_br r) (ro_br r') /\
  (forall spl w ignore, rotor_K spl (ro_val r') w ignore = rotor_K spl (ro_val r) w ignore) /\ (forall spl w ignore, rotor_C spl (ro_val r') w ignore = rotor_C spl (ro_val r) w ignore) /\
  (forall spl, rotor_G spl (ro_val r') = rotor_G spl (ro_val r)) /\
  (r_nd (ro_val r'), r_n_last (ro_val r'), r_ndof (ro_val r'), r_nodes_pos (ro_val r'), r_m (ro_val r'), r_CG (ro_val r'), r_Ip (ro_val r')) =
  (r_nd (ro_val r), r_n_last (ro_val r), r_ndof (ro_val r), r_nodes_pos (ro_val r), r_m (ro_val r), r_CG (ro_val r), r_Ip (ro_val r)).
Proof.
  intros H4. exists (rossr r). split; [exact (rossr_ok _ _ _ _ _ _ _ _ _ Hr Hb H4)|]. repeat (split; [reflexivity|]). destruct (same_f_but_mass Fr Fr_keeps (ro_val r)) as (HK & HC & HG & _).
  split; [|repeat (split; [assumption|]); reflexivity].
  cbn [rossr ro_br]. pose proof (built_ro _ _ _ _ _ _ _ _ _ Hr Hb) as B. revert B. generalize (ro_br r). clear. induction l as [|o l IH]; intros B; constructor.
  - apply conv_stands, B. simpl; auto.
  - apply IH. intros; apply B; simpl; auto.
Qed.
(** If no bearing has mass coefficients the new rotor computes what the old one computes. *)
Theorem C87_massless_same : r_nd (ro_val r) = 4%nat -> (forall o, In o (ro_br r) -> massless o) -> exists r', to_ross_only r = Ok r' /\ same_rotor (ro_val r) (ro_val r').
Proof.
  intros H4 HM. exists (rossr r). split; [exact (rossr_ok _ _ _ _ _ _ _ _ _ Hr Hb H4)|]. destruct (same_f_but_mass Fr Fr_keeps (ro_val r)) as (HK & HC & HG & HS).
  destruct (mass_same _ _ _ _ _ _ _ _ _ Hr Hb H4 HM) as (M1 & M2). constructor; auto.
Qed.
(** Otherwise the masses of the bearings are gone: the mass matrix of the new rotor, also the one for synchronous whirl, is that of the rotor without
    any bearing (for increasing tables and the spline of scipy). *)
Theorem C87_mass_gone : r_nd (ro_val r) = 4%nat -> (forall o, In o (ro_br r) -> increasing_table o) -> forall r', to_ross_only r = Ok r' ->
  forall spl w A, smoothing_spline spl ->
  (is_ok (rotor_M spl (ro_val r) w) -> is_ok (rotor_M spl (ro_val r') w)) /\ (is_ok (rotor_M_sync spl (ro_val r) w) -> is_ok (rotor_M_sync spl (ro_val r') w)) /\
  (rotor_M spl (ro_val r') w = Ok A -> exists A0, rotor_M spl (without_bearings (ro_val r)) w = Ok A0 /\ forall i j, A i j = A0 i j) /\
  (rotor_M_sync spl (ro_val r') w = Ok A -> exists A0, rotor_M_sync spl (without_bearings (ro_val r)) w = Ok A0 /\ forall i j, A i j = A0 i j).
Proof.
  intros H4 HT r' E spl w A S. rewrite (rossr_ok _ _ _ _ _ _ _ _ _ Hr Hb H4) in E. injection E as <-.
  split; [exact (mass_exists _ _ _ _ _ _ _ _ _ Hr Hb _ spl (default 0 w) (or_introl eq_refl) S H4 HT)|]. split; [exact (mass_exists _ _ _ _ _ _ _ _ _ Hr Hb _ spl (default 0 w) (or_intror eq_refl) S H4 HT)|].
  split; intros H; unfold rotor_M, rotor_M_sync in *; cbn [rossr ro_val f_rotor r_ndof] in H; change (r_dofs (f_rotor Fr (ro_val r))) with (r_dofs (ro_val r)) in H;
    eapply (mass_gone _ _ _ _ _ _ _ _ _ Hr Hb _ spl (default 0 w)); eauto.
Qed.
(** A 6-dof rotor with at least one bearing is never converted: the new bearings have two degrees of freedom and the constructor refuses them. *)
Theorem C87_six_dof_fails : r_nd (ro_val r) = 6%nat -> ro_br r <> [] -> to_ross_only r = Err RuntimeErr.
Proof. exact (ross_six _ _ _ _ _ _ _ _ _ Hr Hb). Qed.
End Built.

(** ** Concrete rotors *)
(** a bearing with a mass of 7 at its node, from one of the subclasses *)
Definition hargs (n : nat) (t : string) : bargs :=
  mkBArgs n (CScal 1000) (CScal 1) (Some (CScal 7)) None (CScal 3) (CScal (-3)) None (CScal 0) (CScal 0) None (CScal 0) (CScal 0) None (Some t) None 4 "#355d7a".
Definition heavy (n : nat) (t : string) : bearing := match bearing_init (hargs n t) with Ok b => b | Err _ => ex_bearing n None t end.
Definition HB := [OPlain PFluid (heavy 0 "b0"); OSeal (seal0 2 "b1")].
Lemma built_HB o : In o HB -> built (IBrg o).
Proof.
  unfold HB. intros Ho. ins; [|apply built_se]. exists (hargs 0 "b0"), (heavy 0 "b0"). split; [reflexivity|]. eexists. reflexivity.
Qed.
Lemma HB_rotor : exists r, robj_init SH DK HB [] (Some 10) None (Some 400) (Some "compressor"%string) = Ok r /\ r_n_last (ro_val r) = 1%nat /\ r_nd (ro_val r) = 4%nat /\ regular (ro_val r) /\ links_ok (ro_val r) /\
  r_pm (ro_val r) = [] /\ r_brg (ro_val r) = sort_n (mapi mk_brg 0 (map to_rbrg HB)) /\
    r_shaft (ro_val r) = [EShaft false 0 "s0" (shaft0 0 "s0"); EShaft false 1 "s1" (shaft0 1 "s1")] /\ r_disk (ro_val r) = [EDisk false "d0" (od_d (odk 1 "d0"))].
Proof.
  apply (plain_init HB ["b0"; "b1"]%string).
  - split; [intros b Hb; unfold HB in Hb; cbn [map] in Hb; ins; eexists; eexists; (split; [reflexivity|]); split; first [reflexivity|cbn; lia]|].
    repeat constructor; cbn; intuition discriminate.
  - reflexivity.
  - repeat constructor; cbn; intuition discriminate.
Qed.
Example C87_instance : exists r r', robj_init SH DK HB [] (Some 10) None (Some 400) (Some "compressor"%string) = Ok r /\ (forall o, In o HB -> built (IBrg o)) /\ r_nd (ro_val r) = 4%nat /\
  (forall o, In o (ro_br r) -> increasing_table o) /\ to_ross_only r = Ok r' /\ ro_tag r' = "compressor"%string /\ map brg_class (ro_br r) = [BFluid; BSeal] /\ map brg_class (ro_br r') = [BBearing; BSeal].
Proof.
  destruct HB_rotor as (r & H & _ & H4 & _). exists r, (rossr r). split; [exact H|]. split; [exact built_HB|]. split; [exact H4|].
  destruct (ro_init _ _ _ _ _ _ _ _ _ H) as (_ & _ & _ & E). assert (E' : ro_br r = HB) by (rewrite E; reflexivity).
  split; [rewrite E'; unfold HB; intros o Ho; ins; exact Logic.I|]. split; [exact (rossr_ok _ _ _ _ _ _ _ _ _ H built_HB H4)|].
  cbn [rossr ro_tag ro_br]. rewrite E'. split; [exact (proj2 (proj2 (robj_elements _ _ _ _ _ _ _ _ _ H)))|]. split; reflexivity.
Qed.
(** It is false that the converted rotor has the mass matrix of the original: here the first entry of the diagonal changes by the mass of the bearing. *)
Theorem C87_mass_kept_refuted : exists r r', robj_init SH DK HB [] (Some 10) None (Some 400) (Some "compressor"%string) = Ok r /\ (forall o, In o HB -> built (IBrg o)) /\ to_ross_only r = Ok r' /\
  forall spl w, smoothing_spline spl -> exists A A', rotor_M spl (ro_val r) w = Ok A /\ rotor_M spl (ro_val r') w = Ok A' /\ A 0%nat 0%nat = A' 0%nat 0%nat + 7.
Proof.
  destruct HB_rotor as (r & H & Hl & H4 & Rg & Lk & Ep & Eb & Es & Ed). pose proof (rossr_ok _ _ _ _ _ _ _ _ _ H built_HB H4) as RK.
  exists r, (rossr r). split; [exact H|]. split; [exact built_HB|]. split; [exact RK|]. intros spl w S.
  pose proof (rfacts_ro _ _ _ _ _ _ _ _ _ H) as F.
  assert (Eb' : r_brg (ro_val r) = [EBrg "b0" (RB4 false (heavy 0 "b0")); EBrg "b1" (RB4 true (sl_bearing (seal0 2 "b1")))]) by (rewrite Eb; reflexivity).
  unfold rotor_M. cbn [rossr ro_val f_rotor r_ndof]. change (r_dofs (f_rotor Fr (ro_val r))) with (r_dofs (ro_val r)).
  set (N := r_ndof (ro_val r)). set (D := r_dofs (ro_val r)).
  assert (HN : (N = 12)%nat) by (unfold N; rewrite (rf_ndof _ F), H4, Hl, Ep; reflexivity).
  unfold r_elements. cbn [f_rotor r_shaft r_disk r_brg r_pm]. rewrite Eb', Ep, !app_nil_r. cbn [map]. rewrite !app_assoc. rewrite (assemble_app N D _ (r_shaft (ro_val r) ++ r_disk (ro_val r))), (assemble_app N D _ (map Fr (r_shaft (ro_val r)) ++ map Fr (r_disk (ro_val r)))).
  assert (Q : assemble N D (el_M spl (default 0 w)) (map Fr (r_shaft (ro_val r)) ++ map Fr (r_disk (ro_val r))) mzero = assemble N D (el_M spl (default 0 w)) (r_shaft (ro_val r) ++ r_disk (ro_val r)) mzero).
  { rewrite <- map_app. apply assemble_in.
    - intros e _. apply (dofs_f Fr Fr_keeps (ro_val r)).
    - rewrite Es, Ed. intros e He. cbn [app] in He. ins; reflexivity. }
  rewrite Q.
  assert (D0 : D (EBrg "b0" (RB4 false (heavy 0 "b0"))) = [0; 1]%nat) by (unfold D, r_dofs; rewrite H4, Hl; reflexivity).
  assert (D1 : D (EBrg "b1" (RB4 true (sl_bearing (seal0 2 "b1")))) = [8; 9]%nat) by (unfold D, r_dofs; rewrite H4, Hl; reflexivity).
  assert (D0' : D (Fr (EBrg "b0" (RB4 false (heavy 0 "b0")))) = [0; 1]%nat) by (unfold D, r_dofs; rewrite H4, Hl; reflexivity).
  assert (D1' : D (Fr (EBrg "b1" (RB4 true (sl_bearing (seal0 2 "b1"))))) = [8; 9]%nat) by (unfold D, r_dofs; rewrite H4, Hl; reflexivity).
  assert (X : exists A2, assemble N D (el_M spl (default 0 w)) (r_shaft (ro_val r) ++ r_disk (ro_val r)) mzero = Ok A2).
  { rewrite Es, Ed. cbn [app assemble]. assert (DS : forall e, D e = el_dofs 4 1 e) by (intros e; unfold D, r_dofs; rewrite H4, Hl; reflexivity). rewrite !DS, HN. eexists. reflexivity. }
  destruct X as (A2 & ->). cbn [bind assemble]. rewrite D0, D1, D0', D1', HN. eexists. eexists. split; [reflexivity|]. split; [reflexivity|]. cbn. ring.
Qed.
(** and that a rotor can always be converted: here a 6-dof rotor on three bearings *)
Definition SH6 := [mkOShaft true Cowper (ex_shaft 0 "s0"); mkOShaft true Cowper (ex_shaft 1 "s1")].
Definition DK6 := [mkODisk true (rd_d (ex_disk true 1 "d0")) 1 "Firebrick"].
Definition br6 (n : nat) (l : option nat) (t : string) : bearing6 := mkBearing6 (brg0 n l t) ([500], IConst 500) ([0], IConst 0) ([0], IConst 0).
Definition BR6 := [OBearing6 (br6 0 None "b0"); OBearing6 (br6 2 None "b1")].
Lemma built_BR6 o : In o BR6 -> built (IBrg o).
Proof.
  assert (K : forall n t, built (IBrg (OBearing6 (br6 n None t)))).
  { intros n t. exists (bargs0 n None t), (CScal 500), (CScal 0), (CScal 0), (br6 n None t). split; [reflexivity|]. split; [eexists; reflexivity|]. repeat split. }
  unfold BR6. intros Ho. ins; apply K.
Qed.
Theorem C87_always_refuted : exists r, robj_init SH6 DK6 BR6 [] None None None None = Ok r /\ (forall o, In o BR6 -> built (IBrg o)) /\ r_nd (ro_val r) = 6%nat /\ to_ross_only r = Err RuntimeErr.
Proof.
  assert (W : well_formed (map to_rshaft SH6) (map to_rdisk DK6) (map to_rbrg BR6) (map to_rpm []) 1).
  { constructor.
    - exists ["s0"; "s1"; "d0"; "b0"; "b1"]%string. split; [reflexivity|]. apply tags_unique_iff. reflexivity.
    - exists true. repeat split; unfold SH6, DK6, BR6; intros x Hx; ins; reflexivity.
    - unfold SH6. intros s Hs; ins; [exists 0%nat|exists 1%nat]; split; try reflexivity; lia.
    - unfold SH6. intros [|[|k]] Hk; [exists (ex_rshaft true 0 "s0")|exists (ex_rshaft true 1 "s1")|lia]; split; simpl; auto.
    - unfold SH6. intros s s' Hs Hs' _; ins; reflexivity.
    - unfold SH6. intros s Hs; ins; cbn; lra.
    - unfold DK6. intros s Hs; ins; simpl; lia.
    - cbn. repeat constructor; simpl; intuition discriminate.
    - intros b Hb. left. unfold BR6 in Hb. ins; cbn; lia.
    - intros b m Hb. unfold BR6 in Hb. ins; discriminate.
    - intros p []. }
  destruct (robj_ok _ _ _ _ None None None None _ W) as (r & H). exists r. split; [exact H|]. split; [exact built_BR6|].
  assert (H6 : r_nd (ro_val r) = 6%nat).
  { pose proof (robj_val _ _ _ _ _ _ _ _ _ H) as V. apply (el_fam_nd (ro_val r) true 0 "s0" (ex_shaft 0 "s0") (rotor_facts _ _ _ _ _ V)). rewrite (proj1 (rotor_init_lists _ _ _ _ _ V)). left. reflexivity. }
  split; [exact H6|]. apply (C87_six_dof_fails _ _ _ _ _ _ _ _ _ H built_BR6 H6). destruct (ro_init _ _ _ _ _ _ _ _ _ H) as (_ & _ & _ & E). rewrite E. discriminate.
Qed.

Print Assumptions C87_bearing.
Print Assumptions C87_rotor.
Print Assumptions C87_massless_same.
Print Assumptions C87_mass_gone.
Print Assumptions C87_six_dof_fails.
Print Assumptions C87_mass_kept_refuted.
Print Assumptions C87_always_refuted.
