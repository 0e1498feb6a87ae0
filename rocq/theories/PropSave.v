(** Property C58: what saving an element or a rotor writes, and what loading gives back. *)
From Coq Require Import Reals String List Bool Arith Lia Lra.
From Verif Require Import PyBase PyDict MatBase MMaterial MShaft MDisk MBearing MRotor SpecRotor LRotor LRotorInit LRotorInit2 LRotor7 LRotorEx MSave SpecSave LSave LSave2 LSave3 LSave4.
Import ListNotations.
Open Scope list_scope.
Open Scope R_scope.

(** Saving an element succeeds exactly for the classes [saveable]; otherwise the exception is a KeyError (rolling and fluid-flow bearings) or an
    AttributeError (PointMass6DoF). *)
Theorem C58_unsaveable : forall f o, (saveable o <-> is_ok (obj_save f o)) /\ (~ saveable o -> obj_save f o = Err (match o with IBrg _ => KeyError | _ => AttributeError end)).
Proof.
  intros f o. split.
  - rewrite section_ok. unfold obj_save, is_ok. split.
    + intros (d & ->). eexists. reflexivity.
    + intros (x & H). destruct (section_of o) as [d|]; [eauto|discriminate].
  - intros N. unfold obj_save. rewrite (section_err _ N). reflexivity.
Qed.

(** Saving into any file written by toml: the section of the element is added or replaced, read again it gives the element, and every other section keeps
    its content. A file that did not exist, or held only this element, is loaded by the class of the element. *)
Theorem C58_element_round_trip : forall f o, clean f -> built o -> saveable o -> loadable o ->
  exists f' s, obj_save f o = Ok f' /\ clean f' /\ dget (read_file f') (obj_key o) = Some s /\ read_data (obj_class o) s = Ok (back o) /\
  (forall k, k <> obj_key o -> dget (read_file f') k = dget (read_file f) k) /\
  ((forall k, In k (dkeys (read_file f)) -> k = obj_key o) -> obj_load (obj_class o) f' = Ok (back o)).
Proof.
  intros f o C B SV LD. destruct (proj1 (section_ok o) SV) as (d & E). exists (Some (dset (read_file f) (obj_key o) (dump_section d))), (dump_section d).
  pose proof (save_file _ _ _ C E) as SF. split; [exact SF|]. split; [exact (save_clean _ _ _ C SF)|]. cbn [read_file]. rewrite dget_dset, String.eqb_refl.
  split; [reflexivity|]. split; [exact (read_back _ _ B SV LD E)|]. split.
  - intros k N. rewrite dget_dset. destruct (String.eqb_spec k (obj_key o)); [contradiction|reflexivity].
  - intros H. destruct (read_file f) as [|[k s] rest] eqn:Ef; cbn [dset].
    + exact (read_back _ _ B SV LD E).
    + assert (k = obj_key o) as -> by (apply H; simpl; auto). rewrite String.eqb_refl. exact (read_back _ _ B SV LD E).
Qed.

(** Loading takes the first section of the file, whatever was saved last. *)
Theorem C58_load_takes_first : forall f o f' k s rest c, clean f -> obj_save f o = Ok f' -> read_file f = (k, s) :: rest -> k <> obj_key o ->
  obj_load c f' = obj_load c f.
Proof.
  intros f o f' k s rest c C SV E N. destruct (section_of o) as [d|] eqn:Es; [|unfold obj_save in SV; rewrite Es in SV; discriminate].
  rewrite (save_file _ _ _ C Es) in SV. injection SV as <-. rewrite E. cbn [dset]. destruct (String.eqb_spec (obj_key o) k); [congruence|].
  destruct f; cbn [read_file] in E; [subst; reflexivity|discriminate].
Qed.
Theorem C58_load_last_saved_refuted : exists o1 o2 f1 f2, built o1 /\ built o2 /\ saveable o1 /\ saveable o2 /\ loadable o1 /\ loadable o2 /\ obj_class o1 = obj_class o2 /\
  obj_save None o1 = Ok f1 /\ obj_save f1 o2 = Ok f2 /\ obj_load (obj_class o2) f2 = Ok o1 /\ o1 <> o2.
Proof.
  exists (IDisk (mkODisk false (mkDisk 1 5 1 2 (Some "a"%string)) 1 "c")), (IDisk (mkODisk false (mkDisk 2 7 1 2 (Some "b"%string)) 1 "c")).
  eexists. eexists. repeat split; try reflexivity. discriminate.
Qed.

(** A CylindricalBearing is saved but never read back: neither by its own class nor inside a rotor. *)
Theorem C58_cylindrical_not_loadable : forall sp w l d c v b, let o := IBrg (OCyl sp w l d c v b) in
  (exists f, obj_save None o = Ok f /\ obj_load (obj_class o) f = Err TypeError) /\
  (forall sh dk br pm mn mx rt tag r l1 l2, robj_init sh dk br pm mn mx rt tag = Ok r -> (forall o, In o (map IShaft sh ++ map IDisk dk ++ map IBrg br ++ map IPm pm) -> built o) ->
     ro_elements r = l1 ++ o :: l2 -> (forall o, In o (ro_elements r) -> saveable o) -> (forall o, In o l1 -> loadable o) ->
     forall f, exists f', rotor_save f r = (f', Ok tt) /\ rotor_load f' = Err RuntimeErr).
Proof.
  intros sp w l d c v b o. split.
  - eexists. split; [reflexivity|]. reflexivity.
  - intros sh dk br pm mn mx rt tag r l1 l2 I B E SV LD f. exists (rotor_file r (ro_elements r)). split; [exact (rotor_saved _ _ _ _ _ _ _ _ _ f I SV)|].
    unfold rotor_load, rotor_file. cbn [dget load_all]. rewrite String.eqb_refl.
    assert (L : load_all (map sec_of (ro_elements r)) = Err RuntimeErr).
    { pose proof (robj_built _ _ _ _ _ _ _ _ _ I B) as B'. rewrite E in SV, B' |- *. clear E I B. induction l1 as [|x l1 IH]; cbn [app map].
      - unfold sec_of at 1. cbn [load_all]. destruct (String.eqb_spec (obj_key o) "parameters") as [K|_]; [destruct (key_not_parameters _ K)|]. unfold obj_key at 1. rewrite class_underscore. reflexivity.
      - unfold sec_of at 1. cbn [load_all]. destruct (String.eqb_spec (obj_key x) "parameters") as [K|_]; [destruct (key_not_parameters _ K)|].
        assert (S1 : saveable x) by (apply SV; simpl; auto). assert (L1 : loadable x) by (apply LD; simpl; auto). assert (B1 : built x) by (apply B'; simpl; auto).
        unfold obj_key at 1. rewrite class_underscore, find_global by assumption. destruct (proj1 (section_ok x) S1) as (s & Es). rewrite Es.
        rewrite (read_back _ _ B1 S1 L1 Es). cbn [bind]. rewrite IH; [reflexivity|intros; apply SV; simpl; auto|intros; apply LD; simpl; auto|intros; apply B'; simpl; auto]. }
    rewrite L. reflexivity.
Qed.

(** Rotor.save then Rotor.load: whatever the file held before, the loaded rotor has the same elements (seals half as large on drawings), the same
    parameters, the same matrices for every speed and the same attributes; its tag is the default one. *)
Theorem C58_rotor_round_trip : forall sh dk br pm mn mx rt tag r f, robj_init sh dk br pm mn mx rt tag = Ok r ->
  (forall o, In o (map IShaft sh ++ map IDisk dk ++ map IBrg br ++ map IPm pm) -> built o) -> (forall o, In o (ro_elements r) -> saveable o /\ loadable o) ->
  exists f' r', rotor_save f r = (f', Ok tt) /\ rotor_load f' = Ok r' /\ ro_elements r' = map back (ro_elements r) /\
    (ro_min r', ro_max r', ro_rated r') = (mn, mx, rt) /\ same_rotor (ro_val r) (ro_val r') /\ ro_tag r' = "Rotor 0"%string.
Proof.
  intros sh dk br pm mn mx rt tag r f I B H. exists (rotor_file r (ro_elements r)), (again r).
  split; [apply (rotor_saved _ _ _ _ _ _ _ _ _ f I); intros; apply H; assumption|].
  split; [apply (rotor_loaded _ _ _ _ _ _ _ _ _ I); intros o Ho; split; [exact (robj_built _ _ _ _ _ _ _ _ _ I B o Ho)|apply H; exact Ho]|].
  split; [unfold ro_elements, again; cbn [ro_sh ro_dk ro_br ro_pm]; rewrite !map_app, !map_map; reflexivity|].
  split; [|split; [exact (same_f Fb Fb_keeps (ro_val r))|reflexivity]].
  unfold robj_init in I. destruct (rotor_init _ _ _ _); [|discriminate]. injection I as <-. reflexivity.
Qed.

(** A save that fails has already replaced the file: it holds the parameters and the elements before the one that cannot be saved. *)
Theorem C58_failed_save : forall sh dk br pm mn mx rt tag r f l1 o l2, robj_init sh dk br pm mn mx rt tag = Ok r -> ro_elements r = l1 ++ o :: l2 ->
  (forall o, In o l1 -> saveable o) -> ~ saveable o ->
  exists d, rotor_save f r = (Some d, Err (match o with IBrg _ => KeyError | _ => AttributeError end)) /\ dkeys d = "parameters"%string :: map obj_key l1.
Proof.
  intros sh dk br pm mn mx rt tag r f l1 o l2 I E SV N. eexists. split; [exact (rotor_stops _ _ _ _ _ _ _ _ _ f _ _ _ I E SV N)|].
  unfold dkeys. cbn [map fst]. rewrite map_map. reflexivity.
Qed.

(** ** A concrete rotor *)
Definition mat0 : material := mkMaterial "Steel" 3 (1 * (2 * (1 + 0))) 1 0 "#525252".
Definition sargs0 (n : nat) (t : string) : shaft_args := mkShaftArgs 1 0 2 None None (Some mat0) (Some n) 0 0 true true true Cowper (Some t) 0 0.
Definition shaft0 (n : nat) (t : string) : shaft := match shaft_init (sargs0 n t) with Ok s => s | Err _ => ex_shaft n t end.
Definition osh (n : nat) (t : string) : oshaft := mkOShaft false Cowper (shaft0 n t).
Definition odk (n : nat) (t : string) : odisk := mkODisk false (mkDisk n 5 1 2 (Some t)) 1 "Firebrick".
Definition bargs0 (n : nat) (l : option nat) (t : string) : bargs :=
  mkBArgs n (CScal 1000) (CScal 1) None None (CScal 0) (CScal 0) None (CScal 0) (CScal 0) None (CScal 0) (CScal 0) None (Some t) l 1 "#355d7a".
Definition brg0 (n : nat) (l : option nat) (t : string) : bearing :=
  match bearing_init (bargs0 n l t) with Ok b => b | Err _ => ex_bearing n l t end.
Definition seal0 (n : nat) (t : string) : seal := match seal_init (bargs0 n None t) (Some 2) with Ok s => s | Err _ => mkSeal (brg0 n None t) None end.
Definition opm0 (n : nat) (t : string) : opm := mkOPm false (mkPMass n 3 3 0 (Some t)) (Some 3) "DarkSalmon".
Lemma brg0_ok n l t : bearing_init (bargs0 n l t) = Ok (brg0 n l t). Proof. reflexivity. Qed.
Lemma seal0_ok n t : seal_init (bargs0 n None t) (Some 2) = Ok (seal0 n t). Proof. reflexivity. Qed.
Lemma shaft0_ok n t : shaft_init (sargs0 n t) = Ok (shaft0 n t). Proof. reflexivity. Qed.
Lemma built_sh n t : built (IShaft (osh n t)).
Proof.
  split; [exists "Steel"%string, 3, None, (Some 1), (Some 0), "#525252"%string; reflexivity|]. exists (sargs0 n t), (shaft0 n t). split; [reflexivity|]. split; [apply shaft0_ok|].
  exists (Some n), (Some t). reflexivity.
Qed.
Lemma built_br n l t : built (IBrg (OBearing (brg0 n l t))).
Proof. exists (bargs0 n l t), (brg0 n l t). split; [apply brg0_ok|exists (Some t); reflexivity]. Qed.
Lemma built_se n t : built (IBrg (OSeal (seal0 n t))).
Proof. exists (bargs0 n None t), (Some 2), (seal0 n t). split; [apply seal0_ok|]. split; [exists (Some t); reflexivity|reflexivity]. Qed.
Lemma built_pm0 n t : built (IPm (opm0 n t)).
Proof. exists n, (Some 3), None, None, None, (Some t). eexists. split; [reflexivity|]. split; [reflexivity|]. exists (Some t). reflexivity. Qed.
Lemma built_ball n l t : built (IBrg (OPlain PBall (brg0 n l t))).
Proof. exact (built_br n l t). Qed.

Definition SH := [osh 0 "s0"; osh 1 "s1"]. Definition DK := [odk 1 "d0"].
Definition BR := [OBearing (brg0 0 (Some 3%nat) "b0"); OSeal (seal0 2 "b1"); OBearing (brg0 3 None "b2")]. Definition PM := [opm0 3 "p0"].
Definition BALLS := [OPlain PBall (brg0 0 None "b0"); OPlain PBall (brg0 2 None "b1")].
Ltac ins := repeat match goal with H : In _ _ |- _ => cbn [map app] in H; destruct H as [<-|H] end; try contradiction.
Lemma wf0 : well_formed (map to_rshaft SH) (map to_rdisk DK) (map to_rbrg BR) (map to_rpm PM) 1.
Proof.
  constructor.
  - exists ["s0"; "s1"; "d0"; "b0"; "b1"; "b2"; "p0"]%string. split; [reflexivity|]. apply tags_unique_iff. reflexivity.
  - exists false. repeat split; unfold SH, DK, BR; intros x Hx; ins; reflexivity.
  - unfold SH. intros s Hs; ins; [exists 0%nat|exists 1%nat]; split; try reflexivity; lia.
  - unfold SH. intros [|[|k]] Hk; [exists (to_rshaft (osh 0 "s0"))|exists (to_rshaft (osh 1 "s1"))|lia]; split; simpl; auto.
  - unfold SH. intros s s' Hs Hs' _; ins; reflexivity.
  - unfold SH. intros s Hs; ins; cbn; lra.
  - unfold DK. intros s Hs; ins; simpl; lia.
  - cbn. repeat constructor; simpl; intuition discriminate.
  - unfold BR. intros b Hb; ins; [left; cbn; lia|left; cbn; lia|right].
    split; [exists (to_rpm (opm0 3 "p0")); split; [left; reflexivity|reflexivity]|].
    exists (to_rbrg (OBearing (brg0 0 (Some 3%nat) "b0"))). split; [left; reflexivity|reflexivity].
  - unfold BR. intros b m Hb; ins; cbn; intros [= <-]; lia.
  - unfold PM. intros p Hp; ins. exists (to_rbrg (OBearing (brg0 3 None "b2"))). split; [right; right; left; reflexivity|reflexivity].
Qed.
Lemma wf_balls br : (br = BALLS \/ br = []) -> well_formed (map to_rshaft SH) (map to_rdisk DK) (map to_rbrg br) (map to_rpm []) 1.
Proof.
  intros H. constructor.
  - destruct H as [-> | ->]; [exists ["s0"; "s1"; "d0"; "b0"; "b1"]%string|exists ["s0"; "s1"; "d0"]%string]; (split; [reflexivity|]); apply tags_unique_iff; reflexivity.
  - exists false. destruct H as [-> | ->]; repeat split; unfold SH, DK, BALLS; intros x Hx; ins; reflexivity.
  - unfold SH. intros s Hs; ins; [exists 0%nat|exists 1%nat]; split; try reflexivity; lia.
  - unfold SH. intros [|[|k]] Hk; [exists (to_rshaft (osh 0 "s0"))|exists (to_rshaft (osh 1 "s1"))|lia]; split; simpl; auto.
  - unfold SH. intros s s' Hs Hs' _; ins; reflexivity.
  - unfold SH. intros s Hs; ins; cbn; lra.
  - unfold DK. intros s Hs; ins; simpl; lia.
  - destruct H as [-> | ->]; cbn; repeat constructor; simpl; intuition discriminate.
  - intros b Hb. left. destruct H as [-> | ->]; unfold BALLS in Hb; ins; cbn; lia.
  - intros b m Hb. destruct H as [-> | ->]; unfold BALLS in Hb; ins; discriminate.
  - intros p [].
Qed.
Lemma robj_ok sh dk br pm mn mx rt tag last : well_formed (map to_rshaft sh) (map to_rdisk dk) (map to_rbrg br) (map to_rpm pm) last -> exists r, robj_init sh dk br pm mn mx rt tag = Ok r.
Proof. intros W. destruct (init_ok _ _ _ _ _ W) as (r & H & _). unfold robj_init. rewrite H. eexists. reflexivity. Qed.
Lemma robj_elements sh dk br pm mn mx rt tag r : robj_init sh dk br pm mn mx rt tag = Ok r ->
  ro_elements r = map IShaft (sort_by os_n (mapi name_shaft 0 sh)) ++ map IDisk (mapi name_disk 0 dk) ++ map IBrg (sort_by ob_n (mapi name_brg 0 br)) ++ map IPm (mapi name_pm 0 pm) /\
  params_section r = [("min_w", oNum mn); ("max_w", oNum mx); ("rated_w", oNum rt)]%string /\ ro_tag r = default "Rotor 0"%string tag.
Proof. unfold robj_init. destruct (rotor_init _ _ _ _); [|discriminate]. injection 1 as <-. repeat split. Qed.

(** a rotor with a support, a seal and a tag meets the hypotheses of [C58_rotor_round_trip] *)
Example C58_instance : exists r, robj_init SH DK BR PM (Some 10) None (Some 400) (Some "compressor"%string) = Ok r /\
  (forall o, In o (map IShaft SH ++ map IDisk DK ++ map IBrg BR ++ map IPm PM) -> built o) /\ (forall o, In o (ro_elements r) -> saveable o /\ loadable o).
Proof.
  destruct (robj_ok _ _ _ _ (Some 10) None (Some 400) (Some "compressor"%string) _ wf0) as (r & H). exists r. split; [exact H|]. split.
  - unfold SH, DK, BR, PM. intros o Ho. ins; first [apply built_sh|exact I|apply built_br|apply built_se|apply built_pm0].
  - rewrite (proj1 (robj_elements _ _ _ _ _ _ _ _ _ H)). intros o Ho.
    assert (E : map IShaft (sort_by os_n (mapi name_shaft 0 SH)) ++ map IDisk (mapi name_disk 0 DK) ++ map IBrg (sort_by ob_n (mapi name_brg 0 BR)) ++ map IPm (mapi name_pm 0 PM) =
      map IShaft SH ++ map IDisk DK ++ map IBrg BR ++ map IPm PM) by reflexivity.
    rewrite E in Ho. unfold SH, DK, BR, PM in Ho. ins; (split; [first [exact I|reflexivity]|]); cbn; try exact I; try lra; split; discriminate.
Qed.
(** so it is false that the loaded rotor has the tag of the saved one *)
Theorem C58_tag_lost_refuted : exists r r' f', robj_init SH DK BR PM (Some 10) None (Some 400) (Some "compressor"%string) = Ok r /\
  rotor_save None r = (f', Ok tt) /\ rotor_load f' = Ok r' /\ ro_tag r = "compressor"%string /\ ro_tag r' = "Rotor 0"%string.
Proof.
  destruct C58_instance as (r & H & B & L). destruct (C58_rotor_round_trip _ _ _ _ _ _ _ _ _ None H B L) as (f' & r' & S & LD & _ & _ & _ & T). exists r, r', f'.
  repeat (split; [assumption|]). split; [exact (proj2 (proj2 (robj_elements _ _ _ _ _ _ _ _ _ H)))|exact T].
Qed.
(** The condition on tags in [loadable] is needed: the empty tag of a bearing is written as an empty list, and the bearing is not read back. *)
Theorem C58_empty_tag_refuted : exists o f s, built o /\ saveable o /\ obj_save None o = Ok f /\ f = Some [(obj_key o, s)] /\ dget s "tag" = Some (TList []) /\
  obj_load (obj_class o) f <> Ok o.
Proof.
  exists (IBrg (OBearing (brg0 0 None ""))). eexists. eexists. split; [apply built_br|]. split; [exact I|]. split; [lazy; reflexivity|]. split; [reflexivity|]. split; [reflexivity|].
  lazy. discriminate.
Qed.
(** and that a failed save leaves the file alone: a rotor on ball bearings cannot be saved, yet the previous file is gone and what is there now loads
    as the same shaft without any bearing *)
Theorem C58_failed_save_refuted : exists r r' f', robj_init SH DK BALLS [] None None None None = Ok r /\
  (forall f, rotor_save f r = (f', Err KeyError)) /\ rotor_load f' = Ok r' /\ ro_sh r' = ro_sh r /\ ro_br r <> [] /\ ro_br r' = [].
Proof.
  destruct (robj_ok _ _ _ _ None None None None _ (wf_balls BALLS (or_introl eq_refl))) as (r & H). destruct (robj_ok _ _ _ _ None None None None _ (wf_balls [] (or_intror eq_refl))) as (r0 & H0).
  destruct (robj_elements _ _ _ _ _ _ _ _ _ H) as (E & Pr & _). destruct (robj_elements _ _ _ _ _ _ _ _ _ H0) as (E0 & Pr0 & _).
  assert (E1 : ro_elements r0 = map IShaft SH ++ map IDisk DK) by (rewrite E0; reflexivity).
  assert (E2 : ro_elements r = ro_elements r0 ++ IBrg (OPlain PBall (brg0 0 None "b0")) :: [IBrg (OPlain PBall (brg0 2 None "b1"))]) by (rewrite E1, E; reflexivity).
  assert (A : forall o, In o (ro_elements r0) -> built o /\ saveable o /\ loadable o).
  { rewrite E1. unfold SH, DK. intros o Ho. ins; (split; [first [apply built_sh|exact I]|]); (split; [exact I|]); cbn; try exact I; lra. }
  exists r, (again r0), (rotor_file r (ro_elements r0)). split; [exact H|]. split.
  { intros f. refine (rotor_stops _ _ _ _ _ _ _ _ _ f _ _ _ H E2 _ _); [intros o Ho; apply A; exact Ho|intros []]. }
  split; [|unfold robj_init in H, H0; destruct (rotor_init _ _ (map to_rbrg BALLS) _); [|discriminate]; destruct (rotor_init _ _ _ _); [|discriminate]; injection H as <-; injection H0 as <-; repeat split; discriminate].
  unfold rotor_file. rewrite Pr, <- Pr0. exact (rotor_loaded _ _ _ _ _ _ _ _ _ H0 A).
Qed.

Print Assumptions C58_unsaveable.
Print Assumptions C58_element_round_trip.
Print Assumptions C58_load_takes_first.
Print Assumptions C58_load_last_saved_refuted.
Print Assumptions C58_cylindrical_not_loadable.
Print Assumptions C58_rotor_round_trip.
Print Assumptions C58_failed_save.
Print Assumptions C58_tag_lost_refuted.
Print Assumptions C58_failed_save_refuted.
Print Assumptions C58_empty_tag_refuted.
