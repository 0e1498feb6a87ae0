(** Concrete rotors: examples that meet the hypotheses of the theorems, and counterexamples. *)
From Coq Require Import Reals String List Arith Bool Lia Lra Permutation Sorted Psatz.
From Verif Require Import PyBase MatBase SpecMat LMat MMaterial MShaft SpecShaft LShaftEx MDisk MBearing MRotor SpecRotor LAssembly LRotor LRotor2 LRotorPos LRotor3 LRotor4 LRotor5 LRotorInit LRotorInit2 LRotor6 LRotor7.
Import ListNotations.
Open Scope list_scope.
Open Scope R_scope.

Definition ex_sargs (n : nat) (t : string) : shaft_args :=
  mkShaftArgs 1 0 2 None None (Some ex_material) (Some n) 0 0 true true true Cowper (Some t) 0 0.
Definition ex_shaft (n : nat) (t : string) : shaft :=
  match shaft_init (ex_sargs n t) with
  | Ok s => s
  | Err _ => mkShaft ex_material None None 0 0 true true true 0 0 0 0 0 0 0 0 0 0 0 0 0 0 0 0 0 0 0 0 0 0 0 0 0 0
  end.
Definition ex_rshaft six n t := mkRShaft six (ex_shaft n t).
Definition ex_disk six n t := mkRDisk six (mkDisk n 5 1 2 (Some t)).
Definition ex_coef (c : cname) : list R * interp :=
  match c with kxx | kyy => ([1000], IConst 1000) | cxx | cyy => ([1], IConst 1) | _ => ([0], IConst 0) end.
Definition ex_bearing n link t : bearing := mkBearing n link (Some t) "#355d7a" 1 None ex_coef.
Definition ex_brg (six : bool) n link t : rbrg :=
  if six then RB6 (mkBearing6 (ex_bearing n link t) ([500], IConst 500) ([0], IConst 0) ([0], IConst 0))
  else RB4 false (ex_bearing n link t).
Definition ex_pm six n t := mkRPmass six (mkPMass n 3 3 7 (Some t)).

Lemma ex_shaft_init n t : shaft_init (ex_sargs n t) = Ok (ex_shaft n t).
Proof. reflexivity. Qed.
Lemma ex_sargs_good n t : good_args (ex_sargs n t).
Proof.
  split; [unfold good_geometry, right_id, right_od; simpl; lra|].
  exists ex_material; split; [reflexivity|]. unfold good_material; simpl; lra.
Qed.

(** two shaft elements, a disk in the middle, a bearing on the ground at the right end, a bearing on a support at the
    left end, and the support mass with its own bearing on the ground *)
Definition exS six := [ex_rshaft six 0 "s0"; ex_rshaft six 1 "s1"].
Definition exD six := [ex_disk six 1 "d0"].
Definition exB six := [ex_brg six 0 (Some 3%nat) "b0"; ex_brg six 2 None "b1"; ex_brg six 3 None "b2"].
Definition exP six := [ex_pm six 3 "p0"].

Lemma brg_n_ex six n l t : brg_n (ex_brg six n l t) = n. Proof. destruct six; reflexivity. Qed.
Lemma brg_link_ex six n l t : brg_link (ex_brg six n l t) = l. Proof. destruct six; reflexivity. Qed.
Lemma brg_six_ex six n l t : brg_six (ex_brg six n l t) = six. Proof. destruct six; reflexivity. Qed.
Lemma brg_tag_ex six n l t : b_tag (brg_base (ex_brg six n l t)) = Some t. Proof. destruct six; reflexivity. Qed.

Ltac cases_in := repeat match goal with
  | H : In _ [] |- _ => destruct H
  | H : In _ (_ :: _) |- _ => destruct H as [<-|H] end.

Lemma ex_wf six : well_formed (exS six) (exD six) (exB six) (exP six) 1.
Proof.
  constructor.
  - exists ["s0"; "s1"; "d0"; "b0"; "b1"; "b2"; "p0"]%string. split.
    + unfold given_tags, exB. cbn [map exS exD exP app]. rewrite !brg_tag_ex. reflexivity.
    + apply tags_unique_iff. reflexivity.
  - exists six. repeat split; unfold exS, exD, exB; intros x Hx; cases_in; try reflexivity; apply brg_six_ex.
  - unfold exS. intros s Hs; cases_in; [exists 0%nat|exists 1%nat]; split; try reflexivity; lia.
  - unfold exS. intros [|[|k]] Hk; [|exists (ex_rshaft six 1 "s1")|lia]; [exists (ex_rshaft six 0 "s0")|]; split; simpl; auto.
  - unfold exS. intros s s' Hs Hs'; cases_in; reflexivity.
  - unfold exS. intros s Hs; cases_in; simpl; lra.
  - unfold exD. intros s Hs; cases_in; simpl; lia.
  - unfold exB. cbn [map]. rewrite !brg_n_ex. repeat (constructor; [simpl; lia|]). constructor.
  - unfold exB. intros b Hb; cases_in; rewrite brg_n_ex; [left; lia|left; lia|right].
    split; [exists (ex_pm six 3 "p0"); split; [left; reflexivity|reflexivity]|].
    exists (ex_brg six 0 (Some 3%nat) "b0"). split; [left; reflexivity|apply brg_link_ex].
  - unfold exB. intros b m Hb; cases_in; rewrite brg_link_ex, brg_n_ex; intros [= <-]. lia.
  - unfold exP, exB. intros p Hp; cases_in. exists (ex_brg six 3 None "b2"). split; [simpl; auto|rewrite brg_n_ex; reflexivity].
Qed.

Lemma el_fam_nd r six n t s : rfacts r -> In (EShaft six n t s) (r_shaft r) -> r_nd r = (if six then 6 else 4)%nat.
Proof. intros F H. apply in_shaft_elements in H. apply (rf_fam _ F) in H. exact H. Qed.

Lemma ex_coef_psd spl w six n l t i : (exists v, el_M spl w (EBrg i (ex_brg six n l t)) = Ok v) /\ (exists v, el_K spl w (EBrg i (ex_brg six n l t)) = Ok v) /\ (exists v, el_C spl w (EBrg i (ex_brg six n l t)) = Ok v).
Proof. destruct six, l; repeat split; eexists; reflexivity. Qed.

Record ex_facts (six : bool) (r : rotor) : Prop := {
  xf_reg : regular r; xf_links : links_ok r; xf_layers : layers_match r;
  xf_nd : r_nd r = (if six then 6 else 4)%nat; xf_last : r_n_last r = 1%nat;
  xf_load : forall e, In e (r_shaft r) -> no_load e;
  xf_cyl : forall e, In e (r_shaft r) -> cylinder e;
  xf_shaft : r_shaft r = [EShaft six 0 "s0" (ex_shaft 0 "s0"); EShaft six 1 "s1" (ex_shaft 1 "s1")];
  xf_disk : r_disk r = [EDisk six "d0" (rd_d (ex_disk six 1 "d0"))];
  xf_brg : r_brg r = [EBrg "b0" (ex_brg six 0 (Some 3%nat) "b0"); EBrg "b1" (ex_brg six 2 None "b1"); EBrg "b2" (ex_brg six 3 None "b2")];
  xf_pm : r_pm r = [EPm six "p0" (rp_p (ex_pm six 3 "p0"))] }.

Lemma ex_rotor six : exists r, rotor_init (exS six) (exD six) (exB six) (exP six) = Ok r /\ ex_facts six r.
Proof.
  destruct (init_ok _ _ _ _ _ (ex_wf six)) as (r & H & E & Hl & Hc & _).
  exists r. split; [exact H|]. pose proof (rotor_facts _ _ _ _ _ H) as F.
  destruct (rotor_init_lists _ _ _ _ _ H) as (Es & Ed & Eb & Ep).
  assert (Es' : r_shaft r = [EShaft six 0 "s0" (ex_shaft 0 "s0"); EShaft six 1 "s1" (ex_shaft 1 "s1")]) by (rewrite Es; reflexivity).
  assert (Ed' : r_disk r = [EDisk six "d0" (rd_d (ex_disk six 1 "d0"))]) by (rewrite Ed; reflexivity).
  assert (Eb' : r_brg r = [EBrg "b0" (ex_brg six 0 (Some 3%nat) "b0"); EBrg "b1" (ex_brg six 2 None "b1"); EBrg "b2" (ex_brg six 3 None "b2")])
    by (rewrite Eb; destruct six; reflexivity).
  assert (Ep' : r_pm r = [EPm six "p0" (rp_p (ex_pm six 3 "p0"))]) by (rewrite Ep; reflexivity).
  assert (Hnd : r_nd r = (if six then 6 else 4)%nat) by (eapply el_fam_nd; [exact F|rewrite Es'; left; reflexivity]).
  constructor; auto.
  - constructor; auto.
    + rewrite Ep', E. reflexivity.
    + intros x t p Hin. rewrite Ep' in Hin. destruct Hin as [Hin|[]]. injection Hin as <- _ _. exact Hnd.
  - intros e m Hin Hm. rewrite Eb' in Hin. rewrite E, Ep'. cases_in; destruct six; simpl in *; try discriminate; injection Hm as <-; simpl; lia.
  - rewrite Es'. intros e Hin; cases_in; simpl; eexists; (split; [apply ex_shaft_init|]); (split; [apply ex_sargs_good|]); split; reflexivity.
  - rewrite Es'. intros e Hin; cases_in; simpl; eexists; (split; [apply ex_shaft_init|]); split; reflexivity.
Qed.

(** ** the example bearings *)
From Verif Require Import LBearing2.
Lemma diag2 a b x : bform 2 (lmat [[a; 0]; [0; b]]) x x = a * (x 0%nat) ^ 2 + b * (x 1%nat) ^ 2.
Proof. unfold bform, sumn, lmat. cbn. ring. Qed.
Lemma diag3 a b c x : bform 3 (lmat [[a; 0; 0]; [0; b; 0]; [0; 0; c]]) x x = a * (x 0%nat) ^ 2 + b * (x 1%nat) ^ 2 + c * (x 2%nat) ^ 2.
Proof. unfold bform, sumn, lmat. cbn. ring. Qed.
Lemma ex_brg_K spl w six n l t i x : 
  let e := EBrg i (ex_brg six n l t) in
  let v j := match l with None => x j | Some _ => x j - x ((if six then 3 else 2) + j)%nat end in
  bform (el_size (el_K spl w) e) (el_mat (el_K spl w) e) x x =
    1000 * (v 0%nat) ^ 2 + 1000 * (v 1%nat) ^ 2 + (if six then 500 * (v 2%nat) ^ 2 else 0).
Proof.
  cbv zeta. destruct six, l as [m|].
  - change (bform (2 * 3) (linked 3 (lmat [[1000; 0; 0]; [0; 1000; 0]; [0; 0; 500]])) x x = 1000 * (x 0%nat - x 3%nat) ^ 2 + 1000 * (x 1%nat - x 4%nat) ^ 2 + 500 * (x 2%nat - x 5%nat) ^ 2).
    rewrite linked_bform, diag3. reflexivity.
  - change (bform 3 (lmat [[1000; 0; 0]; [0; 1000; 0]; [0; 0; 500]]) x x = 1000 * (x 0%nat) ^ 2 + 1000 * (x 1%nat) ^ 2 + 500 * (x 2%nat) ^ 2).
    apply diag3.
  - change (bform (2 * 2) (linked 2 (lmat [[1000; 0]; [0; 1000]])) x x = 1000 * (x 0%nat - x 2%nat) ^ 2 + 1000 * (x 1%nat - x 3%nat) ^ 2 + 0).
    rewrite linked_bform, diag2. cbn [Nat.add]. ring.
  - change (bform 2 (lmat [[1000; 0]; [0; 1000]]) x x = 1000 * (x 0%nat) ^ 2 + 1000 * (x 1%nat) ^ 2 + 0). rewrite diag2. ring.
Qed.
Lemma ex_brg_M spl w six n l t i x : 
  let e := EBrg i (ex_brg six n l t) in bform (el_size (el_M spl w) e) (el_mat (el_M spl w) e) x x = 0.
Proof.
  cbv zeta. destruct six, l as [m|].
  - change (bform (2 * 3) (linked 3 (lmat [[0; 0; 0]; [0; 0; 0]; [0; 0; 0]])) x x = 0).
    rewrite linked_bform, diag3. ring.
  - change (bform 3 (lmat [[0; 0; 0]; [0; 0; 0]; [0; 0; 0]]) x x = 0). rewrite diag3. ring.
  - change (bform (2 * 2) (linked 2 (lmat [[0; 0]; [0; 0]])) x x = 0).
    rewrite linked_bform, diag2. ring.
  - change (bform 2 (lmat [[0; 0]; [0; 0]]) x x = 0). rewrite diag2. ring.
Qed.
Lemma ex_brg_psd spl w six n l t i : let e := EBrg i (ex_brg six n l t) in
  pos_semidef (el_size (el_K spl w) e) (el_mat (el_K spl w) e) /\ pos_semidef (el_size (el_M spl w) e) (el_mat (el_M spl w) e) /\
  grips (el_K spl w) e.
Proof.
  cbv zeta. split; [|split].
  - intros x. rewrite ex_brg_K. cbv zeta. match goal with |- 0 <= 1000 * ?a ^ 2 + 1000 * ?b ^ 2 + ?c => pose proof (pow2_ge_0 a); pose proof (pow2_ge_0 b); assert (0 <= c) end.
    { destruct six; [|lra]. match goal with |- 0 <= 500 * ?a ^ 2 => pose proof (pow2_ge_0 a) end. lra. }
    lra.
  - intros x. rewrite ex_brg_M. lra.
  - unfold grips. cbv zeta.
    assert (P : forall a : R, a <> 0 -> 0 < a ^ 2) by (intros a Ha; assert (0 < a * a) by (apply Rsqr_pos_lt; exact Ha); lra).
    assert (Hh : match EBrg i (ex_brg six n l t) with EBrg _ (RB6 _) => 3%nat | _ => 2%nat end = (if six then 3 else 2)%nat) by (destruct six; reflexivity).
    rewrite Hh. assert (Hl : el_link (EBrg i (ex_brg six n l t)) = l) by (destruct six; reflexivity). rewrite Hl.
    destruct l as [m|].
    + intros x (j & Hj & Hne).
      assert (Hz : el_size (el_K spl w) (EBrg i (ex_brg six n (Some m) t)) = (2 * if six then 3 else 2)%nat) by (destruct six; reflexivity).
      rewrite <- Hz, ex_brg_K. cbv zeta.
      pose proof (pow2_ge_0 (x 0%nat - x ((if six then 3 else 2) + 0)%nat)). pose proof (pow2_ge_0 (x 1%nat - x ((if six then 3 else 2) + 1)%nat)). pose proof (pow2_ge_0 (x 2%nat - x ((if six then 3 else 2) + 2)%nat)).
      assert (Hd : x j - x ((if six then 3 else 2) + j)%nat <> 0) by lra. apply P in Hd.
      destruct six; (destruct j as [|[|[|j]]]; [| | |lia]); try lia; lra.
    + intros x (j & Hj & Hne).
      assert (Hz : el_size (el_K spl w) (EBrg i (ex_brg six n None t)) = (if six then 3 else 2)%nat) by (destruct six; reflexivity).
      rewrite <- Hz, ex_brg_K. cbv zeta.
      pose proof (pow2_ge_0 (x 0%nat)). pose proof (pow2_ge_0 (x 1%nat)). pose proof (pow2_ge_0 (x 2%nat)).
      apply P in Hne.
      destruct six; (destruct j as [|[|[|j]]]; [| | |lia]); try lia; lra.
Qed.
Lemma ex_inertia spl w six r e : ex_facts six r -> rfacts r -> In e (r_elements r) -> good_inertia (el_M spl w) e.
Proof.
  intros X F He. unfold r_elements in He. rewrite (xf_shaft _ _ X), (xf_disk _ _ X), (xf_brg _ _ X), (xf_pm _ _ X) in He. simpl in He.
  repeat (destruct He as [<-|He]); try destruct He; try (apply ex_brg_psd).
  - simpl. eexists. split; [apply ex_shaft_init|apply ex_sargs_good].
  - simpl. eexists. split; [apply ex_shaft_init|apply ex_sargs_good].
  - simpl. lra.
  - simpl. lra.
Qed.
Lemma ex_held spl w six r : ex_facts six r ->
  held (el_K spl w) r 0 /\ held (el_K spl w) r 2 /\ held (el_K spl w) r 3.
Proof.
  intros X.
  assert (H3 : held (el_K spl w) r 3).
  { replace 3%nat with (el_n (EBrg "b2" (ex_brg six 3 None "b2"))) by (destruct six; reflexivity).
    apply held_ground; [rewrite (xf_brg _ _ X); simpl; auto|destruct six; reflexivity|apply ex_brg_psd]. }
  assert (H2 : held (el_K spl w) r 2).
  { replace 2%nat with (el_n (EBrg "b1" (ex_brg six 2 None "b1"))) by (destruct six; reflexivity).
    apply held_ground; [rewrite (xf_brg _ _ X); simpl; auto|destruct six; reflexivity|apply ex_brg_psd]. }
  split; [|auto].
  replace 0%nat with (el_n (EBrg "b0" (ex_brg six 0 (Some 3%nat) "b0"))) by (destruct six; reflexivity).
  apply held_from with (m := 3%nat); [rewrite (xf_brg _ _ X); simpl; auto|destruct six; reflexivity|apply ex_brg_psd|exact H3].
Qed.

(** ** wrongly accepted and wrongly rejected input *)
(** a shaft with a gap: nodes 0-1 and 3-4, and a disk on node 2, which no shaft element touches *)
Lemma gap_accepted : exists r, rotor_init [ex_rshaft false 0 "s0"; ex_rshaft false 3 "s1"] [ex_disk false 2 "d0"] [] [] = Ok r /\
  forall e, In e (r_shaft r) -> el_n e <> 2%nat /\ S (el_n e) <> 2%nat.
Proof. eexists. split; [reflexivity|]. cbn [r_shaft]. intros e He. simpl in He. destruct He as [<-|[<-|[]]]; split; discriminate. Qed.
Lemma gap_singular : exists r, rotor_init [ex_rshaft false 0 "s0"; ex_rshaft false 3 "s1"] [] [] [] = Ok r /\
  (8 < r_ndof r)%nat /\ (forall spl w, exists A, rotor_M spl r w = Ok A /\ forall j, A 8%nat j = 0).
Proof.
  eexists. split; [reflexivity|]. split; [cbn [r_ndof]; simpl; lia|]. intros spl w. eexists. split; [reflexivity|]. intros j. reflexivity.
Qed.

(** a bearing linked to a node that does not exist, or to its own node *)
Lemma bad_link_wf six m : well_formed (exS six) [] [ex_brg six 0 (Some m) "b0"] [] 1.
Proof.
  constructor.
  - exists ["s0"; "s1"; "b0"]%string. split.
    + unfold given_tags. cbn [map exS app]. rewrite !brg_tag_ex. reflexivity.
    + apply tags_unique_iff. reflexivity.
  - exists six. repeat split; unfold exS; intros x Hx; cases_in; try reflexivity; apply brg_six_ex.
  - unfold exS. intros s Hs; cases_in; [exists 0%nat|exists 1%nat]; split; try reflexivity; lia.
  - unfold exS. intros [|[|k]] Hk; [|exists (ex_rshaft six 1 "s1")|lia]; [exists (ex_rshaft six 0 "s0")|]; split; simpl; auto.
  - unfold exS. intros s s' Hs Hs'; cases_in; reflexivity.
  - unfold exS. intros s Hs; cases_in; simpl; lra.
  - intros d [].
  - cbn [map]. repeat (constructor; [simpl; lia|]). constructor.
  - intros b Hb; cases_in; rewrite brg_n_ex; left; lia.
  - intros b m' Hb; cases_in; rewrite brg_link_ex, brg_n_ex; intros [= <-]. lia.
  - intros p [].
Qed.
Lemma bad_link_accepted m : (m = 0 \/ 3 <= m)%nat ->
  exists r, rotor_init (exS false) [] [ex_brg false 0 (Some m) "b0"] [] = Ok r /\
    forall spl w A, rotor_K spl r w [] <> Ok A.
Proof.
  intros Hm. destruct (init_ok _ _ _ _ _ (bad_link_wf false m)) as (r & H & E & Hl & Hc & _).
  exists r. split; [exact H|]. pose proof (rotor_facts _ _ _ _ _ H) as F.
  destruct (rotor_init_lists _ _ _ _ _ H) as (Es & _ & Eb & Ep). intros spl w A HA.
  assert (Es' : r_shaft r = [EShaft false 0 "s0" (ex_shaft 0 "s0"); EShaft false 1 "s1" (ex_shaft 1 "s1")]) by (rewrite Es; reflexivity).
  assert (Eb' : r_brg r = [EBrg "b0" (ex_brg false 0 (Some m) "b0")]) by (rewrite Eb; reflexivity).
  assert (Hnd : r_nd r = 4%nat) by (apply (el_fam_nd r false 0 "s0" (ex_shaft 0 "s0")); [exact F|rewrite Es'; left; reflexivity]).
  pose proof (rf_ndof _ F) as Hnn. rewrite Hnd, E, Ep in Hnn. simpl in Hnn.
  unfold rotor_K in HA. rewrite kept_nil in HA. destruct (assemble_ok _ _ _ _ _ _ HA) as [H1 _].
  destruct (H1 (EBrg "b0" (ex_brg false 0 (Some m) "b0"))) as (k & M & HK & Hlen & Hlt).
  { unfold r_elements. rewrite !in_app_iff, Eb'. simpl. auto. }
  injection HK as <- _. unfold r_dofs in Hlen, Hlt. rewrite Hnd, E in Hlen, Hlt.
  destruct Hm as [-> | Hm]; [discriminate Hlen|].
  assert (Hin : In (gidx 4 1 m 0) (el_dofs 4 1 (EBrg "b0" (ex_brg false 0 (Some m) "b0")))).
  { destruct m as [|m]; [lia|]. unfold el_dofs, dof_index. simpl. auto. }
  specialize (Hlt _ Hin). rewrite Hnn in Hlt. unfold gidx in Hlt. destruct (Nat.leb_spec m (1 + 1)); [lia|]. simpl in Hlt. lia.
Qed.

(** a six-dof point mass in a four-dof rotor *)
Definition mixB := [ex_brg false 0 (Some 3%nat) "b0"; ex_brg false 2 (Some 4%nat) "b1"; ex_brg false 3 None "b2"; ex_brg false 4 None "b3"].
Definition mixP := [ex_pm true 3 "p0"; ex_pm false 4 "p1"].
Lemma mix_wf : well_formed (exS false) [] mixB mixP 1.
Proof.
  constructor.
  - exists ["s0"; "s1"; "b0"; "b1"; "b2"; "b3"; "p0"; "p1"]%string. split; [reflexivity|]. apply tags_unique_iff. reflexivity.
  - exists false. repeat split; unfold exS, mixB; intros x Hx; cases_in; reflexivity.
  - unfold exS. intros s Hs; cases_in; [exists 0%nat|exists 1%nat]; split; try reflexivity; lia.
  - unfold exS. intros [|[|k]] Hk; [|exists (ex_rshaft false 1 "s1")|lia]; [exists (ex_rshaft false 0 "s0")|]; split; simpl; auto.
  - unfold exS. intros s s' Hs Hs'; cases_in; reflexivity.
  - unfold exS. intros s Hs; cases_in; simpl; lra.
  - intros d [].
  - unfold mixB. cbn. repeat (constructor; [simpl; lia|]). constructor.
  - unfold mixB, mixP. intros b Hb; cases_in; rewrite brg_n_ex; [left; lia|left; lia|right|right].
    + split; [exists (ex_pm true 3 "p0"); simpl; auto|]. exists (ex_brg false 0 (Some 3%nat) "b0"). simpl; auto.
    + split; [exists (ex_pm false 4 "p1"); simpl; auto|]. exists (ex_brg false 2 (Some 4%nat) "b1"). simpl; auto.
  - unfold mixB. intros b m Hb; cases_in; rewrite brg_link_ex, brg_n_ex; intros [= <-]; lia.
  - unfold mixP, mixB. intros p Hp; cases_in; [exists (ex_brg false 3 None "b2")|exists (ex_brg false 4 None "b3")]; simpl; auto 6.
Qed.
(** the model evaluated on explicit lists *)
Lemma rotor_shape shafts disks brgs pms r last : rotor_init shafts disks brgs pms = Ok r -> r_n_last r = last ->
  forall six n t s l, r_shaft r = EShaft six n t s :: l ->
  r_nd r = (if six then 6 else 4)%nat /\ r_ndof r = ((if six then 6 else 4) * (last + 2) + (if six then 3 else 2) * length (r_pm r))%nat.
Proof.
  intros H E six n t s l Es. pose proof (rotor_facts _ _ _ _ _ H) as F.
  assert (Hnd : r_nd r = (if six then 6 else 4)%nat) by (eapply el_fam_nd; [exact F|rewrite Es; left; reflexivity]).
  split; [exact Hnd|]. rewrite (rf_ndof _ F), Hnd, E. destruct six; reflexivity.
Qed.
Lemma mixed_mass_accepted : exists r, rotor_init (exS false) [] mixB mixP = Ok r /\
  forall spl w, exists A, rotor_M spl r w = Ok A /\
    A 14%nat 14%nat = p_mx (rp_p (ex_pm false 4 "p1")) + p_mz (rp_p (ex_pm true 3 "p0")).
Proof.
  destruct (init_ok _ _ _ _ _ mix_wf) as (r & H & E & _). exists r. split; [exact H|].
  destruct (rotor_init_lists _ _ _ _ _ H) as (Es & Ed & Eb & Ep). cbn in Es, Ed, Eb, Ep.
  destruct (rotor_shape _ _ _ _ _ _ H E _ _ _ _ _ Es) as [Hnd Hn]. rewrite Ep in Hn. cbn in Hn.
  intros spl w. unfold rotor_M, r_dofs. rewrite Hn, Hnd, E. unfold r_elements. rewrite Es, Ed, Eb, Ep.
  eexists. split; [reflexivity|]. cbn. unfold mzero. ring.
Qed.

(** a point mass on a node of the shaft *)
Definition onshaftB := [ex_brg false 0 None "b0"].
Definition onshaftP := [ex_pm false 0 "p0"].
Lemma onshaft_wf : well_formed (exS false) [] onshaftB onshaftP 1.
Proof.
  constructor.
  - exists ["s0"; "s1"; "b0"; "p0"]%string. split; [reflexivity|]. apply tags_unique_iff. reflexivity.
  - exists false. repeat split; unfold exS, onshaftB; intros x Hx; cases_in; reflexivity.
  - unfold exS. intros s Hs; cases_in; [exists 0%nat|exists 1%nat]; split; try reflexivity; lia.
  - unfold exS. intros [|[|k]] Hk; [|exists (ex_rshaft false 1 "s1")|lia]; [exists (ex_rshaft false 0 "s0")|]; split; simpl; auto.
  - unfold exS. intros s s' Hs Hs'; cases_in; reflexivity.
  - unfold exS. intros s Hs; cases_in; simpl; lra.
  - intros d [].
  - unfold onshaftB. cbn. repeat (constructor; [simpl; lia|]). constructor.
  - unfold onshaftB. intros b Hb; cases_in; rewrite brg_n_ex; left; lia.
  - unfold onshaftB. intros b m Hb; cases_in; rewrite brg_link_ex, brg_n_ex; intros [=].
  - unfold onshaftP, onshaftB. intros p Hp; cases_in. exists (ex_brg false 0 None "b0"); simpl; auto.
Qed.
Lemma onshaft_accepted : exists r, rotor_init (exS false) [] onshaftB onshaftP = Ok r /\ r_ndof r = 14%nat /\
  forall spl w, exists A, rotor_M spl r w = Ok A /\ forall j, A 13%nat j = 0.
Proof.
  destruct (init_ok _ _ _ _ _ onshaft_wf) as (r & H & E & _). exists r. split; [exact H|].
  destruct (rotor_init_lists _ _ _ _ _ H) as (Es & Ed & Eb & Ep). cbn in Es, Ed, Eb, Ep.
  destruct (rotor_shape _ _ _ _ _ _ H E _ _ _ _ _ Es) as [Hnd Hn]. rewrite Ep in Hn. cbn in Hn. split; [exact Hn|].
  intros spl w. unfold rotor_M, r_dofs. rewrite Hn, Hnd, E. unfold r_elements. rewrite Es, Ed, Eb, Ep.
  eexists. split; [reflexivity|]. intros j. reflexivity.
Qed.

(** a bearing and a seal at the last node of the shaft *)
Lemma two_at_end_rejected :
  rotor_init (exS false) [] [ex_brg false 0 None "b0"; ex_brg false 2 None "b1"; RB4 true (ex_bearing 2 None "x0")] [] = Err IndexError.
Proof.
  unfold rotor_init. cbn.
  repeat match goal with |- context [Req_EM_T ?a ?b] => destruct (Req_EM_T a b); cbn end; try reflexivity; try lra.
Qed.
