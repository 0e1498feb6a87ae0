(** Lemmas about cutting a shaft into elements (4): acceptance of from_section; Rotor.convergence. *)
From Coq Require Import Reals String List Arith Bool Lia Lra Permutation Sorted.
From Verif Require Import PyBase MatBase SpecMat LMat MMaterial MShaft SpecShaft MDisk MBearing MRotor SpecRotor LAssembly LRotor LRotor2 LRotorPos LRotor5 LRotorInit LRotorInit2 LRotorInit3 LRotor6 MSection SpecSection LSection LSection2 LSection3.
Import ListNotations.
Open Scope list_scope.
Open Scope R_scope.

Lemma scale_brg_n k b : brg_n (scale_brg k b) = (k * brg_n b)%nat.
Proof. destruct b; reflexivity. Qed.
Lemma scale_brg_link k b : brg_link (scale_brg k b) = brg_link b.
Proof. destruct b; reflexivity. Qed.
Lemma scale_brg_six k b : brg_six (scale_brg k b) = brg_six b.
Proof. destruct b; reflexivity. Qed.
Lemma scale_brg_tag k b : b_tag (brg_base (scale_brg k b)) = b_tag (brg_base b).
Proof. destruct b; reflexivity. Qed.

Lemma nodup_app {A} (l1 l2 : list A) : NoDup l1 -> NoDup l2 -> (forall x, In x l1 -> In x l2 -> False) -> NoDup (l1 ++ l2).
Proof.
  induction l1 as [|x l1 IH]; intros H1 H2 H; [exact H2|]. simpl. inversion H1; subst. constructor.
  - rewrite in_app_iff. intros [|]; [contradiction|]. apply (H x); simpl; auto.
  - apply IH; auto. intros y Hy. apply H. right. exact Hy.
Qed.
Lemma chain_tags i l : (forall s, In s l -> s_tag s = None) -> map el_tag (chain i l) = map (fun k => default_tag "ShaftElement " k None) (seq i (length l)).
Proof.
  revert i. induction l as [|s l IH]; intros i H; [reflexivity|]. simpl. rewrite (H s (or_introl eq_refl)). f_equal. apply (IH (S i)). intros; apply H; right; auto.
Qed.
Lemma default_tag_inj p i j : default_tag p i None = default_tag p j None -> i = j.
Proof. unfold default_tag. intros H. apply prefix_inj in H. apply str_inj. exact H. Qed.

(** a chain of plain elements with disks and grounded bearings on it is accepted *)
Lemma chain_accept shafts disks brgs : (forall s, In s shafts -> plain s /\ 0 < s_L s) -> (0 < length shafts)%nat ->
  (forall d, In d disks -> rd_six d = false /\ (d_n (rd_d d) <= length shafts)%nat) ->
  (forall b, In b brgs -> brg_six b = false /\ (brg_n b <= length shafts)%nat /\ forall m, brg_link b = Some m -> (m <= length shafts)%nat) ->
  NoDup (map brg_n brgs) ->
  (exists ts, map (fun d => d_tag (rd_d d)) disks ++ map (fun b => b_tag (brg_base b)) brgs = map Some ts /\ NoDup ts /\
              forall t k, In t ts -> t <> default_tag "ShaftElement " k None) ->
  exists r, rotor_init (map (mkRShaft false) shafts) disks brgs [] = Ok r.
Proof.
  intros Hs Hlen Hd Hb Hbn (ts & Ets & Hts & Hfresh).
  assert (Hn : forall s, In s shafts -> s_n s = None) by (intros s Hin; apply (Hs s Hin)).
  destruct shafts as [|s0 shafts'] eqn:E; [simpl in Hlen; lia|]. rewrite <- E in *. clear E.
  assert (Hch : forall e, In e (mapi mk_shaft 0 (map (mkRShaft false) shafts)) -> exists k, (k < length shafts)%nat /\ e = EShaft false k (default_tag "ShaftElement " k (s_tag (nth k shafts s0))) (nth k shafts s0)).
  { intros e He. change (In e (chain 0 shafts)) in He. apply chain_in in He as (k & d & Hk & -> & _); auto. exists k. split; [auto|].
    simpl. rewrite (nth_indep shafts d s0) by auto. reflexivity. }
  destruct (init_final (map (mkRShaft false) shafts) disks brgs [] (length shafts - 1)) as (r & Hr & _).
  - constructor.
    + change (mapi mk_shaft 0 (map (mkRShaft false) shafts)) with (chain 0 shafts). rewrite map_app, chain_tags by (intros s Hin; apply (Hs s Hin)).
      apply map_some_app in Ets as (t1 & t2 & -> & E1 & E2). rewrite !map_app, app_nil_r.
      rewrite (mapi_explicit mk_disk (fun s => d_tag (rd_d s)) 0 disks t1); [|intros i x t Ht; simpl; rewrite Ht; reflexivity|exact E1].
      rewrite (mapi_explicit mk_brg (fun s => b_tag (brg_base s)) 0 brgs t2); [|intros i x t Ht; simpl; rewrite Ht; reflexivity|exact E2].
      apply nodup_app; [|exact Hts|].
      * apply FinFun.Injective_map_NoDup; [intros i j; apply default_tag_inj|apply seq_NoDup].
      * intros t Ht Ht2. apply in_map_iff in Ht as (k & <- & _). exact (Hfresh _ k Ht2 eq_refl).
    + exists false. split; [intros s Hin; apply in_map_iff in Hin as (x & <- & _); reflexivity|]. split; [intros d Hin; apply (Hd d Hin)|intros b Hin; apply (Hb b Hin)].
    + intros e He. apply Hch in He as (k & Hk & ->). simpl. lia.
    + intros k Hk. eexists. split; [eapply nth_error_In; apply (chain_nth 0 shafts k s0); [auto|lia]|]. reflexivity.
    + intros e e' He He'. apply Hch in He as (k & Hk & ->). apply Hch in He' as (k' & Hk' & ->). simpl. intros ->. reflexivity.
    + intros s Hin. apply in_map_iff in Hin as (x & <- & Hx). apply (Hs x Hx).
    + intros d Hin. destruct (Hd d Hin). lia.
    + exact Hbn.
    + intros b Hin. left. destruct (Hb b Hin) as (_ & ? & _). lia.
    + intros b m Hin Hm. destruct (Hb b Hin) as (_ & _ & Hl). right. specialize (Hl m Hm). lia.
    + intros p [].
  - exists r. exact Hr.
Qed.

Lemma nodup_scale (f : rbrg -> nat) k brgs : (0 < k)%nat -> NoDup (map f brgs) -> NoDup (map (fun b => (k * f b)%nat) brgs).
Proof.
  intros Hk H. rewrite <- (map_map f (fun n => (k * n)%nat)). apply FinFun.Injective_map_NoDup; [|exact H]. intros x y E. nia.
Qed.

Lemma from_section_ok lens il ol ir or mt disks brgs nel : good_section_input lens il ol ir or mt disks brgs nel ->
  exists r, from_section lens il ol ir or (Some mt) (Some disks) (Some brgs) nel = Ok r.
Proof.
  intros G. unfold from_section. rewrite (gi_il _ _ _ _ _ _ _ _ _ G), (gi_ol _ _ _ _ _ _ _ _ _ G), Nat.eqb_refl. cbn [andb negb]. cbv zeta.
  change (default il ir) with (right_ends il ir). change (default ol or) with (right_ends ol or).
  rewrite (gi_ir _ _ _ _ _ _ _ _ _ G), (gi_or _ _ _ _ _ _ _ _ _ G), Nat.eqb_refl. cbn [andb negb].
  replace (match or with Some _ => false | None => false end) with false by (destruct or; reflexivity).
  assert (Hreg : exists shafts, match mt with
            | MatOne m => regions nel 0 lens il ol (right_ends il ir) (right_ends ol or) (fun _ => m)
            | MatList l => if Nat.eqb (length lens) (length l)
                           then regions nel 0 lens il ol (right_ends il ir) (right_ends ol or) (fun i => nth i l (mkMaterial "" 0 0 0 0 "" ))
                           else Err IndexError
            end = Ok shafts /\ length shafts = (nel * length lens)%nat /\ forall s, In s shafts -> plain s /\ 0 < s_L s).
  { assert (X : forall f shafts, regions nel 0 lens il ol (right_ends il ir) (right_ends ol or) f = Ok shafts -> length shafts = (nel * length lens)%nat /\ forall s, In s shafts -> plain s /\ 0 < s_L s).
    { intros f shafts E. apply regions_inv in E as (ps & -> & Hl & Hk & Hs). split.
      - rewrite (concat_len ps nel), Hl; [reflexivity|]. intros k Hlt. rewrite Hl in Hlt. destruct (Hk k Hlt) as (? & ? & _ & _ & _ & _ & Hp). apply (pc_len _ _ _ _ _ _ _ _ Hp).
      - intros s Hin. split; [apply (Hs s Hin)|]. apply in_concat in Hin as (p & Hp & Hin). apply (In_nth _ _ []) in Hp as (k & Hlt & <-). rewrite Hl in Hlt.
        destruct (Hk k Hlt) as (ir' & or' & _ & _ & Hn & _ & Hp). apply (In_nth _ _ s) in Hin as (j & Hj & <-). rewrite (pc_len _ _ _ _ _ _ _ _ Hp) in Hj.
        destruct (pc_part _ _ _ _ _ _ _ _ Hp j s Hj) as (-> & _). 
        assert (0 < nth k lens 0) by (apply (gi_pos _ _ _ _ _ _ _ _ _ G), nth_In; auto).
        apply lt_INR in Hn. simpl in Hn. replace ((INR j + 1) * (nth k lens 0 / INR nel) - INR j * (nth k lens 0 / INR nel)) with (nth k lens 0 / INR nel) by ring. apply Rdiv_lt_0_compat; auto. }
    assert (Y : forall f, exists shafts, regions nel 0 lens il ol (right_ends il ir) (right_ends ol or) f = Ok shafts).
    { intros f. apply regions_ok; [apply (gi_nel _ _ _ _ _ _ _ _ _ G)|apply (gi_pos _ _ _ _ _ _ _ _ _ G)| |]; simpl; [rewrite (gi_ir _ _ _ _ _ _ _ _ _ G)|rewrite (gi_or _ _ _ _ _ _ _ _ _ G)]; lia. }
    pose proof (gi_mt _ _ _ _ _ _ _ _ _ G) as Hm. destruct mt as [m|l].
    - destruct (Y (fun _ => m)) as [shafts E]. exists shafts. split; [exact E|]. apply (X _ _ E).
    - rewrite Hm, Nat.eqb_refl. destruct (Y (fun i => nth i l (mkMaterial "" 0 0 0 0 ""))) as [shafts E]. exists shafts. split; [exact E|]. apply (X _ _ E). }
  destruct Hreg as (shafts & -> & Hlen & Hs). cbn [bind].
  pose proof (gi_nel _ _ _ _ _ _ _ _ _ G) as Hn. pose proof (gi_some _ _ _ _ _ _ _ _ _ G) as Hsome.
  apply chain_accept; auto.
  - nia.
  - intros d Hin. apply in_map_iff in Hin as (x & <- & Hx). destruct (gi_disk _ _ _ _ _ _ _ _ _ G x Hx). split; [assumption|]. simpl. rewrite Hlen. nia.
  - intros b Hin. apply in_map_iff in Hin as (x & <- & Hx). destruct (gi_brg _ _ _ _ _ _ _ _ _ G x Hx) as (? & ? & ?).
    rewrite scale_brg_six, scale_brg_n, scale_brg_link. repeat split; auto; rewrite Hlen; [nia|]. intros m Hm. match goal with H : forall m, brg_link x = Some m -> _ |- _ => specialize (H m Hm) end. nia.
  - rewrite map_map. rewrite (map_ext _ _ (scale_brg_n nel)). apply nodup_scale; [auto|apply (gi_brg_nodes _ _ _ _ _ _ _ _ _ G)].
  - rewrite !map_map. rewrite (map_ext _ _ (scale_brg_tag nel)). apply (gi_tags _ _ _ _ _ _ _ _ _ G).
Qed.

(** ** convergence: the elements of one refined cylinder *)
Lemma refine_cyl_loop nel s js : (0 < nel)%nat -> s_odr s = s_odl s -> s_idr s = s_idl s ->
  refine_loop nel s js (s_odl s) (s_odl s) (s_idl s) (s_idl s) =
  map (fun j => cut_args (s_L s) (s_L s / INR nel) (s_idl s) (s_odl s) (s_idl s) (s_odl s) j (Some (s_material s)) None
         (s_shear_effects s) (s_rotary_inertia s) (s_gyroscopic s) 0 0) js.
Proof.
  intros Hn H1 H2. assert (HN : INR nel <> 0) by (apply lt_INR in Hn; simpl in Hn; lra).
  assert (E : forall d j, ((INR nel - INR j - 1) * d + (INR j + 1) * d) / INR nel = d) by (intros; field; auto).
  assert (E' : forall d j, ((INR nel - INR j) * d + INR j * d) / INR nel = d) by (intros; field; auto).
  induction js as [|j js IH]; [reflexivity|]. cbn [refine_loop map]. cbv zeta. rewrite !E, !E', IH. f_equal.
  unfold cut_args. rewrite !Rminus_diag_eq by reflexivity. 
  assert (Z : forall x y d, 0 * x * y / s_L s + d = d) by (intros; unfold Rdiv; ring). rewrite !Z. reflexivity.
Qed.
Lemma forall2_flat {A B C} (P : B -> C -> Prop) (f : A -> list B) l cs : Forall2 P (flat_map f l) cs ->
  exists ps, cs = concat ps /\ Forall2 (fun a p => Forall2 P (f a) p) l ps.
Proof.
  revert cs. induction l as [|a l IH]; intros cs H; simpl in H.
  - inversion H. exists []. split; [reflexivity|constructor].
  - apply Forall2_app_inv_l in H as (p & cs' & Hp & Hcs & ->). destruct (IH _ Hcs) as (ps & -> & Hps). exists (p :: ps). split; [reflexivity|constructor; auto].
Qed.

Record refined (nel : nat) (s : shaft) (p : list shaft) : Prop := {
  rf_piece : piece (s_L s) nel (s_idl s) (s_odl s) (s_idl s) (s_odl s) (s_material s) p;
  rf_plain : forall x, In x p -> plain x;
  rf_flags : forall x, In x p -> s_shear_effects x = s_shear_effects s /\ s_rotary_inertia x = s_rotary_inertia s /\ s_gyroscopic x = s_gyroscopic s }.
Lemma refine_cyl nel s p : (0 < nel)%nat -> s_L s <> 0 -> s_odr s = s_odl s -> s_idr s = s_idl s ->
  Forall2 (fun a x => shaft_init a = Ok x) (refine_shaft nel s) p -> refined nel s p.
Proof.
  intros Hn HL H1 H2 H. unfold refine_shaft in H. rewrite H1, H2, refine_cyl_loop in H by auto.
  apply collect_all in H. rewrite map_map in H. apply cut_piece in H as [Hp Hs]; auto.
  constructor; auto; intros x Hx; destruct (Hs x Hx) as (? & ? & ? & ? & ? & ? & ? & ? & ?); repeat split; auto.
Qed.

(** the shaft of an unlayered rotor *)
Lemma flat_one l : (forall e, In e l -> exists six n t s, e = EShaft six n t s) -> 
  length (flat_map el_shaft l) = length l /\ forall k d, (k < length l)%nat -> exists six n t, nth_error l k = Some (EShaft six n t (nth k (flat_map el_shaft l) d)).
Proof.
  induction l as [|e l IH]; intros H; [split; [reflexivity|simpl; intros; lia]|].
  destruct (IH (fun x Hx => H x (or_intror Hx))) as [IH1 IH2]. destruct (H e (or_introl eq_refl)) as (six & n & t & s & ->).
  simpl. split; [lia|]. intros [|k] d Hk; [do 3 eexists; reflexivity|]. apply IH2. lia.
Qed.
Lemma flat_map_sum (g : elem -> R) (h : shaft -> R) l : (forall e, In e l -> exists six n t s, e = EShaft six n t s) -> (forall six n t s, g (EShaft six n t s) = h s) ->
  suml (map g l) = suml (map h (flat_map el_shaft l)).
Proof.
  intros H Hg. induction l as [|e l IH]; [reflexivity|]. destruct (H e (or_introl eq_refl)) as (six & n & t & s & ->). simpl. rewrite Hg, IH; [reflexivity|].
  intros x Hx. apply H. right. exact Hx.
Qed.
Record line_rotor (shafts : list shaft) (r : rotor) : Prop := {
  lr_last : (r_n_last r + 1)%nat = length shafts;
  lr_plen : length (r_nodes_pos r) = S (length shafts);
  lr_pos : forall k d, (k <= length shafts)%nat -> nth k (r_nodes_pos r) 0 = sumn k (fun i => s_L (nth i shafts d));
  lr_cg : r_m r <> 0 -> r_m r * r_CG r = mass_moment 0 shafts + suml (map (fun e => dk_m e * nth (el_n e) (r_nodes_pos r) 0) (r_disk r)) }.
Lemma unlayered_facts r : rfacts r -> unlayered r -> line_rotor (flat_map el_shaft (r_shaft r)) r.
Proof.
  intros F U. destruct (flat_one _ (rf_shaft _ F)) as [Hl Hn]. set (shafts := flat_map el_shaft (r_shaft r)) in *.
  assert (Hpos : (0 < length (r_shaft r))%nat) by (pose proof (rf_nonempty _ F); destruct (r_shaft r); [congruence|simpl; lia]).
  assert (Hnode : forall k d, (k < length shafts)%nat -> exists six t, nth_error (r_shaft r) k = Some (EShaft six k t (nth k shafts d))).
  { intros k d Hk. rewrite Hl in Hk. destruct (Hn k d Hk) as (six & n & t & E). pose proof (U k _ E) as En. simpl in En. subst n. eauto. }
  assert (Hin : forall e, In e (r_shaft r) -> exists k six t, (k < length shafts)%nat /\ forall d, e = EShaft six k t (nth k shafts d)).
  { intros e He. apply In_nth_error in He as [k Hk]. assert (Hlt : (k < length (r_shaft r))%nat) by (apply nth_error_Some; congruence). rewrite <- Hl in Hlt.
    destruct shafts as [|s0 sh'] eqn:Esh; [simpl in Hlt; lia|]. rewrite <- Esh in *. destruct (Hnode k s0 Hlt) as (six & t & E). exists k, six, t. split; [auto|].
    intros d. rewrite (nth_indep _ d s0) by auto. congruence. }
  destruct shafts as [|s0 sh'] eqn:Esh; [simpl in Hl; lia|]. rewrite <- Esh in *.
  assert (Hlast : (r_n_last r + 1)%nat = length shafts).
  { rewrite (rf_last _ F). rewrite (max_list_of _ (length shafts - 1)); [lia| |].
    - destruct (Hnode (length shafts - 1)%nat s0 ltac:(lia)) as (six & t & E). apply nth_error_In in E. apply in_map_iff. eexists. split; [|exact E]. reflexivity.
    - intros x Hx. apply in_map_iff in Hx as (e & <- & He). destruct (Hin e He) as (k & six & t & Hk & E). rewrite (E s0). simpl. lia. }
  assert (Hc : forall k, (k <= r_n_last r)%nat -> exists e, In e (r_shaft r) /\ el_n e = k).
  { intros k Hk. destruct (Hnode k s0 ltac:(lia)) as (six & t & E). apply nth_error_In in E. eexists. split; [exact E|]. reflexivity. }
  assert (Hly : layers_match r).
  { intros e e' He He'. destruct (Hin e He) as (k & six & t & Hk & E). destruct (Hin e' He') as (k' & six' & t' & Hk' & E'). rewrite (E s0), (E' s0). simpl. intros ->. reflexivity. }
  destruct (positions r F Hc Hly) as (P1 & P2 & P3 & P4).
  assert (Hp : forall d k, (k <= length shafts)%nat -> nth k (r_nodes_pos r) 0 = sumn k (fun i => s_L (nth i shafts d))).
  { intros d. induction k as [|k IH]; intros Hk; [exact P2|]. cbn [sumn]. rewrite <- IH by lia.
    destruct (Hnode k d ltac:(lia)) as (six & t & E). apply nth_error_In in E. apply P3 in E. exact E. }
  constructor; auto; [lia|]. intros Hm. rewrite (cg_value r F Hc Hly Hm). f_equal.
  set (g := fun e => sh_m e * (nth (el_n e) (r_nodes_pos r) 0 + sh_cg e)).
  rewrite (suml_nth g (r_shaft r) (EShaft false 0 "" s0)), <- Hl, (mass_moment_nth shafts s0). apply sumn_ext. intros i Hi.
  destruct (Hnode i s0 Hi) as (six & t & E). rewrite (nth_error_nth _ _ _ E). unfold g. simpl. rewrite (Hp s0 i) by lia. ring.
Qed.

Lemma refine_inv nel r r' : refine nel r = Ok r' -> (0 < nel)%nat -> 
  (forall s, In s (shafts_of r) -> s_L s <> 0 /\ s_odr s = s_odl s /\ s_idr s = s_idl s) ->
  exists ps, Forall2 (refined nel) (shafts_of r) ps /\ chain_rotor (concat ps) r' /\
    rotor_init (map (mkRShaft false) (concat ps)) (map (scale_disk nel) (flat_map el_disk (r_disk r))) (map (scale_brg nel) (flat_map el_brg (r_brg r))) [] = Ok r'.
Proof.
  intros H Hn Hc. unfold refine in H. destruct (collect _) as [shafts|] eqn:Ec; [|discriminate]. simpl in H.
  apply collect_all, forall2_flat in Ec as (ps & -> & Hps). fold (shafts_of r) in Hps.
  assert (Hps' : Forall2 (refined nel) (shafts_of r) ps).
  { change (flat_map el_shaft (r_shaft r)) with (shafts_of r) in Hps. clear H. revert Hc. induction Hps as [|s p ss ps Hp _ IH]; intros Hc; constructor.
    - destruct (Hc s (or_introl eq_refl)) as (H1 & H2 & H3). apply refine_cyl; auto.
    - apply IH. intros x Hx. apply Hc. right. exact Hx. }
  exists ps. split; [exact Hps'|]. split; [|exact H]. eapply chain_facts; [|exact H].
  intros s Hin. apply in_concat in Hin as (p & Hp & Hin). apply (In_nth _ _ []) in Hp as (k & Hlt & <-).
  clear -Hps' Hlt Hin. revert k Hlt Hin. induction Hps' as [|s' p' ss ps Hp _ IH]; intros k Hlt Hin; simpl in *; [lia|].
  destruct k as [|k]; [apply (rf_plain _ _ _ Hp s Hin)|apply (IH k); auto; lia].
Qed.
