(** Lemmas about cutting a shaft into elements (3): Rotor.from_section. *)
From Coq Require Import Reals String List Arith Bool Lia Lra Permutation Sorted.
From Verif Require Import PyBase MatBase SpecMat LMat MMaterial MShaft SpecShaft MDisk MBearing MRotor SpecRotor LAssembly LRotor LRotor2 LRotorPos LRotor5 LRotorInit LRotorInit2 LRotorInit3 LRotor6 MSection SpecSection LSection LSection2.
Import ListNotations.
Open Scope list_scope.
Open Scope R_scope.

Definition plain (s : shaft) : Prop := s_n s = None /\ s_tag s = None /\ s_axial_force s = 0 /\ s_torque s = 0 /\ s_alpha s = 0 /\ s_beta s = 0.

Lemma region_inv nel leng il ol ir or mt els : region nel leng il ol ir or mt = Ok els ->
  exists ir' or', ir = Some ir' /\ or = Some or' /\ (0 < nel)%nat /\ leng <> 0 /\ piece leng nel il ol ir' or' mt els /\
    forall s, In s els -> plain s /\ s_shear_effects s = true /\ s_rotary_inertia s = true /\ s_gyroscopic s = true.
Proof.
  unfold region. destruct (Nat.eqb nel 0) eqn:En; [discriminate|]. apply Nat.eqb_neq in En.
  destruct ir as [ir'|]; [|discriminate]. destruct or as [or'|]; [|discriminate]. destruct (Req_EM_T leng 0) as [|HL]; [discriminate|].
  intros H. apply cut_piece in H as [Hp Hs]; [|auto|lia]. exists ir', or'. do 2 (split; [reflexivity|]). split; [lia|]. split; [exact HL|]. split; [exact Hp|].
  intros s Hin. destruct (Hs s Hin) as (? & ? & ? & ? & ? & ? & ? & ? & ?). repeat split; auto.
Qed.

Lemma regions_inv nel lens : forall i il ol ir or mt shafts, regions nel i lens il ol ir or mt = Ok shafts ->
  exists ps, shafts = concat ps /\ length ps = length lens /\
    (forall k, (k < length lens)%nat -> exists ir' or', nth_error ir (i + k) = Some ir' /\ nth_error or (i + k) = Some or' /\
       (0 < nel)%nat /\ nth k lens 0 <> 0 /\
       piece (nth k lens 0) nel (nth (i + k) il 0) (nth (i + k) ol 0) ir' or' (mt (i + k)%nat) (nth k ps [])) /\
    (forall s, In s shafts -> plain s /\ s_shear_effects s = true /\ s_rotary_inertia s = true /\ s_gyroscopic s = true).
Proof.
  induction lens as [|L lens IH]; intros i il ol ir or mt shafts H; simpl in H.
  - injection H as <-. exists []. repeat split; auto; simpl; try (intros; lia); contradiction.
  - destruct (region _ _ _ _ _ _ _) as [els|] eqn:E1; [|discriminate]. simpl in H.
    destruct (regions _ _ _ _ _ _ _ _) as [rest|] eqn:E2; [|discriminate]. simpl in H. injection H as <-.
    apply region_inv in E1 as (ir' & or' & Hir & Hor & Hn & HL & Hp & Hs). apply IH in E2 as (ps & -> & Hlen & Hk & Hs2).
    exists (els :: ps). split; [reflexivity|]. split; [simpl; lia|]. split.
    + intros [|k] Hlt.
      * exists ir', or'. rewrite Nat.add_0_r. auto.
      * simpl in Hlt. rewrite Nat.add_succ_r. apply (Hk k). lia.
    + intros s Hin. apply in_app_or in Hin as [Hin|Hin]; [apply Hs|apply Hs2]; auto.
Qed.
Lemma regions_ok nel lens : forall i il ol ir or mt, (0 < nel)%nat -> (forall L, In L lens -> 0 < L) ->
  (i + length lens <= length ir)%nat -> (i + length lens <= length or)%nat -> exists shafts, regions nel i lens il ol ir or mt = Ok shafts.
Proof.
  induction lens as [|L lens IH]; intros i il ol ir or mt Hn HL Hir Hor; simpl in *; [eauto|].
  unfold region. destruct (Nat.eqb_spec nel 0); [lia|]. rewrite (nth_error_nth' ir 0) by lia. rewrite (nth_error_nth' or 0) by lia.
  destruct (Req_EM_T L 0) as [E|_]; [specialize (HL L (or_introl eq_refl)); lra|].
  match goal with |- context [collect (map ?f ?l)] => destruct (collect_ok f l) as [els ->] end; [intros j _; apply cut_exists|].
  simpl. destruct (IH (S i) il ol ir or mt Hn (fun x Hx => HL x (or_intror Hx)) ltac:(lia) ltac:(lia)) as [rest ->]. simpl. eauto.
Qed.

Lemma concat_nth {A} (ps : list (list A)) nel k j d : (forall k, (k < length ps)%nat -> length (nth k ps []) = nel) ->
  (k < length ps)%nat -> (j < nel)%nat -> nth (nel * k + j) (concat ps) d = nth j (nth k ps []) d.
Proof.
  revert k. induction ps as [|p ps IH]; intros k Hl Hk Hj; simpl in *; [lia|].
  assert (Hp : length p = nel) by (apply (Hl 0%nat); lia).
  destruct k as [|k]; [rewrite Nat.mul_0_r; apply app_nth1; lia|].
  rewrite app_nth2 by nia. replace (nel * S k + j - length p)%nat with (nel * k + j)%nat by nia. apply IH; auto; [|lia].
  intros k' Hk'. apply (Hl (S k')). lia.
Qed.
Lemma concat_len {A} (ps : list (list A)) nel : (forall k, (k < length ps)%nat -> length (nth k ps []) = nel) -> length (concat ps) = (nel * length ps)%nat.
Proof.
  induction ps as [|p ps IH]; intros Hl; simpl in *; [lia|]. rewrite app_length, IH by (intros k Hk; apply (Hl (S k)); lia).
  rewrite (Hl 0%nat) by lia. lia.
Qed.

(** what only depends on the pieces *)
Definition same_piece (p q : list shaft) : Prop :=
  suml (map s_L p) = suml (map s_L q) /\ suml (map s_m p) = suml (map s_m q) /\ suml (map s_Im p) = suml (map s_Im q) /\ mass_moment 0 p = mass_moment 0 q.
Lemma same_pieces ps qs : Forall2 same_piece ps qs -> same_piece (concat ps) (concat qs).
Proof.
  induction 1 as [|p q ps qs (H1 & H2 & H3 & H4) _ (I1 & I2 & I3 & I4)]; [repeat split|]. unfold same_piece. simpl.
  rewrite !map_app, !suml_app, !mass_moment_app, (mass_moment_shift (0 + suml (map s_L p))), (mass_moment_shift (0 + suml (map s_L q))).
  rewrite H1, H2, H3, H4, I1, I2, I3, I4. auto.
Qed.

Lemma from_section_inv lens il ol ir or mt disks brgs nel r : from_section lens il ol ir or mt disks brgs nel = Ok r ->
  exists mt' disks' brgs' ps, mt = Some mt' /\ disks = Some disks' /\ brgs = Some brgs' /\ length il = length lens /\ length ol = length lens /\
    length ps = length lens /\ 
    (forall k, (k < length lens)%nat -> exists m, section_material mt' k = Some m /\ (0 < nel)%nat /\ nth k lens 0 <> 0 /\
       (k < length (right_ends il ir))%nat /\ (k < length (right_ends ol or))%nat /\
       piece (nth k lens 0) nel (nth k il 0) (nth k ol 0) (nth k (right_ends il ir) 0) (nth k (right_ends ol or) 0) m (nth k ps [])) /\
    (forall s, In s (concat ps) -> plain s /\ s_shear_effects s = true /\ s_rotary_inertia s = true /\ s_gyroscopic s = true) /\
    rotor_init (map (mkRShaft false) (concat ps)) (map (scale_disk nel) disks') (map (scale_brg nel) brgs') [] = Ok r.
Proof.
  unfold from_section. destruct (Nat.eqb (length lens) (length ol)) eqn:E1; [|discriminate]. destruct (Nat.eqb (length lens) (length il)) eqn:E2; [|discriminate].
  apply Nat.eqb_eq in E1, E2. cbn [andb negb]. destruct mt as [mt|]; [|discriminate].
  match goal with |- context [if ?b then Err ValueError else _] => destruct b; [discriminate|] end.
  intros H. cbv zeta in H.
  change (default il ir) with (right_ends il ir) in H. change (default ol or) with (right_ends ol or) in H.
  destruct mt as [m|l].
  - destruct (regions _ _ _ _ _ _ _ _) as [shafts|] eqn:Er; [|discriminate]. simpl in H. apply regions_inv in Er as (ps & -> & Hl & Hk & Hs).
    destruct disks as [disks'|]; [|discriminate]. destruct brgs as [brgs'|]; [|discriminate]. exists (MatOne m), disks', brgs', ps. do 6 (split; [auto|]). split; [|auto].
    intros k Hlt. destruct (Hk k Hlt) as (ir' & or' & Ei & Eo & Hn & HL & Hp). simpl in Ei, Eo, Hp.
    exists m. rewrite (nth_error_nth _ _ 0 Ei), (nth_error_nth _ _ 0 Eo). do 3 (split; [auto|]). split; [apply nth_error_Some; congruence|]. split; [apply nth_error_Some; congruence|]. exact Hp.
  - destruct (Nat.eqb (length lens) (length l)) eqn:E3; [|discriminate]. apply Nat.eqb_eq in E3.
    destruct (regions _ _ _ _ _ _ _ _) as [shafts|] eqn:Er; [|discriminate]. simpl in H. apply regions_inv in Er as (ps & -> & Hl & Hk & Hs).
    destruct disks as [disks'|]; [|discriminate]. destruct brgs as [brgs'|]; [|discriminate]. exists (MatList l), disks', brgs', ps. do 6 (split; [auto|]). split; [|auto].
    intros k Hlt. destruct (Hk k Hlt) as (ir' & or' & Ei & Eo & Hn & HL & Hp). simpl in Ei, Eo, Hp.
    eexists. split; [simpl; apply nth_error_nth'; lia|]. rewrite (nth_error_nth _ _ 0 Ei), (nth_error_nth _ _ 0 Eo). do 2 (split; [auto|]). split; [apply nth_error_Some; congruence|]. split; [apply nth_error_Some; congruence|]. exact Hp.
Qed.

(** positions of the nodes of a chain of pieces *)
Lemma pieces_positions (ps : list (list shaft)) (lens : list R) nel d k j : length ps = length lens ->
  (forall k, (k < length lens)%nat -> length (nth k ps []) = nel /\ forall j d, (j < nel)%nat -> s_L (nth j (nth k ps []) d) = nth k lens 0 / INR nel) ->
  (0 < nel)%nat -> (k < length lens)%nat -> (j <= nel)%nat ->
  sumn (nel * k + j) (fun i => s_L (nth i (concat ps) d)) = section_start lens k + INR j * (nth k lens 0 / INR nel).
Proof.
  intros Hl Hp Hn Hk. assert (HN : INR nel <> 0) by (apply lt_INR in Hn; simpl in Hn; lra).
  assert (Hin : forall k j, (k < length lens)%nat -> (j <= nel)%nat -> sumn (nel * k + j) (fun i => s_L (nth i (concat ps) d)) =
     sumn (nel * k) (fun i => s_L (nth i (concat ps) d)) + INR j * (nth k lens 0 / INR nel)).
  { clear k Hk j. intros k j Hk. induction j as [|j IH]; intros Hj; [rewrite Nat.add_0_r; simpl; ring|].
    rewrite Nat.add_succ_r. cbn [sumn]. rewrite IH by lia. rewrite (concat_nth ps nel) by (try (intros k' Hk'; apply Hp; lia); lia).
    rewrite (proj2 (Hp k Hk)) by lia. rewrite S_INR. ring. }
  intros Hj. rewrite Hin by auto. f_equal. clear j Hj.
  induction k as [|k IH]; [rewrite Nat.mul_0_r; reflexivity|]. rewrite Nat.mul_succ_r, Hin by lia. rewrite IH by lia.
  unfold section_start. assert (E : firstn (S k) lens = firstn k lens ++ [nth k lens 0]).
  { clear -Hk. revert k Hk. induction lens as [|x lens IHl]; intros k Hk; simpl in *; [lia|]. destruct k as [|k]; [reflexivity|].
    simpl. f_equal. apply IHl. lia. }
  rewrite E, suml_app. simpl. field. auto.
Qed.
Lemma section_start_S lens k : (k < length lens)%nat -> section_start lens (S k) = section_start lens k + nth k lens 0.
Proof.
  intros Hk. unfold section_start. assert (E : firstn (S k) lens = firstn k lens ++ [nth k lens 0]).
  { revert k Hk. induction lens as [|x lens IHl]; intros k Hk; simpl in *; [lia|]. destruct k as [|k]; [reflexivity|].
    simpl. f_equal. apply IHl. lia. }
  rewrite E, suml_app. simpl. ring.
Qed.
