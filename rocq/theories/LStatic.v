(** The auxiliary rotors of the static analysis. *)
From Coq Require Import Reals String List Arith Bool Lia Lra Permutation Sorted.
From Verif Require Import PyBase PyDict MatBase SpecMat LMat MMaterial MShaft MDisk MBearing MRotor SpecShaft SpecRotor LShaft LShaftEnergy LShaft6 LBearing LBearing2
  LAssembly LRotor LRotor2 LRotor3 LRotor4 LRotor5 LRotor6 LRotorInit2 MDynamics MResults MSection LSection LSection2 MStatic SpecStatic LResults7 LResults8.
Import ListNotations.
Open Scope list_scope.
Open Scope R_scope.

(** ** the elements as they are passed on *)
Definition place_elem (e : elem) : elem :=
  match e with
  | EShaft six n t s => EShaft six n t (place_shaft n t s)
  | EDisk six t d => EDisk six t (mkDisk (d_n d) (d_m d) (d_Id d) (d_Ip d) (Some t))
  | _ => e
  end.
Lemma place_n e : el_n (place_elem e) = el_n e. Proof. destruct e; reflexivity. Qed.
Lemma place_tag e : el_tag (place_elem e) = el_tag e. Proof. destruct e; reflexivity. Qed.
Lemma place_L e : sh_L (place_elem e) = sh_L e. Proof. destruct e; reflexivity. Qed.
Lemma place_m e : sh_m (place_elem e) = sh_m e. Proof. destruct e; reflexivity. Qed.
Lemma place_cg e : sh_cg (place_elem e) = sh_cg e. Proof. destruct e; reflexivity. Qed.
Lemma place_dm e : dk_m (place_elem e) = dk_m e. Proof. destruct e; reflexivity. Qed.
Lemma place_M spl w e : el_M spl w (place_elem e) = el_M spl w e. Proof. destruct e as [[]|[]| |]; reflexivity. Qed.
Lemma place_K spl w e : el_K spl w (place_elem e) = el_K spl w e. Proof. destruct e as [[]|[]| |]; reflexivity. Qed.
Lemma place_acts nd last e : acts_on nd last (place_elem e) = acts_on nd last e. Proof. destruct e; reflexivity. Qed.
Lemma place_pos_from sh : forall p a b, shaft_pos_from p a b (map place_elem sh) = shaft_pos_from p a b sh.
Proof. induction sh as [|e sh IH]; intros; simpl; [reflexivity|]. rewrite place_n, place_L, IH. reflexivity. Qed.
Lemma place_pos sh : nodes_pos (map place_elem sh) = nodes_pos sh.
Proof.
  assert (E : MRotor.shaft_pos (map place_elem sh) = MRotor.shaft_pos sh) by (destruct sh; simpl; [reflexivity|]; rewrite place_n, place_L, place_pos_from; reflexivity).
  unfold nodes_pos. rewrite E, map_map. rewrite (map_ext (fun e => el_n (place_elem e)) el_n) by (intros; apply place_n). reflexivity.
Qed.
Definition place_args (n : nat) (t : string) (a : shaft_args) : shaft_args :=
  mkShaftArgs (a_L a) (a_idl a) (a_odl a) (a_idr a) (a_odr a) (a_material a) (Some n) (a_axial_force a) (a_torque a) (a_shear_effects a) (a_rotary_inertia a)
    (a_gyroscopic a) (a_method a) (Some t) (a_alpha a) (a_beta a).
Lemma Ok_inj {A} (x y : A) : Ok x = Ok y -> x = y.
Proof. congruence. Qed.
Lemma place_init a s n t : shaft_init a = Ok s -> shaft_init (place_args n t a) = Ok (place_shaft n t s).
Proof.
  destruct a as [L il ol ir or mt n0 fa tq sh ro gy me t0 al be]. unfold shaft_init, place_args.
  cbn [a_L a_idl a_odl a_idr a_odr a_material a_n a_axial_force a_torque a_shear_effects a_rotary_inertia a_gyroscopic a_method a_tag a_alpha a_beta].
  destruct mt as [mt|]; [|discriminate]. cbv zeta. destruct sh.
  - destruct (shear_kappa _ _ _ _ _ _); [|discriminate]. intros H. apply Ok_inj in H. rewrite <- H. reflexivity.
  - intros H. apply Ok_inj in H. rewrite <- H. reflexivity.
Qed.
Lemma place_load e : no_load e -> no_load (place_elem e).
Proof.
  destruct e; simpl; auto. intros (a & H1 & H2 & H3 & H4). exists (place_args n tag a). split; [apply place_init; exact H1|]. split; [|auto]. exact H2.
Qed.
Lemma place_good e : good_shaft e -> good_shaft (place_elem e).
Proof. destruct e; simpl; auto. intros (a & H1 & H2). exists (place_args n tag a). split; [apply place_init; exact H1|exact H2]. Qed.

(** ** the auxiliary bearings *)
Lemma aux_args_ok n k link : exists b, bearing_init (aux_args n k link) = Ok b.
Proof. apply scal_init_ok; [reflexivity|]. intros []; simpl; eauto. Qed.
Definition spring (six : bool) (k : R) : mat := if six then lmat [[k; 0; 0]; [0; k; 0]; [0; 0; 0]] else coef22 k 0 0 k.
Record aux_spec (six : bool) (n : nat) (k : R) (link : option nat) (b : rbrg) : Prop := {
  as_n : brg_n b = n; as_link : brg_link b = link; as_six : brg_six b = six; as_tag : b_tag (brg_base b) = None;
  as_seal : match b with RB4 true _ => False | _ => True end;
  as_K : forall spl w t, link = None -> el_K spl w (EBrg t b) = Ok ((if six then 3 else 2)%nat, spring six k);
  as_M : forall spl w t, link = None -> el_M spl w (EBrg t b) = Ok ((if six then 3 else 2)%nat, spring six 0) }.
Lemma aux_bearing_spec six n k link : exists b, aux_bearing six n k link = Ok b /\ aux_spec six n k link b.
Proof.
  unfold aux_bearing. destruct (aux_args_ok n k link) as [b Hb].
  destruct (bearing_init_ok _ _ Hb) as (E1 & E2 & E3 & _). simpl in E1, E2, E3.
  assert (Ec : forall spl w c v, resolve (aux_args n k link) c = CScal v -> eval_coef spl b c w = Ok v).
  { intros spl w c v. apply scal_init_coef with (1 := eq_refl) (2 := Hb). }
  destruct six.
  - unfold bearing6_init. rewrite Hb. cbn [bind]. change (process_coefficient (ba_frequency (aux_args n k link)) (CScal 0)) with (process_coefficient None (CScal 0)).
    cbn [process_coefficient bind]. change (ba_frequency (aux_args n k link)) with (@None (list R)).
    replace (length_check None []) with true by reflexivity. cbn [bind]. eexists. split; [reflexivity|]. constructor; try reflexivity; try exact I; try assumption.
    + intros spl w t ->. cbn [el_K]. unfold bearing6_K, block3, brg_size. cbn [b6 brg_base b6_kzz snd]. rewrite (Ec spl w kxx k eq_refl), (Ec spl w kyy k eq_refl), (Ec spl w kxy 0 eq_refl), (Ec spl w kyx 0 eq_refl). cbn [bind eval_interp]. rewrite E2. reflexivity.
    + intros spl w t ->. cbn [el_M]. unfold bearing6_M, block3, brg_size. cbn [b6 brg_base b6_mzz snd]. rewrite (Ec spl w mxx 0 eq_refl), (Ec spl w myy 0 eq_refl), (Ec spl w mxy 0 eq_refl), (Ec spl w myx 0 eq_refl). cbn [bind eval_interp]. rewrite E2. reflexivity.
  - rewrite Hb. cbn [bind]. eexists. split; [reflexivity|]. constructor; try reflexivity; try exact I; try assumption.
    + intros spl w t ->. cbn [el_K]. unfold bearing_K, block2, brg_size. cbn [brg_base]. rewrite (Ec spl w kxx k eq_refl), (Ec spl w kyy k eq_refl), (Ec spl w kxy 0 eq_refl), (Ec spl w kyx 0 eq_refl). cbn [bind]. rewrite E2. reflexivity.
    + intros spl w t ->. cbn [el_M]. unfold bearing_M, block2, brg_size. cbn [brg_base]. rewrite (Ec spl w mxx 0 eq_refl), (Ec spl w myy 0 eq_refl), (Ec spl w mxy 0 eq_refl), (Ec spl w myx 0 eq_refl). cbn [bind]. rewrite E2. reflexivity.
Qed.

(** the auxiliary rotor *)
Definition aux_list (r : rotor) (k : R) (brgs : list rbrg) : Prop :=
  Forall2 (fun e b => aux_spec (el_six e) (el_n e) k None b) (carriers r) brgs.
Lemma aux_collect r k brgs : rfacts r -> apart r -> collect (flat_map (aux_of (length (r_nodes_pos r)) k) (r_brg r)) = Ok brgs -> aux_list r k brgs.
Proof.
  intros F Ha. unfold aux_list, carriers. unfold apart, carriers in Ha. pose proof (rf_brg _ F) as Hb. revert brgs.
  induction (r_brg r) as [|e l IH]; intros brgs H.
  - simpl in H. apply Ok_inj in H. subst brgs. constructor.
  - assert (IH' := IH (fun e' m Hin => Ha e' m ltac:(simpl; destruct (carries r e); [right|]; exact Hin)) (fun e' Hin => Hb e' (or_intror Hin))). clear IH.
    destruct (Hb e (or_introl eq_refl)) as (t & b & ->). cbn [filter]. cbn [flat_map] in H. unfold aux_of at 1 in H.
    assert (Hc : carries r (EBrg t b) = (negb (is_seal (EBrg t b)) && (el_n (EBrg t b) <? length (r_nodes_pos r))%nat)%bool) by (destruct b as [[] ?|?]; reflexivity).
    rewrite Hc. destruct (is_seal (EBrg t b)) eqn:Es; [simpl; apply IH'; exact H|].
    cbn [negb andb]. destruct (el_n (EBrg t b) <? length (r_nodes_pos r))%nat eqn:En; [|cbn [negb app] in H; apply IH'; exact H].
    cbn [negb] in H.
    assert (H' : collect (aux_bearing (el_six (EBrg t b)) (el_n (EBrg t b)) k None :: flat_map (aux_of (length (r_nodes_pos r)) k) l) = Ok brgs).
    { destruct (el_link (EBrg t b)) as [m|] eqn:El; [|exact H].
      assert (length (r_nodes_pos r) <= m)%nat. { apply (Ha (EBrg t b) m); [|exact El]. cbn [filter]. rewrite Hc. left. reflexivity. }
      destruct (Nat.ltb_spec m (length (r_nodes_pos r))); [lia|exact H]. }
    destruct (aux_bearing_spec (el_six (EBrg t b)) (el_n (EBrg t b)) k None) as (b' & E & S). rewrite E in H'. cbn [collect] in H'.
    clear H. destruct (collect (flat_map _ l)) as [rest|] eqn:Er; [|discriminate]. cbn [bind] in H'. apply Ok_inj in H'. subst brgs. constructor; [exact S|]. apply IH'. reflexivity.
Qed.
Lemma aux_collect_ok r k : rfacts r -> apart r -> exists brgs, collect (flat_map (aux_of (length (r_nodes_pos r)) k) (r_brg r)) = Ok brgs.
Proof.
  intros F _. induction (r_brg r) as [|e l (rest & IH)]; [exists []; reflexivity|]. simpl.
  assert (X : exists xs, (forall x, In x xs -> exists b, x = Ok b) /\ aux_of (length (r_nodes_pos r)) k e = xs).
  { eexists. split; [|reflexivity]. intros x Hx. unfold aux_of in Hx. destruct (is_seal e); [destruct Hx|]. destruct (negb _); [destruct Hx|].
    destruct (el_link e) as [m|]; [destruct (m <? _)%nat|]; destruct Hx as [<-|[]];
      match goal with |- exists b, aux_bearing ?s ?n ?k ?l = _ => destruct (aux_bearing_spec s n k l) as (b & E & _); exists b; exact E end. }
  destruct X as (xs & Hx & ->). induction xs as [|x xs IHx]; [exists rest; exact IH|]. destruct (Hx x (or_introl eq_refl)) as (b & ->).
  destruct (IHx (fun y Hy => Hx y (or_intror Hy))) as (r' & E). simpl. rewrite E. eexists. reflexivity.
Qed.

Lemma mapi_place {A} (f : nat -> A -> elem) (pick : elem -> list A) l : (forall e, In e l -> exists a, pick e = [a] /\ forall i, f i a = place_elem e) ->
  forall i, mapi f i (flat_map pick l) = map place_elem l.
Proof.
  induction l as [|e l IH]; intros H i; [reflexivity|]. simpl. destruct (H e (or_introl eq_refl)) as (a & -> & E). simpl. rewrite E, IH; [reflexivity|].
  intros e' He'. apply H. right. exact He'.
Qed.
Lemma place_sorted l : StronglySorted le_n l -> StronglySorted le_n (map place_elem l).
Proof.
  induction 1 as [|x l Hs IH Hf]; simpl; constructor; auto. rewrite Forall_forall in *. intros y Hy. apply in_map_iff in Hy as (z & <- & Hz).
  unfold le_n. rewrite !place_n. apply Hf. exact Hz.
Qed.
Record aux_facts (r : rotor) (k : R) (ra : rotor) : Prop := {
  af_facts : rfacts ra;
  af_shaft : r_shaft ra = map place_elem (r_shaft r);
  af_disk : r_disk ra = map place_elem (r_disk r);
  af_pm : r_pm ra = [];
  af_brg : exists brgs, aux_list r k brgs /\ r_brg ra = sort_n (mapi mk_brg 0 brgs);
  af_nd : r_nd ra = r_nd r; af_last : r_n_last ra = r_n_last r; af_pos : r_nodes_pos ra = r_nodes_pos r }.
Lemma aux_lists r brgs ra : rfacts r -> rotor_init (flat_map el_rshaft (r_shaft r)) (flat_map el_disk (r_disk r)) brgs [] = Ok ra ->
  rfacts ra /\ r_shaft ra = map place_elem (r_shaft r) /\ r_disk ra = map place_elem (r_disk r) /\ r_pm ra = [] /\ r_brg ra = sort_n (mapi mk_brg 0 brgs) /\ r_nd ra = r_nd r /\ r_n_last ra = r_n_last r /\ r_nodes_pos ra = r_nodes_pos r.
Proof.
  intros F H. pose proof (rotor_facts _ _ _ _ _ H) as Fa. destruct (rotor_init_lists _ _ _ _ _ H) as (Es & Ed & Eb & Ep).
  assert (X1 : r_shaft ra = map place_elem (r_shaft r)).
  { rewrite Es, (mapi_place mk_shaft el_rshaft).
    - apply sort_sorted, place_sorted, (rf_sorted _ F).
    - intros e He. destruct (rf_shaft _ F e He) as (six & n & t & s & ->). simpl. eexists. split; [reflexivity|]. intros i. reflexivity. }
  assert (X2 : r_disk ra = map place_elem (r_disk r)).
  { rewrite Ed. apply (mapi_place mk_disk el_disk). intros e He. destruct (rf_disk _ F e He) as (six & t & d & ->). simpl. eexists. split; [reflexivity|]. intros i. reflexivity. }
  split; [exact Fa|]. split; [exact X1|]. split; [exact X2|]. split; [exact Ep|]. split; [exact Eb|].
  assert (X3 : r_nd ra = r_nd r).
  { pose proof (rf_nonempty _ F) as Hne. destruct (r_shaft r) as [|e l] eqn:E; [congruence|].
    assert (H1 : In e (r_elements r)) by (apply in_shaft_elements; rewrite E; left; reflexivity).
    assert (H2 : In (place_elem e) (r_elements ra)) by (apply in_shaft_elements; rewrite X1; left; reflexivity).
    apply (rf_fam _ F) in H1. apply (rf_fam _ Fa) in H2. destruct (rf_shaft _ F e) as (six & n & t & s & ->); [rewrite E; left; reflexivity|].
    simpl in H1, H2. unfold fam in *. congruence. }
  split; [exact X3|]. split.
  - rewrite (rf_last _ Fa), (rf_last _ F), X1, map_map. f_equal. apply map_ext. apply place_n.
  - rewrite (rf_pos _ Fa), (rf_pos _ F), X1. apply place_pos.
Qed.
Lemma aux_rotor_facts r k ra : rfacts r -> apart r -> aux_rotor r k = Ok ra -> aux_facts r k ra.
Proof.
  intros F Ha H. unfold aux_rotor in H. destruct (collect _) as [brgs|] eqn:Ec; [|discriminate]. cbn [bind] in H.
  destruct (aux_lists r brgs ra F H) as (X0 & X1 & X2 & X3 & X4 & X5 & X6 & X7). constructor; auto. exists brgs. split; [apply aux_collect; auto|exact X4].
Qed.
