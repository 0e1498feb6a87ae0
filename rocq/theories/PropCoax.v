(** C76 and C77: co-axial rotors. *)
From Coq Require Import Reals String List Bool Arith ZArith Lia Lra.
From Verif Require Import PyBase MatBase SpecMat LMat MMaterial MShaft MDisk MBearing MRotor MShare SpecRotor LRotor LRotor2 LRotorInit2 LRotor6 LShaftEx LRotorEx MCoax SpecCoax LCoax LCoax2 LCoax3 LCoax4 LCoax5 LCoax6.
Import ListNotations.
Open Scope list_scope.
Open Scope R_scope.

(** * C76: numbering, elements and matrices *)

(** Element k of shaft j gets the node behind all nodes of the earlier shafts, whatever becomes of the call. *)
Theorem C76_numbering : forall st shafts j k s x, proper shafts -> unnumbered st shafts ->
  nth_error shafts j = Some s -> nth_error s k = Some x -> fst (fst (coax_names st shafts) x) = Some (first_node shafts j + k)%nat.
Proof. intros st shafts j k s x P U E1 E2. exact (proj2 (name_shafts_n st shafts 0 0 0 (given_names st) P U) j k s x E1 E2). Qed.
(** Different elements get different nodes, no two shafts share one. *)
Theorem C76_nodes_apart : forall (shafts : list (list ref)) j j' n, on_node shafts j n -> on_node shafts j' n -> j = j'.
Proof. intros shafts j j' n. apply on_node_inj. Qed.
(** Default tags count through all shafts. *)
Theorem C76_tags : forall st shafts j k s x, proper shafts -> unnumbered st shafts -> untagged_shafts st shafts ->
  nth_error shafts j = Some s -> nth_error s k = Some x ->
  snd (fst (coax_names st shafts) x) = Some ((if rs_six (st x) then "ShaftElement6DoF " else "ShaftElement ") ++ str (rank shafts j k))%string.
Proof.
  intros st shafts j k s x P U T E1 E2.
  rewrite (name_shafts_t st shafts 0 0 (given_names st) P) with (j := j) (k := k) (s := s); auto.
  - unfold sh_class. destruct (rs_six (st x)); reflexivity.
  - intros y Hy. unfold given_names. rewrite (U y Hy), (T y Hy). reflexivity.
Qed.

(** The numbers are written into the caller's elements: a later call, for whatever shafts, finds them there and leaves them. *)
Theorem C76_in_place : forall st shafts shafts' j k s x, proper shafts -> unnumbered st shafts ->
  nth_error shafts j = Some s -> nth_error s k = Some x ->
  fst (fst (name_shafts st 0 0 0 shafts' (fst (coax_names st shafts))) x) = Some (first_node shafts j + k)%nat.
Proof. intros st shafts shafts' j k s x P U E1 E2. apply name_shafts_keep. exact (C76_numbering st shafts j k s x P U E1 E2). Qed.
(** A list that repeats one element, as in [element] * n, is a shaft of n elements for Rotor and a single element (with n layers) here. *)
Theorem C76_repeated_refuted : forall st ax x k disks brgs pms tag c r, s_n (rs_s (st x)) = None ->
  coax_init st ax [repeat x (S k)] disks brgs pms tag = Returns (Ok c) -> rotor_init (map st (repeat x (S k))) disks brgs pms = Ok r ->
  r_n_last r = k /\ r_n_last (cx_rot c) = 0%nat.
Proof.
  intros st ax x k disks brgs pms tag c r Hn Hc Hr. split; [|eapply repeated_last; eauto].
  rewrite (rotor_default_last _ _ _ _ _) with (2 := Hr); [rewrite map_length, repeat_length; lia|].
  intros s Hs. apply in_map_iff in Hs as (y & <- & Hy). apply repeat_spec in Hy. subst y. exact Hn.
Qed.

(** The matrices are the sums of the element matrices. *)
Theorem C76_matrices : forall spl st ax shafts disks brgs pms tag c w ig A, coax_init st ax shafts disks brgs pms tag = Returns (Ok c) ->
  r_nd (cx_rot c) = 4%nat /\ r_ndof (cx_rot c) = (4 * (r_n_last (cx_rot c) + 2) + 2 * length pms)%nat /\
  (coax_M spl c w = Ok A -> sum_of (el_M spl (default 0 w)) (cx_rot c) (r_elements (cx_rot c)) A) /\
  (forall w, coax_K spl c w ig = Ok A -> sum_of (el_K spl w) (cx_rot c) (untagged ig (cx_rot c)) A) /\
  (forall w, coax_C spl c w ig = Ok A -> sum_of (el_C spl w) (cx_rot c) (untagged ig (cx_rot c)) A) /\
  (coax_G spl c = Ok A -> sum_of (el_G spl) (cx_rot c) (r_elements (cx_rot c)) A).
Proof.
  intros spl st ax shafts disks brgs pms tag c w ig A Hc. destruct (coax_inv _ _ _ _ _ _ _ _ Hc) as (nm & z & dpos & F).
  split; [apply (cf_nd _ _ _ _ _ _ _ _ _ _ _ F)|]. split.
  { rewrite (cf_ndof _ _ _ _ _ _ _ _ _ _ _ F), (cf_pm _ _ _ _ _ _ _ _ _ _ _ F), LRotor.mapi_length. reflexivity. }
  unfold sum_of. rewrite (cf_nd _ _ _ _ _ _ _ _ _ _ _ F). split; [|split; [|split]].
  - intros HA. exact (cx_entries _ _ _ _ _ _ _ _ _ _ _ F _ _ _ _ _ (is_M spl (default 0 w)) (incl_refl _) HA).
  - intros w' HA. exact (cx_entries _ _ _ _ _ _ _ _ _ _ _ F _ _ _ _ _ (is_K spl w') (kept_incl _ _) HA).
  - intros w' HA. exact (cx_entries _ _ _ _ _ _ _ _ _ _ _ F _ _ _ _ _ (is_C spl w') (kept_incl _ _) HA).
  - intros HA. exact (cx_entries _ _ _ _ _ _ _ _ _ _ _ F _ _ _ _ _ (is_G spl 0) (incl_refl _) HA).
Qed.
(** and the elements are the given ones, every shaft element with its own node *)
Lemma concat_rank {A} (shafts : list (list A)) : forall j k s x, nth_error shafts j = Some s -> nth_error s k = Some x ->
  nth_error (concat shafts) (rank shafts j k) = Some x.
Proof.
  induction shafts as [|t shafts IH]; intros [|j] k s x E1 E2; try discriminate; cbn [nth_error] in E1; unfold rank; cbn [firstn concat length].
  - injection E1 as ->. cbn [Nat.add]. rewrite nth_error_app1; [exact E2|]. apply nth_error_Some. congruence.
  - rewrite app_length, nth_error_app2 by lia. rewrite <- (IH j k s x E1 E2). f_equal. unfold rank. lia.
Qed.
Lemma mapi_disk (f : elem -> R) g disks : (forall i d, f (mk_disk i d) = g d) -> forall o, map f (mapi mk_disk o disks) = map g disks.
Proof. intros Hf. induction disks as [|d l IH]; intros o; [reflexivity|]. cbn. rewrite Hf, IH. reflexivity. Qed.
Theorem C76_elements : forall st ax shafts disks brgs pms tag c, coax_init st ax shafts disks brgs pms tag = Returns (Ok c) ->
  proper shafts -> unnumbered st shafts ->
  length (r_shaft (cx_rot c)) = length (concat shafts) /\
  (forall j k s x, nth_error shafts j = Some s -> nth_error s k = Some x ->
     exists t, nth_error (r_shaft (cx_rot c)) (rank shafts j k) = Some (EShaft false (first_node shafts j + k) t (rs_s (st x)))) /\
  r_disk (cx_rot c) = mapi mk_disk 0 disks /\ r_brg (cx_rot c) = sort_n (mapi mk_brg 0 brgs) /\ r_pm (cx_rot c) = mapi mk_pm 0 pms /\
  r_m (cx_rot c) = suml (map (fun d => d_m (rd_d d)) disks) + suml (map (fun x => s_m (rs_s (st x))) (concat shafts)) /\
  r_Ip (cx_rot c) = suml (map (fun x => s_Im (rs_s (st x))) (concat shafts)) + suml (map (fun d => d_Ip (rd_d d)) disks).
Proof.
  intros st ax shafts disks brgs pms tag c Hc P U. destruct (coax_inv _ _ _ _ _ _ _ _ Hc) as (nm & z & dpos & F).
  pose proof (num_sh _ _ _ _ _ _ _ _ _ _ _ F P U) as Sh. rewrite Sh. split; [apply map_length|]. split.
  - intros j k s x E1 E2. exists (default EmptyString (snd (nm x))). pose proof (concat_rank _ _ _ _ _ E1 E2) as E3.
    erewrite map_nth_error by exact E3. f_equal. unfold cx_elem. rewrite (num_n _ _ _ _ _ _ _ _ _ _ _ F P U _ _ _ _ E1 E2). cbn [default]. f_equal.
    assert (H : In (cx_elem st nm x) (r_elements (cx_rot c))).
    { unfold r_elements. apply in_or_app. left. rewrite Sh. apply in_map. eapply nth_error_In; eauto. }
    apply (cf_fam _ _ _ _ _ _ _ _ _ _ _ F) in H. unfold cx_elem in H. cbn in H. unfold fam in H. destruct (rs_six (st x)); [discriminate|reflexivity].
  - split; [apply (cf_dk _ _ _ _ _ _ _ _ _ _ _ F)|]. split; [apply (cf_br _ _ _ _ _ _ _ _ _ _ _ F)|]. split; [apply (cf_pm _ _ _ _ _ _ _ _ _ _ _ F)|].
    rewrite (cf_mass _ _ _ _ _ _ _ _ _ _ _ F), (cf_Ip _ _ _ _ _ _ _ _ _ _ _ F), Sh, (cf_dk _ _ _ _ _ _ _ _ _ _ _ F), !map_map.
    rewrite (mapi_disk dk_m (fun d => d_m (rd_d d))), (mapi_disk dk_Ip (fun d => d_Ip (rd_d d))) by reflexivity. split; reflexivity.
Qed.

(** Nothing couples two shafts but a bearing between them: not even the last node of one with the first node of the next. *)
Theorem C76_blocks : forall spl st ax shafts disks brgs pms tag c w ig A j1 j2 n1 n2 d1 d2,
  coax_init st ax shafts disks brgs pms tag = Returns (Ok c) -> proper shafts -> unnumbered st shafts ->
  coax_M spl c w = Ok A \/ (exists w, coax_K spl c w ig = Ok A) \/ (exists w, coax_C spl c w ig = Ok A) \/ coax_G spl c = Ok A ->
  on_node shafts j1 n1 -> on_node shafts j2 n2 -> j1 <> j2 -> (d1 < 4)%nat -> (d2 < 4)%nat ->
  (forall x, In x brgs -> ~ (brg_n x = n1 /\ brg_link x = Some n2) /\ ~ (brg_n x = n2 /\ brg_link x = Some n1)) ->
  A (4 * n1 + d1)%nat (4 * n2 + d2)%nat = 0.
Proof.
  intros spl st ax shafts disks brgs pms tag c w ig A j1 j2 n1 n2 d1 d2 Hc P U HA O1 O2 Hj D1 D2 Hb.
  destruct (coax_inv _ _ _ _ _ _ _ _ Hc) as (nm & z & dpos & F).
  pose proof (fun f w l => blocks_zero _ _ _ _ _ _ _ _ _ _ _ F P U spl w f l A j1 j2 n1 n2 d1 d2) as B.
  destruct HA as [HA|[[w' HA]|[[w' HA]|HA]]].
  - exact (B _ _ _ (is_M spl (default 0 w)) (incl_refl _) HA O1 O2 Hj D1 D2 Hb).
  - exact (B _ _ _ (is_K spl w') (kept_incl _ _) HA O1 O2 Hj D1 D2 Hb).
  - exact (B _ _ _ (is_C spl w') (kept_incl _ _) HA O1 O2 Hj D1 D2 Hb).
  - exact (B _ _ _ (is_G spl 0) (incl_refl _) HA O1 O2 Hj D1 D2 Hb).
Qed.

(** A co-axial rotor with one shaft of two or more elements is the Rotor with these elements. *)
Theorem C76_one_shaft : forall st ax shaft disks brgs pms tag c r, coax_init st ax [shaft] disks brgs pms tag = Returns (Ok c) ->
  rotor_init (map st shaft) disks brgs pms = Ok r ->
  NoDup shaft -> unnumbered st [shaft] -> (2 <= length shaft)%nat -> no_link brgs (length shaft - 1) ->
  cx_rot c = r /\ forall spl w ig, coax_M spl c (Some w) = rotor_M spl r (Some w) /\ coax_K spl c w ig = rotor_K spl r w ig /\
    coax_C spl c w ig = rotor_C spl r w ig /\ coax_G spl c = rotor_G spl r.
Proof.
  intros st ax shaft disks brgs pms tag c r Hc Hr ND U N2 NL. pose proof (one_shaft _ _ _ _ _ _ _ _ _ Hc Hr ND U N2 NL) as E.
  split; [exact E|]. intros spl w ig. destruct (coax_inv _ _ _ _ _ _ _ _ Hc) as (nm & z & dpos & F). pose proof (cx_dofs_r _ _ _ _ _ _ _ _ _ _ _ F) as D.
  unfold coax_M, coax_K, coax_C, coax_G. rewrite D, E. repeat split.
Qed.

(** ** What CoAxialRotor does not accept or keep, unlike Rotor *)
(** a tag is not stored *)
Theorem C76_tag_refuted : forall st ax shafts disks brgs pms t c, coax_init st ax shafts disks brgs pms (Some t) = Returns (Ok c) -> cx_tag c = None.
Proof.
  intros st ax shafts disks brgs pms t c Hc. destruct (coax_inv _ _ _ _ _ _ _ _ Hc) as (nm & z & dpos & F). exact (cf_tag _ _ _ _ _ _ _ _ _ _ _ F).
Qed.
(** no element may have six degrees of freedom *)
Theorem C76_six_refuted : forall st ax shafts disks brgs pms tag c, coax_init st ax shafts disks brgs pms tag = Returns (Ok c) ->
  (forall x, In x (concat shafts) -> rs_six (st x) = false) /\ (forall d, In d disks -> rd_six d = false) /\
  (forall b, In b brgs -> brg_six b = false) /\ (forall p, In p pms -> rp_six p = false).
Proof.
  intros st ax shafts disks brgs pms tag c Hc. destruct (coax_inv _ _ _ _ _ _ _ _ Hc) as (nm & z & dpos & F).
  assert (Fa : forall e, In e (r_elements (cx_rot c)) -> el_fam 4 e /\ pm_fam 4 e).
  { intros e He. split; [apply (cf_fam _ _ _ _ _ _ _ _ _ _ _ F)|apply (cf_pmfam _ _ _ _ _ _ _ _ _ _ _ F)]; exact He. }
  unfold r_elements in Fa. rewrite (cf_sh _ _ _ _ _ _ _ _ _ _ _ F), (cf_dk _ _ _ _ _ _ _ _ _ _ _ F), (cf_br _ _ _ _ _ _ _ _ _ _ _ F), (cf_pm _ _ _ _ _ _ _ _ _ _ _ F) in Fa.
  split; [|split; [|split]].
  - intros x Hx. assert (H : In (cx_elem st nm x) (sort_n (map (cx_elem st nm) (concat shafts)))) by (apply sort_n_in, in_map; exact Hx).
    destruct (Fa _ (in_or_app _ _ _ (or_introl H))) as [G _]. cbn in G. unfold fam in G. destruct (rs_six (st x)); [discriminate|reflexivity].
  - intros d Hd. destruct (mapi_surj mk_disk disks 0 d Hd) as [j H]. destruct (Fa (mk_disk j d)) as [G _]; [rewrite !in_app_iff; auto|].
    cbn in G. unfold fam in G. destruct (rd_six d); [discriminate|reflexivity].
  - intros b Hb. destruct (mapi_surj mk_brg brgs 0 b Hb) as [j H]. apply sort_n_in in H. destruct (Fa (mk_brg j b)) as [G _]; [rewrite !in_app_iff; auto|].
    destruct b; cbn in *; [reflexivity|discriminate].
  - intros p Hp. destruct (mapi_surj mk_pm pms 0 p Hp) as [j H]. destruct (Fa (mk_pm j p)) as [_ G]; [rewrite !in_app_iff; auto|].
    cbn in G. destruct (rp_six p); [discriminate|reflexivity].
Qed.
(** a rotor without bearings (or with seals only) cannot be built *)
Theorem C76_no_bearing_refuted : forall st ax shafts disks brgs pms tag c, (forall b, In b brgs -> exists s, b = RB4 true s) ->
  coax_init st ax shafts disks brgs pms tag <> Returns (Ok c).
Proof.
  intros st ax shafts disks brgs pms tag c H Hc. destruct (coax_inv _ _ _ _ _ _ _ _ Hc) as (nm & z & dpos & F).
  apply (cf_brne _ _ _ _ _ _ _ _ _ _ _ F). rewrite (cf_br _ _ _ _ _ _ _ _ _ _ _ F).
  destruct (filter _ _) as [|e l] eqn:E; [reflexivity|]. assert (Q : In e (e :: l)) by (left; reflexivity). rewrite <- E in Q. apply filter_In in Q as [Q1 Q2].
  destruct (brg_back _ _ Q1) as (t & b & Hb & ->). destruct (H b Hb) as (s & ->). discriminate.
Qed.
(** Everything that is not on a shaft hangs from another element, if the call returns a rotor ... *)
Theorem C76_attached : forall st ax shafts disks brgs pms tag c, coax_init st ax shafts disks brgs pms tag = Returns (Ok c) ->
  forall e, In e (r_brg (cx_rot c) ++ r_pm (cx_rot c)) -> ~ In (el_tag e) (map el_tag (r_shaft (cx_rot c))) ->
  exists e', In e' (r_elements (cx_rot c)) /\ e' <> e /\
    (el_link e' = Some (el_n e) \/ (match e' with EPm _ _ _ => False | _ => el_n e' = el_n e end) \/ match e' with EShaft _ n _ _ => S n = el_n e | _ => False end).
Proof.
  intros st ax shafts disks brgs pms tag c Hc e He Ht. destruct (coax_inv _ _ _ _ _ _ _ _ Hc) as (nm & z & dpos & F).
  destruct (cf_found _ _ _ _ _ _ _ _ _ _ _ F e) as (e' & E1 & E2 & E3); [rewrite !in_app_iff in *; tauto|exact Ht|].
  exists e'. split; [exact E1|]. split; [congruence|]. destruct E3 as [E3|E3]; [left; exact E3|]. destruct e'; cbn [el_n] in *; tauto.
Qed.

(** ** instances *)
Definition u_args (L : R) : shaft_args := mkShaftArgs L 0 2 None None (Some ex_material) None 0 0 true true true Cowper None 0 0.
Definition u_shaft (L : R) : rshaft := mkRShaft false (match shaft_init (u_args L) with Ok s => s | Err _ => ex_shaft 0 "" end).
Lemma u_init L : shaft_init (u_args L) = Ok (rs_s (u_shaft L)). Proof. reflexivity. Qed.
Definition is_ret (o : outcome) : bool := match o with Returns (Ok _) => true | _ => false end.
Lemma ret_some o : is_ret o = true -> exists c, o = Returns (Ok c).
Proof. destruct o as [[c|]|]; try discriminate. eauto. Qed.
Lemma ok_some {A} (o : res A) : match o with Ok _ => true | Err _ => false end = true -> exists r, o = Ok r.
Proof. destruct o as [r|]; [eauto|discriminate]. Qed.

(** an inner shaft of three elements, an outer one of two, connected from node 2 of the first to the last node (6) of the second *)
Definition uni : ref -> rshaft := fun _ => u_shaft 1.
Definition ax0 : ref -> R := fun _ => 0.
Definition pair_sh : list (list ref) := [[0; 1; 2]; [3; 4]]%nat.
Definition pair_dk := [ex_disk false 1 "d0"; ex_disk false 5 "d1"].
Definition pair_br := [ex_brg false 0 None "b0"; ex_brg false 3 None "b1"; ex_brg false 2 (Some 6%nat) "b2"; ex_brg false 4 None "b3"].
Lemma pair_proper : proper pair_sh.
Proof. split; [intros s [<-|[<-|[]]]; discriminate|]. cbn. repeat constructor; simpl; lia. Qed.
Lemma uni_unnumbered shafts : unnumbered uni shafts. Proof. intros x _. reflexivity. Qed.
Lemma uni_untagged shafts : untagged_shafts uni shafts. Proof. intros x _. reflexivity. Qed.
Example C76_instance : exists c, coax_init uni ax0 pair_sh pair_dk pair_br [] None = Returns (Ok c) /\ proper pair_sh /\ unnumbered uni pair_sh /\ untagged_shafts uni pair_sh.
Proof.
  destruct (ret_some (coax_init uni ax0 pair_sh pair_dk pair_br [] None)) as [c Hc]; [lazy; reflexivity|]. exists c.
  split; [exact Hc|]. split; [apply pair_proper|]. split; [apply uni_unnumbered|apply uni_untagged].
Qed.
Example C76_instance_matrices : forall spl w, exists c M K C G, coax_init uni ax0 pair_sh pair_dk pair_br [] None = Returns (Ok c) /\
  coax_M spl c None = Ok M /\ coax_K spl c w [] = Ok K /\ coax_C spl c w [] = Ok C /\ coax_G spl c = Ok G.
Proof.
  intros spl w. destruct C76_instance as (c & Hc & P & U & _). exists c.
  assert (Q : exists M K C G, coax_M spl c None = Ok M /\ coax_K spl c w [] = Ok K /\ coax_C spl c w [] = Ok C /\ coax_G spl c = Ok G).
  2:{ destruct Q as (M & K & C & G & Q). exists M, K, C, G. tauto. }
  assert (EK : forall (f : coax -> res mat), match coax_init uni ax0 pair_sh pair_dk pair_br [] None with Returns (Ok c) => match f c with Ok _ => true | Err _ => false end | _ => false end = true ->
    exists A, f c = Ok A).
  { intros f H. rewrite Hc in H. destruct (f c); [eauto|discriminate]. }
  destruct (EK (fun c => coax_M spl c None)) as [M HM]; [lazy; reflexivity|]. destruct (EK (fun c => coax_K spl c w [])) as [K HK]; [lazy; reflexivity|].
  destruct (EK (fun c => coax_C spl c w [])) as [C HC]; [lazy; reflexivity|]. destruct (EK (fun c => coax_G spl c)) as [G HG]; [lazy; reflexivity|].
  exists M, K, C, G. auto.
Qed.
Definition one_br := [ex_brg false 0 None "b0"].
Example C76_instance_one : exists c r, coax_init uni ax0 [[0; 1]%nat] [] one_br [] None = Returns (Ok c) /\ rotor_init (map uni [0; 1]%nat) [] one_br [] = Ok r /\
  NoDup [0; 1]%nat /\ no_link one_br 1.
Proof.
  destruct (ret_some (coax_init uni ax0 [[0; 1]%nat] [] one_br [] None)) as [c Hc]; [lazy; reflexivity|].
  destruct (ok_some (rotor_init (map uni [0; 1]%nat) [] one_br [])) as [r Hr]; [lazy; destruct (Req_EM_T R0 R0) as [_|N]; [lazy; reflexivity|congruence]|].
  exists c, r. split; [exact Hc|]. split; [exact Hr|]. split; [repeat constructor; simpl; lia|]. intros x m [<-|[]]; discriminate.
Qed.
Example C76_instance_repeated : exists c r, coax_init uni ax0 [repeat 0%nat 2] [] one_br [] None = Returns (Ok c) /\ rotor_init (map uni (repeat 0%nat 2)) [] one_br [] = Ok r.
Proof.
  destruct (ret_some (coax_init uni ax0 [repeat 0%nat 2] [] one_br [] None)) as [c Hc]; [lazy; reflexivity|].
  destruct (ok_some (rotor_init (map uni (repeat 0%nat 2)) [] one_br [])) as [r Hr]; [lazy; destruct (Req_EM_T R0 R0) as [_|N]; [lazy; reflexivity|congruence]|].
  exists c, r. auto.
Qed.
Example C76_instance_tag : exists c, coax_init uni ax0 pair_sh pair_dk pair_br [] (Some "twin"%string) = Returns (Ok c).
Proof. apply ret_some. lazy. reflexivity. Qed.
(** ... but a support that no bearing is linked to makes the call run for ever: the point mass at node 7 and its bearing, when the link of the
    bearing at node 0 was forgotten. With the link a rotor is returned. *)
Theorem C76_loops_refuted :
  coax_init uni ax0 pair_sh [] (pair_br ++ [ex_brg false 7 None "b4"]) [ex_pm false 7 "p0"] None = Loops /\
  exists c, coax_init uni ax0 pair_sh [] (ex_brg false 0 (Some 7%nat) "b0" :: tl pair_br ++ [ex_brg false 7 None "b4"]) [ex_pm false 7 "p0"] None = Returns (Ok c).
Proof. split; [lazy; reflexivity|apply ret_some; lazy; reflexivity]. Qed.
(** two elements with the same tag are accepted; Rotor raises ValueError for them *)
Theorem C76_same_tag_refuted : exists c, coax_init uni ax0 pair_sh [] (pair_br ++ [ex_brg false 1 None "b0"]) [] None = Returns (Ok c) /\
  forall shafts r, rotor_init shafts [] (pair_br ++ [ex_brg false 1 None "b0"]) [] <> Ok r.
Proof.
  destruct (ret_some (coax_init uni ax0 pair_sh [] (pair_br ++ [ex_brg false 1 None "b0"]) [] None)) as [c Hc]; [lazy; reflexivity|].
  exists c. split; [exact Hc|]. intros shafts r H. pose proof (LRotor7.rotor_accepted _ _ _ _ _ H) as A. pose proof (acc_tags _ _ _ _ _ A (length shafts) (length shafts + 4) "b0"%string) as Q.
  unfold given_tags in Q. cbn [map app] in Q.
  assert (E : forall k, nth_error (map (fun s => s_tag (rs_s s)) shafts ++ map (fun b => b_tag (brg_base b)) (pair_br ++ [ex_brg false 1 None "b0"])) (length shafts + k) =
    nth_error (map (fun b => b_tag (brg_base b)) (pair_br ++ [ex_brg false 1 None "b0"])) k).
  { intros k. rewrite nth_error_app2 by (rewrite map_length; lia). rewrite map_length. f_equal. lia. }
  pose proof (E 0%nat) as E0. pose proof (E 4%nat) as E4. rewrite Nat.add_0_r in E0. cbn in E0, E4.
  assert (length shafts = length shafts + 4)%nat; [apply Q; [exact E0|exact E4]|lia].
Qed.

(** * C77: axial positions and centre of gravity *)

(** Shafts that no bearing connects are laid end to end. *)
Theorem C77_unlinked : forall st ax shafts disks brgs pms tag c, coax_init st ax shafts disks brgs pms tag = Returns (Ok c) ->
  proper shafts -> unnumbered st shafts -> (2 <= length (concat shafts))%nat -> no_link brgs (r_n_last (cx_rot c)) ->
  forall t, (t < length (concat shafts))%nat ->
    nth_error (cx_l c) t = Some (along (lengths st (concat shafts)) t) /\ nth_error (cx_r c) t = Some (along (lengths st (concat shafts)) (S t)).
Proof.
  intros st ax shafts disks brgs pms tag c Hc P U N2 NL t Ht. destruct (coax_inv _ _ _ _ _ _ _ _ Hc) as (nm & z & dpos & F).
  destruct (unlinked_pos _ _ _ _ _ _ _ _ _ _ _ F P U N2 NL) as [Q _]. destruct (Q t Ht) as [<- <-].
  rewrite (cf_l _ _ _ _ _ _ _ _ _ _ _ F), (cf_r _ _ _ _ _ _ _ _ _ _ _ F). split; apply nth_error_map_seq; exact Ht.
Qed.
(** so a second shaft does not start at zero, as the documentation says *)
Theorem C77_start_refuted : forall st ax inner outer disks brgs pms tag c, coax_init st ax [inner; outer] disks brgs pms tag = Returns (Ok c) ->
  proper [inner; outer] -> unnumbered st [inner; outer] -> no_link brgs (r_n_last (cx_rot c)) ->
  nth_error (cx_l c) (length inner) = Some (suml (lengths st inner)).
Proof.
  intros st ax inner outer disks brgs pms tag c Hc P U NL. destruct (two_ne _ _ P) as [P0 Q0]. pose proof (two_concat inner outer) as Cc.
  destruct (C77_unlinked st ax _ disks brgs pms tag c Hc P U) with (t := length inner) as [E _]; auto.
  - rewrite Cc, app_length. lia.
  - rewrite Cc, app_length. lia.
  - rewrite E. f_equal. unfold along. rewrite two_all. f_equal. rewrite firstn_app. unfold lengths. rewrite map_length, Nat.sub_diag. cbn [firstn]. rewrite app_nil_r.
    apply firstn_all2. rewrite map_length. lia.
Qed.

(** Two shafts, one connection, the same mesh on both sides of it: nodes and elements are where they should be. *)
Theorem C77_positions : forall st ax inner outer disks brgs pms tag c a b,
  let p := length inner in let q := length outer in let La := lengths st inner in let Lb := lengths st outer in
  coax_init st ax [inner; outer] disks brgs pms tag = Returns (Ok c) -> proper [inner; outer] -> unnumbered st [inner; outer] ->
  one_link brgs p q a b -> same_mesh La Lb a b -> tidy p q a b ->
  r_nodes_pos (cx_rot c) = map (along La) (seq 0 (p + 1)) ++ map (outer_pos La Lb a b) (seq 0 (q + 1)) /\
  cx_l c = map (along La) (seq 0 p) ++ map (outer_pos La Lb a b) (seq 0 q) /\
  cx_r c = map (fun k => along La (S k)) (seq 0 p) ++ map (fun k => outer_pos La Lb a b (S k)) (seq 0 q).
Proof.
  intros st ax inner outer disks brgs pms tag c a b p q La Lb Hc P U Lk Ms Td. destruct (coax_inv _ _ _ _ _ _ _ _ Hc) as (nm & z & dpos & F).
  split; [|exact (two_lr _ _ _ _ _ _ _ _ _ _ _ _ _ _ F P U Lk Ms Td)].
  rewrite (two_nodes _ _ _ _ _ _ _ _ _ _ _ _ _ _ F P U Lk Ms Td). fold p q La Lb. replace (p + q + 2)%nat with ((p + 1) + (q + 1))%nat by lia.
  assert (LLa : length La = p) by (unfold La, lengths, p; apply map_length).
  rewrite seq_app, map_app. f_equal.
  - apply map_ext_in. intros t Ht. apply in_seq in Ht. unfold node_at. rewrite LLa. destruct (Nat.leb_spec t p); [reflexivity|lia].
  - cbn [Nat.add]. assert (Q : forall n, seq (p + 1) n = map (fun t => t + (p + 1))%nat (seq 0 n)).
    { induction n as [|n IH]; [reflexivity|]. rewrite !seq_S, map_app, IH. cbn. do 2 f_equal. lia. }
    rewrite Q, map_map. apply map_ext. intros t. unfold node_at. rewrite LLa. destruct (Nat.leb_spec (t + (p + 1)) p); [lia|]. f_equal. lia.
Qed.
(** the attribute L is the place of the last node of the last shaft, not the length of the rotor *)
Theorem C77_length_refuted : forall st ax inner outer disks brgs pms tag c a b,
  let p := length inner in let q := length outer in let La := lengths st inner in let Lb := lengths st outer in
  coax_init st ax [inner; outer] disks brgs pms tag = Returns (Ok c) -> proper [inner; outer] -> unnumbered st [inner; outer] ->
  one_link brgs p q a b -> same_mesh La Lb a b -> tidy p q a b -> outer_pos La Lb a b q < along La p ->
  cx_L c = outer_pos La Lb a b q /\ exists n z, nth_error (r_nodes_pos (cx_rot c)) n = Some z /\ cx_L c < z.
Proof.
  intros st ax inner outer disks brgs pms tag c a b p q La Lb Hc P U Lk Ms Td Hlt.
  destruct (C77_positions st ax inner outer disks brgs pms tag c a b Hc P U Lk Ms Td) as [E _]. fold p q La Lb in E.
  assert (EL : cx_L c = outer_pos La Lb a b q).
  { unfold cx_L. rewrite E. rewrite (seq_app q 1), map_app. cbn [seq map]. rewrite app_assoc, last_last. reflexivity. }
  split; [exact EL|]. exists p, (along La p). split; [|rewrite EL; exact Hlt].
  rewrite E, nth_error_app1 by (rewrite map_length, seq_length; lia). apply nth_error_map_seq. lia.
Qed.
(** The centre of gravity is the weighted mean of the places of all parts, plus an error: the elements of the outer shaft that lie more than
    one element before the connection are taken at the places they had before the shaft was moved. *)
Theorem C77_centre : forall st ax inner outer disks brgs pms tag c a b,
  let p := length inner in let q := length outer in let La := lengths st inner in let Lb := lengths st outer in
  coax_init st ax [inner; outer] disks brgs pms tag = Returns (Ok c) -> proper [inner; outer] -> unnumbered st [inner; outer] ->
  one_link brgs p q a b -> same_mesh La Lb a b -> tidy p q a b ->
  r_CG (cx_rot c) = (shaft_moment st inner (along La) + shaft_moment st outer (outer_pos La Lb a b) + disk_moment disks (node_at La Lb a b)) / r_m (cx_rot c)
     + (along La p - (along La a - along Lb b)) * shaft_mass st (firstn (b - 1) outer) / r_m (cx_rot c).
Proof.
  intros st ax inner outer disks brgs pms tag c a b p q La Lb Hc P U Lk Ms Td. destruct (coax_inv _ _ _ _ _ _ _ _ Hc) as (nm & z & dpos & F).
  exact (two_centre _ _ _ _ _ _ _ _ _ _ _ _ _ _ F P U Lk Ms Td).
Qed.
(** no error when the connection is at the first or second node of the outer shaft *)
Theorem C77_centre_near : forall st ax inner outer disks brgs pms tag c a b,
  let p := length inner in let q := length outer in let La := lengths st inner in let Lb := lengths st outer in
  coax_init st ax [inner; outer] disks brgs pms tag = Returns (Ok c) -> proper [inner; outer] -> unnumbered st [inner; outer] ->
  one_link brgs p q a b -> same_mesh La Lb a b -> tidy p q a b -> (b <= 1)%nat ->
  r_CG (cx_rot c) = (shaft_moment st inner (along La) + shaft_moment st outer (outer_pos La Lb a b) + disk_moment disks (node_at La Lb a b)) / r_m (cx_rot c).
Proof.
  intros st ax inner outer disks brgs pms tag c a b p q La Lb Hc P U Lk Ms Td Hb.
  rewrite (C77_centre st ax inner outer disks brgs pms tag c a b Hc P U Lk Ms Td). fold p q La Lb. replace (b - 1)%nat with 0%nat by lia.
  cbn [firstn]. unfold shaft_mass at 1, suml at 1. cbn. unfold Rdiv. ring.
Qed.
(** In every other case (with lengths and masses that are positive) the value is too large. *)
Theorem C77_centre_refuted : forall st ax inner outer disks brgs pms tag c a b,
  let p := length inner in let q := length outer in let La := lengths st inner in let Lb := lengths st outer in
  coax_init st ax [inner; outer] disks brgs pms tag = Returns (Ok c) -> proper [inner; outer] -> unnumbered st [inner; outer] ->
  one_link brgs p q a b -> same_mesh La Lb a b -> tidy p q a b -> (2 <= b)%nat ->
  (forall x, In x (inner ++ outer) -> 0 < s_L (rs_s (st x)) /\ 0 < s_m (rs_s (st x))) -> (forall d, In d disks -> 0 <= d_m (rd_d d)) ->
  (shaft_moment st inner (along La) + shaft_moment st outer (outer_pos La Lb a b) + disk_moment disks (node_at La Lb a b)) / r_m (cx_rot c) < r_CG (cx_rot c).
Proof.
  intros st ax inner outer disks brgs pms tag c a b p q La Lb Hc P U Lk Ms Td Hb Hpos Hd.
  rewrite (C77_centre st ax inner outer disks brgs pms tag c a b Hc P U Lk Ms Td). fold p q La Lb.
  destruct (C76_elements st ax _ disks brgs pms tag c Hc P U) as (_ & _ & _ & _ & _ & Em & _). rewrite two_concat in Em.
  assert (S0 : forall l, (forall x, In x l -> 0 < x) -> 0 <= suml l).
  { induction l as [|x l IH]; intros H; unfold suml in *; cbn; [lra|]. pose proof (H x (or_introl eq_refl)). specialize (IH (fun y Hy => H y (or_intror Hy))). lra. }
  assert (S1 : forall l, l <> [] -> (forall x, In x l -> 0 < x) -> 0 < suml l).
  { intros [|x l] N H; [congruence|]. unfold suml. cbn. pose proof (H x (or_introl eq_refl)). pose proof (S0 l (fun y Hy => H y (or_intror Hy))). unfold suml in *. lra. }
  assert (D0 : 0 <= suml (map (fun d => d_m (rd_d d)) disks)).
  { clear - Hd. induction disks as [|d l IH]; unfold suml in *; cbn; [lra|]. pose proof (Hd d (or_introl eq_refl)). specialize (IH (fun y Hy => Hd y (or_intror Hy))). lra. }
  destruct Lk as (Ha & Hbq & _ & _).
  assert (Hne : outer <> []) by (intros ->; cbn in q; unfold q in Hbq; cbn in Hbq; lia).
  assert (Mp : 0 < r_m (cx_rot c)).
  { rewrite Em. assert (0 < suml (map (fun x => s_m (rs_s (st x))) (inner ++ outer))); [|lra]. apply S1.
    - destruct inner, outer; cbn; congruence.
    - intros m Hm. apply in_map_iff in Hm as (x & <- & Hx). apply Hpos. exact Hx. }
  assert (Mf : 0 < shaft_mass st (firstn (b - 1) outer)).
  { unfold shaft_mass. apply S1.
    - destruct outer as [|y l]; [congruence|]. destruct b as [|[|b']]; [lia|lia|]. cbn. congruence.
    - intros m Hm. apply in_map_iff in Hm as (x & <- & Hx). apply Hpos. apply in_or_app. right.
      rewrite <- (firstn_skipn (b - 1) outer). apply in_or_app. left. exact Hx. }
  assert (Lp : 0 < along Lb b).
  { unfold along. apply S1.
    - unfold Lb, lengths. destruct outer as [|y l]; [congruence|]. destruct b as [|b']; [lia|]. cbn. congruence.
    - intros m Hm. assert (Hm' : In m Lb) by (rewrite <- (firstn_skipn b Lb); apply in_or_app; left; exact Hm).
      unfold Lb, lengths in Hm'. apply in_map_iff in Hm' as (x & <- & Hx). apply Hpos. apply in_or_app. right. exact Hx. }
  assert (Li : 0 <= along La p - along La a).
  { assert (Q : along La p = along La a + along (skipn a La) (p - a)) by (rewrite <- along_skip; f_equal; unfold p in *; lia). rewrite Q.
    assert (0 <= along (skipn a La) (p - a)); [|lra]. unfold along. apply S0. intros m Hm.
    assert (H1 : In m (skipn a La)) by (rewrite <- (firstn_skipn (p - a) (skipn a La)); apply in_or_app; left; exact Hm).
    assert (H2 : In m La) by (rewrite <- (firstn_skipn a La); apply in_or_app; right; exact H1).
    unfold La, lengths in H2. apply in_map_iff in H2 as (x & <- & Hx). apply Hpos. apply in_or_app. left. exact Hx. }
  assert (0 < (along La p - (along La a - along Lb b)) * shaft_mass st (firstn (b - 1) outer) / r_m (cx_rot c)); [|lra].
  apply Rdiv_lt_0_compat; [|exact Mp]. apply Rmult_lt_0_compat; [lra|exact Mf].
Qed.

(** the hypotheses are met by the pair of shafts of C76 (connection at node 2 of the second shaft, as in the example of the documentation) *)
Lemma uni_m x : 0 < s_m (rs_s (uni x)).
Proof. cbn. pose proof PI_RGT_0. lra. Qed.
Example C77_instance : exists c, let La := lengths uni [0; 1; 2]%nat in let Lb := lengths uni [3; 4]%nat in
  coax_init uni ax0 pair_sh pair_dk pair_br [] None = Returns (Ok c) /\ one_link pair_br 3 2 2 2 /\ same_mesh La Lb 2 2 /\ tidy 3 2 2 2 /\
  outer_pos La Lb 2 2 2 < along La 3 /\
  (forall x, In x ([0; 1; 2] ++ [3; 4])%nat -> 0 < s_L (rs_s (uni x)) /\ 0 < s_m (rs_s (uni x))) /\ (forall d, In d pair_dk -> 0 <= d_m (rd_d d)).
Proof.
  destruct C76_instance as (c & Hc & _). exists c. intros La Lb. split; [exact Hc|]. clear Hc. split.
  { split; [lia|]. split; [lia|]. split; [exists (ex_bearing 2 (Some 6%nat) "b2"); split; [simpl; auto|split; reflexivity]|].
    intros x m Hx El Hm. unfold pair_br in Hx. destruct Hx as [<-|[<-|[<-|[<-|[]]]]]; rewrite brg_link_ex in El; try discriminate.
    injection El as <-. rewrite brg_n_ex. split; reflexivity. }
  split; [split; intros; cbn in *; first [lia|reflexivity]|]. split; [split; intros; lia|]. split.
  - unfold outer_pos, along, La, Lb, suml. cbn. lra.
  - split; [intros x _; split; [cbn; lra|apply uni_m]|]. intros d Hd. unfold pair_dk in Hd. cases_in; cbn; lra.
Qed.
Example C77_instance_unlinked : exists c, coax_init uni ax0 pair_sh [] one_br [] None = Returns (Ok c) /\ no_link one_br (r_n_last (cx_rot c)).
Proof.
  destruct (ret_some (coax_init uni ax0 pair_sh [] one_br [] None)) as [c Hc]; [lazy; reflexivity|].
  exists c. split; [exact Hc|]. intros x m [<-|[]]; discriminate.
Qed.

(** ** Where the positions are wrong *)
(** A shaft of one element starts at the end of itself. *)
Theorem C77_single_element_refuted : forall st ax x disks brgs pms tag c, coax_init st ax [[x]] disks brgs pms tag = Returns (Ok c) ->
  s_n (rs_s (st x)) = None -> no_link brgs 0 ->
  let L := s_L (rs_s (st x)) in cx_l c = [L] /\ cx_r c = [L + L] /\ r_nodes_pos (cx_rot c) = [L; L + L].
Proof.
  intros st ax x disks brgs pms tag c Hc Hn NL L. destruct (coax_inv _ _ _ _ _ _ _ _ Hc) as (nm & z & dpos & F).
  assert (P : proper [[x]]) by (split; [intros s [<-|[]]; discriminate|repeat constructor; simpl; auto]).
  assert (U : unnumbered st [[x]]) by (intros y [<-|[]]; exact Hn).
  pose proof (cf_place _ _ _ _ _ _ _ _ _ _ _ F) as Hz.
  rewrite (num_ns _ _ _ _ _ _ _ _ _ _ _ F P U), (num_L _ _ _ _ _ _ _ _ _ _ _ F P U), (cf_br _ _ _ _ _ _ _ _ _ _ _ F) in Hz.
  assert (En : el_n (cx_elem st nm x) = 0%nat) by (cbn; rewrite (num_n _ _ _ _ _ _ _ _ _ _ _ F P U 0 0 [x] x eq_refl eq_refl); reflexivity).
  assert (Lk : forall n, (n <= 1)%nat -> linked (filter (fun b => negb (is_seal b)) (sort_n (mapi mk_brg 0 brgs))) n = None).
  { intros n Hn'. apply linked_none. intros e m He El. apply filter_In in He as [He _]. destruct (brg_back _ _ He) as (t & b & Hb & ->). specialize (NL b m Hb El). lia. }
  unfold objs_of in Hz. cbn [map place_shafts place_shaft bind] in Hz. unfold place in Hz. rewrite En, !Lk in Hz by lia. cbn in Hz. injection Hz as <-.
  rewrite (cf_l _ _ _ _ _ _ _ _ _ _ _ F), (cf_r _ _ _ _ _ _ _ _ _ _ _ F). split; [reflexivity|]. split; [reflexivity|].
  pose proof (cf_ends _ _ _ _ _ _ _ _ _ _ _ F) as E. rewrite (num_ns _ _ _ _ _ _ _ _ _ _ _ F P U) in E. cbn in E. injection E as <-. reflexivity.
Qed.
(** With three shafts (here of one element each, laid end to end) the last node of the second lies behind the first node of the third: it is
    given the place of the end of the third shaft. *)
Theorem C77_three_shafts_refuted : forall st ax x y w disks brgs pms tag c, coax_init st ax [[x]; [y]; [w]] disks brgs pms tag = Returns (Ok c) ->
  NoDup [x; y; w] -> unnumbered st [[x]; [y]; [w]] -> no_link brgs (r_n_last (cx_rot c)) ->
  let L := fun u => s_L (rs_s (st u)) in r_nodes_pos (cx_rot c) = [0; L x; L x; L x + L y + L w; L x + L y; L x + L y + L w].
Proof.
  intros st ax x y w disks brgs pms tag c Hc ND U NL L. destruct (coax_inv _ _ _ _ _ _ _ _ Hc) as (nm & z & dpos & F).
  assert (P : proper [[x]; [y]; [w]]) by (split; [intros s [<-|[<-|[<-|[]]]]; discriminate|exact ND]).
  destruct (unlinked_pos _ _ _ _ _ _ _ _ _ _ _ F P U) as [Q _]; [cbn; lia|exact NL|].
  pose proof (cf_ends _ _ _ _ _ _ _ _ _ _ _ F) as E. rewrite (num_ns _ _ _ _ _ _ _ _ _ _ _ F P U) in E.
  assert (Ee : ends_of (objs_of st nm [[x]; [y]; [w]]) = [1; 3; 5]%nat).
  { unfold ends_of, objs_of. cbn. rewrite (num_n _ _ _ _ _ _ _ _ _ _ _ F P U 0 0 [x] x eq_refl eq_refl), (num_n _ _ _ _ _ _ _ _ _ _ _ F P U 1 0 [y] y eq_refl eq_refl),
      (num_n _ _ _ _ _ _ _ _ _ _ _ F P U 2 0 [w] w eq_refl eq_refl). reflexivity. }
  rewrite Ee in E. cbn in E. injection E as <-. destruct (Q 0%nat ltac:(cbn; lia)) as [-> ->], (Q 1%nat ltac:(cbn; lia)) as [-> _], (Q 2%nat ltac:(cbn; lia)) as [-> ->].
  unfold along, suml, L. cbn. do 6 (apply f_equal2; [ring|]). reflexivity.
Qed.
(** Elements of different length at the connection: one is drawn and weighed where it is not. Two inner elements of length 1, an outer one of
    length 2 that starts at the middle node: its ends are 1 apart. *)
Definition uneven : ref -> rshaft := fun x => if Nat.eqb x 2 then u_shaft 2 else u_shaft 1.
Theorem C77_mesh_refuted : exists c, coax_init uneven ax0 [[0; 1]; [2]]%nat [] [ex_brg false 0 None "b0"; ex_brg false 1 (Some 3%nat) "b1"] [] None = Returns (Ok c) /\
  s_L (rs_s (uneven 2%nat)) = 2 /\ nth 2 (cx_l c) 0 = 1 /\ nth 2 (cx_r c) 0 = 2.
Proof.
  set (o := coax_init _ _ _ _ _ _ _).
  assert (H : match o with Returns (Ok c) => (nth 2 (cx_l c) 0, nth 2 (cx_r c) 0) | _ => (0, 0) end = (1, 2)).
  { match goal with |- ?l = _ => let v := eval lazy in l in change l with v end. f_equal; lra. }
  destruct (ret_some o) as [c Hc]; [lazy; reflexivity|]. exists c. rewrite Hc in H. injection H as H1 H2.
  split; [exact Hc|]. split; [reflexivity|]. split; [exact H1|exact H2].
Qed.

Print Assumptions C76_numbering.
Print Assumptions C76_nodes_apart.
Print Assumptions C76_tags.
Print Assumptions C76_in_place.
Print Assumptions C76_repeated_refuted.
Print Assumptions C76_matrices.
Print Assumptions C76_elements.
Print Assumptions C76_blocks.
Print Assumptions C76_one_shaft.
Print Assumptions C76_tag_refuted.
Print Assumptions C76_six_refuted.
Print Assumptions C76_no_bearing_refuted.
Print Assumptions C76_attached.
Print Assumptions C76_loops_refuted.
Print Assumptions C76_same_tag_refuted.
Print Assumptions C77_unlinked.
Print Assumptions C77_start_refuted.
Print Assumptions C77_positions.
Print Assumptions C77_length_refuted.
Print Assumptions C77_centre.
Print Assumptions C77_centre_near.
Print Assumptions C77_centre_refuted.
Print Assumptions C77_single_element_refuted.
Print Assumptions C77_three_shafts_refuted.
Print Assumptions C77_mesh_refuted.
