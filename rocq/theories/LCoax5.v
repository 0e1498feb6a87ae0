(** Positions and centre of gravity of whole co-axial rotors. *)
From Coq Require Import Reals String List Bool Arith ZArith Lia Lra Permutation Sorted.
From Verif Require Import PyBase MatBase SpecMat LMat MMaterial MShaft MDisk MBearing MRotor MShare SpecRotor LAssembly LRotor LRotor2 LRotorInit2 LRotor6 MCoax SpecCoax LCoax LCoax2 LCoax3 LCoax4.
Import ListNotations.
Open Scope list_scope.
Open Scope R_scope.

Lemma nth_error_map_seq {A} (f : nat -> A) n i : (i < n)%nat -> nth_error (map f (seq 0 n)) i = Some (f i).
Proof.
  intros H. rewrite nth_error_map. assert (E : nth_error (seq 0 n) i = Some i).
  { rewrite (nth_error_nth' (seq 0 n) 0%nat) by (rewrite seq_length; exact H). rewrite seq_nth by exact H. reflexivity. }
  rewrite E. reflexivity.
Qed.
Lemma objs_concat st nm shafts : concat (objs_of st nm shafts) = map (fun x => (x, cx_elem st nm x)) (concat shafts).
Proof. unfold objs_of. rewrite <- concat_map. reflexivity. Qed.
Lemma objs_fst st nm shafts : map fst (concat (objs_of st nm shafts)) = concat shafts.
Proof. rewrite objs_concat, map_map. apply map_id. Qed.

(** ** no links *)
Lemma unlinked_pos st ax shafts disks brgs pms tag c nm z dpos : cfacts st ax shafts disks brgs pms tag c nm z dpos ->
  proper shafts -> unnumbered st shafts -> (2 <= length (concat shafts))%nat -> no_link brgs (r_n_last (cx_rot c)) ->
  (forall t, (t < length (concat shafts))%nat -> z_l z t = along (lengths st (concat shafts)) t /\ z_r z t = along (lengths st (concat shafts)) (S t)) /\
  (forall t x, nth_error (concat shafts) t = Some x -> z_ax z x = s_beam_cg (rs_s (st x)) + along (lengths st (concat shafts)) t).
Proof.
  intros F P U N2 NL. pose proof (cf_place _ _ _ _ _ _ _ _ _ _ _ F) as Hz.
  rewrite (num_ns _ _ _ _ _ _ _ _ _ _ _ F P U), (num_L _ _ _ _ _ _ _ _ _ _ _ F P U) in Hz.
  destruct (unlinked_run (length (concat shafts)) (all_nodes shafts 0) (lengths st (concat shafts))
              (filter (fun b => negb (is_seal b)) (r_brg (cx_rot c))) N2 (map_length _ _) (num_step _ _ _ _ _ _ _ _ _ _ _ F P U)
              (objs_of st nm shafts) 0%nat (z_zero ax)) as (z' & Hz' & K1 & K2 & _).
  - rewrite objs_concat, map_length. lia.
  - rewrite objs_fst. apply P.
  - intros s Hs. unfold objs_of in Hs. apply in_map_iff in Hs as (s' & <- & Hs). intros E. apply map_eq_nil in E. exact (proj1 P _ Hs E).
  - intros x e He. rewrite (cf_br _ _ _ _ _ _ _ _ _ _ _ F). apply (no_link_target _ _ _ (r_n_last (cx_rot c)) NL).
    rewrite (cf_last _ _ _ _ _ _ _ _ _ _ _ F). apply max_list_ge, in_map. rewrite (num_sh _ _ _ _ _ _ _ _ _ _ _ F P U).
    rewrite objs_concat in He. apply in_map_iff in He as (y & [= <- <-] & Hy). apply in_map. exact Hy.
  - intros t Ht. lia.
  - intros _. reflexivity.
  - rewrite Hz' in Hz. injection Hz as <-. rewrite objs_concat, map_length in K1. split; [exact K1|].
    intros t x E. rewrite (K2 t x (cx_elem st nm x)); [rewrite Nat.add_0_r; reflexivity|].
    rewrite objs_concat. erewrite map_nth_error by exact E. reflexivity.
Qed.

(** ** shaft_pos of strictly increasing nodes *)
Lemma shaft_pos_from_seq l : forall prev pl pr, StronglySorted lt (prev :: map el_n l) ->
  shaft_pos_from prev pl pr l = map (fun i => (pr + along (map sh_L l) i, pr + along (map sh_L l) (S i))) (seq 0 (length l)).
Proof.
  induction l as [|e l IH]; intros prev pl pr H; [reflexivity|]. cbn [shaft_pos_from map length] in *.
  inversion H as [|? ? H1 F]; subst. inversion F as [|? ? F1 _]; subst. destruct (Nat.eqb_spec (el_n e) prev); [lia|]. cbn [fst snd].
  cbn [seq map]. f_equal.
  - unfold along, suml. cbn. f_equal; ring.
  - rewrite (IH _ _ _ H1), <- seq_shift, map_map. apply map_ext. intros i.
    unfold along, suml. cbn [firstn map fold_right]. destruct l as [|e' l]; cbn [map firstn]; f_equal; ring.
Qed.
Lemma shaft_pos_seq l : StronglySorted lt (map el_n l) ->
  shaft_pos l = map (fun i => (along (map sh_L l) i, along (map sh_L l) (S i))) (seq 0 (length l)).
Proof.
  destruct l as [|e l]; intros H; [reflexivity|]. cbn [shaft_pos length seq map]. f_equal; [unfold along, suml; cbn; f_equal; ring|].
  rewrite shaft_pos_from_seq by exact H. rewrite <- seq_shift, map_map. apply map_ext. intros i.
  unfold along, suml. cbn [firstn map fold_right]. destruct l as [|e' l]; cbn [map firstn fold_right]; f_equal; ring.
Qed.

(** ** sums of moments *)
Lemma cg_rotor P Q m sh : forall o,
  map (fun p => sh_m (fst p) * snd p / m) (combine sh (map (fun p => sh_cg (fst p) + fst (snd p)) (combine sh (map (fun i => (P i, Q i) : R * R) (seq o (length sh))))))
  = mapi (fun t e => sh_m e * (sh_cg e + P t) / m) o sh.
Proof. induction sh as [|e sh IH]; intros o; [reflexivity|]. cbn [length seq map combine mapi fst snd]. f_equal. apply IH. Qed.
Lemma cg_coax (E : ref -> elem) (zx : ref -> R) P m l : forall o, (forall t x, nth_error l t = Some x -> zx x = sh_cg (E x) + P (o + t)%nat) ->
  map (fun p => sh_m (snd p) * zx (fst p) / m) (map (fun x => (x, E x)) l) = mapi (fun t e => sh_m e * (sh_cg e + P t) / m) o (map E l).
Proof.
  induction l as [|x l IH]; intros o H; [reflexivity|]. cbn [map mapi fst snd]. f_equal.
  - rewrite (H 0%nat x eq_refl), Nat.add_0_r. reflexivity.
  - apply IH. intros t y Ey. rewrite (H (S t) y Ey). do 2 f_equal. lia.
Qed.

(** ** One shaft *)
Lemma rotor_ext r r' : r_shaft r = r_shaft r' -> r_disk r = r_disk r' -> r_brg r = r_brg r' -> r_pm r = r_pm r' -> r_nd r = r_nd r' ->
  r_n_last r = r_n_last r' -> r_ndof r = r_ndof r' -> r_nodes_pos r = r_nodes_pos r' -> r_shaft_pos r = r_shaft_pos r' ->
  r_m_disks r = r_m_disks r' -> r_m_shaft r = r_m_shaft r' -> r_m r = r_m r' -> r_CG r = r_CG r' -> r_Ip r = r_Ip r' -> r = r'.
Proof. destruct r, r'. cbn. congruence. Qed.

Lemma mapi_ext_nth {A B} (f g : nat -> A -> B) l : forall i, (forall k x, nth_error l k = Some x -> f (i + k)%nat x = g (i + k)%nat x) -> mapi f i l = mapi g i l.
Proof.
  induction l as [|x l IH]; intros i H; [reflexivity|]. cbn. f_equal; [rewrite <- (Nat.add_0_r i); apply H; reflexivity|].
  apply IH. intros k y E. replace (S i + k)%nat with (i + S k)%nat by lia. apply H. exact E.
Qed.
Lemma mapi_map {A B C} (f : nat -> B -> C) (g : A -> B) l : forall i, mapi f i (map g l) = mapi (fun k x => f k (g x)) i l.
Proof. induction l as [|x l IH]; intros i; [reflexivity|]. cbn. f_equal. apply IH. Qed.
Lemma mapi_const {A B} (f : A -> B) l : forall i, mapi (fun _ x => f x) i l = map f l.
Proof. induction l as [|x l IH]; intros i; [reflexivity|]. cbn. f_equal. apply IH. Qed.

Lemma one_shaft st ax shaft disks brgs pms tag c r : coax_init st ax [shaft] disks brgs pms tag = Returns (Ok c) ->
  rotor_init (map st shaft) disks brgs pms = Ok r ->
  NoDup shaft -> unnumbered st [shaft] -> (2 <= length shaft)%nat -> no_link brgs (length shaft - 1) -> cx_rot c = r.
Proof.
  intros Hc Hr ND U N2 NL. destruct (coax_inv _ _ _ _ _ _ _ _ Hc) as (nm & z & dpos & F).
  assert (P : proper [shaft]).
  { split; [intros s [<-|[]] E; subst; cbn in N2; lia|cbn; rewrite app_nil_r; exact ND]. }
  pose proof (rotor_facts _ _ _ _ _ Hr) as G. destruct (rotor_init_lists _ _ _ _ _ Hr) as (Es & Ed & Eb & Ep).
  pose proof (num_sh _ _ _ _ _ _ _ _ _ _ _ F P U) as Sh. pose proof (num_ns _ _ _ _ _ _ _ _ _ _ _ F P U) as Nn.
  assert (Cc : concat [shaft] = shaft) by (cbn; apply app_nil_r). rewrite Cc in Sh.
  assert (Nd : all_nodes [shaft] 0 = seq 0 (length shaft)) by (cbn; rewrite app_nil_r; reflexivity). rewrite Nd in Nn.
  assert (SS : StronglySorted lt (map el_n (r_shaft (cx_rot c)))) by (rewrite Nn; apply seq_ss).
  assert (ES : r_shaft (cx_rot c) = r_shaft r).
  { rewrite Es. transitivity (mapi mk_shaft 0 (map st shaft)).
    - rewrite Sh, mapi_map, <- (mapi_const (cx_elem st nm) shaft 0). apply mapi_ext_nth. intros k x E.
      assert (S4 : rs_six (st x) = false).
      { assert (In (cx_elem st nm x) (r_elements (cx_rot c))). { unfold r_elements. apply in_or_app. left. rewrite Sh. apply in_map. eapply nth_error_In; eauto. }
        apply (cf_fam _ _ _ _ _ _ _ _ _ _ _ F) in H. unfold cx_elem in H. cbn in H. unfold fam in H. destruct (rs_six (st x)); [discriminate|reflexivity]. }
      pose proof (cf_names _ _ _ _ _ _ _ _ _ _ _ F) as H. unfold coax_names in H. cbn [name_shafts] in H.
      pose proof (name_shaft_in st 0 0 shaft 0 (given_names st) k x ND E) as G1.
      assert (H' : nm = name_shaft st 0 0 0 shaft (given_names st)).
      { destruct (rev shaft); [discriminate|]. injection H as <-. reflexivity. }
      rewrite <- H' in G1. unfold cx_elem, mk_shaft. rewrite G1. cbn [fst snd default]. unfold given_names. cbn [fst snd].
      rewrite (U x) by (rewrite Cc; eapply nth_error_In; eauto). f_equal; [cbn [default]; lia|].
      unfold default_tag, default, sh_class. destruct (s_tag (rs_s (st x))); [reflexivity|]. rewrite S4.
      unfold zstr. destruct (Z.ltb_spec (Z.of_nat (0 + k) + 0) 0); [lia|]. replace (Z.to_nat (Z.of_nat (0 + k) + 0)) with (0 + k)%nat by lia. reflexivity.
    - symmetry. apply sort_n_id. apply ss_map_le.
      replace (map el_n (mapi mk_shaft 0 (map st shaft))) with (seq 0 (length shaft)); [apply seq_ss|].
      rewrite mapi_map. enough (Q : forall o l, (forall x, In x l -> s_n (rs_s (st x)) = None) -> seq o (length l) = map el_n (mapi (fun k x => mk_shaft k (st x)) o l)).
      { apply Q. intros x Hx. apply U. rewrite Cc. exact Hx. }
      intros o l. revert o. induction l as [|x l IH]; intros o H; [reflexivity|]. cbn [length seq mapi map]. f_equal.
      + unfold mk_shaft. rewrite (H x (or_introl eq_refl)). reflexivity.
      + apply IH. intros y Hy. apply H. right. exact Hy. }
  assert (EL : r_n_last (cx_rot c) = (length shaft - 1)%nat).
  { rewrite (cf_last _ _ _ _ _ _ _ _ _ _ _ F), Nn. apply Nat.le_antisymm.
    - apply max_list_le. intros x Hx. apply in_seq in Hx. lia.
    - apply max_list_ge, in_seq. lia. }
  destruct (unlinked_pos _ _ _ _ _ _ _ _ _ _ _ F P U) as [Q1 Q2]; [rewrite Cc; exact N2|rewrite EL; exact NL|]. rewrite Cc in *.
  assert (EP : r_shaft_pos (cx_rot c) = shaft_pos (r_shaft (cx_rot c))).
  { rewrite (cf_spos _ _ _ _ _ _ _ _ _ _ _ F), Cc, shaft_pos_seq by exact SS. rewrite (num_L _ _ _ _ _ _ _ _ _ _ _ F P U), Cc.
    rewrite Sh, map_length. apply map_ext_in. intros t Ht. apply in_seq in Ht. destruct (Q1 t ltac:(lia)) as [-> ->]. reflexivity. }
  assert (END : r_nd r = 4%nat).
  { assert (Hin : exists e, In e (r_shaft r)). { rewrite <- ES, Sh. destruct shaft as [|x l]; [cbn in N2; lia|]. eexists. left. reflexivity. }
    destruct Hin as (e & He). destruct (rf_shaft _ G e He) as (six & n & t & s & ->).
    pose proof (rf_fam _ G _ (in_or_app _ _ _ (or_introl He))) as H. rewrite <- ES in He.
    pose proof (cf_fam _ _ _ _ _ _ _ _ _ _ _ F _ (in_or_app _ _ _ (or_introl He))) as H'. cbn in H, H'. unfold fam in H, H'. destruct six; congruence. }
  assert (EDk : r_disk (cx_rot c) = r_disk r) by (rewrite Ed; apply (cf_dk _ _ _ _ _ _ _ _ _ _ _ F)).
  assert (EM : r_m (cx_rot c) = r_m r) by (rewrite (cf_mass _ _ _ _ _ _ _ _ _ _ _ F), (rf_mass _ G), ES, EDk; reflexivity).
  assert (ENp : r_nodes_pos (cx_rot c) = nodes_pos (r_shaft (cx_rot c))).
  { pose proof (cf_ends _ _ _ _ _ _ _ _ _ _ _ F) as H. rewrite Cc in H. unfold ends_of, objs_of in H. cbn [map insert_ends] in H. injection H as <-.
    unfold nodes_pos. rewrite shaft_pos_seq by exact SS. rewrite !map_map. cbn [fst snd]. rewrite (num_L _ _ _ _ _ _ _ _ _ _ _ F P U), Cc, Sh, !map_length.
    f_equal.
    - f_equal. f_equal. apply map_ext_in. intros t Ht. apply in_seq in Ht. apply Q1. lia.
    - f_equal. rewrite (proj2 (Q1 (length shaft - 1)%nat ltac:(lia))).
      replace (length shaft) with (length shaft - 1 + 1)%nat at 2 by lia. rewrite seq_app, map_app. cbn [seq map]. rewrite last_last. f_equal. }
  apply rotor_ext.
  - exact ES.
  - exact EDk.
  - rewrite Eb. apply (cf_br _ _ _ _ _ _ _ _ _ _ _ F).
  - rewrite Ep. apply (cf_pm _ _ _ _ _ _ _ _ _ _ _ F).
  - rewrite END. apply (cf_nd _ _ _ _ _ _ _ _ _ _ _ F).
  - rewrite (cf_last _ _ _ _ _ _ _ _ _ _ _ F), (rf_last _ G), ES. reflexivity.
  - rewrite (cf_ndof _ _ _ _ _ _ _ _ _ _ _ F), (rf_ndof _ G), END, (cf_last _ _ _ _ _ _ _ _ _ _ _ F), (rf_last _ G), ES, Ep, (cf_pm _ _ _ _ _ _ _ _ _ _ _ F).
    reflexivity.
  - rewrite ENp, (rf_pos _ G), ES. reflexivity.
  - rewrite EP, (rf_spos _ G), ES. reflexivity.
  - rewrite (cf_mdisks _ _ _ _ _ _ _ _ _ _ _ F), (rf_mdisks _ G), EDk. reflexivity.
  - rewrite (cf_mshaft _ _ _ _ _ _ _ _ _ _ _ F), (rf_mshaft _ G), ES. reflexivity.
  - exact EM.
  - destruct (rf_dpos _ G) as (dp & D1 & ->). pose proof (cf_dpos _ _ _ _ _ _ _ _ _ _ _ F) as D2. rewrite ENp, ES, EDk in D2. rewrite D1 in D2.
    injection D2 as <-. rewrite (cf_CG _ _ _ _ _ _ _ _ _ _ _ F), EM, EDk. f_equal. f_equal.
    rewrite (num_table _ _ _ _ _ _ _ _ _ _ _ F P U), Cc. rewrite <- ES, shaft_pos_seq by exact SS.
    rewrite cg_rotor, Sh. apply cg_coax. intros t x E. rewrite (Q2 t x E), map_map. reflexivity.
  - rewrite (cf_Ip _ _ _ _ _ _ _ _ _ _ _ F), (rf_Ip _ G), ES, EDk. reflexivity.
Qed.

(** ** Two shafts with one connection *)
Lemma moment_split (E : ref -> elem) P m l : forall o,
  suml (mapi (fun t e => sh_m e * (sh_cg e + P t) / m) o (map E l)) = suml (mapi (fun t x => sh_m (E x) * (sh_cg (E x) + P t)) o l) / m.
Proof.
  induction l as [|x l IH]; intros o; [unfold suml; cbn; unfold Rdiv; ring|]. cbn [map mapi]. unfold suml in *. cbn [fold_right]. rewrite IH.
  unfold Rdiv. ring.
Qed.
Lemma moment_shift (mf cf P Q : nat -> ref -> R) d b l : forall o, (forall t x, nth_error l t = Some x -> P (o + t)%nat x = Q (o + t)%nat x + (if (o + t <? b)%nat then d else 0)) ->
  suml (mapi (fun t x => mf t x * (cf t x + P t x)) o l) = suml (mapi (fun t x => mf t x * (cf t x + Q t x)) o l) + d * suml (firstn (b - o) (mapi mf o l)).
Proof.
  induction l as [|x l IH]; intros o H; [rewrite firstn_nil; unfold suml; cbn; ring|].
  pose proof (H 0%nat x eq_refl) as H0. rewrite Nat.add_0_r in H0. cbn [mapi]. unfold suml in *. cbn [fold_right]. rewrite H0, IH.
  2:{ intros t y Ey. replace (S o + t)%nat with (o + S t)%nat by lia. apply H. exact Ey. }
  destruct (Nat.ltb_spec o b).
  - replace (b - o)%nat with (S (b - S o)) by lia. cbn [firstn fold_right]. ring.
  - replace (b - o)%nat with 0%nat by lia. replace (b - S o)%nat with 0%nat by lia. cbn. ring.
Qed.

Lemma disk_sum pos m disks : forall o dpos, disk_positions pos (mapi mk_disk o disks) = Ok dpos ->
  suml (map (fun p => dk_m (fst p) * snd p / m) (combine (mapi mk_disk o disks) dpos)) = disk_moment disks (fun n => nth n pos 0) / m.
Proof.
  unfold disk_moment. induction disks as [|d disks IH]; intros o dpos H; cbn [mapi map combine] in *.
  - unfold suml. cbn. unfold Rdiv. ring.
  - cbn [disk_positions] in H.
    destruct (nth_error pos (el_n (mk_disk o d))) as [v|] eqn:Ev; [|discriminate]. cbn [bind] in H.
    destruct (disk_positions pos (mapi mk_disk (S o) disks)) as [l|] eqn:El; [|discriminate]. cbn [bind] in H. injection H as <-.
    cbn [combine map fst snd]. unfold suml in *. cbn [fold_right]. rewrite (IH _ _ El). apply nth_error_nth with (d := 0) in Ev.
    unfold mk_disk in *. cbn [el_n dk_m] in *. rewrite Ev. unfold Rdiv. ring.
Qed.

Lemma disk_in_range pos disks d : forall o dpos, disk_positions pos (mapi mk_disk o disks) = Ok dpos -> In d disks -> (d_n (rd_d d) < length pos)%nat.
Proof.
  induction disks as [|d' l IH]; intros o dpos D Hd; [destruct Hd|].
  cbn [mapi disk_positions] in D. destruct (nth_error _ (el_n (mk_disk o d'))) as [v|] eqn:Ev; [|discriminate]. cbn [bind] in D.
  destruct Hd as [->|Hd].
  - apply nth_error_Some. unfold mk_disk in Ev. cbn [el_n] in Ev. congruence.
  - destruct (disk_positions _ (mapi mk_disk (S o) l)) as [l'|] eqn:El; [|discriminate]. exact (IH _ _ El Hd).
Qed.

Lemma insert_two N zr p q pos : length pos = N -> N = (p + q)%nat -> (0 < p)%nat -> (0 < q)%nat ->
  insert_ends N zr [p; (p + q + 1)%nat] pos = Ok (firstn p pos ++ zr (p - 1)%nat :: skipn p pos ++ [zr (N - 1)%nat]).
Proof.
  intros H E Hp Hq. cbn [insert_ends]. destruct (Nat.ltb_spec (p - 1) N); [|lia]. rewrite <- app_assoc. reflexivity.
Qed.

Section Two.
Variables (st : ref -> rshaft) (ax : ref -> R) (inner outer : list ref) (disks : list rdisk) (brgs : list rbrg) (pms : list rpmass).
Variables (tag : option string) (c : coax) (nm : names) (z : zpos) (dpos : list R) (a b : nat).
Hypothesis F : cfacts st ax [inner; outer] disks brgs pms tag c nm z dpos.
Hypothesis P : proper [inner; outer].
Hypothesis U : unnumbered st [inner; outer].
Let p := length inner.
Let q := length outer.
Let La := lengths st inner.
Let Lb := lengths st outer.
Hypothesis Lk : one_link brgs p q a b.
Hypothesis Ms : same_mesh La Lb a b.
Hypothesis Td : tidy p q a b.

Lemma two_concat : concat [inner; outer] = inner ++ outer. Proof using. cbn. rewrite app_nil_r. reflexivity. Qed.
Lemma two_ne : (0 < p)%nat /\ (0 < q)%nat.
Proof using P.
  assert (Q : forall l : list ref, l <> [] -> (0 < length l)%nat) by (clear; intros [|? ?] H; cbn; [congruence|apply Nat.lt_0_succ]).
  destruct P as [P1 _]. split; apply Q, P1; [left|right; left]; reflexivity.
Qed.
Lemma two_all : lengths st (concat [inner; outer]) = La ++ Lb.
Proof using. rewrite two_concat. unfold lengths. apply map_app. Qed.
Lemma two_n k x : nth_error outer k = Some x -> el_n (cx_elem st nm x) = (p + 1 + k)%nat.
Proof. intros E. cbn. rewrite (num_n _ _ _ _ _ _ _ _ _ _ _ F P U 1 k outer x eq_refl E). cbn. unfold p. lia. Qed.
Lemma two_m k x : nth_error inner k = Some x -> el_n (cx_elem st nm x) = k.
Proof. intros E. cbn. rewrite (num_n _ _ _ _ _ _ _ _ _ _ _ F P U 0 k inner x eq_refl E). reflexivity. Qed.

Lemma two_run :
  (forall t, (t < p)%nat -> z_l z t = along La t /\ z_r z t = along La (S t)) /\
  (forall t, (t < q)%nat -> z_l z (t + p)%nat = outer_pos La Lb a b t /\ z_r z (t + p)%nat = outer_pos La Lb a b (S t)) /\
  (forall t x, nth_error inner t = Some x -> z_ax z x = s_beam_cg (rs_s (st x)) + along La t) /\
  (forall t x, nth_error outer t = Some x -> z_ax z x = s_beam_cg (rs_s (st x)) + (start_ax p a b La Lb t + along Lb t)).
Proof.
  pose proof two_ne as [P0 Q0]. pose proof two_concat as Cc. pose proof (proj2 P) as ND. rewrite Cc in ND.
  pose proof (cf_place _ _ _ _ _ _ _ _ _ _ _ F) as Hz.
  rewrite (num_ns _ _ _ _ _ _ _ _ _ _ _ F P U), (num_L _ _ _ _ _ _ _ _ _ _ _ F P U), two_all, Cc, app_length in Hz. fold p q in Hz.
  unfold objs_of in Hz. cbn [map place_shafts] in Hz.
  pose proof (num_step _ _ _ _ _ _ _ _ _ _ _ F P U) as St. rewrite Cc, app_length in St. fold p q in St.
  rewrite (cf_br _ _ _ _ _ _ _ _ _ _ _ F) in Hz.
  pose proof (one_link_linked _ _ _ _ _ Lk) as Lkd. destruct Lk as (Ha & Hb & _ & _).
  set (brs := filter (fun b => negb (is_seal b)) (sort_n (mapi mk_brg 0 brgs))) in *. clearbody brs.
  set (oi := map (fun x => (x, cx_elem st nm x)) inner) in *. set (oo := map (fun x => (x, cx_elem st nm x)) outer) in *.
  assert (Ei : map fst oi = inner) by (unfold oi; rewrite map_map; apply map_id).
  assert (Eo : map fst oo = outer) by (unfold oo; rewrite map_map; apply map_id).
  assert (Li : length oi = p) by (unfold oi, p; apply map_length). assert (Lo : length oo = q) by (unfold oo, q; apply map_length).
  assert (LLa : length La = p) by (unfold La, lengths, p; apply map_length). assert (LLb : length Lb = q) by (unfold Lb, lengths, q; apply map_length).
  destruct (first_run (p + q) 0 0 (fun _ => 0) (fun _ => 0) ax (all_nodes [inner; outer] 0) (La ++ Lb) La brs oi) with (l2 := oi) (l1 := @nil (ref * elem)) (z := z_zero ax)
    as (z1 & Hz1 & _ & J1 & J2 & J3).
  - lia.
  - rewrite Ei. exact (nodup_app_l _ _ ND).
  - lia.
  - intros t Ht. rewrite Nat.add_0_r. apply St. lia.
  - intros t Ht. rewrite Nat.add_0_r, app_nth1 by lia. reflexivity.
  - intros x e He. unfold oi in He. apply in_map_iff in He as (y & [= <- <-] & Hy). apply In_nth_error in Hy as [k Hk].
    assert (k < p)%nat by (unfold p; apply nth_error_Some; congruence).
    unfold target. rewrite (two_m _ _ Hk), !Lkd by lia. destruct (Nat.eqb_spec k (p + 1 + b)); [lia|]. destruct (Nat.eqb_spec (S k) (p + 1 + b)); [lia|]. reflexivity.
  - reflexivity.
  - split; [intros t Ht; lia|]. split; [intros t Ht; cbn in Ht; lia|]. split; [intros t ? ? Ht; cbn in Ht; lia|auto].
  - intros _. reflexivity.
  - change (length (@nil (ref * elem))) with 0%nat in Hz1. rewrite Hz1 in Hz. cbn [bind] in Hz. rewrite Li in *. rewrite Nat.add_0_l in Hz.
    destruct (second_run (p + q) p q a b (all_nodes [inner; outer] 0) (La ++ Lb) La Lb brs oo) with (ax0 := z_ax z1) (l2 := oo) (l1 := @nil (ref * elem)) (z := z1)
      as (z2 & Hz2 & (K0 & K1 & K2) & K3); auto.
    + rewrite Eo. exact (nodup_app_r _ _ ND).
    + intros t Ht. apply St. lia.
    + intros t Ht. rewrite app_nth2 by lia. f_equal. lia.
    + intros t x e E. unfold oo in E. rewrite nth_error_map in E. destruct (nth_error outer t) as [y|] eqn:Ey; [|discriminate]. injection E as <- <-.
      apply two_n. exact Ey.
    + split; [|split; [intros t Ht; cbn in Ht; lia|intros t ? ? Ht; cbn in Ht; lia]].
      intros t Ht. destruct (J1 t Ht) as [J4 J5]. rewrite Nat.add_0_r in J4, J5. rewrite J4, J5. split; ring.
    + change (length (@nil (ref * elem))) with 0%nat in Hz2. rewrite Hz2 in Hz. cbn [bind] in Hz. injection Hz as <-.
      split; [exact K0|]. split.
      * intros t Ht. destruct (K1 t Ht) as [-> ->]. unfold start. destruct (Nat.leb_spec b q); [|lia]. unfold outer_pos. split; ring.
      * split.
        -- intros t x E. rewrite K3.
           ++ rewrite (J2 t x (cx_elem st nm x)).
              ** cbn [sh_cg cx_elem]. ring.
              ** unfold p. apply nth_error_Some. congruence.
              ** unfold oi. erewrite map_nth_error by exact E. reflexivity.
           ++ rewrite Eo. apply (nodup_app_disj _ _ _ ND). eapply nth_error_In; eauto.
        -- intros t x E. rewrite (K2 t x (cx_elem st nm x)).
           ++ reflexivity.
           ++ unfold q. apply nth_error_Some. congruence.
           ++ unfold oo. erewrite map_nth_error by exact E. reflexivity.
Qed.

Lemma two_nodes : r_nodes_pos (cx_rot c) = map (node_at La Lb a b) (seq 0 (p + q + 2)).
Proof.
  pose proof two_ne as [P0 Q0]. pose proof two_concat as Cc. destruct two_run as (R0 & R1 & _ & _).
  assert (LLa : length La = p) by (unfold La, lengths, p; apply map_length).
  pose proof (cf_ends _ _ _ _ _ _ _ _ _ _ _ F) as H. rewrite (num_ns _ _ _ _ _ _ _ _ _ _ _ F P U) in H.
  rewrite group_max_id in H; [|apply all_nodes_ss|rewrite num_len with (1 := F) (2 := P) (3 := U), map_length, seq_length; reflexivity].
  rewrite Cc, app_length in H. fold p q in H.
  assert (Ee : ends_of (objs_of st nm [inner; outer]) = [p; (p + q + 1)%nat]).
  { unfold ends_of, objs_of. cbn [map]. f_equal; [|f_equal].
    - destruct (rev (map _ inner)) as [|[x e] l] eqn:Er.
      + apply (f_equal (@length _)) in Er. rewrite rev_length, map_length in Er. fold p in Er. cbn in Er. lia.
      + assert (Q : nth_error (map (fun x => (x, cx_elem st nm x)) inner) (p - 1) = Some (x, e)).
        { rewrite <- (rev_involutive (map _ inner)), Er. cbn [rev]. apply (f_equal (@length _)) in Er. rewrite rev_length, map_length in Er. fold p in Er. cbn in Er.
          rewrite nth_error_app2 by (rewrite rev_length; lia). rewrite rev_length. replace (p - 1 - length l)%nat with 0%nat by lia. reflexivity. }
        rewrite nth_error_map in Q. destruct (nth_error inner (p - 1)) as [y|] eqn:Ey; [|discriminate]. injection Q as <- <-. rewrite (two_m _ _ Ey). lia.
    - destruct (rev (map _ outer)) as [|[x e] l] eqn:Er.
      + apply (f_equal (@length _)) in Er. rewrite rev_length, map_length in Er. fold q in Er. cbn in Er. lia.
      + assert (Q : nth_error (map (fun x => (x, cx_elem st nm x)) outer) (q - 1) = Some (x, e)).
        { rewrite <- (rev_involutive (map _ outer)), Er. cbn [rev]. apply (f_equal (@length _)) in Er. rewrite rev_length, map_length in Er. fold q in Er. cbn in Er.
          rewrite nth_error_app2 by (rewrite rev_length; lia). rewrite rev_length. replace (q - 1 - length l)%nat with 0%nat by lia. reflexivity. }
        rewrite nth_error_map in Q. destruct (nth_error outer (q - 1)) as [y|] eqn:Ey; [|discriminate]. injection Q as <- <-. rewrite (two_n _ _ Ey). lia. }
  rewrite Ee, (insert_two _ _ p q) in H; [|rewrite map_length, seq_length; reflexivity|reflexivity|exact P0|exact Q0].
  assert (H' := f_equal (fun r => match r with Ok l => l | Err _ => [] end) H). cbv beta iota in H'. rewrite <- H'. clear H H'.
  rewrite (seq_app p q 0), map_app. cbn [Nat.add].
  rewrite firstn_app, skipn_app, !map_length, !seq_length, Nat.sub_diag. cbn [firstn skipn]. rewrite app_nil_r.
  rewrite firstn_all2 by (rewrite map_length, seq_length; lia). rewrite (skipn_all2 (n := p) (map (z_l z) (seq 0 p))) by (rewrite map_length, seq_length; lia). cbn [app].
  replace (p + q + 2)%nat with (p + (1 + (q + 1)))%nat by lia. rewrite (seq_app p), map_app. f_equal.
  - apply map_ext_in. intros t Ht. apply in_seq in Ht. rewrite (proj1 (R0 t ltac:(lia))). unfold node_at. rewrite LLa. destruct (Nat.leb_spec t p); [reflexivity|lia].
  - rewrite (seq_app 1), map_app. cbn [seq map app Nat.add]. f_equal.
    + rewrite (proj2 (R0 (p - 1)%nat ltac:(lia))). unfold node_at. rewrite LLa, Nat.leb_refl. f_equal. lia.
    + rewrite (seq_app q), map_app. cbn [seq map]. f_equal.
      * replace (p + 1)%nat with (1 + p)%nat by lia. rewrite <- seq_shift, map_map. apply map_ext_in. intros t Ht. apply in_seq in Ht.
        replace t with (t - p + p)%nat at 1 by lia. rewrite (proj1 (R1 (t - p)%nat ltac:(lia))). unfold node_at. rewrite LLa.
        destruct (Nat.leb_spec (S t) p); [lia|]. f_equal. lia.
      * f_equal. replace (p + q - 1)%nat with (q - 1 + p)%nat by lia. rewrite (proj2 (R1 (q - 1)%nat ltac:(lia))). unfold node_at. rewrite LLa.
        destruct (Nat.leb_spec (p + 1 + q) p); [lia|]. f_equal. lia.
Qed.

Lemma two_lr : cx_l c = map (along La) (seq 0 p) ++ map (outer_pos La Lb a b) (seq 0 q) /\
  cx_r c = map (fun k => along La (S k)) (seq 0 p) ++ map (fun k => outer_pos La Lb a b (S k)) (seq 0 q).
Proof.
  destruct two_run as (R0 & R1 & _ & _). rewrite (cf_l _ _ _ _ _ _ _ _ _ _ _ F), (cf_r _ _ _ _ _ _ _ _ _ _ _ F), two_concat, app_length. fold p q.
  rewrite (seq_app p), !map_app. cbn [Nat.add].
  assert (Q : seq p q = map (fun t => t + p)%nat (seq 0 q)).
  { clear. generalize q. intros n. transitivity (map (fun t => (t + p)%nat) (seq 0 n)); [|reflexivity].
    induction n as [|n IH]; [reflexivity|]. rewrite !seq_S, map_app, IH. cbn. do 2 f_equal. lia. }
  rewrite Q, !map_map. split; (f_equal; apply map_ext_in; intros t Ht; apply in_seq in Ht); [apply R0|apply R1|apply R0|apply R1]; lia.
Qed.

Lemma two_centre :
  r_CG (cx_rot c) = (shaft_moment st inner (along La) + shaft_moment st outer (outer_pos La Lb a b) + disk_moment disks (node_at La Lb a b)) / r_m (cx_rot c)
     + (along La p - (along La a - along Lb b)) * shaft_mass st (firstn (b - 1) outer) / r_m (cx_rot c).
Proof.
  destruct two_run as (_ & _ & R2 & R3).
  rewrite (cf_CG _ _ _ _ _ _ _ _ _ _ _ F), (num_table _ _ _ _ _ _ _ _ _ _ _ F P U), two_concat, !map_app, suml_app.
  rewrite (cg_coax (cx_elem st nm) (z_ax z) (along La) _ inner 0) by (intros t x E; rewrite (R2 t x E); reflexivity).
  rewrite (cg_coax (cx_elem st nm) (z_ax z) (fun t => start_ax p a b La Lb t + along Lb t) _ outer 0) by (intros t x E; rewrite (R3 t x E); reflexivity).
  rewrite !moment_split. pose proof (cf_dpos _ _ _ _ _ _ _ _ _ _ _ F) as D. rewrite (cf_dk _ _ _ _ _ _ _ _ _ _ _ F) in *.
  rewrite (disk_sum _ _ _ _ _ D).
  assert (ED : disk_moment disks (fun n => nth n (r_nodes_pos (cx_rot c)) 0) = disk_moment disks (node_at La Lb a b)).
  { unfold disk_moment. f_equal. apply map_ext_in. intros d Hd. f_equal.
    assert (Hn : (d_n (rd_d d) < p + q + 2)%nat).
    { pose proof (disk_in_range _ _ _ _ _ D Hd) as Q. rewrite two_nodes, map_length, seq_length in Q. exact Q. }
    rewrite two_nodes. apply nth_error_nth. apply nth_error_map_seq. exact Hn. }
  rewrite ED. unfold shaft_moment. unfold Rdiv. cbn [sh_m sh_cg cx_elem].
  rewrite (moment_shift (fun _ x => s_m (rs_s (st x))) (fun _ x => s_beam_cg (rs_s (st x))) (fun t _ => start_ax p a b La Lb t + along Lb t) (fun t _ => outer_pos La Lb a b t)
    (along La p - (along La a - along Lb b)) (b - 1) outer 0).
  - rewrite mapi_const, Nat.sub_0_r, firstn_map. unfold shaft_mass. cbn [sh_m sh_cg cx_elem]. ring.
  - intros t x _. cbn [Nat.add]. unfold start_ax, outer_pos. destruct (Nat.ltb_spec (S t) b), (Nat.ltb_spec t (b - 1)); try lia; ring.
Qed.
End Two.
