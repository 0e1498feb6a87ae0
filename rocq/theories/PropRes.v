(** C82: saving and loading results *)
From Coq Require Import Reals String Ascii List Bool Arith ZArith Lia Lra.
From Coquelicot Require Import Complex.
From Verif Require Import PyBase PyDict MRotor MSave MDynamics MRes SpecRes LRes.
From Verif Require PropSave.
Import ListNotations.
Open Scope string_scope.
Open Scope list_scope.

Lemma text_iff v : is_text v = true <-> a_text v.
Proof. unfold a_text. destruct v; cbn; split; try discriminate; try (intros [[? X]|[? X]]; discriminate); intros _; try reflexivity; first [left; eexists; reflexivity|right; eexists; reflexivity]. Qed.
(** Every results object: saved into a new file, its class reads every argument as [becomes] says; an object that computes with a text is not built. *)
Theorem C82_loaded : forall crepr cparse s p o back, made o -> s p = NoFile ->
  (forall k v, dget (rs_args o) k = Some v -> arg_becomes crepr cparse (rs_class o) k v (back k)) ->
  exists s', res_save crepr s p o = (s', Ok tt) /\ (forall q, q <> p -> q <> aux_file p -> s' q = s q) /\
    ((forall k, In k (computed (rs_class o)) -> ~ a_text (back k)) ->
      exists o', res_load cparse (rs_class o) s' p = Ok o' /\ rs_class o' = rs_class o /\ map fst (rs_args o') = map fst (rs_args o) /\
        forall k v, dget (rs_args o) k = Some v -> dget (rs_args o') k = Some (back k)) /\
    (forall k, In k (computed (rs_class o)) -> a_text (back k) -> res_load cparse (rs_class o) s' p = Err TypeError).
Proof.
  intros crepr cparse s p o back M F B. destruct (save_load crepr cparse s p o back M (or_introl F) B) as (s' & sec & L & l & Hs & _ & Hq & Hl & _ & Kl & G).
  pose proof (made_keys o M) as KS. exists s'. split; [exact Hs|]. split; [exact Hq|]. assert (ND : NoDup (map fst l)) by (rewrite Kl; apply params_nodup). split.
  - intros NT. exists (mkResults (rs_class o) l). cbn [rs_class rs_args]. split.
    + rewrite Hl. destruct (existsb _ l) eqn:E; [exfalso|reflexivity]. apply existsb_exists in E as ([k v] & Hi & E). cbn [fst snd] in E. apply andb_true_iff in E as [E T].
      apply existsb_exists in E as (k' & Hk & E). apply String.eqb_eq in E. subst k'. assert (Hk' : In k (map fst (rs_args o))) by (rewrite KS, <- Kl; apply (in_map fst) in Hi; exact Hi).
      apply in_map_iff in Hk' as ([k' w] & E & Hw). cbn [fst] in E. subst k'. pose proof (G k w (in_dget _ _ _ (made_nodup o M) Hw)) as Gk. rewrite (in_dget _ _ _ ND Hi) in Gk. injection Gk as ->.
      exact (NT k Hk (proj1 (text_iff _) T)).
    + split; [reflexivity|]. split; [congruence|exact G].
  - intros k Hk T. rewrite Hl. rewrite (proj2 (existsb_exists _ _)); [reflexivity|]. exists (k, back k). cbn [fst snd]. split.
    + apply dget_in. assert (Hk' : In k (map fst (rs_args o))) by (rewrite KS; revert Hk; destruct (rs_class o); cbn; tauto). apply in_map_iff in Hk' as ([k' w] & E & Hw). cbn [fst] in E. subst k'.
      exact (G k w (in_dget _ _ _ (made_nodup o M) Hw)).
    + rewrite (proj2 (text_iff _) T), andb_true_r. apply existsb_exists. exists k. split; [exact Hk|apply String.eqb_refl].
Qed.
(** Results whose arguments survive come back unchanged, with the rotor that Rotor.load gives. *)
Theorem C82_round_trip : forall crepr cparse s p o, made o -> s p = NoFile -> rs_class o <> RCampbell ->
  (forall k v, dget (rs_args o) k = Some v -> (k <> "rotor" /\ survives crepr cparse v) \/ (k = "unbalance" /\ v = VNone) \/ (k = "rotor" /\ exists r r', v = VRotor r /\ rotor_becomes r r')) ->
  exists s' o', res_save crepr s p o = (s', Ok tt) /\ res_load cparse (rs_class o) s' p = Ok o' /\ rs_class o' = rs_class o /\ map fst (rs_args o') = map fst (rs_args o) /\
    forall k v, dget (rs_args o) k = Some v ->
      (k <> "rotor" -> dget (rs_args o') k = Some v) /\ (forall r r', v = VRotor r -> rotor_becomes r r' -> dget (rs_args o') k = Some (VRotor r')).
Proof.
  intros crepr cparse s p o M F NC H.
  assert (R : exists ro, forall v, dget (rs_args o) "rotor" = Some v -> exists r r', ro = Some r' /\ v = VRotor r /\ rotor_becomes r r').
  { destruct (dget (rs_args o) "rotor") as [v|] eqn:E.
    - destruct (H _ _ E) as [[X _]|[[X _]|(_ & r & r' & -> & Hr)]]; [congruence|discriminate|]. exists (Some r'). intros v [= <-]. eauto.
    - exists None. discriminate. }
  destruct R as (ro & R).
  pose (back := fun k => if String.eqb k "rotor" then match ro with Some r' => VRotor r' | None => VNone end else match dget (rs_args o) k with Some v => v | None => VNone end).
  assert (NM : forall v, dget (rs_args o) "modal_results" <> Some v).
  { intros v X. apply dget_in in X. apply (in_map fst) in X. cbn [fst] in X. rewrite (made_keys o M) in X. revert X NC. destruct (rs_class o); cbn; intros X NC; try congruence; repeat (destruct X as [X|X]; [discriminate|]); exact X. }
  destruct (C82_loaded crepr cparse s p o back M F) as (s' & Hs & _ & Ok' & _).
  { intros k v E. unfold arg_becomes, back. rewrite E. destruct (String.eqb_spec k "rotor") as [->|N].
    - right. right. left. split; [reflexivity|]. destruct (R v E) as (r & r' & -> & -> & Hr). eauto.
    - destruct (H k v E) as [[_ S]|[[-> ->]|(X & _)]]; [left| |contradiction].
      + split; [exact N|]. split; [intros ->; exact (NM v E)|]. apply becomes_same, S.
      + right. left. split; [reflexivity|]. split; [reflexivity|]. apply dget_in in E. apply (in_map fst) in E. cbn [fst] in E. rewrite (made_keys o M) in E. revert E.
        destruct (rs_class o); cbn; intros X; repeat (destruct X as [X|X]; [discriminate|]); try contradiction; tauto. }
  destruct Ok' as (o' & Hl & Hc & Hk & G).
  { intros k Hk T. unfold back in T. destruct (String.eqb_spec k "rotor") as [->|N]; [destruct ro, T as [[? X]|[? X]]; discriminate|].
    destruct (dget (rs_args o) k) as [v|] eqn:E; [|destruct T as [[? X]|[? X]]; discriminate]. apply text_iff in T. rewrite (made_no_text o k v M (dget_in _ _ _ E) Hk) in T. discriminate. }
  exists s', o'. split; [exact Hs|]. split; [exact Hl|]. split; [exact Hc|]. split; [exact Hk|]. intros k v E. specialize (G k v E). unfold back in G. rewrite E in G. split.
  - intros N. destruct (String.eqb_spec k "rotor"); [contradiction|exact G].
  - intros r1 r2 -> Hr. destruct (String.eqb_spec k "rotor") as [->|N].
    + destruct (R _ E) as (r & r0 & -> & [= ->] & f & S & L). destruct Hr as (f' & S' & L'). rewrite S in S'. injection S' as <-. rewrite L in L'. injection L' as <-. exact G.
    + exfalso. destruct (H k _ E) as [[_ []]|[[_ X]|(X & _)]]; [discriminate|contradiction].
Qed.

(** ** Several results in one file *)
(** After any history of saves: a save replaces or adds the section of its class and leaves every other section and every other file alone, except
    the file of the rotor; the class of the first section is still what load reads. *)
Theorem C82_other_sections : forall crepr s p o s', after_saves crepr s -> made o -> res_save crepr s p o = (s', Ok tt) -> s' p <> Broken ->
  exists d d' sec, (s p = Toml d \/ s p = NoFile /\ d = []) /\ s' p = Toml d' /\ dget d' (rname (rs_class o)) = Some (CRes sec) /\
    (forall k, k <> rname (rs_class o) -> dget d' k = dget d k) /\ (forall q, q <> p -> q <> aux_file p -> s' q = s q) /\
    (dget (rs_args o) "rotor" = None -> s' (aux_file p) = s (aux_file p)) /\
    (forall k, hd_error (map fst d) = Some k -> hd_error (map fst d') = Some k) /\
    (forall cparse c k, hd_error (map fst d) = Some k -> k <> rname (rs_class o) -> dget (rs_args o) "rotor" = None -> res_load cparse c s' p = res_load cparse c s p).
Proof.
  intros crepr s p o s' A M H NB. destruct (save_dump _ _ _ _ _ _ H NB eq_refl) as (d & sec & Es & D & Es' & Hq & Hx & _).
  assert (HD : no_modal d) by (destruct Es as [E|[_ ->]]; [exact (saves_modal _ _ A _ _ E)|intros ? ? []]).
  rewrite (drop_id _ (set_modal crepr o d sec M HD D)) in Es'. exists d, (dset d (rname (rs_class o)) (CRes sec)), sec. split; [exact Es|]. split; [exact Es'|].
  split; [rewrite dget_dset', String.eqb_refl; reflexivity|]. split; [intros k N; rewrite dget_dset'; destruct (String.eqb_spec k (rname (rs_class o))); [contradiction|reflexivity]|].
  split; [exact Hq|]. split; [exact Hx|]. split.
  - intros k Hk. destruct d as [|[k' c'] d]; [discriminate|]. cbn [map fst hd_error] in Hk. injection Hk as ->. cbn [dset]. destruct (String.eqb_spec (rname (rs_class o)) k) as [->|]; reflexivity.
  - intros cparse c k Hk N NR. destruct d as [|[k' c'] d]; [discriminate|]. cbn [map fst hd_error] in Hk. injection Hk as ->. destruct Es as [Es|[_ X]]; [|discriminate]. unfold res_load. rewrite Es', Es. cbn [dset].
    destruct (String.eqb_spec (rname (rs_class o)) k); [congruence|]. destruct c' as [d0|]; [|reflexivity]. rewrite (read_args_ext cparse s' s p d0); [reflexivity|]. apply Hx, NR.
Qed.
(** load reads the first section: results of another class, saved second into the file, cannot be loaded from it. *)
Theorem C82_second_class : forall crepr cparse s p a b s1 s2, made a -> made b -> rs_class a <> rs_class b -> s p = NoFile ->
  (forall k, dget (rs_args a) k = Some VNone -> k = "unbalance" \/ k = "modal_results") ->
  res_save crepr s p a = (s1, Ok tt) -> s1 p <> Broken -> res_save crepr s1 p b = (s2, Ok tt) -> s2 p <> Broken ->
  exists e, res_load cparse (rs_class b) s2 p = Err e.
Proof.
  intros crepr cparse s p a b s1 s2 Ma Mb N F NN Ha Ba Hb Bb. destruct (save_dump _ _ _ _ _ _ Ha Ba eq_refl) as (d & sec & Es & D & E1 & _). destruct Es as [Es|[_ ->]]; [congruence|]. cbn [dset] in E1.
  rewrite (drop_one a sec Ma (dump_keys _ _ _ D)) in E1. destruct (save_dump _ _ _ _ _ _ Hb Bb eq_refl) as (d2 & sec2 & Es2 & D2 & E2 & _). destruct Es2 as [Es2|[X _]]; [|congruence]. rewrite E1 in Es2. injection Es2 as <-.
  assert (NM : no_modal [(rname (rs_class a), CRes sec)]).
  { intros k s0 [[= <- <-]|[]] Ek X. destruct (stored_facts a Ma) as (_ & _ & _ & S). apply S; [|exact (dump_keys _ _ _ D _ X)]. revert Ek. destruct (rs_class a); cbn; intros; try discriminate; reflexivity. }
  rewrite (drop_id _ (set_modal crepr b _ sec2 Mb NM D2)) in E2. cbn [dset] in E2.
  assert (Nn : rname (rs_class b) <> rname (rs_class a)) by (revert N; destruct (rs_class a), (rs_class b); cbn; congruence). destruct (String.eqb_spec (rname (rs_class b)) (rname (rs_class a))); [contradiction|].
  destruct (own_argument _ _ N) as (k & Hk & Nm & Nb). unfold res_load. rewrite E2. destruct (read_args cparse s2 p sec) as [l|e] eqn:RA; [|eexists; reflexivity]. cbn [bind]. exists TypeError.
  assert (Kl : In k (map fst l)).
  { rewrite (read_keys _ _ _ _ _ RA). assert (Ha' : exists v, dget (rs_args a) k = Some v).
    { apply (in_map fst) in Hk. cbn [fst] in Hk. rewrite <- (made_keys a Ma) in Hk. apply in_map_iff in Hk as ([k' v] & Ek & Hk). cbn [fst] in Ek. subst k'. exists v. apply in_dget; [exact (made_nodup a Ma)|exact Hk]. }
    destruct Ha' as (v & Hv). apply (dump_present _ _ _ k v D).
    - destruct (stored_facts a Ma) as (_ & _ & SK & _). apply SK; [apply dget_in; exact Hv|]. intros [_ X]. contradiction.
    - intros ->. destruct (NN k Hv) as [->|X]; [|contradiction]. revert Hk. destruct (rs_class a); cbn; intros X; repeat (destruct X as [X|X]; [discriminate|]); exact X. }
  apply (construct_keys _ _ k); [|exact Nb]. destruct (rs_class b); try exact Kl. apply in_map_iff in Kl as ([k' v] & Ek & Kl). cbn [fst] in Ek. subst k'. clear - Kl Nm.
  induction l as [|[k' w] l IH]; [destruct Kl|]. cbn [dset]. destruct (String.eqb_spec "modal_results" k') as [<-|]; cbn [map fst In]; destruct Kl as [[= -> ->]|Kl]; try congruence; auto.
  - right. apply (in_map fst) in Kl. exact Kl.
Qed.

(** ** What is lost *)
(** An object with an array without dimension among its arguments - what load makes of texts and dictionaries - cannot be saved, and the attempt
    empties the file. *)
Theorem C82_zero_dim : forall crepr s p o k v, made o -> s p <> Broken -> dget (rs_args o) k = Some v -> zero_dim v -> k <> "modal_results" ->
  exists s', res_save crepr s p o = (s', Err TypeError) /\ s' p = Toml [].
Proof.
  intros crepr s p o k v M NB E Z Nk. unfold res_save. change (match rs_class o with RCampbell => ddel (rs_args o) "modal_results" | _ => rs_args o end) with (stored o).
  assert (D : dump_args crepr (stored o) = Err TypeError).
  { assert (Hi : In (k, v) (stored o)) by (destruct (stored_facts o M) as (_ & _ & SK & _); apply SK; [apply dget_in; exact E|intros [_ X]; contradiction]).
    assert (Df : dump crepr v = Fail) by (destruct v; cbn [zero_dim] in Z; try contradiction; cbn [dump]; unfold put_arr; rewrite ?Z; reflexivity).
    clear - Hi Df. induction (stored o) as [|[k' v'] d IH]; [destruct Hi|]. cbn [dump_args]. destruct Hi as [[= -> ->]|Hi]; [rewrite Df; reflexivity|]. rewrite (IH Hi). destruct (dump crepr v'); reflexivity. }
  rewrite D. exists (put s p (Toml [])). destruct (s p); [|congruence|]; (split; [reflexivity|apply put_same]).
Qed.
(** A Campbell diagram: the modal results are lost, the function run_modal becomes a text, the rest is kept; saving the loaded diagram fails and
    empties the file. *)
Theorem C82_campbell : forall crepr cparse s p a wd ld dr wv mr nd t, s p = NoFile -> survives crepr cparse a -> survives crepr cparse wd -> survives crepr cparse ld ->
  survives crepr cparse dr -> survives crepr cparse wv -> survives crepr cparse nd -> clean t = true -> ~ in_window [t] ->
  let o := mkResults RCampbell [("speed_range", a); ("wd", wd); ("log_dec", ld); ("damping_ratio", dr); ("whirl_values", wv); ("modal_results", mr); ("number_dof", nd); ("run_modal", VObj t)] in
  let o' := mkResults RCampbell [("speed_range", a); ("wd", wd); ("log_dec", ld); ("damping_ratio", dr); ("whirl_values", wv); ("modal_results", VNone); ("number_dof", nd); ("run_modal", VStrs ([], [t]))] in
  exists s', res_save crepr s p o = (s', Ok tt) /\ res_load cparse RCampbell s' p = Ok o' /\ exists s'', res_save crepr s' p o' = (s'', Err TypeError) /\ s'' p = Toml [].
Proof.
  intros crepr cparse s p a wd ld dr wv mr nd t F Sa Sw Sl Sd Sv Sn Cl NW o o'.
  assert (Mk : forall x y, made (mkResults RCampbell [("speed_range", a); ("wd", wd); ("log_dec", ld); ("damping_ratio", dr); ("whirl_values", wv); ("modal_results", x); ("number_dof", nd); ("run_modal", y)]))
    by (intros x y; match goal with |- made ?z => exists (rs_args z) end; reflexivity).
  pose (back := fun k => match dget (rs_args o') k with Some v => v | None => VNone end).
  destruct (C82_loaded crepr cparse s p o back (Mk _ _) F) as (s' & Hs & _ & L & _).
  { intros k v E. unfold arg_becomes, back. apply dget_in in E. cbn [rs_args o In] in E.
    repeat (destruct E as [E|E]; [injection E as <- <-; cbn [rs_args o' dget String.eqb Ascii.eqb Bool.eqb]; try (left; split; [discriminate|]; split; [discriminate|]; apply becomes_same; assumption)|]).
    - right. right. right. auto.
    - left. split; [discriminate|]. split; [discriminate|]. apply becomes_repr; assumption.
    - destruct E. }
  destruct L as (o2 & Hl & Hc & Hk & G); [intros k []|]. exists s'. split; [exact Hs|]. assert (o2 = o').
  { destruct o2 as [c2 l2]. cbn [rs_class rs_args] in *. subst c2. unfold o'. f_equal. assert (K := Hk). cbn [o rs_args map fst] in K.
    destruct l2 as [|[? ?] [|[? ?] [|[? ?] [|[? ?] [|[? ?] [|[? ?] [|[? ?] [|[? ?] [|]]]]]]]]]; try discriminate. cbn [map fst] in K. injection K as -> -> -> -> -> -> -> ->.
    pose proof (G "speed_range" _ eq_refl) as G1. pose proof (G "wd" _ eq_refl) as G2. pose proof (G "log_dec" _ eq_refl) as G3. pose proof (G "damping_ratio" _ eq_refl) as G4.
    pose proof (G "whirl_values" _ eq_refl) as G5. pose proof (G "modal_results" _ eq_refl) as G6. pose proof (G "number_dof" _ eq_refl) as G7. pose proof (G "run_modal" _ eq_refl) as G8.
    cbn in G1, G2, G3, G4, G5, G6, G7, G8. congruence. }
  subst o2. split; [exact Hl|]. destruct (save_load crepr cparse s p o back (Mk _ _) (or_introl F)) as (s1 & sec & _ & _ & Hs1 & E1 & _).
  { intros k v E. unfold arg_becomes, back. apply dget_in in E. cbn [rs_args o In] in E.
    repeat (destruct E as [E|E]; [injection E as <- <-; cbn [rs_args o' dget String.eqb Ascii.eqb Bool.eqb]; try (left; split; [discriminate|]; split; [discriminate|]; apply becomes_same; assumption)|]).
    - right. right. right. auto.
    - left. split; [discriminate|]. split; [discriminate|]. apply becomes_repr; assumption.
    - destruct E. }
  assert (s1 = s') by congruence. subst s1. apply (C82_zero_dim crepr s' p o' "run_modal" (VStrs ([], [t])) (Mk _ _)); [rewrite E1; discriminate|reflexivity|reflexivity|discriminate].
Qed.
(** An argument whose repr has a line end - every bearing, and so every UCSResults - makes a file that no load and no save reads again: what was in the
    file before is lost too. *)
Theorem C82_spoiled : forall crepr cparse s p o k v s', made o -> dget (rs_args o) k = Some v -> spoils v -> k <> "modal_results" -> res_save crepr s p o = (s', Ok tt) ->
  s' p = Broken /\ (forall c, res_load cparse c s' p = Err ValueError) /\ forall o2, res_save crepr s' p o2 = (s', Err ValueError).
Proof.
  intros crepr cparse s p o k v s' M E Sp Nk H. enough (B : s' p = Broken) by (split; [exact B|]; split; intros; [unfold res_load|unfold res_save]; rewrite B; reflexivity).
  assert (D : forall sec, dump_args crepr (stored o) = Ok sec -> sec = None).
  { assert (Hi : In (k, v) (stored o)) by (destruct (stored_facts o M) as (_ & _ & SK & _); apply SK; [apply dget_in; exact E|intros [_ X]; contradiction]).
    assert (Df : dump crepr v = Spoil).
    { destruct v; cbn [spoils] in Sp; try contradiction; cbn [dump]; [rewrite Sp; reflexivity|]. destruct (forallb clean reprs) eqn:Ef; [|reflexivity]. destruct Sp as (t & Ht & Hc). rewrite forallb_forall in Ef. rewrite (Ef t Ht) in Hc. discriminate. }
    clear - Hi Df. induction (stored o) as [|[k' v'] d IH]; [destruct Hi|]. intros sec. cbn [dump_args]. destruct Hi as [[= -> ->]|Hi].
    - rewrite Df. destruct (dump_args crepr d); [|discriminate]. cbn [bind]. intros [= <-]. reflexivity.
    - destruct (dump_args crepr d) as [x|] eqn:Ed; [rewrite (IH Hi x eq_refl)|]; destruct (dump crepr v'); cbn [bind]; try discriminate; intros [= <-]; reflexivity. }
  unfold res_save in H. change (match rs_class o with RCampbell => ddel (rs_args o) "modal_results" | _ => rs_args o end) with (stored o) in H.
  destruct (match s p with NoFile => Ok [] | Broken => Err ValueError | Toml d => Ok d end); [|discriminate]. destruct (dump_args crepr (stored o)) as [sec|] eqn:Ed; [|discriminate]. rewrite (D sec eq_refl) in H. cbv zeta in H.
  destruct (dget (rs_args o) "rotor") as [[]|]; try discriminate; injection H as <-; rewrite ?put_other by (intros X; exact (aux_other p (eq_sym X))); apply put_same.
Qed.
Theorem C82_ucs_refuted : forall crepr cparse s p a b c d e f class_n link rest, s p <> Broken ->
  survives crepr cparse a -> survives crepr cparse b -> survives crepr cparse c -> survives crepr cparse d -> survives crepr cparse e -> survives crepr cparse f ->
  let o := mkResults RUcs [("stiffness_range", a); ("stiffness_log", b); ("bearing_frequency_range", c); ("wn", d); ("bearing", VObj (bearing_repr class_n link rest)); ("intersection_points", e); ("critical_points_modal", f)] in
  exists s', res_save crepr s p o = (s', Ok tt) /\ s' p = Broken /\ (forall k, res_load cparse k s' p = Err ValueError).
Proof.
  intros crepr cparse s p a b c d e f cn link rest NB Sa Sb Sc Sd Se Sf o.
  assert (Cl : forall x y, clean (x ++ String "010" y)%string = false) by (induction x as [|ch x IH]; intros y; [reflexivity|]; cbn [append clean]; rewrite IH; apply andb_false_r).
  assert (Cb : clean (bearing_repr cn link rest) = false).
  { unfold bearing_repr. assert (As : forall x y z : string, (x ++ (y ++ z))%string = ((x ++ y) ++ z)%string) by (induction x; intros; cbn; congruence). rewrite !As. apply Cl. }
  assert (M : made o) by (exists (rs_args o); reflexivity).
  assert (P : forall v, survives crepr cparse v -> exists w, dump crepr v = Put w) by (intros v S; destruct (becomes_value _ _ _ _ (becomes_same _ _ v S)) as (w & Hw & _); eauto).
  assert (H : exists s', res_save crepr s p o = (s', Ok tt)).
  { destruct (P a Sa) as (? & E1), (P b Sb) as (? & E2), (P c Sc) as (? & E3), (P d Sd) as (? & E4), (P e Se) as (? & E5), (P f Sf) as (? & E6).
    assert (D : dump_args crepr (rs_args o) = Ok None) by (cbn [o rs_args dump_args]; rewrite E1, E2, E3, E4, E5, E6; cbn [dump]; rewrite Cb; reflexivity).
    unfold res_save. cbn [o rs_class] in D |- *. fold o in D. rewrite D. destruct (s p); [|congruence|]; eexists; reflexivity. }
  destruct H as (s' & H). exists s'. split; [exact H|]. destruct (C82_spoiled crepr cparse s p o "bearing" (VObj (bearing_repr cn link rest)) s' M eq_refl Cb ltac:(discriminate) H) as (B & L & _). split; [exact B|exact L].
Qed.
(** Complex responses with short texts: a response that is zero everywhere comes back as texts; and with texts of more than 49 characters as well. *)
Theorem C82_complex_refuted : forall crepr cparse s p sh z zs v1 v2 v3 v4, s p = NoFile -> whole (sh, z :: zs) -> ~ in_window (map crepr (z :: zs)) ->
  survives crepr cparse v1 -> survives crepr cparse v2 -> survives crepr cparse v3 -> survives crepr cparse v4 ->
  let o := fun v => mkResults RFrequency [("freq_resp", v); ("velc_resp", v1); ("accl_resp", v2); ("speed_range", v3); ("number_dof", v4)] in
  exists s', res_save crepr s p (o (VComplex (sh, z :: zs))) = (s', Ok tt) /\ res_load cparse RFrequency s' p = Ok (o (VStrs (sh, map crepr (z :: zs)))).
Proof.
  intros crepr cparse s p sh z zs v1 v2 v3 v4 F W NW S1 S2 S3 S4 o.
  assert (Mk : forall v, made (o v)) by (intros v; exists (rs_args (o v)); reflexivity).
  pose (back := fun k => match dget (rs_args (o (VStrs (sh, map crepr (z :: zs))))) k with Some v => v | None => VNone end).
  destruct (C82_loaded crepr cparse s p (o (VComplex (sh, z :: zs))) back (Mk _) F) as (s' & Hs & _ & L & _).
  { intros k v E. unfold arg_becomes, back. apply dget_in in E. cbn [rs_args o In] in E. left.
    repeat (destruct E as [E|E]; [injection E as <- <-; cbn [rs_args o dget String.eqb Ascii.eqb Bool.eqb]; (split; [discriminate|]; split; [discriminate|]); try (apply becomes_same; assumption)|]).
    - apply (becomes_texts crepr cparse (sh, z :: zs)); [exact W|discriminate|exact NW].
    - destruct E. }
  destruct L as (o2 & Hl & Hc & Hk & G); [intros k []|]. exists s'. split; [exact Hs|]. refine (eq_trans Hl _). f_equal. destruct o2 as [c2 l2]. cbn [rs_class rs_args] in Hc, Hk, G. rewrite Hc. unfold o. cbn [rs_class]. f_equal. assert (K := Hk). cbn [o rs_args map fst] in K.
  destruct l2 as [|[? ?] [|[? ?] [|[? ?] [|[? ?] [|[? ?] [|]]]]]]; try discriminate. cbn [map fst] in K. injection K as -> -> -> -> ->.
  pose proof (G "freq_resp" _ eq_refl) as G1. pose proof (G "velc_resp" _ eq_refl) as G2. pose proof (G "accl_resp" _ eq_refl) as G3. pose proof (G "speed_range" _ eq_refl) as G4. pose proof (G "number_dof" _ eq_refl) as G5.
  cbn in G1, G2, G3, G4, G5. cbn [map]. congruence.
Qed.
(** Modal results with such eigenvectors cannot be loaded at all. *)
Theorem C82_modal_refuted : forall crepr cparse s p o sh z zs, made o -> rs_class o = RModal -> s p = NoFile -> whole (sh, z :: zs) -> ~ in_window (map crepr (z :: zs)) ->
  dget (rs_args o) "evectors" = Some (VComplex (sh, z :: zs)) -> (forall k v, dget (rs_args o) k = Some v -> k <> "evectors" -> survives crepr cparse v) ->
  exists s', res_save crepr s p o = (s', Ok tt) /\ res_load cparse RModal s' p = Err TypeError.
Proof.
  intros crepr cparse s p o sh z zs M C F W NW E H. pose (back := fun k => if String.eqb k "evectors" then VStrs (sh, map crepr (z :: zs)) else match dget (rs_args o) k with Some v => v | None => VNone end).
  destruct (C82_loaded crepr cparse s p o back M F) as (s' & Hs & _ & _ & L).
  { intros k v Ek. unfold arg_becomes, back. left. assert (Hk : In k (map fst (rparams RModal))) by (rewrite <- C, <- (made_keys o M); apply dget_in in Ek; apply (in_map fst) in Ek; exact Ek).
    split; [intros ->; cbn in Hk; repeat (destruct Hk as [Hk|Hk]; [discriminate|]); exact Hk|]. split; [intros ->; cbn in Hk; repeat (destruct Hk as [Hk|Hk]; [discriminate|]); exact Hk|].
    rewrite Ek. destruct (String.eqb_spec k "evectors") as [->|N].
    - rewrite E in Ek. injection Ek as <-. apply (becomes_texts crepr cparse (sh, z :: zs)); [exact W|discriminate|exact NW].
    - apply becomes_same. exact (H k v Ek N). }
  exists s'. split; [exact Hs|]. rewrite C in L. apply (L "evectors"); [left; reflexivity|]. unfold back. cbn [String.eqb Ascii.eqb Bool.eqb]. right. eexists. reflexivity.
Qed.

(** ** The file of the rotor *)
Theorem C82_rotor_file : forall p q, aux_file p <> p /\ (aux_file p = aux_file q -> p = q).
Proof. intros p q. split; [apply aux_other|apply aux_inj]. Qed.
(** It replaces whatever results were stored under its name. *)
Theorem C82_rotor_file_overwrites_refuted : forall crepr cparse s p o v s' c, dget (rs_args o) "rotor" = Some v -> res_save crepr s p o = (s', Ok tt) -> s' p <> Broken -> exists e, res_load cparse c s' (aux_file p) = Err e.
Proof.
  intros crepr cparse s p o v s' c E H NB. destruct (save_dump _ _ _ _ _ _ H NB eq_refl) as (d & sec & _ & _ & _ & _ & _ & R). destruct (R v E) as (r & _ & _ & A). unfold res_load. rewrite A.
  destruct (fst (rotor_save None r)) as [[|[k s0] l]|]; cbn [of_rotor_file map fst snd]; eexists; reflexivity.
Qed.
(** Two results in one file share it: the first gets the rotor of the second. *)
Theorem C82_shared_rotor_refuted : forall crepr cparse s p r1 r1' r2 r2', s p = NoFile -> rotor_becomes r1 r1' -> rotor_becomes r2 r2' ->
  let x := VReals ([1], [1%R])%nat in
  let forced := fun r => mkResults RForced [("rotor", VRotor r); ("forced_resp", x); ("velc_resp", x); ("accl_resp", x); ("speed_range", x); ("unbalance", VNone)] in
  let time := mkResults RTime [("rotor", VRotor r2); ("t", x); ("yout", x); ("xout", x)] in
  exists s1 s2, res_save crepr s p (forced r1) = (s1, Ok tt) /\ res_load cparse RForced s1 p = Ok (forced r1') /\
    res_save crepr s1 p time = (s2, Ok tt) /\ res_load cparse RForced s2 p = Ok (forced r2').
Proof.
  intros crepr cparse s p r1 r1' r2 r2' F (f1 & S1 & L1) (f2 & S2 & L2) x forced time. eexists. eexists.
  assert (E1 : forall s n m, put (put s p n) (aux_file p) m p = n) by (intros; rewrite put_other, put_same; [reflexivity|intros X; exact (aux_other p (eq_sym X))]).
  assert (A : res_save crepr s p (forced r1) = (put (put s p (Toml [("ForcedResponseResults", CRes [("rotor", WText "<ross.rotor_assembly.Rotor object>"); ("forced_resp", WReals ([1], [1%R])%nat); ("velc_resp", WReals ([1], [1%R])%nat); ("accl_resp", WReals ([1], [1%R])%nat); ("speed_range", WReals ([1], [1%R])%nat)])])) (aux_file p) (of_rotor_file f1), Ok tt)).
  { unfold res_save. rewrite F. cbn [forced rs_class rs_args dget String.eqb Ascii.eqb Bool.eqb]. cbn [dump_args dump x put_arr fst norm snd upto_zero bind]. rewrite S1. reflexivity. }
  split; [exact A|]. split.
  { unfold res_load. rewrite E1. cbn [read_args String.eqb Ascii.eqb Bool.eqb]. rewrite put_same, rotor_file_back. cbn [bind]. rewrite L1. reflexivity. }
  split.
  { unfold res_save. rewrite E1. cbn [time rs_class rs_args dget String.eqb Ascii.eqb Bool.eqb]. cbn [dump_args dump x put_arr fst norm snd upto_zero bind]. rewrite S2. cbn [fst snd]. reflexivity. }
  unfold res_load. rewrite E1. cbn [dset rname String.eqb Ascii.eqb Bool.eqb drop_modal map fst snd rs_class time]. cbn [read_args String.eqb Ascii.eqb Bool.eqb]. rewrite put_same, rotor_file_back. cbn [bind]. rewrite L2. reflexivity.
Qed.

(** ** Concrete cases *)
(** the rotor of C58 *)
Example C82_rotor_instance : exists r1 r2 r1' r2', rotor_becomes r1 r1' /\ rotor_becomes r2 r2' /\ ro_min r1' <> ro_min r2'.
Proof.
  destruct PropSave.C58_instance as (r & H & B & L). destruct (PropSave.C58_rotor_round_trip _ _ _ _ _ _ _ _ _ None H B L) as (f' & r' & S & LD & _ & Pr & _).
  assert (H2 : exists r2, robj_init PropSave.SH PropSave.DK PropSave.BR PropSave.PM None None (Some 400%R) (Some "compressor") = Ok r2).
  { unfold robj_init in *. destruct (rotor_init _ _ _ _); [|discriminate]. eexists. reflexivity. }
  destruct H2 as (r2 & H2). assert (E : ro_elements r2 = ro_elements r) by (unfold robj_init in H, H2; destruct (rotor_init _ _ _ _); [|discriminate]; injection H as <-; injection H2 as <-; reflexivity).
  destruct (PropSave.C58_rotor_round_trip _ _ _ _ _ _ _ _ _ None H2 B) as (f2 & r2' & S2 & LD2 & _ & Pr2 & _); [rewrite E; exact L|].
  exists r, r2, r', r2'. split; [exists f'; auto|]. split; [exists f2; auto|]. injection Pr as -> _ _. injection Pr2 as -> _ _. discriminate.
Qed.
(** a response of one complex number with a text of 45 characters, and zero with the text "0j" *)
Definition z0 : C := (1%R, 2%R).
Definition t0 : string := "(1.234567890123456789e-10+2.345678901234567e-5j)".
Definition crepr0 (z : C) : string := if Req_EM_T (fst z) 0 then "0j" else t0.
Definition cparse0 (t : string) : option C := if String.eqb t t0 then Some z0 else if String.eqb t "0j" then Some (RtoC 0) else None.
Lemma one_window t : (40 <= String.length t <= 49)%nat <-> in_window [t].
Proof.
  unfold in_window. split.
  - intros [A B]. split; [exists t; split; [left; reflexivity|exact A]|intros u [<-|[]]; exact B].
  - intros [(u & [<-|[]] & A) B]. split; [exact A|apply B; left; reflexivity].
Qed.
Lemma whole1 {A} n (l : list A) : whole ([S n], l).
Proof. split; [discriminate|]. intros [|i] H; [discriminate|]. destruct i; discriminate. Qed.
Example C82_instance : survives crepr0 cparse0 (VComplex ([1%nat], [z0])) /\ survives crepr0 cparse0 (VReals ([2%nat], [1%R; 2%R])) /\ survives crepr0 cparse0 (VInt 4) /\
  ~ in_window (map crepr0 [RtoC 0]) /\ ~ in_window [""] /\ clean "<function Rotor.run_campbell.<locals>.<lambda> at 0x7f2b8c0d5e50>" = true /\
  ~ in_window ["<function Rotor.run_campbell.<locals>.<lambda> at 0x7f2b8c0d5e50>"] /\
  made (mkResults RFrequency [("freq_resp", VComplex ([1%nat], [z0])); ("velc_resp", VComplex ([1%nat], [z0])); ("accl_resp", VComplex ([1%nat], [z0])); ("speed_range", VReals ([1%nat], [1%R])); ("number_dof", VInt 4)]).
Proof.
  assert (Z : crepr0 z0 = t0) by (unfold crepr0, z0; cbn [fst]; destruct (Req_EM_T 1 0); [lra|reflexivity]).
  split; [|split; [apply whole1|split; [exact I|split; [|split; [|split; [reflexivity|split]]]]]].
  - cbn [survives]. split; [apply whole1|]. cbn [snd map]. rewrite Z. split; [apply one_window; cbn; lia|]. intros z [<-|[]]. rewrite Z. reflexivity.
  - cbn [map]. unfold crepr0 at 1. cbn [fst RtoC]. destruct (Req_EM_T 0 0); [|lra]. intros X. apply one_window in X. cbn in X. lia.
  - intros X. apply one_window in X. cbn in X. lia.
  - intros X. apply one_window in X. cbn in X. lia.
  - match goal with |- made ?z => exists (rs_args z) end. reflexivity.
Qed.

Print Assumptions C82_loaded.
Print Assumptions C82_round_trip.
Print Assumptions C82_other_sections.
Print Assumptions C82_second_class.
Print Assumptions C82_zero_dim.
Print Assumptions C82_campbell.
Print Assumptions C82_spoiled.
Print Assumptions C82_ucs_refuted.
Print Assumptions C82_complex_refuted.
Print Assumptions C82_modal_refuted.
Print Assumptions C82_rotor_file.
Print Assumptions C82_rotor_file_overwrites_refuted.
Print Assumptions C82_shared_rotor_refuted.
