From Coq Require Import Reals String Ascii List Bool Arith ZArith Lia.
From Coquelicot Require Import Complex.
From Verif Require Import PyBase PyDict MSave MDynamics MRes SpecRes.
Import ListNotations.
Open Scope string_scope.
Open Scope list_scope.

(** ** texts *)
Lemma longest_le l n : (longest l <= n <-> forall t, In t l -> String.length t <= n)%nat.
Proof.
  induction l as [|t l IH]; cbn [longest fold_right In].
  - split; [intros _ t []|lia].
  - unfold longest in IH. rewrite Nat.max_lub_iff, IH. split.
    + intros [H1 H2] u [<-|H]; auto.
    + intros H. split; [apply H; left; reflexivity|intros u Hu; apply H; right; exact Hu].
Qed.
Lemma longest_ge l n : (1 <= n)%nat -> (n <= longest l <-> exists t, In t l /\ n <= String.length t)%nat.
Proof.
  intros Hn. induction l as [|t l IH]; cbn [longest fold_right In].
  - split; [lia|intros (t & [] & _)].
  - unfold longest in IH. rewrite Nat.max_le_iff, IH. split.
    + intros [H|(u & Hu & H)]; [exists t; auto|exists u; auto].
    + intros (u & [<-|Hu] & H); [left; exact H|right; exists u; auto].
Qed.
Lemma window l : str_type l = true <-> in_window l.
Proof.
  unfold str_type, in_window. rewrite andb_true_iff, !Nat.leb_le, longest_le, longest_ge by lia. reflexivity.
Qed.
Lemma no_window l : str_type l = false <-> ~ in_window l.
Proof. rewrite <- window. destruct (str_type l); split; intros H; try discriminate; try reflexivity; try (intros X; discriminate); exfalso; apply H; reflexivity. Qed.
Lemma whole_norm {A} (a : arr A) : whole a -> fst a <> [] /\ norm a = a.
Proof.
  destruct a as [s l]. intros [N H]. cbn [fst] in *. split; [exact N|]. unfold norm. cbn [fst snd]. f_equal. clear N. induction s as [|n s IH]; [reflexivity|].
  destruct n as [|n].
  - cbn [upto_zero]. specialize (H 0%nat eq_refl). destruct s; [reflexivity|discriminate].
  - cbn [upto_zero]. f_equal. apply IH. intros i Hi. specialize (H (S i) Hi). cbn in H. lia.
Qed.
Lemma put_whole {A} (f : arr A -> wval) a : whole a -> put_arr f a = Put (f a).
Proof. intros W. destruct (whole_norm a W) as [N E]. unfold put_arr. destruct (fst a) eqn:Ea; [contradiction|]. rewrite E. reflexivity. Qed.
Lemma parse_all (crepr : C -> string) (cparse : string -> option C) l : (forall z, In z l -> cparse (crepr z) = Some z) ->
  mapM (fun t => match cparse t with Some z => Ok z | None => Err ValueError end) (map crepr l) = Ok l.
Proof.
  induction l as [|z l IH]; intros H; [reflexivity|]. cbn [map mapM]. rewrite (H z (or_introl eq_refl)). cbn [bind]. rewrite IH by (intros; apply H; right; assumption). reflexivity.
Qed.
Lemma in_window_ne l : in_window l -> l <> [].
Proof. intros [(t & H & _) _] ->. exact H. Qed.
Lemma becomes_value crepr cparse v v' : becomes crepr cparse v v' -> exists w, dump crepr v = Put w /\ read_val cparse w = v'.
Proof.
  intros H. destruct H as [v S|a W NE NW|z W P|z W|t W|d|l NE W|t Cl W|l Cl NE W|v sh W E|v E].
  - destruct v; cbn [survives] in S; try contradiction; cbn [dump]; try (eexists; split; reflexivity).
    + rewrite put_whole by exact S. eexists. split; reflexivity.
    + destruct S as [W NE]. rewrite put_whole by exact W. eexists. split; [reflexivity|]. cbn [read_val]. unfold read_arr. destruct (snd a); [contradiction|reflexivity].
    + destruct S as (W & IW & P). rewrite put_whole by exact W. eexists. split; [reflexivity|]. cbn [read_val]. unfold read_arr. cbn [snd].
      destruct (map crepr (snd a)) eqn:E; [exact (False_ind _ (in_window_ne _ IW eq_refl))|]. rewrite <- E in *. unfold read_texts. cbn [fst snd]. rewrite (proj2 (window _) IW), parse_all by exact P.
      destruct a; reflexivity.
    + destruct S as (W & NE & NW). rewrite put_whole by exact W. eexists. split; [reflexivity|]. cbn [read_val]. unfold read_arr. destruct (snd a) eqn:E; [contradiction|]. rewrite <- E in NW.
      unfold read_texts. rewrite (proj2 (no_window _) NW). reflexivity.
  - cbn [dump]. rewrite put_whole by exact W. eexists. split; [reflexivity|]. cbn [read_val]. unfold read_arr. cbn [fst snd]. destruct (map crepr (snd a)) eqn:E; [destruct (snd a); [contradiction|discriminate]|].
    rewrite <- E in *. unfold read_texts. cbn [fst snd]. rewrite (proj2 (no_window _) NW). reflexivity.
  - eexists. split; [reflexivity|]. cbn [read_val]. unfold read_texts. cbn [fst snd]. rewrite (proj2 (window _) W). cbn [mapM]. rewrite P. reflexivity.
  - eexists. split; [reflexivity|]. cbn [read_val]. unfold read_texts. cbn [fst snd]. rewrite (proj2 (no_window _) W). reflexivity.
  - eexists. split; [reflexivity|]. cbn [read_val]. unfold read_texts. cbn [fst snd]. rewrite (proj2 (no_window _) W). reflexivity.
  - eexists. split; reflexivity.
  - eexists. split; [reflexivity|]. cbn [read_val]. unfold read_arr. cbn [fst snd]. destruct l eqn:E; [contradiction|]. rewrite <- E in *. unfold read_texts. cbn [fst snd]. rewrite (proj2 (no_window _) W). reflexivity.
  - cbn [dump]. rewrite Cl. eexists. split; [reflexivity|]. cbn [read_val]. unfold read_texts. cbn [fst snd]. rewrite (proj2 (no_window _) W). reflexivity.
  - cbn [dump]. rewrite (proj2 (forallb_forall _ _)) by exact Cl. eexists. split; [reflexivity|]. cbn [read_val]. unfold read_arr. cbn [fst snd]. destruct l eqn:E; [contradiction|]. rewrite <- E in *.
    unfold read_texts. cbn [fst snd]. rewrite (proj2 (no_window _) W). reflexivity.
  - destruct E as [E|[E|E]]; subst v; cbn [dump]; rewrite put_whole by exact W; eexists; split; reflexivity.
  - destruct E as [E|E]; subst v; eexists; split; reflexivity.
Qed.

(** ** dictionaries *)
Lemma dget_in {A} (d : dict A) k v : dget d k = Some v -> In (k, v) d.
Proof. induction d as [|[k' w] d IH]; cbn [dget]; [discriminate|]. destruct (String.eqb_spec k k') as [->|]; [intros [= ->]; left; reflexivity|intros H; right; auto]. Qed.
Lemma in_dget {A} (d : dict A) k v : NoDup (map fst d) -> In (k, v) d -> dget d k = Some v.
Proof.
  induction d as [|[k' w] d IH]; cbn [map fst dget In]; [intros _ []|]. intros N H. apply NoDup_cons_iff in N as [N N']. destruct H as [[= -> ->]|H]; [rewrite String.eqb_refl; reflexivity|].
  destruct (String.eqb_spec k k') as [->|]; [|auto]. exfalso. apply N. apply (in_map fst) in H. exact H.
Qed.
Lemma dget_none {A} (d : dict A) k : ~ In k (map fst d) -> dget d k = None.
Proof. induction d as [|[k' w] d IH]; cbn [map fst dget In]; [reflexivity|]. intros H. destruct (String.eqb_spec k k') as [->|]; [exfalso; apply H; left; reflexivity|]. apply IH. intros X. apply H. right. exact X. Qed.
Lemma dset_fresh {A} (k : string) (v : A) d : ~ In k (map fst d) -> dset d k v = d ++ [(k, v)].
Proof. induction d as [|[k' w] d IH]; cbn [map fst dset In app]; [reflexivity|]. intros H. destruct (String.eqb_spec k k') as [->|]; [exfalso; apply H; left; reflexivity|]. rewrite IH; [reflexivity|]. intros X. apply H. right. exact X. Qed.
Lemma dget_dset' {A} (d : dict A) k v q : dget (dset d k v) q = if String.eqb q k then Some v else dget d q.
Proof.
  induction d as [|[k' w] d IH]; cbn [dset dget]; [reflexivity|]. destruct (String.eqb_spec k k') as [->|N]; cbn [dget].
  - destruct (String.eqb_spec q k'); reflexivity.
  - rewrite IH. destruct (String.eqb_spec q k') as [->|]; [|reflexivity]. destruct (String.eqb_spec k' k); [congruence|reflexivity].
Qed.

(** ** constructors *)
Lemma params_nodup c : NoDup (map fst (rparams c)).
Proof.
  destruct c; cbn; repeat constructor; cbn; intros H; repeat match goal with H : _ \/ _ |- _ => destruct H as [H|H]; [discriminate|] end; exact H.
Qed.
Lemma take_keys ps d l : take_args ps d = Ok l -> map fst l = map fst ps.
Proof.
  revert l. induction ps as [|[k o] ps IH]; intros l; cbn [take_args]; [intros [= <-]; reflexivity|].
  destruct (dget d k), o; try discriminate; (destruct (take_args ps d) as [l'|] eqn:E; [|discriminate]); cbn [bind]; intros [= <-]; cbn [map fst]; rewrite (IH l' eq_refl); reflexivity.
Qed.
Lemma take_get ps d l k o : NoDup (map fst ps) -> take_args ps d = Ok l -> In (k, o) ps -> dget l k = match dget d k with Some v => Some v | None => o end.
Proof.
  revert l. induction ps as [|[k' o'] ps IH]; intros l N; cbn [take_args]; [intros _ []|]. cbn [map fst] in N. apply NoDup_cons_iff in N as [N N'].
  intros H Hi. assert (E : exists v l', take_args ps d = Ok l' /\ l = (k', v) :: l' /\ Some v = match dget d k' with Some v => Some v | None => o' end).
  { destruct (dget d k'), o'; try discriminate; (destruct (take_args ps d) as [l'|] eqn:E; [|discriminate]); cbn [bind] in H; injection H as <-; eauto. }
  destruct E as (v & l' & El & -> & Ev). cbn [dget]. destruct Hi as [[= -> ->]|Hi]; [rewrite String.eqb_refl; exact Ev|].
  destruct (String.eqb_spec k k') as [->|]; [exfalso; apply N; apply (in_map fst) in Hi; exact Hi|]. exact (IH l' N' El Hi).
Qed.
Lemma take_total ps d : (forall k, In (k, None) ps -> dget d k <> None) -> exists l, take_args ps d = Ok l.
Proof.
  induction ps as [|[k o] ps IH]; intros H; [eexists; reflexivity|]. cbn [take_args]. destruct IH as (l & ->); [intros; apply H; right; assumption|]. cbn [bind].
  destruct (dget d k) eqn:E; [eexists; reflexivity|]. destruct o; [eexists; reflexivity|]. exfalso. exact (H k (or_introl eq_refl) E).
Qed.
Lemma made_keys o : made o -> map fst (rs_args o) = map fst (rparams (rs_class o)).
Proof.
  intros (d & H). unfold construct in H. destruct (negb _); [discriminate|]. destruct (take_args (rparams (rs_class o)) d) as [l|] eqn:E; [|discriminate]. cbn [bind] in H.
  destruct (existsb _ l); [discriminate|]. injection H as H. rewrite <- H. cbn [rs_args]. rewrite (take_keys _ _ _ E), <- H. reflexivity.
Qed.
Lemma made_nodup o : made o -> NoDup (map fst (rs_args o)).
Proof. intros M. rewrite (made_keys o M). apply params_nodup. Qed.
Lemma made_no_text o k v : made o -> In (k, v) (rs_args o) -> In k (computed (rs_class o)) -> is_text v = false.
Proof.
  intros (d & H) Hi Hc. unfold construct in H. destruct (negb _); [discriminate|]. destruct (take_args (rparams (rs_class o)) d) as [l|] eqn:E; [|discriminate]. cbn [bind] in H.
  destruct (existsb _ l) eqn:Ex; [discriminate|]. assert (L : l = rs_args o) by (injection H as H; rewrite <- H; reflexivity). subst l.
  destruct (is_text v) eqn:T; [|reflexivity]. exfalso. assert (X : existsb (fun p => existsb (String.eqb (fst p)) (computed (rs_class o)) && is_text (snd p)) (rs_args o) = true).
  { apply existsb_exists. exists (k, v). split; [exact Hi|]. cbn [fst snd]. rewrite T, andb_true_r. apply existsb_exists. exists k. split; [exact Hc|apply String.eqb_refl]. }
  congruence.
Qed.
Lemma construct_ok c d : (forall k v, In (k, v) d -> In k (map fst (rparams c))) -> (forall k, In (k, None) (rparams c) -> dget d k <> None) ->
  exists l, take_args (rparams c) d = Ok l /\ construct c d = (if existsb (fun p => existsb (String.eqb (fst p)) (computed c) && is_text (snd p)) l then Err TypeError else Ok (mkResults c l)).
Proof.
  intros H1 H2. destruct (take_total _ _ H2) as (l & E). exists l. split; [exact E|]. unfold construct. rewrite (proj2 (forallb_forall _ _)).
  - rewrite E. reflexivity.
  - intros [k v] Hi. cbn [fst]. apply existsb_exists. exists k. split; [exact (H1 k v Hi)|apply String.eqb_refl].
Qed.

(** ** sections *)
(** how an argument goes into the section and comes out: absent, or as the given value *)
Definition passes crepr cparse (s : fs) (p : string) (k : string) (v : rval) (o : option rval) : Prop :=
  match o with
  | None => dump crepr v = Skip
  | Some v' => exists w, dump crepr v = Put w /\ (if String.eqb k "rotor" then bind (to_rotor_file (s (aux_file p))) (fun f => bind (rotor_load f) (fun r => Ok (VRotor r))) else Ok (read_val cparse w)) = Ok v'
  end.
Lemma section_passes crepr cparse s p d f : (forall k v, In (k, v) d -> passes crepr cparse s p k v (f k)) ->
  exists sec, dump_args crepr d = Ok (Some sec) /\ read_args cparse s p sec = Ok (flat_map (fun kv => match f (fst kv) with Some v' => [(fst kv, v')] | None => [] end) d).
Proof.
  induction d as [|[k v] d IH]; intros H; [exists []; split; reflexivity|]. destruct IH as (sec & E & E'); [intros; apply H; right; assumption|].
  pose proof (H k v (or_introl eq_refl)) as P. cbn [dump_args flat_map fst]. unfold passes in P. destruct (f k) as [v'|].
  - destruct P as (w & -> & P). rewrite E. cbn [bind]. exists ((k, w) :: sec). split; [reflexivity|]. cbn [read_args]. rewrite P. cbn [bind]. rewrite E'. reflexivity.
  - rewrite P, E. cbn [bind]. exists sec. split; [reflexivity|exact E'].
Qed.
Lemma dget_flat (d : dict rval) (f : string -> option rval) k : NoDup (map fst d) ->
  dget (flat_map (fun kv => match f (fst kv) with Some v' => [(fst kv, v')] | None => [] end) d) k = if existsb (String.eqb k) (map fst d) then f k else None.
Proof.
  induction d as [|[k' v] d IH]; intros N; [reflexivity|]. cbn [map fst] in N. apply NoDup_cons_iff in N as [N N']. cbn [flat_map fst map existsb].
  destruct (f k') as [v'|] eqn:E; cbn [app dget].
  - rewrite IH by exact N'. destruct (String.eqb_spec k k') as [Q|Q]; cbn [orb]; [rewrite Q, E; reflexivity|reflexivity].
  - rewrite IH by exact N'. destruct (String.eqb_spec k k') as [Q|Q]; cbn [orb]; [rewrite Q, E; destruct (existsb (String.eqb k') (map fst d)); reflexivity|reflexivity].
Qed.

(** ** files *)
Lemma put_same s p n : put s p n p = n.
Proof. unfold put. rewrite String.eqb_refl. reflexivity. Qed.
Lemma put_other s p n q : q <> p -> put s p n q = s q.
Proof. intros H. unfold put. destruct (String.eqb_spec q p); [contradiction|reflexivity]. Qed.
Lemma rotor_file_back f : to_rotor_file (of_rotor_file f) = Ok f.
Proof.
  destruct f as [d|]; [|reflexivity]. unfold of_rotor_file, to_rotor_file. assert (E : forall d : dict section, mapM (fun p => match snd p with CElem s => Ok (fst p, s) | CRes _ => Err RuntimeErr end) (map (fun p => (fst p, CElem (snd p))) d) = Ok d).
  { clear. induction d as [|[k s] d IH]; [reflexivity|]. cbn [map mapM fst snd]. rewrite IH. reflexivity. }
  rewrite E. reflexivity.
Qed.
Lemma len_app (a b : string) : String.length (a ++ b)%string = (String.length a + String.length b)%nat.
Proof. induction a; cbn; auto. Qed.
Lemma sub_split p : forall k, (k <= String.length p)%nat -> (substring 0 k p ++ substring k (String.length p - k) p)%string = p /\ String.length (substring 0 k p) = k.
Proof.
  induction p as [|c p IH]; intros k Hk; cbn [String.length] in Hk.
  - assert (k = 0%nat) by lia. subst. split; reflexivity.
  - destruct k as [|k].
    + split; [|reflexivity]. cbn [String.length Nat.sub substring append]. f_equal. clear. induction p as [|c p IH]; [reflexivity|]. cbn [String.length substring]. rewrite IH. reflexivity.
    + destruct (IH k) as [E L]; [lia|]. cbn [String.length Nat.sub substring append]. rewrite E, L. split; reflexivity.
Qed.
Lemma app_inj (a a' b b' : string) : String.length a = String.length a' -> (a ++ b)%string = (a' ++ b')%string -> a = a' /\ b = b'.
Proof.
  revert a'. induction a as [|c a IH]; intros [|c' a']; cbn [String.length append]; try discriminate; [auto|]. intros L [= -> E]. destruct (IH a' ltac:(lia) E) as [-> ->]. auto.
Qed.
Lemma aux_len p : String.length (aux_file p) = (String.length p + 6)%nat.
Proof.
  unfold aux_file. cbv zeta. set (k := (String.length p - 5)%nat). destruct (sub_split p k) as [E L]; [lia|]. rewrite len_app, L, len_app. change (String.length "_rotor") with 6%nat.
  assert (X : String.length p = (k + String.length (substring k (String.length p - k) p))%nat) by (rewrite <- E at 1; rewrite len_app, L; reflexivity). lia.
Qed.
Lemma aux_other p : aux_file p <> p.
Proof. intros H. pose proof (aux_len p) as L. rewrite H in L. lia. Qed.
Lemma aux_inj p q : aux_file p = aux_file q -> p = q.
Proof.
  intros H. assert (L : String.length p = String.length q) by (pose proof (aux_len p); pose proof (aux_len q); rewrite H in *; lia).
  unfold aux_file in H. cbv zeta in H. rewrite <- L in H. set (k := (String.length p - 5)%nat) in *. destruct (sub_split p k) as [E1 L1]; [lia|]. destruct (sub_split q k) as [E2 L2]; [lia|].
  rewrite <- L in E2. apply app_inj in H as [A B]; [|congruence]. apply app_inj in B as [_ B]; [|reflexivity]. rewrite <- E1, <- E2, A, B. reflexivity.
Qed.

(** ** save, then load *)
Lemma ddel_sub {A} (d : dict A) q kv : In kv (ddel d q) -> In kv d.
Proof. induction d as [|[k w] d IH]; cbn [ddel]; [intros []|]. destruct (String.eqb q k); [intros H; right; exact H|]. intros [<-|H]; [left; reflexivity|right; auto]. Qed.
Lemma ddel_keeps {A} (d : dict A) q k v : In (k, v) d -> k <> q -> In (k, v) (ddel d q).
Proof. induction d as [|[k' w] d IH]; cbn [ddel]; [intros []|]. intros [[= E1 E2]|H] N; destruct (String.eqb_spec q k'); subst; try congruence; try (left; reflexivity); try exact H; right; auto. Qed.
Lemma ddel_nodup {A} (d : dict A) q : NoDup (map fst d) -> NoDup (map fst (ddel d q)) /\ ~ In q (map fst (ddel d q)).
Proof.
  induction d as [|[k w] d IH]; cbn [ddel map fst]; [intros; split; [constructor|intros []]|]. intros N. apply NoDup_cons_iff in N as [N N']. destruct (IH N') as [I1 I2].
  destruct (String.eqb_spec q k) as [->|Hn]; [split; assumption|]. cbn [map fst]. split.
  - constructor; [|exact I1]. intros X. apply N. apply in_map_iff in X as ([k' v'] & E & X). apply ddel_sub in X. apply in_map_iff. exists (k', v'). auto.
  - intros [X|X]; [congruence|contradiction].
Qed.
Lemma ddel_none {A} (d : dict A) q : ~ In q (map fst d) -> ddel d q = d.
Proof. induction d as [|[k w] d IH]; cbn [ddel map fst In]; [reflexivity|]. intros N. destruct (String.eqb_spec q k) as [->|]; [exfalso; auto|]. rewrite IH; auto. Qed.
Lemma dump_keys crepr d sec : dump_args crepr d = Ok (Some sec) -> forall k, In k (map fst sec) -> In k (map fst d).
Proof.
  revert sec. induction d as [|[k v] d IH]; intros sec; cbn [dump_args]; [intros [= <-] k []|]. destruct (dump crepr v); try discriminate;
    destruct (dump_args crepr d) as [[l|]|]; cbn [bind]; try discriminate; intros [= <-] q Hq; cbn [map fst In] in *.
  - right. exact (IH _ eq_refl q Hq).
  - destruct Hq as [->|Hq]; [left; reflexivity|right; exact (IH _ eq_refl q Hq)].
Qed.
Definition stored (o : results) : dict rval := match rs_class o with RCampbell => ddel (rs_args o) "modal_results" | _ => rs_args o end.
Lemma stored_facts o : made o -> NoDup (map fst (stored o)) /\ (forall kv, In kv (stored o) -> In kv (rs_args o)) /\
  (forall k v, In (k, v) (rs_args o) -> ~ (rs_class o = RCampbell /\ k = "modal_results") -> In (k, v) (stored o)) /\
  (rs_class o = RCampbell -> ~ In "modal_results" (map fst (stored o))).
Proof.
  intros M. pose proof (made_nodup o M) as N. unfold stored. destruct (rs_class o) eqn:E;
    try (split; [exact N|]; split; [auto|]; split; [auto|discriminate]).
  destruct (ddel_nodup _ "modal_results" N) as [A B]. split; [exact A|]. split; [intros kv; apply ddel_sub|]. split; [|auto]. intros k v H X. apply ddel_keeps; [exact H|]. intros ->. auto.
Qed.
Lemma drop_one o sec : made o ->
  (forall k, In k (map fst sec) -> In k (map fst (stored o))) -> drop_modal [(rname (rs_class o), CRes sec)] = [(rname (rs_class o), CRes sec)].
Proof.
  intros M H. destruct (stored_facts o M) as (_ & _ & _ & S). unfold drop_modal. cbn [map fst snd]. destruct (rs_class o) eqn:E; try reflexivity.
  cbn [rname]. rewrite String.eqb_refl. rewrite ddel_none; [reflexivity|]. intros X. exact (S eq_refl (H _ X)).
Qed.
Lemma read_args_ext cparse s s' p d : s (aux_file p) = s' (aux_file p) -> read_args cparse s p d = read_args cparse s' p d.
Proof. intros E. induction d as [|[k w] d IH]; [reflexivity|]. cbn [read_args]. rewrite E, IH. reflexivity. Qed.
Definition empty_file (n : node) : Prop := n = NoFile \/ n = Toml [].
Lemma rotor_required c k : In (k, Some VNone) (rparams c) -> k = "unbalance".
Proof. destruct c; cbn; intros H; repeat match goal with H : _ \/ _ |- _ => destruct H as [H|H] end; try contradiction; try discriminate; injection H as H; symmetry; exact H. Qed.
Lemma save_load crepr cparse s p o back : made o -> empty_file (s p) ->
  (forall k v, dget (rs_args o) k = Some v -> arg_becomes crepr cparse (rs_class o) k v (back k)) ->
  exists s' sec L l, res_save crepr s p o = (s', Ok tt) /\ s' p = Toml [(rname (rs_class o), CRes sec)] /\ (forall q, q <> p -> q <> aux_file p -> s' q = s q) /\
    res_load cparse (rs_class o) s' p = (if existsb (fun q => existsb (String.eqb (fst q)) (computed (rs_class o)) && is_text (snd q)) l then Err TypeError else Ok (mkResults (rs_class o) l)) /\
    take_args (rparams (rs_class o)) L = Ok l /\ map fst l = map fst (rparams (rs_class o)) /\ (forall k v, dget (rs_args o) k = Some v -> dget l k = Some (back k)).
Proof.
  intros M F B. pose proof (made_nodup o M) as ND. pose proof (made_keys o M) as KS. destruct (stored_facts o M) as (SN & SI & SK & SC).
  (* the rotor *)
  assert (R : exists s', (forall sec, fst (match dget (rs_args o) "rotor" with
      | Some (VRotor r) => let fr := rotor_save None r in (put (put s p (Toml [(rname (rs_class o), CRes sec)])) (aux_file p) (of_rotor_file (fst fr)), snd fr)
      | Some _ => (put s p (Toml [(rname (rs_class o), CRes sec)]), Err AttributeError) | None => (put s p (Toml [(rname (rs_class o), CRes sec)]), Ok tt) end) = s' sec /\
      snd (match dget (rs_args o) "rotor" with
      | Some (VRotor r) => let fr := rotor_save None r in (put (put s p (Toml [(rname (rs_class o), CRes sec)])) (aux_file p) (of_rotor_file (fst fr)), snd fr)
      | Some _ => (put s p (Toml [(rname (rs_class o), CRes sec)]), Err AttributeError) | None => (put s p (Toml [(rname (rs_class o), CRes sec)]), Ok tt) end) = Ok tt) /\
      (forall sec, s' sec p = Toml [(rname (rs_class o), CRes sec)]) /\ (forall sec q, q <> p -> q <> aux_file p -> s' sec q = s q) /\
      (exists n, forall sec, s' sec (aux_file p) = n) /\
      forall sec v, dget (rs_args o) "rotor" = Some v -> bind (to_rotor_file (s' sec (aux_file p))) (fun f => bind (rotor_load f) (fun r => Ok (VRotor r))) = Ok (back "rotor")).
  { destruct (dget (rs_args o) "rotor") as [v|] eqn:E.
    - destruct (B _ _ E) as [(N & _)|[(-> & _ & N)|[(_ & r & r' & -> & Eb & f & S & L)|(_ & N & _)]]]; [congruence|apply rotor_required in N; discriminate| |discriminate].
      rewrite S. cbn [fst snd]. exists (fun sec => put (put s p (Toml [(rname (rs_class o), CRes sec)])) (aux_file p) (of_rotor_file f)). split; [intros; split; reflexivity|].
      split; [intros; rewrite put_other, put_same; [reflexivity|intros X; exact (aux_other p (eq_sym X))]|]. split; [intros sec q N1 N2; rewrite !put_other; auto|].
      split; [exists (of_rotor_file f); intros; rewrite put_same; reflexivity|].
      intros sec v _. rewrite put_same, rotor_file_back. cbn [bind]. rewrite L, Eb. reflexivity.
    - exists (fun sec => put s p (Toml [(rname (rs_class o), CRes sec)])). split; [intros; split; reflexivity|]. split; [intros; apply put_same|]. split; [intros; apply put_other; assumption|].
      split; [exists (s (aux_file p)); intros; apply put_other, aux_other|]. discriminate. }
  destruct R as (S & HS & Sp & Sq & (n & Sn) & Sr).
  set (f := fun k => match dget (rs_args o) k with Some VNone | None => None | Some _ => Some (back k) end).
  assert (NN : forall k v, dget (rs_args o) k = Some v -> ~ (rs_class o = RCampbell /\ k = "modal_results") -> (v = VNone /\ back k = VNone /\ In (k, Some VNone) (rparams (rs_class o))) \/ f k = Some (back k) /\ v <> VNone).
  { intros k v E X. destruct (B k v E) as [(_ & _ & H)|[H|[(_ & r & r' & -> & _)|(C1 & C2 & _)]]]; [right|left; exact H|right|exfalso; auto]; unfold f; rewrite E.
    - destruct H as [v HS'| | | | | | | | |v sh W' H|v H]; try (split; [reflexivity|discriminate]).
      + destruct v; try contradiction; (split; [reflexivity|discriminate]).
      + destruct H as [H|[H|H]]; subst v; (split; [reflexivity|discriminate]).
      + destruct H as [H|H]; subst v; (split; [reflexivity|discriminate]).
    - split; [reflexivity|discriminate]. }
  destruct (section_passes crepr cparse (S []) p (stored o) f) as (sec & D & RA).
  { intros k v Hi. assert (E : dget (rs_args o) k = Some v) by (apply in_dget; [exact ND|apply SI; exact Hi]).
    assert (X : ~ (rs_class o = RCampbell /\ k = "modal_results")) by (intros [C1 ->]; apply (SC C1); apply (in_map fst) in Hi; exact Hi).
    destruct (NN k v E X) as [(-> & _)|[Ef Nn]]; unfold passes; [unfold f; rewrite E; reflexivity|]. rewrite Ef.
    destruct (B k v E) as [(Nr & _ & H)|[(-> & _)|[(-> & r & r' & -> & _)|(C1 & C2 & _)]]]; [|congruence| |exfalso; auto].
    - destruct (becomes_value _ _ _ _ H) as (w & D & Rd). exists w. split; [exact D|]. destruct (String.eqb_spec k "rotor"); [contradiction|]. rewrite Rd. reflexivity.
    - eexists. split; [reflexivity|]. rewrite String.eqb_refl. exact (Sr [] _ E). }
  assert (RA' : read_args cparse (S sec) p sec = Ok (flat_map (fun kv => match f (fst kv) with Some v' => [(fst kv, v')] | None => [] end) (stored o))).
  { rewrite <- RA. apply read_args_ext. rewrite !Sn. reflexivity. }
  clear RA. set (l0 := flat_map _ (stored o)) in RA'. pose (L := match rs_class o with RCampbell => dset l0 "modal_results" VNone | _ => l0 end).
  assert (K0 : forall k v, In (k, v) l0 -> In k (map fst (rparams (rs_class o)))).
  { intros k v Hi. unfold l0 in Hi. apply in_flat_map in Hi as ([k' v'] & Hi & X). cbn [fst] in X. apply SI in Hi. apply (in_map fst) in Hi. cbn [fst] in Hi. rewrite KS in Hi.
    destruct (f k'); [|destruct X]. destruct X as [[= <- _]|[]]. exact Hi. }
  assert (G0 : forall k v, dget (rs_args o) k = Some v -> ~ (rs_class o = RCampbell /\ k = "modal_results") -> dget l0 k = f k).
  { intros k v E X. unfold l0. rewrite dget_flat by exact SN. rewrite (proj2 (existsb_exists _ _)); [reflexivity|]. exists k. split; [|apply String.eqb_refl].
    apply dget_in in E. apply SK in E; [|exact X]. apply (in_map fst) in E. exact E. }
  assert (GL : forall k v, dget (rs_args o) k = Some v -> dget L k = if (match rs_class o with RCampbell => String.eqb k "modal_results" | _ => false end) then Some VNone else f k).
  { intros k v E. unfold L. destruct (rs_class o) eqn:Ec; try (apply (G0 k v E); intros [X _]; discriminate).
    rewrite dget_dset'. destruct (String.eqb_spec k "modal_results"); [reflexivity|]. apply (G0 k v E). intros [_ X]. contradiction. }
  assert (KL : forall k v, In (k, v) L -> In k (map fst (rparams (rs_class o)))).
  { intros k v. unfold L. destruct (rs_class o) eqn:Ec; try (apply K0). intros Hi. destruct (in_dec string_dec "modal_results" (map fst l0)) as [Hm|Hm].
    - exfalso. apply in_map_iff in Hm as ([k' v'] & Ek & Hm). cbn [fst] in Ek. subst k'. unfold l0 in Hm. apply in_flat_map in Hm as ([k' w] & Hi' & X). cbn [fst] in X.
      destruct (f k'); [|destruct X]. destruct X as [[= -> _]|[]]. apply (SC eq_refl). apply (in_map fst) in Hi'. exact Hi'.
    - rewrite dset_fresh in Hi by exact Hm. apply in_app_or in Hi as [Hi|[[= <- _]|[]]]; [exact (K0 k v Hi)|]. cbn. tauto. }
  assert (HAS : forall k d, In (k, d) (rparams (rs_class o)) -> exists v, dget (rs_args o) k = Some v).
  { intros k d Hk. apply (in_map fst) in Hk. cbn [fst] in Hk. rewrite <- KS in Hk. apply in_map_iff in Hk as ([k' v] & Ek & Hk). cbn [fst] in Ek. subst k'. exists v. apply in_dget; assumption. }
  assert (RQ : forall k, In (k, None) (rparams (rs_class o)) -> dget L k <> None).
  { intros k Hk. destruct (HAS k _ Hk) as (v & E). rewrite (GL k v E). destruct (match rs_class o with RCampbell => String.eqb k "modal_results" | _ => false end) eqn:Em; [discriminate|].
    destruct (NN k v E) as [(_ & _ & Hd)|[Ef _]]; [| |rewrite Ef; discriminate].
    - intros [C1 C2]. rewrite C1, C2, String.eqb_refl in Em. discriminate.
    - pose proof (in_dget _ _ _ (params_nodup (rs_class o)) Hk). pose proof (in_dget _ _ _ (params_nodup (rs_class o)) Hd). congruence. }
  destruct (construct_ok (rs_class o) L KL RQ) as (l & TA & CO).
  exists (S sec), sec, L, l. split.
  { unfold res_save. destruct F as [-> | ->]; cbn [dset]; change (match rs_class o with RCampbell => ddel (rs_args o) "modal_results" | _ => rs_args o end) with (stored o); rewrite D;
      cbv zeta; rewrite (drop_one o sec M (dump_keys _ _ _ D)); destruct (HS sec) as [H1 H2]; (apply injective_projections; [exact H1|exact H2]). }
  split; [apply Sp|]. split; [apply Sq|]. split; [unfold res_load; rewrite Sp, RA'; cbn [bind]; exact CO|]. split; [exact TA|]. split; [exact (take_keys _ _ _ TA)|].
  intros k v E. assert (Hk : In k (map fst (rparams (rs_class o)))) by (rewrite <- KS; apply dget_in in E; apply (in_map fst) in E; exact E).
  apply in_map_iff in Hk as ([k' d] & Ek & Hk). cbn [fst] in Ek. subst k'. rewrite (take_get _ _ _ k d (params_nodup _) TA Hk), (GL k v E).
  destruct (match rs_class o with RCampbell => String.eqb k "modal_results" | _ => false end) eqn:Em.
  - destruct (rs_class o); try discriminate. apply String.eqb_eq in Em. subst k. destruct (B _ _ E) as [(_ & X & _)|[(_ & -> & _)|[(X & _)|(_ & _ & ->)]]]; [congruence|reflexivity|discriminate|reflexivity].
  - destruct (NN k v E) as [(-> & Eb & Hd)|[Ef _]].
    + intros [C1 C2]. rewrite C1, C2, String.eqb_refl in Em. discriminate.
    + unfold f. rewrite E. pose proof (in_dget _ _ _ (params_nodup (rs_class o)) Hk). pose proof (in_dget _ _ _ (params_nodup (rs_class o)) Hd). assert (d = Some VNone) by congruence. subst d. congruence.
    + rewrite Ef. reflexivity.
Qed.

(** ** histories *)
Definition no_modal (d : dict content) : Prop := forall k sec, In (k, CRes sec) d -> k = "CampbellResults" -> ~ In "modal_results" (map fst sec).
Lemma drop_id d : no_modal d -> drop_modal d = d.
Proof.
  intros H. induction d as [|[k c] d IH]; [reflexivity|]. unfold drop_modal in *. cbn [map fst snd]. rewrite IH by (intros k' sec Hi; apply H; right; exact Hi). f_equal.
  destruct (String.eqb_spec k "CampbellResults") as [->|]; [|reflexivity]. destruct c as [sec|]; [|reflexivity]. rewrite ddel_none; [reflexivity|]. apply (H _ sec (or_introl eq_refl) eq_refl).
Qed.
Lemma dset_in {A} (d : dict A) k v q w : In (q, w) (dset d k v) -> (q, w) = (k, v) \/ In (q, w) d.
Proof.
  induction d as [|[k' v'] d IH]; cbn [dset].
  - intros [<-|[]]. left. reflexivity.
  - destruct (String.eqb_spec k k') as [->|]; intros [<-|H]; [left; reflexivity|right; right; exact H|right; left; reflexivity|]. destruct (IH H) as [X|X]; [left; exact X|right; right; exact X].
Qed.
Lemma set_modal crepr o d sec : made o -> no_modal d -> dump_args crepr (stored o) = Ok (Some sec) -> no_modal (dset d (rname (rs_class o)) (CRes sec)).
Proof.
  intros M H D k sec' Hi Ek. apply dset_in in Hi as [[= -> ->]|Hi]; [|exact (H k sec' Hi Ek)]. intros X. apply (dump_keys _ _ _ D) in X. destruct (stored_facts o M) as (_ & _ & _ & S). apply S; [|exact X].
  revert Ek. destruct (rs_class o); cbn; intros; try discriminate; reflexivity.
Qed.
Lemma rotor_no_modal f d : of_rotor_file f = Toml d -> no_modal d.
Proof. destruct f as [d0|]; [|discriminate]. intros [= <-] k sec Hi. apply in_map_iff in Hi as ([k' s'] & X & _). discriminate. Qed.
Lemma saves_modal crepr s : after_saves crepr s -> forall p d, s p = Toml d -> no_modal d.
Proof.
  intros H. induction H as [|s p o H IH M]; [discriminate|]. intros q d E. unfold res_save in E.
  destruct (match s p with NoFile => Ok [] | Broken => Err ValueError | Toml d => Ok d end) as [data|] eqn:ED; [|exact (IH q d E)].
  assert (HD : no_modal data) by (destruct (s p) eqn:Es; try discriminate; injection ED as <-; [intros ? ? []|exact (IH _ _ Es)]).
  change (match rs_class o with RCampbell => ddel (rs_args o) "modal_results" | _ => rs_args o end) with (stored o) in E.
  destruct (dump_args crepr (stored o)) as [sec|] eqn:D.
  - assert (S1 : forall q d, put s p (match sec with Some l => Toml (drop_modal (dset data (rname (rs_class o)) (CRes l))) | None => Broken end) q = Toml d -> no_modal d).
    { intros q' d' X. unfold put in X. destruct (String.eqb q' p); [|exact (IH _ _ X)]. destruct sec as [l|]; [|discriminate]. injection X as <-.
      pose proof (set_modal crepr o data l M HD D) as SM. rewrite (drop_id _ SM). exact SM. }
    cbv zeta in E. destruct (dget (rs_args o) "rotor") as [[]|]; cbn [fst] in E; try exact (S1 q d E).
    unfold put at 1 in E. destruct (String.eqb q (aux_file p)); [exact (rotor_no_modal _ _ E)|exact (S1 q d E)].
  - cbn [fst] in E. unfold put in E. destruct (String.eqb q p); [|exact (IH q d E)]. injection E as <-. intros ? ? [].
Qed.
Lemma save_dump crepr s p o s' e : res_save crepr s p o = (s', e) -> s' p <> Broken -> e = Ok tt -> exists data sec, (s p = Toml data \/ s p = NoFile /\ data = []) /\
  dump_args crepr (stored o) = Ok (Some sec) /\ s' p = Toml (drop_modal (dset data (rname (rs_class o)) (CRes sec))) /\
  (forall q, q <> p -> q <> aux_file p -> s' q = s q) /\ (dget (rs_args o) "rotor" = None -> s' (aux_file p) = s (aux_file p)) /\
  (forall v, dget (rs_args o) "rotor" = Some v -> exists r, v = VRotor r /\ rotor_save None r = (fst (rotor_save None r), Ok tt) /\ s' (aux_file p) = of_rotor_file (fst (rotor_save None r))).
Proof.
  intros H NB ->. unfold res_save in H. destruct (s p) as [| |data] eqn:Es.
  - change (match rs_class o with RCampbell => ddel (rs_args o) "modal_results" | _ => rs_args o end) with (stored o) in H. destruct (dump_args crepr (stored o)) as [sec|] eqn:D; [|discriminate].
    exists []. destruct sec as [sec|].
    + exists sec. split; [right; auto|]. split; [reflexivity|]. cbv zeta in H. destruct (dget (rs_args o) "rotor") as [v|] eqn:Er.
      * destruct v; try discriminate. injection H as <- E. split; [rewrite put_other, put_same by (intros X; exact (aux_other p (eq_sym X))); reflexivity|].
        split; [intros; rewrite !put_other by assumption; reflexivity|]. split; [discriminate|]. intros v [= <-]. exists r. split; [reflexivity|]. split; [rewrite <- E; apply surjective_pairing|apply put_same].
      * injection H as <-. split; [apply put_same|]. split; [intros; apply put_other; assumption|]. split; [intros _; apply put_other, aux_other|discriminate].
    + exfalso. apply NB. cbv zeta in H. destruct (dget (rs_args o) "rotor") as [[]|]; try discriminate; injection H as <-; rewrite ?put_other by (intros X; exact (aux_other p (eq_sym X))); apply put_same.
  - discriminate.
  - change (match rs_class o with RCampbell => ddel (rs_args o) "modal_results" | _ => rs_args o end) with (stored o) in H. destruct (dump_args crepr (stored o)) as [sec|] eqn:D; [|discriminate].
    exists data. destruct sec as [sec|].
    + exists sec. split; [left; auto|]. split; [reflexivity|]. cbv zeta in H. destruct (dget (rs_args o) "rotor") as [v|] eqn:Er.
      * destruct v; try discriminate. injection H as <- E. split; [rewrite put_other, put_same by (intros X; exact (aux_other p (eq_sym X))); reflexivity|].
        split; [intros; rewrite !put_other by assumption; reflexivity|]. split; [discriminate|]. intros v [= <-]. exists r. split; [reflexivity|]. split; [rewrite <- E; apply surjective_pairing|apply put_same].
      * injection H as <-. split; [apply put_same|]. split; [intros; apply put_other; assumption|]. split; [intros _; apply put_other, aux_other|discriminate].
    + exfalso. apply NB. cbv zeta in H. destruct (dget (rs_args o) "rotor") as [[]|]; try discriminate; injection H as <-; rewrite ?put_other by (intros X; exact (aux_other p (eq_sym X))); apply put_same.
Qed.
Lemma dump_present crepr d sec k v : dump_args crepr d = Ok (Some sec) -> In (k, v) d -> v <> VNone -> In k (map fst sec).
Proof.
  revert sec. induction d as [|[k' v'] d IH]; intros sec; cbn [dump_args]; [intros _ []|]. intros H Hi N.
  assert (X : v' <> VNone -> dump crepr v' <> Skip) by (intros Nv; destruct v'; cbn [dump]; unfold put_arr; try congruence; try (destruct (fst a); discriminate); [destruct (clean repr)|destruct (forallb clean reprs)]; discriminate).
  destruct (dump crepr v') eqn:Dv; try discriminate; destruct (dump_args crepr d) as [[l|]|]; cbn [bind] in H; try discriminate; injection H as <-.
  - destruct Hi as [[= -> ->]|Hi]; [exfalso; exact (X N eq_refl)|exact (IH _ eq_refl Hi N)].
  - cbn [map fst In]. destruct Hi as [[= -> ->]|Hi]; [left; reflexivity|right; exact (IH _ eq_refl Hi N)].
Qed.
Lemma read_keys cparse s p d l : read_args cparse s p d = Ok l -> map fst l = map fst d.
Proof.
  revert l. induction d as [|[k w] d IH]; intros l; cbn [read_args]; [intros [= <-]; reflexivity|].
  match goal with |- bind ?X _ = _ -> _ => destruct X as [v|]; [|discriminate] end. cbn [bind]. destruct (read_args cparse s p d) as [l'|]; [|discriminate]. cbn [bind]. intros [= <-]. cbn [map fst]. rewrite (IH l' eq_refl). reflexivity.
Qed.
Lemma construct_keys c d k : In k (map fst d) -> ~ In k (map fst (rparams c)) -> construct c d = Err TypeError.
Proof.
  intros H N. unfold construct. destruct (forallb _ d) eqn:E; [|reflexivity]. exfalso. rewrite forallb_forall in E. apply in_map_iff in H as ([k' v] & Ek & H). cbn [fst] in Ek. subst k'. specialize (E _ H). cbn [fst] in E.
  apply existsb_exists in E as (k' & Hk & E). apply String.eqb_eq in E. subst k'. contradiction.
Qed.
(** every class has a required argument, always stored, that another class does not have *)
Lemma own_argument a b : a <> b -> exists k, In (k, None) (rparams a) /\ k <> "modal_results" /\ ~ In k (map fst (rparams b)).
Proof.
  assert (D : forall a b, a = b \/ existsb (fun p => match snd p with None => negb (String.eqb (fst p) "modal_results") && negb (existsb (String.eqb (fst p)) (map fst (rparams b))) | _ => false end) (rparams a) = true)
    by (intros [] []; first [left; reflexivity|right; reflexivity]).
  intros N. destruct (D a b) as [E|E]; [contradiction|]. apply existsb_exists in E as ([k [v|]] & Hi & E); cbn [fst snd] in E; [discriminate|]. apply andb_true_iff in E as [E1 E2]. exists k. split; [exact Hi|]. split.
  - intros ->. discriminate.
  - intros X. apply negb_true_iff in E2. rewrite (proj2 (existsb_exists _ _)) in E2; [discriminate|]. exists k. split; [exact X|apply String.eqb_refl].
Qed.
