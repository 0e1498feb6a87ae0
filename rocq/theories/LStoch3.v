(** Lemmas for ross/stochastic: numpy arithmetic of ST_DiskElement.from_geometry, an example rotor. *)
From Coq Require Import Reals List String Ascii Bool Arith Lia Lra.
From Coquelicot Require Import Complex.
From Verif Require Import PyBase PyDict MatBase CMat MMaterial MShaft MDisk MBearing MRotor MDynamics MStoch SpecStoch LStoch LStoch2.
Import ListNotations.
Open Scope string_scope.
Open Scope list_scope.
Open Scope R_scope.
Local Notation length := List.length.

Lemma nth_map' {A B} (f : A -> B) l i d e : (i < length l)%nat -> nth i (map f l) d = f (nth i l e).
Proof. revert i. induction l as [|x l IH]; intros [|i] H; simpl in *; auto; try lia. apply IH. lia. Qed.
Lemma arith_at N f a b : shape_ok N a -> shape_ok N b ->
  exists c, arith f a b = Ok c /\ shape_ok N c /\ is_list c = (is_list a || is_list b)%bool /\ forall i, (i < N)%nat -> at_ c i = f (at_ a i) (at_ b i).
Proof.
  destruct a as [x|l], b as [y|l']; simpl; intros H1 H2.
  - eexists; repeat split; auto.
  - eexists; split; [reflexivity|]. simpl. rewrite map_length. repeat split; auto. intros i Hi. apply nth_map'. lia.
  - eexists; split; [reflexivity|]. simpl. rewrite map_length. repeat split; auto. intros i Hi. apply (nth_map' (fun x => f x y)). lia.
  - rewrite H1, H2, Nat.eqb_refl. eexists; split; [reflexivity|]. simpl. unfold zip_with. rewrite map_length, combine_length. split; [lia|]. split; auto.
    intros i Hi. rewrite (nth_map' _ _ _ _ (0, 0)) by (rewrite combine_length; lia). rewrite combine_nth by lia. reflexivity.
Qed.
Lemma apply1_at N f a : shape_ok N a -> shape_ok N (apply1 f a) /\ is_list (apply1 f a) = is_list a /\ forall i, (i < N)%nat -> at_ (apply1 f a) i = f (at_ a i).
Proof.
  destruct a as [x|l]; simpl; intros H; repeat split; auto. { rewrite map_length; auto. } intros i Hi. apply nth_map'. lia.
Qed.
Lemma to_of_arr a : to_arr (of_arr a) = Ok a.
Proof.
  destruct a as [x|l]; simpl; auto. assert (E : mapM to_R (map SNum l) = Ok l); [|rewrite E; reflexivity].
  induction l as [|x l IH]; simpl; auto. rewrite IH. reflexivity.
Qed.
Lemma of_arr_entry N a i : shape_ok N a -> is_list a = true -> (i < N)%nat -> entry (of_arr a) i (SNum (at_ a i)).
Proof.
  destruct a as [x|l]; simpl; [discriminate|]. intros L _ H. rewrite nth_error_map, (nth_error_nth' l 0) by lia. reflexivity.
Qed.

Lemma column_get_conv v i x : column v i x -> column_get v i = Ok x.
Proof.
  destruct v as [| | | | | |rows]; simpl; try tauto. intros (col & -> & F). unfold column_get. cbn [sv_len bind].
  assert (G : forall rows' col', Forall2 (fun r y => entry r i y) rows' col' -> forall m done, m = length done ->
    mapM (fun j => bind (sv_get (SList (done ++ rows')) j) (fun r => sv_get r i)) (seq m (length rows')) = Ok col').
  { induction 1 as [|r y rows' col' Hy Hl IH]; intros m done E; [reflexivity|]. cbn [List.length seq mapM].
    assert (Q : sv_get (SList (done ++ r :: rows')) m = Ok r) by (simpl; rewrite nth_error_app2 by lia; rewrite E, Nat.sub_diag; reflexivity).
    rewrite Q. cbn [bind]. apply sv_get_iff in Hy. rewrite Hy. cbn [bind]. specialize (IH (S m) (done ++ [r])). rewrite <- app_assoc in IH. simpl app in IH.
    rewrite IH; [reflexivity|]. rewrite app_length. simpl. lia. }
  pose proof (G rows col F 0%nat [] eq_refl) as Z. simpl app in Z. rewrite Z. reflexivity.
Qed.
Lemma table_row_conv e rnd i kw : table_sample_of (st_attrs e) rnd i kw -> table_row e rnd i = Ok (map snd kw) /\ map fst kw = map fst (st_attrs e).
Proof.
  unfold table_sample_of, table_row. induction 1 as [|a b l l' (E & H1 & H2) Hl (IH1 & IH2)]; [split; reflexivity|]. cbn [mapM map]. rewrite E, IH2. split; auto.
  destruct (str_in (fst a) rnd) eqn:Q.
  - apply str_in_iff in Q. rewrite (column_get_conv _ _ _ (H1 Q)). cbn [bind]. rewrite IH1. reflexivity.
  - assert (NI : ~ In (fst a) rnd) by (rewrite <- str_in_iff; congruence). rewrite (H2 NI). cbn [bind]. rewrite IH1. reflexivity.
Qed.
Lemma combine_fst_snd (kw : dict sv) : combine (map fst kw) (map snd kw) = kw.
Proof. induction kw as [|[k v] l IH]; simpl; auto. rewrite IH. reflexivity. Qed.
Lemma bearing_tables_conv e els k rest more row0 rows : st_random e = Some (k :: rest) -> c_sig bearing_class = map fst (st_attrs e) ++ more ->
  dget (st_attrs e) k = Some (SList (SList row0 :: rows)) -> length els = length row0 ->
  (forall i x, nth_error els i = Some x -> exists kw, table_sample_of (st_attrs e) (k :: rest) i kw /\ call_by_keyword bearing_class kw = Ok x) ->
  st_bearing_list e = Ok els.
Proof.
  intros R S G L H. unfold st_bearing_list, bearing_rows. assert (F : first_random e = Ok (k :: rest, SList (SList row0 :: rows))) by (apply first_random_ok; eauto).
  rewrite F. cbn [bind sv_get nth_error sv_len]. rewrite <- L. clear L G F.
  assert (W : forall m l, (forall i x, nth_error l i = Some x -> exists kw, table_sample_of (st_attrs e) (k :: rest) (m + i) kw /\ call_by_keyword bearing_class kw = Ok x) ->
    exists rows, collect_rows (table_row e (k :: rest)) (seq m (length l)) = (rows, None) /\ mapM (call bearing_class) rows = Ok l).
  { intros m l. revert m. induction l as [|x l IH]; intros m V; [exists []; auto|]. cbn [List.length seq collect_rows].
    destruct (V 0%nat x eq_refl) as (kw & Sk & Q). rewrite Nat.add_0_r in Sk. destruct (table_row_conv _ _ _ _ Sk) as (T1 & T2). rewrite T1.
    destruct (IH (Datatypes.S m)) as (rs & C & M). { intros i y Hy. destruct (V (Datatypes.S i) y Hy) as (kw' & A1 & A2). exists kw'. rewrite Nat.add_succ_r in A1. auto. }
    rewrite C. eexists. split; [reflexivity|]. cbn [mapM]. assert (Z : call bearing_class (map snd kw) = Ok x).
    { rewrite <- Q. unfold call, call_by_keyword. rewrite S, app_length, <- T2, !map_length. replace (_ <? _)%nat with false by (symmetry; apply Nat.ltb_ge; lia).
      rewrite combine_prefix by (rewrite !map_length; auto). rewrite combine_fst_snd. reflexivity. }
    rewrite Z. cbn [bind]. rewrite M. reflexivity. }
  destruct (W 0%nat els H) as (rs & -> & M). exact M.
Qed.

(** ** the example rotor with another disk in the middle *)
From Verif Require Import SpecRotor LAssembly LRotor LRotor2 LRotorInit LRotorInit2 LRotor7 LRotorEx.
Definition heavy_disk : rdisk := mkRDisk false (mkDisk 1 9 8 7 (Some "d0")).
Lemma heavy_wf : well_formed (exS false) [heavy_disk] (exB false) (exP false) 1.
Proof.
  destruct (ex_wf false) as [H1 H2 H3 H4 H5 H6 H7 H8 H9 H10 H11]. constructor; auto.
  - destruct H2 as (six & A1 & A2 & A3). assert (six = false) as -> by (specialize (A1 _ (or_introl eq_refl)); simpl in A1; auto).
    exists false. repeat split; auto. intros d [<-|[]]. reflexivity.
  - intros d [<-|[]]. simpl. lia.
Qed.
Lemma heavy_rotor : exists r, rotor_init (exS false) [heavy_disk] (exB false) (exP false) = Ok r.
Proof. destruct (init_ok _ _ _ _ _ heavy_wf) as (r & H & _). eauto. Qed.
