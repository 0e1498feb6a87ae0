(** Lemmas about materials. *)
From Coq Require Import Reals List String Bool Lra Lia Arith Psatz.
From Verif Require Import PyBase PyDict MMaterial SpecMaterial.
Import ListNotations.
Open Scope R_scope.
Open Scope list_scope.

(** *** dictionaries *)
Lemma dget_dset_same {A} (d : dict A) k v : dget (dset d k v) k = Some v.
Proof. induction d as [|[k' v'] d IH]; simpl; [now rewrite String.eqb_refl|].
  destruct (String.eqb k k') eqn:E; simpl; [now rewrite String.eqb_refl|]. now rewrite E. Qed.
Lemma dget_dset_other {A} (d : dict A) k k' v : k <> k' -> dget (dset d k v) k' = dget d k'.
Proof.
  intros H. induction d as [|[k0 v0] d IH]; simpl.
  - destruct (String.eqb_spec k' k); [congruence|reflexivity].
  - destruct (String.eqb_spec k k0); simpl.
    + subst. destruct (String.eqb_spec k' k0); [congruence|reflexivity].
    + destruct (String.eqb k' k0); auto.
Qed.
Lemma dset_keys_nodup {A} (d : dict A) k v : NoDup (dkeys d) -> NoDup (dkeys (dset d k v)).
Proof.
  unfold dkeys. induction d as [|[k0 v0] d IH]; simpl; intros H.
  - constructor; [tauto|constructor].
  - inversion H; subst. destruct (String.eqb_spec k k0); simpl.
    + subst. constructor; auto.
    + constructor; auto. intros Hin. apply H2.
      clear - Hin n. induction d as [|[k1 v1] d IH]; simpl in *.
      * destruct Hin; [congruence|tauto].
      * destruct (String.eqb k k1) eqn:E; simpl in *.
        { apply String.eqb_eq in E. subst. destruct Hin as [|]; [left; auto|right; auto]. }
        { destruct Hin as [|]; [left; auto|right; auto]. }
Qed.
Lemma ddel_incl {A} (d : dict A) k x : In x (dkeys (ddel d k)) -> In x (dkeys d).
Proof.
  unfold dkeys. induction d as [|[k0 v0] d IH]; simpl; [auto|].
  destruct (String.eqb k k0); simpl; intuition.
Qed.
Lemma ddel_keys_nodup {A} (d : dict A) k : NoDup (dkeys d) -> NoDup (dkeys (ddel d k)).
Proof.
  unfold dkeys. induction d as [|[k0 v0] d IH]; simpl; intros H; [constructor|].
  inversion H; subst. destruct (String.eqb k k0); simpl; auto.
  constructor; auto. intros Hin. apply H2. eapply ddel_incl; exact Hin.
Qed.
Lemma dget_none {A} (d : dict A) k : ~ In k (dkeys d) -> dget d k = None.
Proof.
  unfold dkeys. induction d as [|[k0 v0] d IH]; simpl; intros H; [reflexivity|].
  destruct (String.eqb_spec k k0); [subst; tauto|]. apply IH; tauto.
Qed.
Lemma dget_ddel_same {A} (d : dict A) k : NoDup (dkeys d) -> dget (ddel d k) k = None.
Proof.
  unfold dkeys. induction d as [|[k0 v0] d IH]; simpl; intros H; [reflexivity|].
  inversion H; subst. destruct (String.eqb_spec k k0).
  - subst. apply dget_none. exact H2.
  - simpl. destruct (String.eqb_spec k k0); [congruence|]. auto.
Qed.
Lemma dget_ddel_other {A} (d : dict A) k k' : k <> k' -> dget (ddel d k) k' = dget d k'.
Proof.
  intros H. induction d as [|[k0 v0] d IH]; simpl; [reflexivity|].
  destruct (String.eqb_spec k k0); simpl.
  - subst. destruct (String.eqb_spec k' k0); [congruence|reflexivity].
  - destruct (String.eqb k' k0); auto.
Qed.
Lemma dget_in {A} (d : dict A) k v : dget d k = Some v -> In k (dkeys d).
Proof.
  unfold dkeys. induction d as [|[k0 v0] d IH]; simpl; [discriminate|].
  destruct (String.eqb_spec k k0); [subst; auto|]. intros H; right; auto.
Qed.
Lemma dget_some_iff {A} (d : dict A) k : In k (dkeys d) <-> exists v, dget d k = Some v.
Proof.
  split; [|intros [v H]; eapply dget_in; eauto].
  unfold dkeys. induction d as [|[k0 v0] d IH]; simpl; [tauto|].
  intros [H|H]; destruct (String.eqb_spec k k0); eauto. congruence.
Qed.

(** *** constructor *)
Lemma material_init_ok name rho E G P color m :
  material_init name rho E G P color = Ok m ->
  has_space name = false /\ mname m = name /\ mrho m = rho /\ mcolor m = color /\
  mE m = 2 * mG_s m * (1 + mPoisson m) /\
  (E <> None -> E = Some (mE m)) /\ (G <> None -> G = Some (mG_s m)) /\ (P <> None -> P = Some (mPoisson m)).
Proof.
  unfold material_init. destruct (has_space name); [discriminate|].
  destruct E as [e|], G as [g|], P as [p|]; simpl; try discriminate.
  - destruct (Req_EM_T (2 * g) 0) as [|n]; [discriminate|]. intros H; injection H; intros <-; simpl.
    repeat split; try tauto; try congruence. field. intros ->; apply n; ring.
  - destruct (Req_EM_T (2 * (1 + p)) 0) as [|n]; [discriminate|]. intros H; injection H; intros <-; simpl.
    repeat split; try tauto; try congruence. field. intros E; apply n; rewrite E; ring.
  - intros H; injection H; intros <-; simpl.
    repeat split; try tauto; try congruence. ring.
Qed.

Lemma material_init_iff name rho E G P color :
  is_ok (material_init name rho E G P color) <->
  (has_space name = false /\
   ((E = None /\ G <> None /\ P <> None) \/
    (G = None /\ exists e p, E = Some e /\ P = Some p /\ 1 + p <> 0) \/
    (P = None /\ exists e g, E = Some e /\ G = Some g /\ g <> 0))).
Proof.
  unfold is_ok, material_init. destruct (has_space name).
  { split; [intros [a H]; discriminate|intros [H _]; discriminate]. }
  destruct E as [e|], G as [g|], P as [p|]; simpl.
  all: try (split; [intros [a H]; discriminate|intros (_ & [(?&?&?)|[(?&?&?&?&?&?)|(?&?&?&?&?&?)]]); congruence]).
  - destruct (Req_EM_T (2 * g) 0) as [Z|n]; split.
    + intros [a H]; discriminate.
    + intros (_ & [(?&?&?)|[(?&?&?&?&?&?)|(?&e'&g'&?&E'&N)]]); try congruence. injection E'; intros ->. exfalso; apply N; lra.
    + intros _. split; auto. right; right. split; auto. exists e, g. repeat split; auto. intros ->; apply n; ring.
    + intros _. eexists; reflexivity.
  - destruct (Req_EM_T (2 * (1 + p)) 0) as [Z|n]; split.
    + intros [a H]; discriminate.
    + intros (_ & [(?&?&?)|[(?&e'&p'&?&E'&N)|(?&?&?&?&?&?)]]); try congruence. injection E'; intros ->. exfalso; apply N; lra.
    + intros _. split; auto. right; left. split; auto. exists e, p. repeat split; auto. intros E; apply n; rewrite E; ring.
    + intros _. eexists; reflexivity.
  - split.
    + intros _. split; auto. left; repeat split; congruence.
    + intros _. eexists; reflexivity.
Qed.

(** *** library *)
Definition ftable (f : libfile) : dict material := match f with Some d => d | None => [] end.

Lemma rebuild m : consistent m ->
  material_init (mname m) (mrho m) (Some (mE m)) (Some (mG_s m)) None (mcolor m) = Ok m.
Proof.
  intros (E & NZ & SP). unfold material_init. rewrite SP. simpl.
  destruct (Req_EM_T (2 * mG_s m) 0) as [Z|_]; [exfalso; apply NZ; lra|].
  f_equal. destruct m as [n r e g p c]; simpl in *. f_equal. rewrite E. field. exact NZ.
Qed.

Lemma load_is_get f n : fst (load_material f n) =
  match dget (ftable f) n with
  | None => Err KeyError
  | Some m => material_init (mname m) (mrho m) (Some (mE m)) (Some (mG_s m)) None (mcolor m)
  end.
Proof. unfold load_material, get_data, ftable. destruct f as [d|]; [|reflexivity]. destruct (dget d n); reflexivity. Qed.

Lemma libstep_nodup f o : NoDup (dkeys (ftable f)) -> NoDup (dkeys (ftable (libstep f o))).
Proof.
  destruct o; simpl; intros H.
  - unfold save_material, get_data. destruct f as [d|]; [simpl; apply dset_keys_nodup; auto|apply (dset_keys_nodup []); auto].
  - unfold remove_material, get_data. destruct f as [d|]; simpl in *; auto.
    destruct (dget d name); simpl; auto. apply ddel_keys_nodup; auto.
  - unfold load_material, get_data. destruct f as [d|]; simpl in *; [destruct (dget d name); auto|auto].
Qed.

Lemma libstep_map f o (l : libmap) : NoDup (dkeys (ftable f)) -> (forall n, dget (ftable f) n = l n) ->
  forall n, dget (ftable (libstep f o)) n = map_step l o n.
Proof.
  intros ND H n. destruct o; simpl.
  - assert (E : ftable (save_material f m) = dset (ftable f) (mname m) m) by (unfold save_material, get_data, ftable; destruct f; reflexivity).
    rewrite E. destruct (String.eqb_spec n (mname m)).
    + subst. apply dget_dset_same.
    + rewrite dget_dset_other by congruence. apply H.
  - unfold remove_material, get_data. destruct f as [d|]; simpl in *.
    + destruct (dget d name) eqn:E; simpl.
      * destruct (String.eqb_spec n name); [subst; apply dget_ddel_same; auto|].
        rewrite dget_ddel_other by congruence. apply H.
      * destruct (String.eqb_spec n name); [subst; exact E|apply H].
    + rewrite <- H. destruct (String.eqb n name); reflexivity.
  - unfold load_material, get_data. destruct f as [d|]; simpl in *; [destruct (dget d name); apply H|apply H].
Qed.

Lemma librun_map h : forall f (l : libmap), NoDup (dkeys (ftable f)) -> (forall n, dget (ftable f) n = l n) ->
  forall n, dget (ftable (librun f h)) n = map_run l h n.
Proof.
  induction h as [|o h IH]; intros f l ND H n; [apply H|].
  unfold librun, map_run; simpl. apply IH; [apply libstep_nodup; auto|apply libstep_map; auto].
Qed.

Lemma map_run_consistent h : forall (l : libmap) n m,
  (forall k m', l k = Some m' -> consistent m') -> saves_consistent h ->
  map_run l h n = Some m -> consistent m.
Proof.
  induction h as [|o h IH]; intros l n m Hl Hs H; [eapply Hl; exact H|].
  unfold map_run in *; simpl in H. eapply IH; [|intros m' Hm'; apply Hs; right; exact Hm'|exact H].
  intros k m' Hk. destruct o as [m0|k0|k0]; simpl in Hk; [|destruct (String.eqb k k0); [discriminate|eauto]|eauto].
  destruct (String.eqb k (mname m0)); [|eauto]. injection Hk; intros <-. apply Hs. left; reflexivity.
Qed.

Lemma library_map f0 h n : NoDup (dkeys (ftable f0)) ->
  (forall k m, dget (ftable f0) k = Some m -> consistent m) -> saves_consistent h ->
  fst (load_material (librun f0 h) n) =
  match map_run (fun k => dget (ftable f0) k) h n with Some m => Ok m | None => Err KeyError end.
Proof.
  intros ND Hc Hs. rewrite load_is_get, (librun_map h f0 (fun k => dget (ftable f0) k)) by auto.
  destruct (map_run _ h n) as [m|] eqn:E; [|reflexivity].
  apply rebuild. eapply map_run_consistent; [|exact Hs|exact E]. exact Hc.
Qed.

Lemma available_map f0 h n : NoDup (dkeys (ftable f0)) ->
  (In n (available_materials (librun f0 h)) <-> exists m, map_run (fun k => dget (ftable f0) k) h n = Some m).
Proof.
  intros ND. unfold available_materials.
  replace (fst (get_data (librun f0 h))) with (ftable (librun f0 h)) by (unfold get_data, ftable; destruct (librun f0 h); reflexivity).
  rewrite dget_some_iff. rewrite (librun_map h f0 (fun k => dget (ftable f0) k)) by auto. tauto.
Qed.

(** the last operation on a name decides *)
Definition touches (n : string) (o : libop) : bool :=
  match o with OpSave m => String.eqb n (mname m) | OpRemove k => String.eqb n k | OpLoad _ => false end.
Lemma map_run_app l h1 h2 : map_run l (h1 ++ h2) = map_run (map_run l h1) h2.
Proof. unfold map_run. apply fold_left_app. Qed.
Lemma map_run_untouched h : forall (l : libmap) n, forallb (fun o => negb (touches n o)) h = true -> map_run l h n = l n.
Proof.
  induction h as [|o h IH]; intros l n H; [reflexivity|]. simpl in H. apply andb_prop in H as [H1 H2].
  unfold map_run; simpl. fold (map_run (map_step l o) h). rewrite IH by auto.
  destruct o; simpl in *; auto; [destruct (String.eqb n (mname m))|destruct (String.eqb n name)]; auto; discriminate.
Qed.

(** *** equality *)
Lemma isclose_refl a : isclose a a.
Proof. unfold isclose. replace (a - a) with 0 by ring. rewrite Rabs_R0. pose proof (Rabs_pos a). lra. Qed.

Definition eqa : material := mkMaterial "a" 1 2 1 0 "c".
Definition eqb_ : material := mkMaterial "b" (1 + 1001/100000000 + /100000000000) 2 1 0 "c".
Lemma eq_not_sym : material_eq eqa eqb_ /\ ~ material_eq eqb_ eqa.
Proof.
  unfold material_eq, eqa, eqb_; simpl. split.
  - repeat split; try apply isclose_refl. unfold isclose.
    rewrite Rabs_left by lra. rewrite Rabs_right by lra. lra.
  - intros [H _]. unfold isclose in H. rewrite Rabs_right in H by lra. rewrite (Rabs_right 1) in H by lra. lra.
Qed.

(** *** schedules *)
Lemma replace_nth_length {A} (l : list A) k x : List.length (replace_nth l k x) = List.length l.
Proof. revert k; induction l; intros [|k]; simpl; auto. Qed.
Lemma nth_replace_same {A} (l : list A) k x y : nth_error l k = Some y -> nth_error (replace_nth l k x) k = Some x.
Proof. revert k; induction l; intros [|k]; simpl; try discriminate; auto. Qed.
Lemma nth_replace_other {A} (l : list A) k j x : k <> j -> nth_error (replace_nth l k x) j = nth_error l j.
Proof. revert k j; induction l; intros [|k] [|j] H; simpl; auto; try congruence. Qed.

(** one saver and any number of loaders *)
Definition loaderish (p : proc) : Prop := (exists n, p = PLoad n) \/ (exists r, p = PDone r).
Definition one_saver_inv (d : dict material) (m : material) (f : fstate) (p : proc) : Prop :=
  let d' := dset d (mname m) m in
  (p = PSave m /\ f = FTable d) \/ (p = PSaveRead d' /\ f = FTable d) \/
  (p = PSaveOpen d' /\ f = FTruncated) \/ (p = PDone (Ok None) /\ f = FTable d').

Lemma one_saver d m sched : forall f p ls, one_saver_inv d m f p -> Forall loaderish ls ->
  exists f' p' ls', srun (f, p :: ls) sched = (f', p' :: ls') /\ one_saver_inv d m f' p' /\ Forall loaderish ls'.
Proof.
  induction sched as [|k sched IH]; intros f p ls I L.
  - exists f, p, ls. auto.
  - unfold srun; simpl. unfold sstep at 2; simpl. destruct k as [|k]; simpl.
    + destruct (pstep f p) as [f' p'] eqn:E. apply IH; auto.
      unfold one_saver_inv in *. cbv zeta in *.
      destruct I as [[-> ->]|[[-> ->]|[[-> ->]|[-> ->]]]]; simpl in E; injection E; intros <- <-; auto 10.
    + destruct (nth_error ls k) as [q|] eqn:Eq; [|apply IH; auto].
      assert (Lq : loaderish q) by (rewrite Forall_forall in L; apply L; eapply nth_error_In; eauto).
      destruct (pstep f q) as [f' q'] eqn:E.
      assert (Hq : f' = f /\ loaderish q').
      { destruct Lq as [[n ->]|[r ->]]; simpl in E.
        - destruct I as [[_ ->]|[[_ ->]|[[_ ->]|[_ ->]]]]; simpl in E; injection E; intros <- <-; split; auto; right; eexists; reflexivity.
        - injection E; intros <- <-. split; auto. right; eexists; reflexivity. }
      destruct Hq as [-> Lq']. simpl. apply IH; auto.
      clear - L Lq'. revert k. induction L; intros [|k]; simpl; auto.
Qed.

(** savers one after the other *)
Definition serial (n : nat) : list nat := flat_map (fun k => [k; k; k]) (seq 0 n).

Lemma saver_alone d m ls k : nth_error ls k = Some (PSave m) ->
  srun (FTable d, ls) [k; k; k] = (FTable (dset d (mname m) m), replace_nth ls k (PDone (Ok None))).
Proof.
  intros H. unfold srun; simpl. unfold sstep at 3; simpl. rewrite H; simpl.
  unfold sstep at 2; simpl. erewrite nth_replace_same by eauto. simpl.
  unfold sstep; simpl. erewrite nth_replace_same by (eapply nth_replace_same; eauto). simpl. f_equal.
  clear H. revert k; induction ls; intros [|k]; simpl; auto. f_equal. apply IHls.
Qed.

Lemma srun_app st s1 s2 : srun st (s1 ++ s2) = srun (srun st s1) s2.
Proof. unfold srun. apply fold_left_app. Qed.

Lemma serial_savers ms : forall d (pre : list proc),
  exists ls, srun (FTable d, pre ++ map PSave ms) (flat_map (fun k => [k; k; k]) (seq (List.length pre) (List.length ms)))
   = (FTable (ftable (librun (Some d) (map OpSave ms))), pre ++ ls) /\ ls = map (fun _ => PDone (Ok None)) ms.
Proof.
  induction ms as [|m ms IH]; intros d pre.
  - exists []. split; auto.
  - simpl seq. cbn [flat_map]. rewrite srun_app.
    rewrite (saver_alone d m _ (List.length pre)).
    2:{ rewrite nth_error_app2 by lia. replace (List.length pre - List.length pre)%nat with 0%nat by lia. reflexivity. }
    assert (E : replace_nth (pre ++ map PSave (m :: ms)) (List.length pre) (PDone (Ok None))
      = (pre ++ [PDone (Ok None)]) ++ map PSave ms).
    { clear. induction pre; simpl; [reflexivity|]. f_equal. apply IHpre. }
    rewrite E. destruct (IH (dset d (mname m) m) (pre ++ [PDone (Ok None)])) as (ls & R & El).
    rewrite app_length in R. simpl in R. replace (List.length pre + 1)%nat with (S (List.length pre)) in R by lia.
    exists (PDone (Ok None) :: ls). split; [|rewrite El; reflexivity].
    rewrite R. rewrite <- app_assoc. reflexivity.
Qed.
