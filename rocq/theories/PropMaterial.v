(** Theorems about materials and the material library (properties C01, C02, C51, C52, C53). *)
From Coq Require Import Reals List String Bool Lra.
From Verif Require Import PyBase PyDict MMaterial SpecMaterial LMaterial.
Import ListNotations.
Open Scope R_scope.
Open Scope list_scope.

(** C01: success exactly for two given constants (no division by zero), and consistency. *)
Theorem C01_material_constructor_iff : forall name rho E G P color,
  is_ok (material_init name rho E G P color) <->
  (has_space name = false /\
   ((E = None /\ G <> None /\ P <> None) \/
    (G = None /\ exists e p, E = Some e /\ P = Some p /\ 1 + p <> 0) \/
    (P = None /\ exists e g, E = Some e /\ G = Some g /\ g <> 0))).
Proof. exact material_init_iff. Qed.
Theorem C01_material_consistent : forall name rho E G P color m,
  material_init name rho E G P color = Ok m ->
  has_space name = false /\ mname m = name /\ mrho m = rho /\ mcolor m = color /\
  mE m = 2 * mG_s m * (1 + mPoisson m) /\
  (E <> None -> E = Some (mE m)) /\ (G <> None -> G = Some (mG_s m)) /\ (P <> None -> P = Some (mPoisson m)).
Proof. exact material_init_ok. Qed.
Example C01_example : exists m, material_init "Steel" 7810 (Some 211) (Some 81) None "c" = Ok m.
Proof. apply C01_material_constructor_iff. split; [reflexivity|]. right; right. split; auto. exists 211, 81. repeat split; lra. Qed.

(** C02: the library is a map: the answer after any history. *)
Theorem C02_library_is_a_map : forall f0 h n, NoDup (dkeys (ftable f0)) ->
  (forall k m, dget (ftable f0) k = Some m -> consistent m) -> saves_consistent h ->
  fst (load_material (librun f0 h) n) =
  match map_run (fun k => dget (ftable f0) k) h n with Some m => Ok m | None => Err KeyError end.
Proof. exact library_map. Qed.
Theorem C02_available_names : forall f0 h n, NoDup (dkeys (ftable f0)) ->
  (In n (available_materials (librun f0 h)) <-> exists m, map_run (fun k => dget (ftable f0) k) h n = Some m).
Proof. exact available_map. Qed.
(** the answer for a name depends only on the operations on that name *)
Theorem C02_other_names_irrelevant : forall h1 h2 l n,
  forallb (fun o => negb (touches n o)) h2 = true -> map_run l (h1 ++ h2) n = map_run l h1 n.
Proof. intros h1 h2 l n H. rewrite map_run_app. apply map_run_untouched. exact H. Qed.
Example C02_example : let steel := mkMaterial "Steel" 1 2 1 0 "c" in
  consistent steel /\
  fst (load_material (librun None [OpSave steel; OpRemove "x"; OpLoad "y"]) "Steel") = Ok steel /\
  fst (load_material (librun None [OpSave steel; OpRemove "Steel"]) "Steel") = Err KeyError.
Proof.
  assert (C : consistent (mkMaterial "Steel" 1 2 1 0 "c")) by (unfold consistent; simpl; repeat split; lra).
  split; [exact C|]. split.
  - rewrite (library_map None); [reflexivity|constructor|intros; discriminate|]. intros m [E|[E|[E|[]]]]; try discriminate.
    injection E; intros <-; exact C.
  - rewrite (library_map None); [reflexivity|constructor|intros; discriminate|]. intros m [E|[E|[]]]; try discriminate.
    injection E; intros <-; exact C.
Qed.

(** C51: equality of materials is reflexive but not symmetric. *)
Theorem C51_material_eq_refl : forall m, material_eq m m.
Proof. intros m. repeat split; apply isclose_refl. Qed.
Theorem C51_material_eq_symmetric_refuted : exists a b, material_eq a b /\ ~ material_eq b a.
Proof. exact (ex_intro _ eqa (ex_intro _ eqb_ eq_not_sym)). Qed.
(** a == b says that every constant of a is that of b up to 1e-8 + 1e-5 |b|; names and colours are not compared *)
Theorem C51_equal_means_close : forall a b, material_eq a b <->
  forall q, In q [mrho; mE; mG_s; mPoisson] -> Rabs (q a - q b) <= / 10 ^ 8 + / 10 ^ 5 * Rabs (q b).
Proof.
  intros a b. replace (10 ^ 8) with 100000000 by ring. replace (10 ^ 5) with 100000 by ring. split.
  - intros (H1 & H2 & H3 & H4) q [<-|[<-|[<-|[<-|[]]]]]; auto.
  - intros H. repeat split; apply H; simpl; auto.
Qed.
Theorem C51_name_not_compared : forall n c n' c' rho E G P, material_eq (mkMaterial n rho E G P c) (mkMaterial n' rho E G P c').
Proof. intros. repeat split; apply isclose_refl. Qed.
Theorem C51_transitive_refuted : exists a b c, material_eq a b /\ material_eq b c /\ ~ material_eq a c.
Proof.
  exists (mkMaterial "a" 1 1 1 1 ""), (mkMaterial "b" (1 + / 100000) 1 1 1 ""), (mkMaterial "c" (1 + 2 / 100000) 1 1 1 "").
  split; [|split].
  - repeat split; cbn; try apply isclose_refl. unfold isclose. rewrite Rabs_left by lra. rewrite Rabs_pos_eq by lra. lra.
  - repeat split; cbn; try apply isclose_refl. unfold isclose. rewrite Rabs_left by lra. rewrite Rabs_pos_eq by lra. lra.
  - intros [H _]. cbn in H. unfold isclose in H. rewrite Rabs_left in H by lra. rewrite Rabs_pos_eq in H by lra. lra.
Qed.

(** C52: crash safety of saving. At every point of every schedule of one saver and any number of
    loaders the file is the old table, the new table, or truncated; it is the new table once the
    save has returned. The truncated state is reachable: a crash there loses the library. *)
Theorem C52_save_states : forall d m loaders sched, Forall loader loaders ->
  let st := srun (FTable d, PSave m :: loaders) sched in
  (fst st = FTable d \/ fst st = FTruncated \/ fst st = FTable (dset d (mname m) m)) /\
  (nth_error (snd st) 0 = Some (PDone (Ok None)) -> fst st = FTable (dset d (mname m) m)).
Proof.
  intros d m ls sched HL. cbv zeta.
  destruct (one_saver d m sched (FTable d) (PSave m) ls) as (f' & p' & ls' & E & I & _).
  - left; auto.
  - eapply Forall_impl; [|exact HL]. intros p [n ->]. left; eauto.
  - rewrite E; simpl. unfold one_saver_inv in I. cbv zeta in I.
    destruct I as [[-> ->]|[[-> ->]|[[-> ->]|[-> ->]]]]; split; auto; discriminate.
Qed.
Theorem C52_crash_safe_refuted : exists d m n sched,
  (exists m', fst (load_material (Some d) n) = Ok m') /\
  fst (srun (FTable d, [PSave m]) sched) = FTruncated /\
  (exists sched', snd (srun (FTable d, [PSave m; PLoad n]) sched') = [PSaveOpen (dset d (mname m) m); PDone (Err KeyError)]).
Proof.
  set (a := mkMaterial "a" 1 2 1 0 "c").
  assert (C : consistent a) by (unfold consistent, a; simpl; repeat split; lra).
  exists [("a"%string, a)], a, "a"%string, [0; 0]%nat. repeat split.
  - exists a. rewrite load_is_get. simpl. apply (rebuild a C).
  - exists [0; 0; 1]%nat. reflexivity.
Qed.

(** C53: saves of several processes. One after the other they all take effect, as the sequential
    history; interleaved they can lose an update. *)
Theorem C53_serial_saves : forall d ms,
  fst (srun (FTable d, map PSave ms) (serial (List.length ms))) = FTable (ftable (librun (Some d) (map OpSave ms))).
Proof.
  intros d ms. destruct (serial_savers ms d []) as (ls & E & _). unfold serial. simpl in E. rewrite E. reflexivity.
Qed.
Theorem C53_concurrent_saves_refuted : exists a b sched d,
  mname a <> mname b /\
  srun (FTable [], [PSave a; PSave b]) sched = (FTable d, [PDone (Ok None); PDone (Ok None)]) /\
  dget d (mname a) = None.
Proof.
  exists (mkMaterial "a" 1 2 1 0 "c"), (mkMaterial "b" 1 2 1 0 "c"), [0; 1; 0; 0; 1; 1]%nat.
  eexists. split; [simpl; intros H; discriminate|]. split; reflexivity.
Qed.

Print Assumptions C01_material_constructor_iff.
Print Assumptions C02_library_is_a_map.
Print Assumptions C51_material_eq_symmetric_refuted.
Print Assumptions C51_equal_means_close.
Print Assumptions C51_transitive_refuted.
Print Assumptions C52_save_states.
Print Assumptions C53_concurrent_saves_refuted.
