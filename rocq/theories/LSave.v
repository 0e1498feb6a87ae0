(** Lemmas for C58: one element. *)
From Coq Require Import Reals String Ascii List Bool Arith Lia Lra.
From Verif Require Import PyBase PyDict MatBase MMaterial MShaft MDisk MBearing LBearing LBearing2 MRotor MSave SpecSave.
Import ListNotations.
Open Scope string_scope.
Open Scope list_scope.
Open Scope R_scope.

Lemma eqb_refl s : String.eqb s s = true. Proof. apply String.eqb_refl. Qed.
Lemma dget_dset {A} (d : dict A) k v k' : dget (dset d k v) k' = if String.eqb k' k then Some v else dget d k'.
Proof.
  induction d as [|(q, w) d IH]; cbn [dset dget]; [reflexivity|].
  destruct (String.eqb k q) eqn:E; cbn [dget].
  - apply String.eqb_eq in E; subst q. destruct (String.eqb k' k); reflexivity.
  - rewrite IH. destruct (String.eqb k' q) eqn:E2; [|reflexivity].
    apply String.eqb_eq in E2; subst q. destruct (String.eqb k' k) eqn:E3; [|reflexivity].
    apply String.eqb_eq in E3; subst. rewrite eqb_refl in E. discriminate.
Qed.
Lemma dkeys_dset {A} (d : dict A) k v : NoDup (dkeys d) -> NoDup (dkeys (dset d k v)).
Proof.
  unfold dkeys. induction d as [|(q, w) d IH]; cbn [dset map fst]; intros N; [constructor; [intros []|constructor]|].
  inversion_clear N as [|? ? N1 N2]. destruct (String.eqb k q) eqn:E; cbn [map fst].
  - apply String.eqb_eq in E; subst q. constructor; auto.
  - constructor; auto. intros H. apply N1. apply in_map_iff in H. destruct H as ((x & y) & <- & H).
    assert (In x (map fst d) \/ x = k) as [|F]; auto.
    { clear -H. induction d as [|(q, w) d IH]; cbn [dset] in H; [destruct H as [[= -> ->]|[]]; auto|].
      destruct (String.eqb k q) eqn:E; destruct H as [H|H].
      - injection H as <- <-. auto.
      - left. right. apply in_map_iff. exists (x, y). auto.
      - injection H as <- <-. left. left. reflexivity.
      - destruct (IH H); auto. left. right. auto. }
    cbn [fst] in *. subst x. rewrite eqb_refl in E. discriminate.
Qed.
Lemma dget_in {A} (d : dict A) k v : dget d k = Some v -> In (k, v) d.
Proof.
  induction d as [|(q, w) d IH]; cbn [dget]; [discriminate|]. destruct (String.eqb k q) eqn:E; [|right; auto].
  apply String.eqb_eq in E. intros [= ->]. left. subst. reflexivity.
Qed.
Lemma dget_none {A} (d : dict A) k : dget d k = None <-> ~ In k (dkeys d).
Proof.
  unfold dkeys. induction d as [|(q, w) d IH]; cbn [dget map fst In]; [tauto|]. destruct (String.eqb k q) eqn:E.
  - apply String.eqb_eq in E; subst. split; [discriminate|intros H; destruct H; auto].
  - apply String.eqb_neq in E. rewrite IH. intuition congruence.
Qed.
Lemma in_dget {A} (d : dict A) k v : NoDup (dkeys d) -> In (k, v) d -> dget d k = Some v.
Proof.
  unfold dkeys. induction d as [|(q, w) d IH]; cbn [dget map fst]; intros N []; inversion_clear N as [|? ? N1 N2].
  - injection H as -> ->. rewrite eqb_refl. reflexivity.
  - destruct (String.eqb k q) eqn:E; [|auto]. apply String.eqb_eq in E; subst. destruct N1. apply in_map_iff. exists (q, v). auto.
Qed.

(** entries that survive toml *)
Definition drop (o : option tval) : option tval := match o with Some TNone => None | o => o end.
Lemma dget_dump d k : NoDup (dkeys d) -> dget (dump_section d) k = drop (dget d k).
Proof.
  unfold dkeys, dump_section. induction d as [|(q, w) d IH]; cbn [filter dget map fst snd]; intros N; [reflexivity|]. inversion_clear N as [|? ? N1 N2].
  destruct (String.eqb k q) eqn:E.
  - apply String.eqb_eq in E; subst q. destruct (is_none w) eqn:Ew; cbn [negb dget].
    + rewrite IH by assumption. destruct w; try discriminate. destruct (dget d k) eqn:G; [|reflexivity]. destruct N1. apply dget_in in G. apply in_map_iff. exists (k, t). auto.
    + rewrite eqb_refl. destruct w; try discriminate; reflexivity.
  - destruct (is_none w); cbn [negb dget]; rewrite ?E; auto.
Qed.

Lemma collect_spec x attrs args : forall acc d, collect x attrs args acc = Ok d -> NoDup (dkeys acc) ->
  NoDup (dkeys d) /\ (forall k, dget d k = if str_mem k args then dget attrs k else dget acc k).
Proof.
  induction args as [|a args IH]; cbn [collect str_mem]; intros acc d E N; [injection E as <-; auto|].
  destruct (dget attrs a) as [v|] eqn:G; [|discriminate]. destruct (IH _ _ E (dkeys_dset _ _ _ N)) as (N' & H). split; [exact N'|].
  intros k. rewrite H, dget_dset. destruct (String.eqb k a) eqn:Ek; cbn [orb]; [|reflexivity].
  apply String.eqb_eq in Ek; subst. rewrite G. destruct (str_mem a args); reflexivity.
Qed.
Lemma collect_ok x attrs args : (forall a, In a args -> dget attrs a <> None) -> forall acc, exists d, collect x attrs args acc = Ok d.
Proof.
  induction args as [|a args IH]; cbn [collect]; intros H acc; [eauto|]. destruct (dget attrs a) eqn:G; [|destruct (H a); cbn; auto]. apply IH. intros b Hb. apply H. cbn; auto.
Qed.
Lemma str_mem_in s l : str_mem s l = true <-> In s l.
Proof. induction l; cbn [str_mem In]; [split; [discriminate|tauto]|]. rewrite orb_true_iff, String.eqb_eq, IHl. intuition congruence. Qed.

Definition dmapv (f : tval -> tval) (d : dict tval) : dict tval := map (fun p => (fst p, f (snd p))) d.
Lemma dget_map f d k : dget (dmapv f d) k = option_map f (dget d k).
Proof. unfold dmapv. induction d as [|(q, w) d IH]; cbn [map dget fst snd option_map]; [reflexivity|]. destruct (String.eqb k q); auto. Qed.
Lemma dkeys_map f d : dkeys (dmapv f d) = dkeys d.
Proof. unfold dmapv, dkeys. rewrite map_map. reflexivity. Qed.

(** what a section holds *)
Definition obj_attrs (o : obj) : dict tval := match o with IShaft s => shaft_attrs s | IDisk d => disk_attrs d | IBrg b => brg_attrs b | IPm p => pm_attrs p end.
Definition obj_args (o : obj) : list string :=
  match o with IBrg _ => filter (fun a => negb (String.eqb a "kwargs")) (class_params (obj_class o)) ++ coef_attrs | _ => class_params (obj_class o) end.
Definition stored (o : obj) (k : string) (v : tval) : tval :=
  match o with IShaft s => if String.eqb k "material" then material_table (s_material (os_s s)) else v | IBrg _ => plain_list v | _ => v end.

Lemma section_spec o d : section_of o = Ok d -> NoDup (dkeys d) /\ forall k, dget d k = if str_mem k (obj_args o) then option_map (stored o k) (dget (obj_attrs o) k) else None.
Proof.
  destruct o as [s|s|b|p]; cbn [section_of]; intros E.
  - destruct (collect _ _ _ _) as [c|] eqn:C; [|discriminate]. injection E as <-. destruct (collect_spec _ _ _ _ _ C (NoDup_nil _)) as (N & H).
    split; [apply dkeys_dset; exact N|]. intros k. rewrite dget_dset, H. cbn [obj_args obj_attrs stored dget]. destruct (String.eqb k "material") eqn:Ek.
    + apply String.eqb_eq in Ek; subst k. destruct (os_six s) eqn:Es; cbn [obj_class]; rewrite Es; reflexivity.
    + destruct (str_mem k _); [|reflexivity]. destruct (dget (shaft_attrs s) k); cbn [option_map stored]; rewrite ?Ek; reflexivity.
  - destruct (collect_spec _ _ _ _ _ E (NoDup_nil _)) as (N & H). split; [exact N|]. intros k. rewrite H. cbn [obj_args obj_attrs stored dget]. destruct (str_mem k _); [|reflexivity]. destruct (dget _ k); reflexivity.
  - destruct (collect _ _ _ _) as [c|] eqn:C; [|discriminate]. injection E as <-. destruct (collect_spec _ _ _ _ _ C (NoDup_nil _)) as (N & H).
    fold (dmapv plain_list c). rewrite dkeys_map. split; [exact N|]. intros k. rewrite dget_map, H. cbn [obj_args obj_attrs stored dget]. destruct (str_mem k _); [|reflexivity]. destruct (dget _ k); reflexivity.
  - destruct (collect_spec _ _ _ _ _ E (NoDup_nil _)) as (N & H). split; [exact N|]. intros k. rewrite H. cbn [obj_args obj_attrs stored dget]. destruct (str_mem k _); [|reflexivity]. destruct (dget _ k); reflexivity.
Qed.
Lemma saved_get o d k : section_of o = Ok d -> In k (obj_args o) -> dget (dump_section d) k = drop (option_map (stored o k) (dget (obj_attrs o) k)).
Proof. intros E H. destruct (section_spec _ _ E) as (N & G). rewrite dget_dump, G by exact N. apply str_mem_in in H. rewrite H. reflexivity. Qed.
Lemma saved_no o d k : section_of o = Ok d -> str_mem k (obj_args o) = false -> dget (dump_section d) k = None.
Proof. intros E H. destruct (section_spec _ _ E) as (N & G). rewrite dget_dump, G by exact N. rewrite H. reflexivity. Qed.
Lemma saved_keys o d p : section_of o = Ok d -> In p (dump_section d) -> In (fst p) (obj_args o).
Proof.
  intros E H. destruct (section_spec _ _ E) as (N & G). apply filter_In in H. destruct H as (H & _). destruct p as (k, v). pose proof (in_dget _ _ _ N H) as Q.
  rewrite G in Q. cbn [fst]. apply str_mem_in. destruct (str_mem k (obj_args o)); [reflexivity|discriminate].
Qed.
Lemma accepts_saved o d c : section_of o = Ok d -> (forall k, In k (obj_args o) -> In k (class_params c)) -> accepts (class_params c) (dump_section d) = true.
Proof.
  intros E H. unfold accepts. apply orb_true_iff. right. apply forallb_forall. intros p Hp. apply str_mem_in, H. exact (saved_keys _ _ _ E Hp).
Qed.
