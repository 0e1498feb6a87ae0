(** Lemmas about the comparison of bearings. *)
From Coq Require Import Reals Lra Lia String List Bool Arith FunctionalExtensionality.
From Verif Require Import PyBase PyDict MatBase MMaterial MShaft MDisk MBearing MRotor MDynamics MSave MEq SpecBearing SpecSave SpecEq LBearing LBearing2.
Import ListNotations.
Open Scope list_scope.
Open Scope R_scope.

(** ** booleans *)
Lemma req_iff a b : req a b = true <-> a = b.
Proof. unfold req. destruct (Req_EM_T a b); split; congruence. Qed.
Lemma list_eqb_iff {A} (f : A -> A -> bool) (H : forall x y, f x y = true <-> x = y) l : forall l', list_eqb f l l' = true <-> l = l'.
Proof.
  induction l as [|x l IH]; intros [|y l']; cbn [list_eqb]; split; try congruence.
  - intros E. apply andb_true_iff in E as (E1 & E2). apply H in E1. apply IH in E2. congruence.
  - intros E. inversion E; subst. apply andb_true_iff. split; [apply H|apply IH]; reflexivity.
Qed.
Lemma opt_eqb_iff {A} (f : A -> A -> bool) (H : forall x y, f x y = true <-> x = y) o o' : opt_eqb f o o' = true <-> o = o'.
Proof. destruct o, o'; cbn [opt_eqb]; split; try congruence; intros E; [apply H in E; congruence|apply H; congruence]. Qed.
Lemma dofs_eqb_iff d d' : dofs_eqb d d' = true <-> d = d'.
Proof. apply opt_eqb_iff. intros. apply list_eqb_iff. apply Nat.eqb_eq. Qed.
Lemma reals_eq l l' : list_eqb req l l' = true <-> l = l'.
Proof. apply list_eqb_iff, req_iff. Qed.
Lemma closeb_iff a b : closeb a b = true <-> close a b.
Proof. unfold closeb, close. destruct (Rle_dec _ _); split; try congruence; auto. Qed.
Lemma bclass_eqb_iff c c' : bclass_eqb c c' = true <-> c = c'.
Proof. destruct c, c'; cbn; split; congruence. Qed.

(** ** arrays *)
Lemma broadcast_fit l l' : fit (length l) (length l') -> exists b, broadcast_eq l l' = Some b.
Proof.
  unfold broadcast_eq, fit. destruct (Nat.eqb_spec (length l) (length l')); [eexists; reflexivity|]. intros [E|[E|E]]; [contradiction| |].
  - destruct l as [|x [|]]; try discriminate. eexists. reflexivity.
  - destruct l' as [|x [|]]; try discriminate. destruct l as [|? [|]]; eexists; reflexivity.
Qed.
Lemma broadcast_misfit l l' : ~ fit (length l) (length l') -> broadcast_eq l l' = None.
Proof.
  unfold broadcast_eq, fit. intros N. destruct (Nat.eqb_spec (length l) (length l')); [tauto|].
  destruct l as [|x [|]]; destruct l' as [|y [|]]; cbn in *; try reflexivity; exfalso; tauto.
Qed.
Lemma broadcast_same l : broadcast_eq l l = Some true.
Proof. unfold broadcast_eq. rewrite Nat.eqb_refl. f_equal. apply reals_eq. reflexivity. Qed.

(** ** the two loops *)
Lemma args_ok np a b args : (forall k, In k args -> exists v w, dget a k = Some v /\ dget b k = Some w /\ exists c, arg_eq np k v w = Ok c) -> exists c, args_eq np a b args = Ok c.
Proof.
  induction args as [|k args IH]; intros H; [eexists; reflexivity|]. cbn [args_eq].
  destruct (H k (or_introl eq_refl)) as (v & w & -> & -> & c & ->). destruct IH as (c' & ->); [intros; apply H; right; assumption|]. eexists. reflexivity.
Qed.
Lemma args_true np a b args : args_eq np a b args = Ok true <->
  forall k, In k args -> exists v w, dget a k = Some v /\ dget b k = Some w /\ arg_eq np k v w = Ok true.
Proof.
  induction args as [|k args IH]; [split; [intros _ k []|reflexivity]|]. cbn [args_eq]. split.
  - intros E. destruct (dget a k) as [v|] eqn:A; [|discriminate]. destruct (dget b k) as [w|] eqn:B; [|discriminate].
    destruct (arg_eq np k v w) as [c|] eqn:C; [|discriminate]. cbn [bind] in E. destruct (args_eq np a b args) as [c'|]; [|discriminate]. cbn [bind] in E.
    injection E as E. apply andb_true_iff in E as (-> & ->). intros k' [<-|Hk]; [exists v, w; auto|]. apply IH; auto.
  - intros H. destruct (H k (or_introl eq_refl)) as (v & w & -> & -> & ->). rewrite (proj2 IH) by (intros; apply H; right; assumption). reflexivity.
Qed.
Lemma args_missing np a b args k : In k args -> dget a k = None -> exists e, args_eq np a b args = Err e.
Proof.
  induction args as [|k' args IH]; intros Hk N; [destruct Hk|]. cbn [args_eq]. destruct (dget a k') as [v|] eqn:A; [|eexists; reflexivity].
  destruct (dget b k') as [w|]; [|eexists; reflexivity]. destruct (arg_eq np k' v w); [|eexists; reflexivity]. cbn [bind].
  destruct Hk as [->|Hk]; [congruence|]. destruct (IH Hk N) as (e & ->). eexists. reflexivity.
Qed.
Lemma attrs_ok np a b attrs : (forall k, In k attrs -> exists v w, dget a k = Some v /\ dget b k = Some w /\ exists c, attr_eq np v w = Ok c) -> exists c, attrs_eq np a b attrs = Ok c.
Proof.
  induction attrs as [|k attrs IH]; intros H; [eexists; reflexivity|]. cbn [attrs_eq].
  destruct (H k (or_introl eq_refl)) as (v & w & -> & -> & c & ->). cbn [bind]. destruct c; [|eexists; reflexivity]. apply IH. intros; apply H; right; assumption.
Qed.
Lemma attrs_true np a b attrs : attrs_eq np a b attrs = Ok true <->
  forall k, In k attrs -> exists v w, dget a k = Some v /\ dget b k = Some w /\ attr_eq np v w = Ok true.
Proof.
  induction attrs as [|k attrs IH]; [split; [intros _ k []|reflexivity]|]. cbn [attrs_eq]. split.
  - intros E. destruct (dget a k) as [v|] eqn:A; [|discriminate]. destruct (dget b k) as [w|] eqn:B; [|discriminate].
    destruct (attr_eq np v w) as [c|] eqn:C; [|discriminate]. cbn [bind] in E. destruct c; [|discriminate].
    intros k' [<-|Hk]; [exists v, w; auto|]. apply IH; auto.
  - intros H. destruct (H k (or_introl eq_refl)) as (v & w & -> & -> & ->). cbn [bind]. apply IH. intros; apply H; right; assumption.
Qed.

(** ** the attributes of a bearing *)
Definition bkeys : list string := ["frequency"; "kxx"; "kyy"; "kxy"; "kyx"; "cxx"; "cyy"; "cxy"; "cyx"; "mxx"; "myy"; "mxy"; "myx"; "n"; "n_link"; "tag"; "color"; "scale_factor"]%string.
Lemma base_get o k : In k bkeys -> dget (brg_attrs o) k = dget (base_dict (brg_of o)) k.
Proof. intros H. cbn in H. repeat destruct H as [<-|H]; try reflexivity. destruct H. Qed.
Lemma get_coef o c : dget (brg_attrs o) (cname_str c) = Some (TList (fst (b_coef (brg_of o) c))).
Proof. destruct c; reflexivity. Qed.
Lemma get_freq o : dget (brg_attrs o) "frequency" = Some (oList (b_frequency (brg_of o))).
Proof. reflexivity. Qed.

(** ** what a constructor guarantees *)
Definition table_length (f : option (list R)) : nat := match f with Some f => length f | None => 1%nat end.
Record sound (b : bearing) : Prop := {
  sd_process : forall c, process_coefficient (b_frequency b) (CArr (fst (b_coef b c))) = Ok (b_coef b c);
  sd_length : forall c, length (fst (b_coef b c)) = table_length (b_frequency b) }.
Lemma init_sound a b : bearing_init a = Ok b -> sound b.
Proof.
  intros I. destruct (bearing_init_ok _ _ I) as (_ & _ & _ & _ & _ & F & P).
  assert (OK : is_ok (bearing_init a)) by (exists b; exact I). pose proof (proj1 (bearing_init_iff a) OK) as L.
  split; intros c; rewrite F.
  - apply (process_again _ _ _ (P c)).
  - destruct (L c) as (p & E & Ln). rewrite P in E. injection E as E. rewrite <- E in Ln. exact Ln.
Qed.
Lemma tag_sound b b' : sound b -> same_but_tag b b' -> sound b'.
Proof. intros [P L] (t & ->). split; cbn [b_frequency b_coef]; assumption. Qed.
Lemma built_sound o : built_brg o -> sound (brg_of o).
Proof.
  destruct o as [b|s|b|a b|sp w l d c v b|c b]; cbn [built_brg brg_of].
  - intros (a & b0 & I & T). exact (tag_sound _ _ (init_sound _ _ I) T).
  - intros (a & lk & s0 & I & T & _). unfold seal_init in I. destruct (bearing_init _) as [b|] eqn:B; [|discriminate]. cbn [bind] in I. injection I as <-. exact (tag_sound _ _ (init_sound _ _ B) T).
  - intros (a & k & c & m & b0 & I & T & _). unfold bearing6_init in I. destruct (bearing_init a) as [bb|] eqn:B; [|discriminate]. cbn [bind] in I.
    destruct (process_coefficient _ k); [|discriminate]. destruct (process_coefficient _ c); [|discriminate]. destruct (process_coefficient _ m); [|discriminate]. cbn [bind] in I.
    destruct (length_check _ _); [|discriminate]. injection I as <-. cbn [b6] in T. exact (tag_sound _ _ (init_sound _ _ B) T).
  - intros (n & t & l & sc & b0 & I & T). unfold magnetic_init in I. destruct (mag_coefs a) as [[[[x1 x2] x3] x4]|]; [|discriminate]. cbn [bind] in I. exact (tag_sound _ _ (init_sound _ _ I) T).
  - intros (a & b0 & I & T). exact (tag_sound _ _ (init_sound _ _ I) T).
  - intros (a & b0 & I & T). exact (tag_sound _ _ (init_sound _ _ I) T).
Qed.
Lemma sound_same b b' : sound b -> sound b' -> b_n b = b_n b' -> b_n_link b = b_n_link b' -> b_tag b = b_tag b' -> b_color b = b_color b' -> b_scale_factor b = b_scale_factor b' ->
  b_frequency b = b_frequency b' -> (forall c, fst (b_coef b c) = fst (b_coef b' c)) -> b = b'.
Proof.
  intros [P _] [P' _] E1 E2 E3 E4 E5 E6 EC. destruct b as [n l t co sc f cf], b' as [n' l' t' co' sc' f' cf']. cbn [b_n b_n_link b_tag b_color b_scale_factor b_frequency b_coef] in *. subst.
  f_equal. extensionality c. specialize (P c). specialize (P' c). rewrite EC, P' in P. congruence.
Qed.
Lemma entries_pos o : sound (brg_of o) -> (1 <= entries o)%nat.
Proof.
  intros [P L]. unfold entries. specialize (P kxx). destruct (fst (b_coef (brg_of o) kxx)); [|cbn; lia]. cbn in P. destruct (b_frequency (brg_of o)); discriminate.
Qed.
