(** Numbering and naming of the shaft elements of a co-axial rotor. *)
From Coq Require Import Reals String List Bool Arith ZArith Lia Lra Permutation Sorted.
From Verif Require Import PyBase MatBase MMaterial MShaft MDisk MBearing MRotor MShare SpecRotor LAssembly LRotor LRotor2 MCoax SpecCoax.
Import ListNotations.
Open Scope list_scope.
Open Scope R_scope.

Lemma upd_same {A} (f : ref -> A) x v : upd f x v x = v.
Proof. unfold upd. rewrite Nat.eqb_refl. reflexivity. Qed.
Lemma upd_other {A} (f : ref -> A) x y v : y <> x -> upd f x v y = f y.
Proof. intros H. unfold upd. destruct (Nat.eqb_spec y x); congruence. Qed.

Lemma name_shaft_out st an at_ shaft : forall i nm x, ~ In x shaft -> name_shaft st an at_ i shaft nm x = nm x.
Proof.
  induction shaft as [|y shaft IH]; intros i nm x H; [reflexivity|]. cbn [name_shaft]. rewrite IH by (intros K; apply H; right; exact K).
  unfold name_one. apply upd_other. intros ->. apply H. left. reflexivity.
Qed.
Lemma name_shaft_in st an at_ shaft : forall i nm k x, NoDup shaft -> nth_error shaft k = Some x ->
  name_shaft st an at_ i shaft nm x =
  (Some (default (i + k + an)%nat (fst (nm x))), Some (default (sh_class (st x) ++ " " ++ zstr (Z.of_nat (i + k) + at_))%string (snd (nm x)))).
Proof.
  induction shaft as [|y shaft IH]; intros i nm k x D E; [destruct k; discriminate|]. cbn [name_shaft]. inversion D as [|? ? D1 D2]; subst.
  destruct k as [|k]; cbn [nth_error] in E.
  - injection E as ->. rewrite name_shaft_out by exact D1. unfold name_one. rewrite upd_same, Nat.add_0_r.
    destruct (fst (nm x)), (snd (nm x)); reflexivity.
  - rewrite (IH _ _ _ _ D2 E). unfold name_one. rewrite upd_other by (intros ->; apply D1; eapply nth_error_In; eauto).
    replace (S i + k)%nat with (i + S k)%nat by lia. reflexivity.
Qed.

Lemma name_shafts_out st shafts : forall an at_ j nm x, ~ In x (concat shafts) -> fst (name_shafts st an at_ j shafts nm) x = nm x.
Proof.
  induction shafts as [|s shafts IH]; intros an at_ j nm x H; [reflexivity|]. cbn [name_shafts concat] in *.
  assert (H1 : ~ In x s) by (intros K; apply H, in_or_app; auto). assert (H2 : ~ In x (concat shafts)) by (intros K; apply H, in_or_app; auto).
  destruct (rev s); cbn [fst]; [apply name_shaft_out; exact H1|]. rewrite IH by exact H2. apply name_shaft_out. exact H1.
Qed.

Lemma nodup_app_l {A} (l1 l2 : list A) : NoDup (l1 ++ l2) -> NoDup l1.
Proof. induction l1 as [|x l1 IH]; intros H; [constructor|]. inversion H; subst. constructor; [intros K; apply H2, in_or_app; auto|auto]. Qed.
Lemma nodup_app_r {A} (l1 l2 : list A) : NoDup (l1 ++ l2) -> NoDup l2.
Proof. induction l1 as [|x l1 IH]; intros H; [exact H|]. inversion H; subst. auto. Qed.
Lemma nodup_app_disj {A} (l1 l2 : list A) x : NoDup (l1 ++ l2) -> In x l1 -> ~ In x l2.
Proof. induction l1 as [|y l1 IH]; intros H K; [destruct K|]. inversion H; subst. destruct K as [->|K]; [intros Q; apply H2, in_or_app; auto|auto]. Qed.

Lemma rev_last {A} (s : list A) x l : rev s = x :: l -> nth_error s (length s - 1) = Some x.
Proof.
  intros E. assert (s = rev l ++ [x]) by (rewrite <- (rev_involutive s), E; reflexivity). subst s.
  rewrite app_length, nth_error_app2; cbn; [|lia]. replace (length (rev l) + 1 - 1 - length (rev l))%nat with 0%nat by lia. reflexivity.
Qed.

(** default numbers: place in the shaft, after all nodes of the shafts before *)
Lemma name_shafts_n st shafts : forall an at_ j0 nm, proper shafts -> (forall x, In x (concat shafts) -> fst (nm x) = None) ->
  snd (name_shafts st an at_ j0 shafts nm) = Ok tt /\
  forall j k s x, nth_error shafts j = Some s -> nth_error s k = Some x ->
    fst (fst (name_shafts st an at_ j0 shafts nm) x) = Some (an + first_node shafts j + k)%nat.
Proof.
  induction shafts as [|s shafts IH]; intros an at_ j0 nm [P1 P2] Hn.
  - split; [reflexivity|]. intros [|j]; discriminate.
  - cbn [name_shafts]. cbn [concat] in *. pose proof (P1 s (or_introl eq_refl)) as Hs.
    destruct (rev s) as [|y l] eqn:Er; [exfalso; apply Hs; rewrite <- (rev_involutive s), Er; reflexivity|].
    pose proof (rev_last _ _ _ Er) as El. pose proof (nodup_app_l _ _ P2) as D.
    assert (Ey : fst (name_shaft st an at_ 0 s nm y) = Some (length s - 1 + an)%nat).
    { rewrite (name_shaft_in _ _ _ _ _ _ _ _ D El). cbn [fst]. rewrite (Hn y); [reflexivity|]. apply in_or_app. left. eapply nth_error_In; eauto. }
    rewrite Ey. assert (Hlen : (0 < length s)%nat) by (destruct s; [congruence|cbn; lia]).
    destruct (IH (S (S (length s - 1 + an))) (Z.of_nat (S (length s - 1 + an)) - Z.of_nat j0)%Z (S j0) (name_shaft st an at_ 0 s nm)) as [I1 I2].
    + split; [intros t Ht; apply P1; right; exact Ht|exact (nodup_app_r _ _ P2)].
    + intros x Hx. rewrite name_shaft_out; [apply Hn, in_or_app; right; exact Hx|]. intros K. exact (nodup_app_disj _ _ _ P2 K Hx).
    + split; [exact I1|]. intros [|j] k s' x E1 E2; cbn [nth_error] in E1.
      * injection E1 as <-. rewrite name_shafts_out by (apply (nodup_app_disj _ _ _ P2); eapply nth_error_In; eauto).
        rewrite (name_shaft_in _ _ _ _ _ _ _ _ D E2). cbn [fst first_node]. rewrite (Hn x); [cbn [default]; f_equal; lia|].
        apply in_or_app. left. eapply nth_error_In; eauto.
      * rewrite (I2 _ _ _ _ E1 E2). cbn [first_node]. f_equal. lia.
Qed.

(** default tags: place in the list of all elements *)
Lemma name_shafts_t st shafts : forall cnt j0 nm, proper shafts -> (forall x, In x (concat shafts) -> nm x = (None, None)) ->
  forall j k s x, nth_error shafts j = Some s -> nth_error s k = Some x ->
    snd (fst (name_shafts st (cnt + j0) (Z.of_nat cnt) j0 shafts nm) x) = Some (sh_class (st x) ++ " " ++ str (cnt + rank shafts j k))%string.
Proof.
  induction shafts as [|s shafts IH]; intros cnt j0 nm [P1 P2] Hn; [intros [|j]; discriminate|].
  cbn [name_shafts]. cbn [concat] in *. pose proof (P1 s (or_introl eq_refl)) as Hs.
  destruct (rev s) as [|y l] eqn:Er; [exfalso; apply Hs; rewrite <- (rev_involutive s), Er; reflexivity|].
  pose proof (rev_last _ _ _ Er) as El. pose proof (nodup_app_l _ _ P2) as D.
  assert (Ey : fst (name_shaft st (cnt + j0) (Z.of_nat cnt) 0 s nm y) = Some (length s - 1 + (cnt + j0))%nat).
  { rewrite (name_shaft_in _ _ _ _ _ _ _ _ D El). cbn [fst]. rewrite (Hn y); [reflexivity|]. apply in_or_app. left. eapply nth_error_In; eauto. }
  rewrite Ey. assert (Hlen : (0 < length s)%nat) by (destruct s; [congruence|cbn; lia]).
  replace (S (S (length s - 1 + (cnt + j0)))) with ((cnt + length s) + S j0)%nat by lia.
  replace (Z.of_nat (S (length s - 1 + (cnt + j0))) - Z.of_nat j0)%Z with (Z.of_nat (cnt + length s)) by lia.
  intros [|j] k s' x E1 E2; cbn [nth_error] in E1.
  - injection E1 as <-. rewrite name_shafts_out by (apply (nodup_app_disj _ _ _ P2); eapply nth_error_In; eauto).
    rewrite (name_shaft_in _ _ _ _ _ _ _ _ D E2), (Hn x) by (apply in_or_app; left; eapply nth_error_In; eauto). cbn [snd default].
    unfold rank. cbn [firstn concat length]. unfold zstr. destruct (Z.ltb_spec (Z.of_nat (0 + k) + Z.of_nat cnt) 0); [lia|].
    replace (Z.to_nat (Z.of_nat (0 + k) + Z.of_nat cnt)) with (cnt + (0 + k))%nat by lia. reflexivity.
  - rewrite (IH (cnt + length s)%nat (S j0) _) with (j := j) (k := k) (s := s'); auto.
    + unfold rank. cbn [firstn concat]. rewrite app_length, !Nat.add_assoc. reflexivity.
    + split; [intros t Ht; apply P1; right; exact Ht|exact (nodup_app_r _ _ P2)].
    + intros z Hz. rewrite name_shaft_out; [apply Hn, in_or_app; right; exact Hz|]. intros K. exact (nodup_app_disj _ _ _ P2 K Hz).
Qed.

(** objects that have a number keep it *)
Lemma name_shaft_keep st an at_ shaft : forall i nm x n, fst (nm x) = Some n -> fst (name_shaft st an at_ i shaft nm x) = Some n.
Proof.
  induction shaft as [|y shaft IH]; intros i nm x n H; [exact H|]. cbn [name_shaft]. apply IH. unfold name_one.
  destruct (Nat.eq_dec x y) as [<-|N]; [rewrite upd_same; cbn [fst]; rewrite H; reflexivity|rewrite upd_other by exact N; exact H].
Qed.
Lemma name_shafts_keep st shafts : forall an at_ j nm x n, fst (nm x) = Some n -> fst (fst (name_shafts st an at_ j shafts nm) x) = Some n.
Proof.
  induction shafts as [|s shafts IH]; intros an at_ j nm x n H; [exact H|]. cbn [name_shafts].
  destruct (rev s); cbn [fst]; [apply name_shaft_keep; exact H|]. apply IH, name_shaft_keep, H.
Qed.
Lemma name_shaft_some st an at_ shaft : forall i nm x, In x shaft -> exists n, fst (name_shaft st an at_ i shaft nm x) = Some n.
Proof.
  induction shaft as [|y shaft IH]; intros i nm x H; [destruct H|]. cbn [name_shaft]. destruct H as [->|H]; [|apply IH; exact H].
  destruct (fst (name_one st an at_ i x nm x)) as [n|] eqn:E.
  - exists n. apply name_shaft_keep. exact E.
  - exfalso. unfold name_one in E. rewrite upd_same in E. cbn in E. destruct (fst (nm x)); discriminate.
Qed.
