(** Well-formed input is accepted. *)
From Coq Require Import Reals String List Arith Bool Lia Lra Permutation Sorted Psatz.
From Verif Require Import PyBase MatBase SpecMat MShaft MDisk MBearing MRotor SpecRotor LAssembly LRotor LRotor2 LRotorPos LRotor5.
Import ListNotations.
Open Scope list_scope.
Open Scope R_scope.

Lemma tags_unique_iff l : tags_unique l = true <-> NoDup l.
Proof.
  induction l as [|t l IH]; simpl; [split; [constructor|reflexivity]|].
  rewrite andb_true_iff, negb_true_iff, IH. split.
  - intros [H1 H2]. constructor; auto. intros Hin. assert (existsb (String.eqb t) l = true); [|congruence].
    apply existsb_exists. exists t. split; auto. apply String.eqb_refl.
  - intros H. inversion H; subst. split; auto. destruct (existsb (String.eqb t) l) eqn:E; auto.
    apply existsb_exists in E as (u & Hu & E). apply String.eqb_eq in E. subst. contradiction.
Qed.

Section Locate.
Variables (sh dk br pm : list elem) (last : nat) (P : nat -> R).
Hypothesis Hsh : forall e, In e sh -> exists six n t s, e = EShaft six n t s.
Hypothesis Hdk : forall e, In e dk -> exists six t d, e = EDisk six t d.
Hypothesis Hbr : forall e, In e br -> exists t b, e = EBrg t b.
Hypothesis Hpm : forall e, In e pm -> exists six t p, e = EPm six t p.
Hypothesis Htags : NoDup (map el_tag (sh ++ dk ++ br ++ pm)).
Hypothesis Hn : forall e, In e sh -> (el_n e <= last)%nat.
Hypothesis Hcover : forall k, (k <= last)%nat -> exists e, In e sh /\ el_n e = k.
Hypothesis Hd : forall e, In e dk -> (el_n e <= last + 1)%nat.
Hypothesis Hbn : NoDup (map el_n br).
Hypothesis Hb : forall e, In e br -> (el_n e <= last + 1)%nat \/ exists b', In b' br /\ el_link b' = Some (el_n e).
Hypothesis Hlink : forall e m, In e br -> el_link e = Some m -> (el_n e < m)%nat \/ (m <= last + 1)%nat.
Hypothesis Hsorted : StronglySorted le_n br.
Hypothesis HP : forall n m, (n < m <= last + 1)%nat -> P n < P m.
Let els := sh ++ dk ++ br ++ pm.

Definition e_nl (e : elem) : option nat := match e with EPm _ _ _ => None | _ => Some (el_n e) end.
Definition e_nr (e : elem) : option nat := match e with EPm _ _ _ => None | EShaft _ n _ _ => Some (S n) | _ => Some (el_n e) end.
Definition row_for (e : elem) (r : row) : Prop :=
  w_tag r = el_tag e /\ w_nl r = e_nl e /\ w_nr r = e_nr e /\ w_link r = el_link e.
Lemma elem_row_for e p q : row_for e (elem_row e p q).
Proof. destruct e as [? ? ? ?|? ? ?|? ?|? ? ?]; repeat split. Qed.

Inductive loc : nat -> R -> Prop :=
| loc_s n : (n <= last + 1)%nat -> loc n (P n)
| loc_l b n z : In b br -> el_link b = Some n -> (last + 1 < n)%nat -> loc (el_n b) z -> loc n z.

Lemma loc_shaft n z : loc n z -> (n <= last + 1)%nat -> z = P n.
Proof. intros [m Hm|b m z1 Hi Hl Hg Hz] Hle; [reflexivity|lia]. Qed.
Lemma loc_root n z : loc n z -> (exists b, In b br /\ el_n b = n) -> exists b, In b br /\ (el_n b <= last + 1)%nat /\ z = P (el_n b) /\ (el_n b <= n)%nat.
Proof.
  induction 1 as [n H|b n z Hin Hl Hgt Hloc IH]; intros Hex.
  - destruct Hex as (b & Hin & <-). exists b. auto.
  - destruct IH as (b' & A & B & C & D); [eauto|]. exists b'. repeat split; auto. lia.
Qed.

Lemma tag_inj e e' : In e els -> In e' els -> el_tag e = el_tag e' -> e = e'.
Proof.
  unfold els. revert Htags. generalize (sh ++ dk ++ br ++ pm). induction l as [|x l IH]; simpl; [tauto|].
  intros Hnd. inversion Hnd as [|? ? Hx Hl]; subst. intros [->|He] [->|He'] Ht; auto.
  - exfalso. apply Hx. rewrite Ht. apply in_map. auto.
  - exfalso. apply Hx. rewrite <- Ht. apply in_map. auto.
Qed.
Lemma node_brg_inj e e' : In e br -> In e' br -> el_n e = el_n e' -> e = e'.
Proof.
  revert Hbn. generalize br. intros l. induction l as [|x l IH]; simpl; [tauto|].
  intros Hnd. inversion Hnd as [|? ? Hx Hl]; subst. intros [->|He] [->|He'] Ht; auto.
  - exfalso. apply Hx. rewrite Ht. apply in_map. auto.
  - exfalso. apply Hx. rewrite <- Ht. apply in_map. auto.
Qed.

Definition placed (done : list elem) (e : elem) (r : row) : Prop :=
  match e with
  | EShaft _ n _ _ => w_pl r = Some (P n) /\ w_pr r = Some (P (S n))
  | EDisk _ _ d => w_pl r = Some (P (d_n d)) /\ w_pr r = Some (P (d_n d))
  | EBrg _ _ => In e done -> exists z, w_pl r = Some z /\ w_pr r = Some z /\ loc (el_n e) z
  | EPm _ _ _ => True
  end.
Definition Inv (done : list elem) (df : list row) : Prop :=
  (forall e, In e els -> exists r, In r df /\ row_for e r) /\
  (forall r, In r df -> exists e, In e els /\ row_for e r /\ placed done e r).

Lemma els_cases e : In e els -> In e sh \/ In e dk \/ In e br \/ In e pm.
Proof. unfold els. rewrite !in_app_iff. auto. Qed.
Lemma in_br_els e : In e br -> In e els. Proof. unfold els. rewrite !in_app_iff. auto. Qed.
Lemma in_sh_els e : In e sh -> In e els. Proof. unfold els. rewrite !in_app_iff. auto. Qed.

Lemma set_inv done df b z : Inv done df -> In b br -> loc (el_n b) z -> Inv (done ++ [b]) (set_pos (el_tag b) (Some z) df).
Proof.
  intros [I1 I2] Hbin Hz. unfold set_pos. split.
  - intros e He. destruct (I1 e He) as (r & Hr & F). eexists. split; [apply in_map; exact Hr|].
    cbv beta. destruct (String.eqb_spec (w_tag r) (el_tag b)); [|exact F]. exact F.
  - intros r' Hr'. apply in_map_iff in Hr' as (r & <- & Hr). destruct (I2 r Hr) as (e & He & F & Pl). exists e. split; [exact He|].
    destruct (String.eqb_spec (w_tag r) (el_tag b)) as [Et|Et].
    + split; [exact F|]. assert (e = b).
      { apply tag_inj; auto using in_br_els. destruct F as (Ft & _). congruence. }
      subst e. destruct (Hbr b Hbin) as (t & bb & ->). intros _. exists z. auto.
    + split; [exact F|]. destruct e as [? ? ? ?|? ? ?|? ?|? ? ?]; auto. intros Hin. apply Pl. apply in_app_iff in Hin as [Hin|[E|[]]]; [exact Hin|].
      exfalso. apply Et. destruct F as (Ft & _). rewrite Ft, E. reflexivity.
Qed.

Lemma locate_step done df b todo : br = done ++ b :: todo -> Inv done df ->
  exists df', locate_one df b = Ok df' /\ Inv (done ++ [b]) df'.
Proof.
  intros Ebr I. assert (Hbin : In b br) by (rewrite Ebr; apply in_or_app; right; left; reflexivity).
  unfold locate_one. set (other := filter _ df).
  assert (Ho : forall r, In r other -> exists e, In e els /\ e <> b /\ row_for e r /\ placed done e r).
  { intros r Hr. apply filter_In in Hr as [Hr Ht]. destruct I as [_ I2]. destruct (I2 r Hr) as (e & He & F & Pl).
    exists e. repeat split; auto; try apply F. intros ->. destruct F as (F & _). rewrite F, String.eqb_refl in Ht. discriminate. }
  assert (Hoe : forall e, In e els -> e <> b -> exists r, In r other /\ row_for e r).
  { intros e He Hne. destruct I as [I1 _]. destruct (I1 e He) as (r & Hr & F). exists r. split; [|exact F]. apply filter_In. split; [exact Hr|].
    apply negb_true_iff. destruct (String.eqb_spec (w_tag r) (el_tag b)) as [E|]; [|reflexivity]. exfalso. apply Hne.
    apply tag_inj; auto using in_br_els. destruct F as (F & _). congruence. }
  assert (Hdone : forall b', In b' br -> (el_n b' < el_n b)%nat -> In b' done).
  { intros b' Hb' Hlt. rewrite Ebr in Hb'. apply in_app_iff in Hb' as [|Hb']; [auto|]. exfalso.
    rewrite Ebr in Hsorted. clear - Hsorted Hb' Hlt. induction done as [|x l IH]; simpl in *.
    - inversion Hsorted as [|? ? H1 H2]; subst. destruct Hb' as [->|Hb']; [lia|]. rewrite Forall_forall in H2. specialize (H2 _ Hb'). unfold le_n in H2. lia.
    - inversion Hsorted; subst. auto. }
  (* rows whose left (right) node is that of b *)
  assert (Hnl : forall r, In r other -> w_nl r = Some (el_n b) -> (el_n b <= last + 1)%nat /\ w_pl r = Some (P (el_n b))).
  { intros r Hr E. destruct (Ho r Hr) as (e & He & Hne & (F1 & F2 & F3 & F4) & Pl). rewrite F2 in E.
    apply els_cases in He as [He|[He|[He|He]]].
    - destruct (Hsh e He) as (six & n & t & s & ->). injection E as E. specialize (Hn _ He). simpl in Hn. destruct Pl as [Pl _]. rewrite <- E. split; [lia|exact Pl].
    - destruct (Hdk e He) as (six & t & d & ->). injection E as E. specialize (Hd _ He). simpl in Hd. destruct Pl as [Pl _]. rewrite <- E. split; [lia|exact Pl].
    - exfalso. apply Hne. apply node_brg_inj; auto. destruct (Hbr e He) as (t & bb & ->). injection E; auto.
    - destruct (Hpm e He) as (six & t & p & ->). discriminate. }
  assert (Hnr : forall r, In r other -> w_nr r = Some (el_n b) -> (el_n b <= last + 1)%nat /\ w_pr r = Some (P (el_n b))).
  { intros r Hr E. destruct (Ho r Hr) as (e & He & Hne & (F1 & F2 & F3 & F4) & Pl). rewrite F3 in E.
    apply els_cases in He as [He|[He|[He|He]]].
    - destruct (Hsh e He) as (six & n & t & s & ->). injection E as E. specialize (Hn _ He). simpl in Hn. destruct Pl as [_ Pl]. rewrite <- E. split; [lia|exact Pl].
    - destruct (Hdk e He) as (six & t & d & ->). injection E as E. specialize (Hd _ He). simpl in Hd. destruct Pl as [_ Pl]. rewrite <- E. split; [lia|exact Pl].
    - exfalso. apply Hne. apply node_brg_inj; auto. destruct (Hbr e He) as (t & bb & ->). injection E; auto.
    - destruct (Hpm e He) as (six & t & p & ->). discriminate. }
  assert (Hfil : forall g (o : option R) l' (proj : row -> option R), map proj (filter (fun r => onat_is (g r) (el_n b)) other) = o :: l' ->
     exists r, In r other /\ g r = Some (el_n b) /\ proj r = o).
  { intros g o l' proj E. destruct (filter _ other) as [|r l] eqn:Ef; [discriminate|]. injection E as E _.
    assert (Hin : In r (filter (fun r => onat_is (g r) (el_n b)) other)) by (rewrite Ef; left; reflexivity).
    apply filter_In in Hin as [Hin Hg]. exists r. repeat split; auto. unfold onat_is in Hg. destruct (g r) as [m|]; [|discriminate]. apply Nat.eqb_eq in Hg. congruence. }
  assert (Hin_fil : forall g r, In r other -> g r = Some (el_n b) -> In r (filter (fun r => onat_is (g r) (el_n b)) other)).
  { intros g r Hr Eg. apply filter_In. split; [exact Hr|]. unfold onat_is. rewrite Eg. apply Nat.eqb_refl. }
  destruct (map w_pl (filter (fun r => onat_is (w_nl r) (el_n b)) other)) as [|p l1] eqn:E1.
  - destruct (map w_pr (filter (fun r => onat_is (w_nr r) (el_n b)) other)) as [|p l2] eqn:E2.
    + destruct (map w_pl (filter (fun r => onat_is (w_link r) (el_n b)) other)) as [|p l3] eqn:E3.
      * (* impossible *) exfalso. destruct (Nat.le_gt_cases (el_n b) (last + 1)) as [Hle|Hgt].
        -- assert (Hex : exists e, In e sh /\ (el_n e = el_n b \/ S (el_n e) = el_n b)).
           { destruct (Nat.eq_dec (el_n b) (last + 1)) as [E|]; [destruct (Hcover last ltac:(lia)) as (e & ? & ?)|destruct (Hcover (el_n b) ltac:(lia)) as (e & ? & ?)]; exists e; split; auto; lia. }
           destruct Hex as (e & He & Hor). destruct (Hsh e He) as (six & n & t & s & ->).
           assert (Hnb : EShaft six n t s <> b) by (destruct (Hbr b Hbin) as (? & ? & ->); discriminate).
           destruct (Hoe _ (in_sh_els _ He) Hnb) as (r & Hr & F1 & F2 & F3 & F4). destruct Hor as [Ho1|Ho1].
           ++ assert (X := Hin_fil w_nl r Hr ltac:(rewrite F2; simpl in *; congruence)). apply (in_map w_pl) in X. rewrite E1 in X. destruct X.
           ++ assert (X := Hin_fil w_nr r Hr ltac:(rewrite F3; simpl in *; congruence)). apply (in_map w_pr) in X. rewrite E2 in X. destruct X.
        -- destruct (Hb b Hbin) as [|(b' & Hb' & El)]; [lia|]. destruct (Hlink b' _ Hb' El) as [Hlt|]; [|lia].
           assert (Hnb : b' <> b) by (intros ->; lia). destruct (Hoe _ (in_br_els _ Hb') Hnb) as (r & Hr & F1 & F2 & F3 & F4).
           assert (X := Hin_fil w_link r Hr ltac:(rewrite F4; exact El)). apply (in_map w_pl) in X. rewrite E3 in X. destruct X.
      * destruct (Hfil w_link p l3 w_pl E3) as (r & Hr & Eg & Ep). destruct (Ho r Hr) as (e & He & Hne & (F1 & F2 & F3 & F4) & Pl).
        rewrite F4 in Eg. assert (He' : In e br).
        { apply els_cases in He as [He|[He|[He|He]]]; [| |exact He|].
          - destruct (Hsh e He) as (? & ? & ? & ? & ->); discriminate.
          - destruct (Hdk e He) as (? & ? & ? & ->); discriminate.
          - destruct (Hpm e He) as (? & ? & ? & ->); discriminate. }
        assert (Hgt : (last + 1 < el_n b)%nat).
        { destruct (Nat.le_gt_cases (el_n b) (last + 1)) as [Hle|]; [|auto]. exfalso.
          assert (Hex : exists e, In e sh /\ (el_n e = el_n b \/ S (el_n e) = el_n b)).
          { destruct (Nat.eq_dec (el_n b) (last + 1)) as [E|]; [destruct (Hcover last ltac:(lia)) as (e' & ? & ?)|destruct (Hcover (el_n b) ltac:(lia)) as (e' & ? & ?)]; exists e'; split; auto; lia. }
          destruct Hex as (e' & He2 & Hor). destruct (Hsh e' He2) as (six & n & t & s & ->).
          assert (Hnb : EShaft six n t s <> b) by (destruct (Hbr b Hbin) as (? & ? & ->); discriminate).
          destruct (Hoe _ (in_sh_els _ He2) Hnb) as (r' & Hr' & F1' & F2' & F3' & F4'). destruct Hor as [Ho1|Ho1].
          - assert (X := Hin_fil w_nl r' Hr' ltac:(rewrite F2'; simpl in *; congruence)). apply (in_map w_pl) in X. rewrite E1 in X. destruct X.
          - assert (X := Hin_fil w_nr r' Hr' ltac:(rewrite F3'; simpl in *; congruence)). apply (in_map w_pr) in X. rewrite E2 in X. destruct X. }
        destruct (Hlink e _ He' Eg) as [Hlt|]; [|lia].
        assert (Hd' : In e done) by (apply Hdone; auto).
        destruct (Hbr e He') as (t & bb & ->). destruct (Pl Hd') as (z & Z1 & Z2 & Z3).
        rewrite Z1 in Ep. subst p. eexists. split; [reflexivity|]. apply set_inv; auto.
        eapply loc_l; eauto.
    + destruct (Hfil w_nr p l2 w_pr E2) as (r & Hr & Eg & Ep). destruct (Hnr r Hr Eg) as [Hle E]. rewrite E in Ep. subst p.
      eexists. split; [reflexivity|]. apply set_inv; auto. constructor. exact Hle.
  - destruct (Hfil w_nl p l1 w_pl E1) as (r & Hr & Eg & Ep). destruct (Hnl r Hr Eg) as [Hle E]. rewrite E in Ep. subst p.
    exists (set_pos (el_tag b) (Some (P (el_n b))) df). split; [reflexivity|]. apply set_inv; auto. constructor. exact Hle.
Qed.

Lemma locate_ok todo : forall done df, br = done ++ todo -> Inv done df -> exists df', locate_all df todo = Ok df' /\ Inv br df'.
Proof.
  induction todo as [|b todo IH]; intros done df Ebr I.
  - exists df. split; [reflexivity|]. rewrite Ebr, app_nil_r. exact I.
  - destruct (locate_step done df b todo Ebr I) as (df' & E & I'). simpl. rewrite E. simpl.
    apply (IH (done ++ [b])); [rewrite <- app_assoc; exact Ebr|exact I'].
Qed.

Lemma row_pos_loc df b : Inv br df -> In b br -> exists z, row_pos df (el_tag b) = Some z /\ loc (el_n b) z.
Proof.
  intros [I1 I2] Hbin. unfold row_pos. destruct (find _ df) as [r|] eqn:Ef.
  - apply find_some in Ef as [Hr Ht]. apply String.eqb_eq in Ht. destruct (I2 r Hr) as (e & He & F & Pl).
    assert (e = b) by (apply tag_inj; auto using in_br_els; destruct F as (Ft & _); congruence). subst e.
    destruct (Hbr b Hbin) as (t & bb & ->). destruct (Pl Hbin) as (z & Z1 & Z2 & Z3). eauto.
  - exfalso. destruct (I1 b (in_br_els _ Hbin)) as (r & Hr & F & _). apply (find_none _ _ Ef) in Hr. rewrite F, String.eqb_refl in Hr. discriminate.
Qed.

Lemma fold_min_in n0 l : In (fold_right Nat.min n0 l) (n0 :: l).
Proof.
  induction l; simpl; [auto|]. destruct (Nat.min_spec a (fold_right Nat.min n0 l)) as [[_ ->]|[_ ->]]; [auto|].
  destruct IHl as [<-|]; auto.
Qed.
Lemma fold_min_le n0 l x : In x (n0 :: l) -> (fold_right Nat.min n0 l <= x)%nat.
Proof. revert x. induction l; simpl; intros x H; [destruct H as [->|[]]; lia|]. destruct H as [->|[->|H]]; [specialize (IHl x (or_introl eq_refl)); lia|lia|specialize (IHl x (or_intror H)); lia]. Qed.

Lemma P_inj n m : (n <= last + 1)%nat -> (m <= last + 1)%nat -> P n = P m -> n = m.
Proof.
  intros Hn' Hm E. destruct (Nat.lt_trichotomy n m) as [H|[H|H]]; [|exact H|].
  - pose proof (HP n m ltac:(lia)). lra.
  - pose proof (HP m n ltac:(lia)). lra.
Qed.
Hypothesis Hfirst : match MRotor.shaft_pos sh with p :: _ => fst p | [] => 0 end = P 0.
Hypothesis Hlastp : List.last (map snd (MRotor.shaft_pos sh)) 0 = P (last + 1).

Lemma heights_fine df : Inv br df -> forall todo, incl todo br -> heights_ok sh br df todo = Ok tt.
Proof.
  intros I. induction todo as [|b todo IH]; intros Hin; [reflexivity|]. simpl.
  assert (Hbin : In b br) by (apply Hin; left; reflexivity).
  destruct (row_pos_loc df b I Hbin) as (z & Ez & Hz). rewrite Ez.
  set (ns := map el_n (filter _ br)).
  destruct (loc_root _ _ Hz) as (k & Hk & Hkl & Ezk & Hkle); [eauto|].
  assert (Hg : forall n, In n ns <-> exists c, In c br /\ el_n c = n /\ row_pos df (el_tag c) = Some z).
  { intros n. unfold ns. rewrite in_map_iff. split.
    - intros (c & <- & Hc). apply filter_In in Hc as [Hc Hs]. exists c. repeat split; auto. destruct (row_pos df (el_tag c)) as [z'|]; [|discriminate].
      simpl in Hs. destruct (Req_EM_T z' z); [congruence|discriminate].
    - intros (c & Hc & <- & E). exists c. split; [reflexivity|]. apply filter_In. split; [exact Hc|]. rewrite E. simpl. destruct (Req_EM_T z z); [reflexivity|congruence]. }
  assert (Hkns : In (el_n k) ns).
  { apply Hg. exists k. repeat split; auto. destruct (row_pos_loc df k I Hk) as (z' & E & L). rewrite E. apply loc_shaft in L; [|exact Hkl]. congruence. }
  assert (Hmin : forall n, In n ns -> (el_n k <= n)%nat).
  { intros n Hnn. apply Hg in Hnn as (c & Hc & <- & E). destruct (row_pos_loc df c I Hc) as (z' & E' & L). assert (z' = z) by congruence. subst z'.
    destruct (Nat.le_gt_cases (el_n c) (last + 1)) as [Hle|]; [|lia].
    apply loc_shaft in L; [|exact Hle]. rewrite (P_inj (el_n c) (el_n k)); auto. congruence. }
  assert (Hh : height_ok sh (Some z) ns = Ok tt).
  { destruct ns as [|n0 ns']; [destruct Hkns|]. unfold height_ok.
    assert (En : fold_right Nat.min n0 ns' = el_n k).
    { pose proof (fold_min_le n0 ns' _ Hkns). pose proof (Hmin _ (fold_min_in n0 ns')). lia. }
    rewrite En. assert (Hhas : forall j, (j <= last)%nat -> existsb (fun e => Nat.eqb (el_n e) j) sh = true).
    { intros j Hj. destruct (Hcover j Hj) as (e & He & E). apply existsb_exists. exists e. split; auto. apply Nat.eqb_eq. auto. }
    rewrite Hfirst, Hlastp. destruct (Req_EM_T z (P 0)) as [E0|E0].
    - assert (el_n k = 0%nat) by (apply P_inj; try lia; congruence). rewrite Hhas by lia. reflexivity.
    - assert (el_n k <> 0%nat) by (intros E; apply E0; congruence).
      destruct (Req_EM_T z (P (last + 1)%nat)) as [E1|E1].
      + assert (Ek : el_n k = (last + 1)%nat) by (apply P_inj; try lia; congruence). destruct (el_n k) as [|j]; [congruence|]. rewrite Hhas by lia. reflexivity.
      + assert (Ek : el_n k <> (last + 1)%nat) by (intros E; apply E1; congruence). destruct (el_n k) as [|j] eqn:Ej; [congruence|]. rewrite !Hhas by lia. reflexivity. }
  rewrite Hh. simpl. apply IH. intros c Hc. apply Hin. right. exact Hc.
Qed.
End Locate.
