(** Node positions, total mass and centre of gravity of a rotor. *)
From Coq Require Import Reals String List Arith Lia Lra Bool Permutation Sorted.
From Verif Require Import PyBase MatBase SpecMat MShaft MDisk MBearing MRotor SpecRotor LMat LAssembly LRotor.
Import ListNotations.
Open Scope list_scope.
Open Scope R_scope.

(** consecutive values stay or go up by one *)
Fixpoint steps (a : nat) (l : list nat) : Prop :=
  match l with [] => True | b :: l' => (b = a \/ b = S a) /\ steps b l' end.
Lemma steps_of_cover a ns m : StronglySorted le (a :: ns) -> (forall k, (a <= k <= m)%nat -> In k (a :: ns)) ->
  (forall k, In k (a :: ns) -> (k <= m)%nat) -> steps a ns.
Proof.
  revert a. induction ns as [|b ns IH]; intros a Hs Hc Hm; simpl; [exact I|].
  inversion Hs as [|? ? Hs1 Hs2]; subst. inversion Hs1 as [|? ? Hs3 Hs4]; subst.
  rewrite Forall_forall in Hs2, Hs4. assert (Hab : (a <= b)%nat) by (apply Hs2; left; reflexivity).
  assert (Hb : b = a \/ b = S a).
  { destruct (Nat.eq_dec b a); [auto|]. destruct (Nat.eq_dec b (S a)); [auto|]. exfalso.
    assert (In (S a) (a :: b :: ns)) by (apply Hc; specialize (Hm b ltac:(simpl; auto)); lia).
    destruct H as [H|[H|H]]; [lia|lia|]. specialize (Hs4 _ H). lia. }
  split; [exact Hb|]. apply IH; [exact Hs1| |].
  - intros k Hk. destruct (Hc k) as [->|H]; [lia| |exact H]. destruct Hb as [-> | ->]; [left; auto|lia].
  - intros k Hk. apply Hm. right; exact Hk.
Qed.

Lemma last_default {A} (l : list A) b a : last (b :: l) a = last l b.
Proof. revert b a. induction l as [|c l IH]; intros b a; [reflexivity|]. change (last (c :: l) a = last (c :: l) b). rewrite !IH. reflexivity. Qed.
Lemma last_max a l : StronglySorted le (a :: l) -> last l a = max_list (a :: l).
Proof.
  revert a. induction l as [|b l IH]; intros a Hs; [unfold max_list; simpl; lia|].
  inversion Hs as [|? ? Hs1 Hs2]; subst. inversion Hs2 as [|? ? Hs3 Hs4]; subst.
  rewrite last_default, (IH b Hs1). unfold max_list; simpl. lia.
Qed.
Lemma sorted_map sh : StronglySorted le_n sh -> StronglySorted le (map el_n sh).
Proof.
  induction 1; simpl; constructor; auto. apply Forall_forall. intros x Hx. apply in_map_iff in Hx as (e & <- & He).
  rewrite Forall_forall in H0. apply (H0 e He).
Qed.

Section Positions.
Variable lam : nat -> R.   (* length of the elements at each node *)
Let P (n : nat) : R := sumn n lam.

Lemma shaft_pos_from_spec sh prev : steps prev (map el_n sh) -> (forall e, In e sh -> sh_L e = lam (el_n e)) ->
  shaft_pos_from prev (P prev) (P (S prev)) sh = map (fun e => (P (el_n e), P (S (el_n e)))) sh.
Proof.
  revert prev. induction sh as [|e sh IH]; intros prev Hs HL; simpl; [reflexivity|].
  destruct Hs as [He Hs].
  assert (E : (if (el_n e =? prev)%nat then (P prev, P (S prev)) else (P (S prev), P (S prev) + sh_L e)) = (P (el_n e), P (S (el_n e)))).
  { destruct (Nat.eqb_spec (el_n e) prev) as [->|Hne]; [reflexivity|]. destruct He as [He|He]; [congruence|].
    rewrite (HL e (or_introl eq_refl)), He. unfold P; simpl. reflexivity. }
  rewrite E. cbn [fst snd]. f_equal. apply IH; [exact Hs|]. intros; apply HL; right; auto.
Qed.
Lemma shaft_pos_spec sh : match sh with [] => True | e :: sh' => el_n e = 0%nat /\ steps 0 (map el_n sh') end ->
  (forall e, In e sh -> sh_L e = lam (el_n e)) -> shaft_pos sh = map (fun e => (P (el_n e), P (S (el_n e)))) sh.
Proof.
  destruct sh as [|e sh]; [reflexivity|]. intros [E Hs] HL. simpl. rewrite E.
  rewrite (HL e (or_introl eq_refl)), E.
  replace (0 + lam 0) with (P 1) by (unfold P; simpl; ring). change 0 with (P 0).
  f_equal. apply (shaft_pos_from_spec sh 0); [exact Hs|]. intros; apply HL; right; auto.
Qed.

Lemma group_max_spec ns a : steps a ns -> 
  group_max (map (fun n => (n, P n)) (a :: ns)) = map P (seq a (S (last ns a - a))) /\ (a <= last ns a)%nat.
Proof.
  revert a. induction ns as [|b ns IH]; intros a Hs.
  - simpl. rewrite Nat.sub_diag. simpl. auto.
  - destruct Hs as [Hb Hs]. destruct (IH b Hs) as [IH1 IH2].
    assert (Hlast : last (b :: ns) a = last ns b) by apply last_default.
    rewrite Hlast. split; [|destruct Hb; lia].
    change (map (fun n => (n, P n)) (a :: b :: ns)) with ((a, P a) :: (b, P b) :: map (fun n => (n, P n)) ns).
    assert (Hg : group_max ((a, P a) :: (b, P b) :: map (fun n => (n, P n)) ns) =
       if Nat.eqb a b then match group_max (map (fun n => (n, P n)) (b :: ns)) with q :: g' => Rmax (P a) q :: g' | [] => [P a] end
       else P a :: group_max (map (fun n => (n, P n)) (b :: ns))) by reflexivity.
    rewrite Hg, IH1. destruct Hb as [-> | ->].
    + rewrite Nat.eqb_refl. simpl. rewrite Rmax_left by lra. reflexivity.
    + destruct (Nat.eqb_spec a (S a)); [lia|].
      replace (S (last ns (S a) - a)) with (S (S (last ns (S a) - S a))) by lia. reflexivity.
Qed.

Lemma nodes_pos_spec sh m : sh <> [] -> StronglySorted le_n sh -> m = max_list (map el_n sh) ->
  (forall k, (k <= m)%nat -> exists e, In e sh /\ el_n e = k) -> (forall e, In e sh -> sh_L e = lam (el_n e)) ->
  nodes_pos sh = map P (seq 0 (m + 2)) /\ shaft_pos sh = map (fun e => (P (el_n e), P (S (el_n e)))) sh.
Proof.
  intros Hne Hs Hm Hc HL. destruct sh as [|e0 sh]; [congruence|].
  assert (HsN := sorted_map _ Hs). simpl in HsN.
  assert (E0 : el_n e0 = 0%nat).
  { destruct (Hc 0%nat) as (e & He & E); [lia|]. destruct He as [->|He]; [exact E|].
    inversion HsN as [|? ? _ HF]; subst. rewrite Forall_forall in HF. specialize (HF (el_n e) (in_map _ _ _ He)). lia. }
  assert (Hst : steps 0 (map el_n sh)).
  { rewrite E0 in HsN. apply (steps_of_cover 0 _ m); [exact HsN| |].
    - intros k Hk. destruct (Hc k) as (e & He & E); [lia|]. rewrite <- E. rewrite <- E0.
      apply (in_map el_n (e0 :: sh)). exact He.
    - intros k Hk. rewrite Hm. apply max_list_ge. simpl. rewrite E0. exact Hk. }
  assert (Hsp : shaft_pos (e0 :: sh) = map (fun e => (P (el_n e), P (S (el_n e)))) (e0 :: sh)).
  { apply shaft_pos_spec; auto. }
  split; [|exact Hsp]. unfold nodes_pos. rewrite Hsp.
  assert (Hcomb : combine (map el_n (e0 :: sh)) (map fst (map (fun e => (P (el_n e), P (S (el_n e)))) (e0 :: sh)))
          = map (fun n => (n, P n)) (0%nat :: map el_n sh)).
  { rewrite map_map. cbn [fst]. rewrite <- E0. change (el_n e0 :: map el_n sh) with (map el_n (e0 :: sh)).
    generalize (e0 :: sh). intros l. induction l; simpl; [reflexivity|]. f_equal; auto. }
  rewrite Hcomb. destruct (group_max_spec (map el_n sh) 0 Hst) as [-> _].
  assert (Hl : last (map el_n sh) 0%nat = m).
  { rewrite Hm. rewrite E0 in HsN. change (map el_n (e0 :: sh)) with (el_n e0 :: map el_n sh). rewrite E0. apply last_max. exact HsN. }
  rewrite Hl, Nat.sub_0_r. replace (m + 2)%nat with (S m + 1)%nat by lia. rewrite seq_app, map_app. f_equal.
  simpl. f_equal. rewrite map_map. cbn [snd].
  assert (Hl2 : last (map (fun e => P (S (el_n e))) (e0 :: sh)) 0 = P (S (last (map el_n sh) 0%nat))).
  { clear - E0. revert E0. simpl map. intros E0.
    assert (G : forall l a d, last (P (S a) :: map (fun e => P (S (el_n e))) l) d = P (S (last (map el_n l) a))).
    { induction l as [|x l IH]; intros a d; [reflexivity|]. simpl map.
      change (last (P (S a) :: P (S (el_n x)) :: map (fun e => P (S (el_n e))) l) d)
        with (last (P (S (el_n x)) :: map (fun e => P (S (el_n e))) l) d).
      rewrite IH, last_default. reflexivity. }
    rewrite G, E0. reflexivity. }
  change (last (map (fun e => P (S (el_n e))) (e0 :: sh)) 0 = P (S m)). rewrite Hl2, Hl. reflexivity.
Qed.
End Positions.

(** every rotor with matching layers has such a length function *)
Lemma layer_lengths r : layers_match r -> exists lam, forall e, In e (r_shaft r) -> sh_L e = lam (el_n e).
Proof.
  intros H. exists (fun n => match find (fun e => Nat.eqb (el_n e) n) (r_shaft r) with Some e => sh_L e | None => 0 end).
  intros e He. destruct (find _ (r_shaft r)) as [e'|] eqn:E.
  - apply find_some in E as [Hin E]. apply Nat.eqb_eq in E. apply H; auto.
  - apply (find_none _ _ E) in He. rewrite Nat.eqb_refl in He. discriminate.
Qed.
