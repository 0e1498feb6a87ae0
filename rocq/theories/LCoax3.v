(** Axial positions of the elements of a co-axial rotor. *)
From Coq Require Import Reals String List Bool Arith ZArith Lia Lra Permutation Sorted.
From Verif Require Import PyBase MatBase SpecMat LMat MMaterial MShaft MDisk MBearing MRotor MShare SpecRotor LAssembly LRotor LRotor2 MCoax SpecCoax LCoax LCoax2.
Import ListNotations.
Open Scope list_scope.
Open Scope R_scope.

Lemma suml_app l1 l2 : suml (l1 ++ l2) = suml l1 + suml l2.
Proof. induction l1 as [|x l1 IH]; cbn; [unfold suml; cbn; ring|]. unfold suml in *. cbn. rewrite IH. ring. Qed.
Lemma along_0 L : along L 0 = 0. Proof. reflexivity. Qed.
Lemma along_S L k : along L (S k) = along L k + nth k L 0.
Proof.
  unfold along. revert k. induction L as [|x L IH]; intros [|k]; try (unfold suml; cbn; ring).
  cbn [nth]. change (firstn (S (S k)) (x :: L)) with (x :: firstn (S k) L). change (firstn (S k) (x :: L)) with (x :: firstn k L).
  unfold suml in *. cbn [fold_right]. rewrite IH. ring.
Qed.

(** where the link of the current element leads: row and end of the slice *)
Definition target (N : nat) (brgs : list elem) (e : elem) : option (nat * nat) :=
  match linked brgs (el_n e) with
  | Some n => Some (n, el_n e)
  | None => match linked brgs (S (el_n e)) with Some n => Some (before N n, S (el_n e)) | None => None end
  end.

Lemma place_step N ns Ls brgs i k x e z : before N (k + i) <> (k + i)%nat ->
  (k = 0%nat \/ nth (k + i) ns 0%nat <> nth (k + i - 1) ns 0%nat) ->
  (match target N brgs e with Some (idx, _) => (idx < N)%nat | None => True end) ->
  let p := (k + i)%nat in
  let l := z_r z (before N p) in
  let zl := put (z_l z) p l in
  let zr := put (z_r z) p (l + nth p Ls 0) in
  exists z', place N ns Ls brgs i k x e z = Ok z' /\
    (forall t, z_l z' t = match target N brgs e with Some (idx, stop) => shift zl i stop (zl idx - zl p) t | None => zl t end) /\
    (forall t, z_r z' t = match target N brgs e with Some (idx, stop) => shift zr i stop (zr idx - zr p) t | None => zr t end) /\
    (forall y, y <> x -> z_ax z' y = z_ax z y) /\ z_ax z' x = sh_cg e + z_l z' p.
Proof.
  intros Hb Hk Ht p l zl zr. unfold place. fold p.
  assert (C : (negb (Nat.eqb k 0) && Nat.eqb (nth p ns 0%nat) (nth (p - 1) ns 0%nat))%bool = false).
  { destruct Hk as [->|Hk]; [reflexivity|]. fold p in Hk. rewrite (proj2 (Nat.eqb_neq _ _) Hk). apply andb_false_r. }
  rewrite C. clear C. fold p in Hb.
  set (z1 := if Nat.eqb k 0 then _ else z).
  assert (E1 : z_l z1 = z_l z) by (unfold z1; destruct (Nat.eqb k 0); reflexivity).
  assert (E2 : forall t, t <> p -> z_r z1 t = z_r z t).
  { intros t Hp. unfold z1. destruct (Nat.eqb k 0); [cbn; unfold put; destruct (Nat.eqb_spec t p); congruence|reflexivity]. }
  assert (E3 : forall y, y <> x -> z_ax z1 y = z_ax z y).
  { intros y Hy. unfold z1. destruct (Nat.eqb k 0); [cbn; apply upd_other; exact Hy|reflexivity]. }
  clearbody z1. cbv zeta. rewrite (E2 _ Hb). fold l.
  assert (El : forall t, put (z_l z1) p l t = zl t) by (intros t; rewrite E1; reflexivity).
  assert (Er : forall t, put (z_r z1) p (l + nth p Ls 0) t = zr t).
  { intros t. unfold zr, put. destruct (Nat.eqb_spec t p); [reflexivity|apply E2; auto]. }
  cbn [z_l z_r z_cg z_ax].
  assert (G : forall idx stop, (idx < N)%nat -> exists z',
    bind (if (idx <? N)%nat
          then Ok (mkZ (shift (put (z_l z1) p l) i stop (put (z_l z1) p l idx - put (z_l z1) p l p))
                       (shift (put (z_r z1) p (l + nth p Ls 0)) i stop (put (z_r z1) p (l + nth p Ls 0) idx - put (z_r z1) p (l + nth p Ls 0) p))
                       (shift (z_cg z1) i stop
                          (shift (put (z_r z1) p (l + nth p Ls 0)) i stop (put (z_r z1) p (l + nth p Ls 0) idx - put (z_r z1) p (l + nth p Ls 0) p) idx
                           - shift (put (z_r z1) p (l + nth p Ls 0)) i stop (put (z_r z1) p (l + nth p Ls 0) idx - put (z_r z1) p (l + nth p Ls 0) p) p))
                       (z_ax z1))
          else Err IndexError) (fun z => Ok (mkZ (z_l z) (z_r z) (put (z_cg z) p (sh_cg e + z_l z p)) (upd (z_ax z) x (sh_cg e + z_l z p)))) = Ok z' /\
    (forall t, z_l z' t = shift zl i stop (zl idx - zl p) t) /\ (forall t, z_r z' t = shift zr i stop (zr idx - zr p) t) /\
    (forall y, y <> x -> z_ax z' y = z_ax z y) /\ z_ax z' x = sh_cg e + z_l z' p).
  { intros idx stop Hi. rewrite (proj2 (Nat.ltb_lt _ _) Hi). cbn [bind]. eexists. split; [reflexivity|]. cbn [z_l z_r z_ax].
    split; [intros t; unfold shift; rewrite !El; reflexivity|]. split; [intros t; unfold shift; rewrite !Er; reflexivity|].
    split; [intros y Hy; rewrite upd_other by exact Hy; apply E3; exact Hy|]. rewrite upd_same. reflexivity. }
  unfold target in *. destruct (linked brgs (el_n e)) as [n|]; [exact (G n _ Ht)|].
  destruct (linked brgs (S (el_n e))) as [n|]; [exact (G _ _ Ht)|].
  cbn [bind]. eexists. split; [reflexivity|]. cbn [z_l z_r z_ax]. split; [exact El|]. split; [exact Er|].
  split; [intros y Hy; rewrite upd_other by exact Hy; apply E3; exact Hy|]. rewrite upd_same. reflexivity.
Qed.

(** ** A shaft without links *)
Section First.
Variables (N i : nat) (s : R) (A B : nat -> R) (ax0 : ref -> R) (ns : list nat) (Ls La : list R) (brgs : list elem) (full : list (ref * elem)).
Hypothesis N2 : (2 <= N)%nat.
Hypothesis ND : NoDup (map fst full).
Hypothesis Hlen : (i + length full <= N)%nat.
Hypothesis Hns : forall t, (0 < t < length full)%nat -> nth (t + i) ns 0%nat <> nth (t + i - 1) ns 0%nat.
Hypothesis HL : forall t, (t < length full)%nat -> nth (t + i) Ls 0 = nth t La 0.
Hypothesis Hno : forall x e, In (x, e) full -> target N brgs e = None.

Definition inv1 (k : nat) (z : zpos) : Prop :=
  (forall t, (t < i)%nat -> z_l z t = A t /\ z_r z t = B t) /\
  (forall t, (t < k)%nat -> z_l z (t + i)%nat = s + along La t /\ z_r z (t + i)%nat = s + along La (S t)) /\
  (forall t x e, (t < k)%nat -> nth_error full t = Some (x, e) -> z_ax z x = sh_cg e + (s + along La t)) /\
  (forall y, ~ In y (map fst full) -> z_ax z y = ax0 y).

Lemma first_run : forall l2 l1 z, full = l1 ++ l2 -> inv1 (length l1) z -> (l1 = [] -> z_r z (before N i) = s) ->
  exists z', place_shaft N ns Ls brgs i (length l1) l2 z = Ok z' /\ inv1 (length full) z'.
Proof.
  induction l2 as [|[x e] l2 IH]; intros l1 z E (I0 & I1 & I2 & I3) Z.
  - exists z. rewrite app_nil_r in E. subst l1. split; [reflexivity|]. split; [|split; [|split]]; assumption.
  - cbn [place_shaft].
    assert (Hk : (length l1 < length full)%nat) by (rewrite E, app_length; cbn; lia).
    assert (Ex : nth_error full (length l1) = Some (x, e)) by (rewrite E, nth_error_app2, Nat.sub_diag by lia; reflexivity).
    pose proof (Hno x e ltac:(rewrite E; apply in_or_app; right; left; reflexivity)) as Hn.
    destruct (place_step N ns Ls brgs i (length l1) x e z) as (z' & Hz & S1 & S2 & S3 & S4).
    + destruct (length l1 + i)%nat eqn:Q; cbn; lia.
    + destruct (Nat.eq_dec (length l1) 0) as [->|N0]; [left; reflexivity|right; apply Hns; lia].
    + rewrite Hn. exact I.
    + rewrite Hn in S1, S2. rewrite Hz. cbn [bind].
      assert (Eb : z_r z (before N (length l1 + i)) = s + along La (length l1)).
      { destruct l1 as [|q l1]; [cbn [length Nat.add]; rewrite Z, along_0 by reflexivity; ring|]. cbn [length before Nat.add].
        apply I1. cbn. lia. }
      rewrite Eb, HL in S2 by exact Hk. rewrite Eb in S1.
      replace (S (length l1)) with (length (l1 ++ [(x, e)])) by (rewrite app_length; cbn; lia).
      apply IH; [rewrite E, <- app_assoc; reflexivity| |intros Q; destruct l1; discriminate].
      rewrite app_length. cbn [length]. split; [|split; [|split]].
      * intros t Ht. rewrite S1, S2. unfold put. destruct (Nat.eqb_spec t (length l1 + i)); [lia|]. apply I0. exact Ht.
      * intros t Ht. rewrite S1, S2. unfold put. destruct (Nat.eqb_spec (t + i) (length l1 + i)) as [Q|Nt].
        -- replace t with (length l1) by lia. rewrite along_S. split; ring.
        -- apply I1. lia.
      * intros t y e' Ht Ey. destruct (Nat.eq_dec t (length l1)) as [->|Nt].
        -- rewrite Ex in Ey. injection Ey as <- <-. rewrite S4, S1. unfold put. rewrite Nat.eqb_refl. reflexivity.
        -- rewrite S3; [apply (I2 t y e'); [lia|exact Ey]|]. intros ->.
           apply Nt. assert (M1 : nth_error (map fst full) t = Some x) by (erewrite map_nth_error; eauto; reflexivity).
           assert (M2 : nth_error (map fst full) (length l1) = Some x) by (erewrite map_nth_error; eauto; reflexivity).
           rewrite NoDup_nth_error in ND. apply ND; [rewrite map_length; lia|congruence].
      * intros y Hy. rewrite S3; [apply I3; exact Hy|]. intros ->. apply Hy. apply in_map_iff. exists (x, e). split; [reflexivity|].
        eapply nth_error_In; eauto.
Qed.
End First.

(** ** The second of two shafts, with one link *)
Section Second.
Variables (N p q a b : nat) (ns : list nat) (Ls La Lb : list R) (brgs : list elem) (full : list (ref * elem)).
Hypothesis Np : (0 < p)%nat.
Hypothesis EN : N = (p + q)%nat.
Hypothesis ELb : length Lb = q.
Hypothesis ELa : length La = p.
Hypothesis Efull : length full = q.
Hypothesis ND : NoDup (map fst full).
Hypothesis Hns : forall t, (0 < t < q)%nat -> nth (t + p) ns 0%nat <> nth (t + p - 1) ns 0%nat.
Hypothesis HL : forall t, (t < q)%nat -> nth (t + p) Ls 0 = nth t Lb 0.
Hypothesis Hn : forall t x e, nth_error full t = Some (x, e) -> el_n e = (p + 1 + t)%nat.
Hypothesis Ha : (a <= p)%nat.
Hypothesis Hb : (b <= q)%nat.
Hypothesis Hlink : forall n, (n <= p + q + 1)%nat -> linked brgs n = if Nat.eqb n (p + 1 + b) then Some a else None.
Hypothesis Hmesh : same_mesh La Lb a b.
Hypothesis Htidy : tidy p q a b.

Definition start (k : nat) : R := if (b <=? k)%nat then along La a - along Lb b else along La p.
Definition start_ax (t : nat) : R := if (S t <? b)%nat then along La p else along La a - along Lb b.
Definition inv2 (k : nat) (z : zpos) : Prop :=
  (forall t, (t < p)%nat -> z_l z t = along La t /\ z_r z t = along La (S t)) /\
  (forall t, (t < k)%nat -> z_l z (t + p)%nat = start k + along Lb t /\ z_r z (t + p)%nat = start k + along Lb (S t)) /\
  (forall t x e, (t < k)%nat -> nth_error full t = Some (x, e) -> z_ax z x = sh_cg e + (start_ax t + along Lb t)).

Lemma second_run ax0 : forall l2 l1 z, full = l1 ++ l2 -> inv2 (length l1) z -> (forall y, ~ In y (map fst full) -> z_ax z y = ax0 y) ->
  exists z', place_shaft N ns Ls brgs p (length l1) l2 z = Ok z' /\ inv2 q z' /\ (forall y, ~ In y (map fst full) -> z_ax z' y = ax0 y).
Proof.
  induction l2 as [|[x e] l2 IH]; intros l1 z E (I0 & I1 & I2) Y.
  - exists z. rewrite app_nil_r in E. subst l1. rewrite Efull in *. split; [reflexivity|]. split; [split; [|split]; assumption|assumption].
  - cbn [place_shaft]. set (k := length l1) in *.
    assert (Hk : (k < q)%nat) by (rewrite <- Efull, E, app_length; unfold k; cbn; lia).
    assert (Ex : nth_error full k = Some (x, e)) by (unfold k; rewrite E, nth_error_app2, Nat.sub_diag by lia; reflexivity).
    pose proof (Hn _ _ _ Ex) as En.
    assert (T : target N brgs e = if Nat.eqb k b then Some (a, (p + 1 + k)%nat) else if Nat.eqb (S k) b then Some (before N a, (p + 2 + k)%nat) else None).
    { unfold target. rewrite En, (Hlink (p + 1 + k)), (Hlink (S (p + 1 + k))) by lia.
      destruct (Nat.eqb_spec (p + 1 + k) (p + 1 + b)), (Nat.eqb_spec k b); try lia; [reflexivity|].
      destruct (Nat.eqb_spec (S (p + 1 + k)) (p + 1 + b)), (Nat.eqb_spec (S k) b); try lia; [|reflexivity].
      replace (S (p + 1 + k)) with (p + 2 + k)%nat by lia. reflexivity. }
    destruct Hmesh as [M1 M2]. destruct Htidy as [T1 T2].
    destruct (place_step N ns Ls brgs p k x e z) as (z' & Hz & S1 & S2 & S3 & S4).
    + destruct p as [|p']; [lia|]. rewrite Nat.add_succ_r. cbn. lia.
    + destruct (Nat.eq_dec k 0) as [->|N0]; [left; reflexivity|right; apply Hns; lia].
    + rewrite T. destruct (Nat.eqb_spec k b); [lia|]. destruct (Nat.eqb_spec (S k) b); [|exact I].
      destruct a as [|a']; [exfalso; lia|cbn; lia].
    + rewrite Hz. cbn [bind]. replace (before N (k + p)) with (k + p - 1)%nat in * by (destruct p as [|p']; [lia|rewrite Nat.add_succ_r; cbn; lia]).
      rewrite HL in S2 by exact Hk.
      (* what the element gets before the link is looked at *)
      set (s := if (0 <? k)%nat then start k else along La p).
      assert (El : z_r z (k + p - 1)%nat = s + along Lb k).
      { unfold s. destruct (Nat.ltb_spec 0 k).
        - replace (k + p - 1)%nat with (k - 1 + p)%nat by lia. rewrite (proj2 (I1 (k - 1)%nat ltac:(lia))). replace (S (k - 1)) with k by lia. reflexivity.
        - replace (k + p - 1)%nat with (p - 1)%nat by lia. rewrite (proj2 (I0 (p - 1)%nat ltac:(lia))). replace (S (p - 1)) with p by lia.
          replace k with 0%nat by lia. rewrite along_0. ring. }
      rewrite El in S1, S2.
      set (zl := put (z_l z) (k + p) (s + along Lb k)) in *. set (zr := put (z_r z) (k + p) (s + along Lb k + nth k Lb 0)) in *.
      assert (Zin : forall t, (t < p)%nat -> zl t = along La t /\ zr t = along La (S t)).
      { intros t Ht. unfold zl, zr, put. destruct (Nat.eqb_spec t (k + p)); [lia|apply I0; exact Ht]. }
      assert (Zout : forall t, (t <= k)%nat -> zl (t + p)%nat = s + along Lb t /\ zr (t + p)%nat = s + along Lb (S t)).
      { intros t Ht. unfold zl, zr, put. destruct (Nat.eqb_spec (t + p) (k + p)) as [Q|Q].
        - replace t with k by lia. rewrite along_S. split; ring.
        - unfold s. destruct (Nat.ltb_spec 0 k); [|lia]. apply I1. lia. }
      (* after the link *)
      assert (R : (forall t, (t < p)%nat -> z_l z' t = along La t /\ z_r z' t = along La (S t)) /\
                  (forall t, (t <= k)%nat -> z_l z' (t + p)%nat = start (S k) + along Lb t /\ z_r z' (t + p)%nat = start (S k) + along Lb (S t))).
      { rewrite T in S1, S2. destruct (Nat.eqb_spec k b) as [Kb|Kb].
        - assert (Es : start (S k) = along La a - along Lb b) by (unfold start; destruct (Nat.leb_spec b (S k)); [reflexivity|lia]).
          rewrite Es. clear Es. split.
          + intros t Ht. rewrite S1, S2. unfold shift. destruct (Nat.leb_spec p t); [lia|]. apply Zin. exact Ht.
          + intros t Ht. rewrite S1, S2. unfold shift. destruct (Nat.leb_spec p (t + p)); [|lia]. destruct (Nat.ltb_spec (t + p) (p + 1 + k)); [|lia].
            cbn [andb]. rewrite (proj1 (Zout t Ht)), (proj2 (Zout t Ht)), (proj1 (Zout k (Nat.le_refl _))), (proj2 (Zout k (Nat.le_refl _))).
            destruct (Nat.lt_ge_cases a p) as [Lap|Lap].
            * rewrite (proj1 (Zin a Lap)), (proj2 (Zin a Lap)), !along_S, M1 by lia. rewrite <- Kb. split; ring.
            * assert (Eap : a = p) by lia. assert (k = 0%nat) by lia.
              assert (Ea : zl a = zl (0 + p)%nat /\ zr a = zr (0 + p)%nat) by (rewrite Eap; split; reflexivity).
              destruct Ea as [-> ->]. rewrite (proj1 (Zout 0%nat ltac:(lia))), (proj2 (Zout 0%nat ltac:(lia))).
              replace k with 0%nat by lia. replace t with 0%nat by lia. replace b with 0%nat by lia.
              unfold s. replace k with 0%nat by lia. rewrite Eap. cbn [Nat.ltb Nat.leb]. rewrite along_0. split; ring.
        - destruct (Nat.eqb_spec (S k) b) as [Kc|Kc].
          + assert (Es : start (S k) = along La a - along Lb b) by (unfold start; destruct (Nat.leb_spec b (S k)); [reflexivity|lia]).
            assert (Es' : s = along La p).
            { unfold s, start. destruct (Nat.ltb_spec 0 k); [|reflexivity]. destruct (Nat.leb_spec b k); [lia|reflexivity]. }
            rewrite Es. clear Es. assert (La0 : (0 < a)%nat) by (apply T1; lia).
            replace (before N a) with (a - 1)%nat in * by (destruct a; [lia|cbn; lia]).
            assert (Z1 : zl (a - 1)%nat = along La (a - 1) /\ zr (a - 1)%nat = along La a).
            { replace (along La a) with (along La (S (a - 1))) by (f_equal; lia). apply Zin. lia. }
            assert (Q1 : along La a = along La (a - 1) + nth (a - 1) La 0) by (rewrite <- along_S; f_equal; lia).
            assert (Q2 : along Lb b = along Lb k + nth k Lb 0) by (rewrite <- along_S; f_equal; lia).
            assert (Q3 : nth (a - 1) La 0 = nth k Lb 0) by (replace k with (b - 1)%nat by lia; apply M2; lia).
            split.
            * intros t Ht. rewrite S1, S2. unfold shift. destruct (Nat.leb_spec p t); [lia|]. apply Zin. exact Ht.
            * intros t Ht. rewrite S1, S2. unfold shift. destruct (Nat.leb_spec p (t + p)); [|lia]. destruct (Nat.ltb_spec (t + p) (p + 2 + k)); [|lia].
              cbn [andb]. rewrite (proj1 (Zout t Ht)), (proj2 (Zout t Ht)), (proj1 (Zout k (Nat.le_refl _))), (proj2 (Zout k (Nat.le_refl _))), (proj1 Z1), (proj2 Z1).
              rewrite (along_S Lb k), Q1, Q2, Q3. split; ring.
          + assert (Es : start (S k) = s).
            { unfold s, start. destruct (Nat.ltb_spec 0 k), (Nat.leb_spec b (S k)); try destruct (Nat.leb_spec b k); try reflexivity; lia. }
            rewrite Es. split; intros t Ht; rewrite S1, S2; [apply Zin|apply Zout]; exact Ht. }
      destruct R as [R0 R1].
      replace (S k) with (length (l1 ++ [(x, e)])) by (rewrite app_length; unfold k; cbn; lia).
      apply IH; [rewrite E, <- app_assoc; reflexivity| |].
      * replace (length (l1 ++ [(x, e)])) with (S k) by (rewrite app_length; unfold k; cbn; lia).
        split; [exact R0|]. split; [intros t Ht; apply R1; lia|].
        intros t y e' Ht Ey. destruct (Nat.eq_dec t k) as [->|Nt].
        -- rewrite Ex in Ey. injection Ey as <- <-. rewrite S4, (proj1 (R1 k (Nat.le_refl _))). f_equal. f_equal.
           unfold start, start_ax. destruct (Nat.leb_spec b (S k)), (Nat.ltb_spec (S k) b); try lia; reflexivity.
        -- rewrite S3; [apply (I2 t y e'); [lia|exact Ey]|]. intros ->.
           apply Nt. assert (W1 : nth_error (map fst full) t = Some x) by (erewrite map_nth_error; eauto; reflexivity).
           assert (W2 : nth_error (map fst full) k = Some x) by (erewrite map_nth_error; eauto; reflexivity).
           rewrite NoDup_nth_error in ND. apply ND; [rewrite map_length; lia|congruence].
      * intros y Hy. rewrite S3; [apply Y; exact Hy|]. intros ->. apply Hy. apply in_map_iff. exists (x, e). split; [reflexivity|].
        eapply nth_error_In; eauto.
Qed.
End Second.
