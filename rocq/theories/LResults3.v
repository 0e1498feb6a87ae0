(** Mode shapes, probes, bending moments, removed dofs, intersections. *)
From Coq Require Import Reals String List Arith ZArith Lia Lra Psatz Bool Permutation Sorted.
From Coquelicot Require Import Complex.
From Verif Require Import PyBase MatBase SpecMat LMat CMat LCMat MMaterial MShaft MDisk MBearing MRotor SpecRotor LAssembly LRotor LRotor2 LRotorPos LRotor6 MDynamics MFault MResults SpecResults LResults LResults2.
Import ListNotations.
Open Scope list_scope.
Open Scope R_scope.

(** ** element lengths *)
Lemma group_min_spec (lam : nat -> R) ns a : steps a ns ->
  group_min (map (fun n => (n, lam n)) (a :: ns)) = map lam (seq a (S (last ns a - a))) /\ (a <= last ns a)%nat.
Proof.
  revert a. induction ns as [|b ns IH]; intros a Hs.
  - simpl. rewrite Nat.sub_diag. simpl. auto.
  - destruct Hs as [Hb Hs]. destruct (IH b Hs) as [IH1 IH2].
    assert (Hlast : last (b :: ns) a = last ns b) by apply last_default.
    rewrite Hlast. split; [|destruct Hb; lia].
    change (map (fun n => (n, lam n)) (a :: b :: ns)) with ((a, lam a) :: (b, lam b) :: map (fun n => (n, lam n)) ns).
    assert (Hg : group_min ((a, lam a) :: (b, lam b) :: map (fun n => (n, lam n)) ns) =
       if Nat.eqb a b then match group_min (map (fun n => (n, lam n)) (b :: ns)) with q :: g' => Rmin (lam a) q :: g' | [] => [lam a] end
       else lam a :: group_min (map (fun n => (n, lam n)) (b :: ns))) by reflexivity.
    rewrite Hg, IH1. destruct Hb as [-> | ->].
    + rewrite Nat.eqb_refl. simpl. rewrite Rmin_left by lra. reflexivity.
    + destruct (Nat.eqb_spec a (S a)); [lia|].
      replace (S (last ns (S a) - a)) with (S (S (last ns (S a) - S a))) by lia. reflexivity.
Qed.
Definition covered (r : rotor) : Prop := forall k, (k <= r_n_last r)%nat -> exists e, In e (r_shaft r) /\ el_n e = k.
Lemma shaft_lengths_spec r : rfacts r -> covered r -> layers_match r ->
  length (shaft_lengths r) = S (r_n_last r) /\ forall e, In e (r_shaft r) -> nth (el_n e) (shaft_lengths r) 0 = sh_L e.
Proof.
  intros F Hc Hl. destruct (layer_lengths r Hl) as [lam HL]. unfold shaft_lengths.
  pose proof (rf_nonempty _ F) as Hne. pose proof (rf_sorted _ F) as Hs. pose proof (rf_last _ F) as Hm. unfold covered in Hc.
  set (sh := r_shaft r) in *. set (m := r_n_last r) in *. clearbody sh m.
  destruct sh as [|e0 sh]; [congruence|].
  assert (HsN := sorted_map _ Hs). simpl in HsN.
  assert (E0 : el_n e0 = 0%nat).
  { destruct (Hc 0%nat) as (e & He & E); [lia|]. destruct He as [->|He]; [exact E|].
    inversion HsN as [|? ? _ HF]; subst. rewrite Forall_forall in HF. specialize (HF (el_n e) (in_map _ _ _ He)). lia. }
  assert (Hst : steps 0 (map el_n sh)).
  { rewrite E0 in HsN. apply (steps_of_cover 0 _ m); [exact HsN| |].
    - intros k Hk. destruct (Hc k) as (e & He & E); [lia|]. rewrite <- E. rewrite <- E0.
      apply (in_map el_n (e0 :: sh)). exact He.
    - intros k Hk. rewrite Hm. apply max_list_ge. simpl. rewrite E0. exact Hk. }
  assert (Hcomb : combine (map el_n (e0 :: sh)) (map sh_L (e0 :: sh)) = map (fun n => (n, lam n)) (0%nat :: map el_n sh)).
  { rewrite <- E0. change (el_n e0 :: map el_n sh) with (map el_n (e0 :: sh)). revert HL. generalize (e0 :: sh). intros l HL'. induction l as [|x l IH]; simpl; [reflexivity|].
    rewrite (HL' x) by (simpl; auto). f_equal. apply IH. intros; apply HL'; right; auto. }
  assert (Hl2 : last (map el_n sh) 0%nat = m).
  { rewrite Hm. rewrite E0 in HsN. change (map el_n (e0 :: sh)) with (el_n e0 :: map el_n sh). rewrite E0. apply last_max. exact HsN. }
  rewrite Hcomb. destruct (group_min_spec lam (map el_n sh) 0 Hst) as [-> _]. rewrite Hl2, Nat.sub_0_r. split.
  - rewrite map_length, seq_length. reflexivity.
  - intros e He. assert (Hle : (el_n e <= m)%nat) by (rewrite Hm; apply max_list_ge, in_map; exact He).
    rewrite (HL e He). apply nth_error_nth. apply (map_nth_error lam). rewrite (nth_error_nth' _ 0%nat) by (rewrite seq_length; lia). rewrite seq_nth by lia. reflexivity.
Qed.

(** ** interpolated lines *)
Lemma line_fold eig2 nd v pos lens a N l i : let L := fold_left (line_step eig2 nd v pos) (combine lens (seq a N)) l in
  (i < 5 * a \/ 5 * (a + Nat.min (length lens) N) <= i)%nat ->
  ln_x L i = ln_x l i /\ ln_y L i = ln_y l i /\ ln_z L i = ln_z l i /\ ln_major L i = ln_major l i.
Proof.
  revert a N l. induction lens as [|Le lens IH]; intros a N l; [simpl; auto|]. destruct N as [|N]; [simpl; auto|].
  intros L Hi. unfold L. cbn [seq combine fold_left]. cbn [length Nat.min] in Hi.
  destruct (IH (S a) N (line_step eig2 nd v pos l (Le, a)) ltac:(lia)) as (E1 & E2 & E3 & E4). rewrite E1, E2, E3, E4.
  unfold line_step. cbn [ln_x ln_y ln_z ln_major].
  assert (B : ((5 * a <=? i) && (i <? 5 * (a + 1)))%nat = false).
  { destruct (Nat.leb_spec (5 * a) i); destruct (Nat.ltb_spec i (5 * (a + 1))); auto. lia. }
  rewrite B. auto.
Qed.
Lemma line_entry eig2 nd v pos lens a N l n k : let L := fold_left (line_step eig2 nd v pos) (combine lens (seq a N)) l in
  (a <= n < a + Nat.min (length lens) N)%nat -> (k < 5)%nat ->
  let Le := nth (n - a) lens 0 in let i := (5 * n + k)%nat in
  ln_x L i = Re (line_x nd Le v n k) /\ ln_y L i = Re (line_y nd Le v n k) /\ ln_z L i = nth n pos 0 + Le * zeta k /\
  ln_major L i = ob_major (orbit_init eig2 (line_x nd Le v n k) (line_y nd Le v n k)).
Proof.
  revert a N l. induction lens as [|Le lens IH]; intros a N l; [simpl; intros; lia|]. destruct N as [|N]; [simpl; intros; lia|].
  intros L Hn Hk Le' i. unfold L. cbn [seq combine fold_left]. cbn [length Nat.min] in Hn.
  destruct (Nat.eq_dec n a) as [->|Hne].
  - destruct (line_fold eig2 nd v pos lens (S a) N (line_step eig2 nd v pos l (Le, a)) i ltac:(unfold i; lia)) as (E1 & E2 & E3 & E4). rewrite E1, E2, E3, E4.
    unfold line_step. cbn [ln_x ln_y ln_z ln_major]. unfold Le'. rewrite Nat.sub_diag. cbn [nth].
    assert (B : ((5 * a <=? i) && (i <? 5 * (a + 1)))%nat = true).
    { destruct (Nat.leb_spec (5 * a) i); destruct (Nat.ltb_spec i (5 * (a + 1))); auto; unfold i in *; lia. }
    rewrite B. replace (i - 5 * a)%nat with k by (unfold i; lia). auto.
  - destruct (IH (S a) N (line_step eig2 nd v pos l (Le, a)) ltac:(lia) Hk) as (E1 & E2 & E3 & E4). fold i in E1, E2, E3, E4. rewrite E1, E2, E3, E4.
    assert (EL : nth (n - S a) lens 0 = Le') by (unfold Le'; replace (n - a)%nat with (S (n - S a)) by lia; reflexivity).
    rewrite EL. auto.
Qed.

Lemma re_scal (a : R) (z : C) : Re (a * z)%C = a * Re z.
Proof. destruct z. unfold Re, Cmult, RtoC. simpl. ring. Qed.
Lemma re_plus (a b : C) : Re (a + b)%C = Re a + Re b. Proof. destruct a, b. reflexivity. Qed.
Definition odd_part (nd : nat) := (nd = 4 \/ nd = 6)%nat.
Lemma line_x_re nd Le v n k : odd_part nd -> Re (line_x nd Le v n k) =
  N1 (zeta k) * Re (v (nd * n)%nat) + Le * N2 (zeta k) * Re (v (nd * n + nd / 2 + 1)%nat) +
  N3 (zeta k) * Re (v (nd * S n)%nat) + Le * N4 (zeta k) * Re (v (nd * S n + nd / 2 + 1)%nat).
Proof.
  intros [-> | ->]; unfold line_x; rewrite !re_plus, !re_scal.
  - change (4 / 2)%nat with 2%nat. change (3 * 4 / 2)%nat with 6%nat. replace (4 * n + 4)%nat with (4 * S n)%nat by lia. replace (4 * n + 6 + 1)%nat with (4 * S n + 2 + 1)%nat by lia. ring.
  - change (6 / 2)%nat with 3%nat. change (3 * 6 / 2)%nat with 9%nat. replace (6 * n + 6)%nat with (6 * S n)%nat by lia. replace (6 * n + 9 + 1)%nat with (6 * S n + 3 + 1)%nat by lia. ring.
Qed.
Lemma line_y_re nd Le v n k : odd_part nd -> Re (line_y nd Le v n k) =
  N1 (zeta k) * Re (v (nd * n + 1)%nat) - Le * N2 (zeta k) * Re (v (nd * n + nd / 2)%nat) +
  N3 (zeta k) * Re (v (nd * S n + 1)%nat) - Le * N4 (zeta k) * Re (v (nd * S n + nd / 2)%nat).
Proof.
  intros [-> | ->]; unfold line_y; rewrite !re_plus, !re_scal.
  - change (4 / 2)%nat with 2%nat. change (3 * 4 / 2)%nat with 6%nat. replace (4 * n + 4 + 1)%nat with (4 * S n + 1)%nat by lia. replace (4 * n + 6)%nat with (4 * S n + 2)%nat by lia. ring.
  - change (6 / 2)%nat with 3%nat. change (3 * 6 / 2)%nat with 9%nat. replace (6 * n + 6 + 1)%nat with (6 * S n + 1)%nat by lia. replace (6 * n + 9)%nat with (6 * S n + 3)%nat by lia. ring.
Qed.
(** the Hermite cubic with given end values and slopes *)
Lemma hermite_cubic L u0 s0 u1 s1 : L <> 0 -> exists a b c d,
  cubic a b c d 0 = u0 /\ cubic' b c d 0 = s0 /\ cubic a b c d L = u1 /\ cubic' b c d L = s1 /\
  forall z, N1 z * u0 + L * N2 z * s0 + N3 z * u1 + L * N4 z * s1 = cubic a b c d (L * z).
Proof.
  intros HL. exists u0, s0, ((3 * (u1 - u0) - L * (2 * s0 + s1)) / L ^ 2), ((2 * (u0 - u1) + L * (s0 + s1)) / L ^ 3).
  unfold cubic, cubic', N1, N2, N3, N4. repeat split; try (field; auto). intros z. field. auto.
Qed.
(** ... is the only cubic with these values *)
Lemma hermite_exact L a b c d z : L <> 0 -> forall z0,
  N1 z * cubic a b c d z0 + L * N2 z * cubic' b c d z0 + N3 z * cubic a b c d (z0 + L) + L * N4 z * cubic' b c d (z0 + L) = cubic a b c d (z0 + L * z).
Proof. intros HL z0. unfold cubic, cubic', N1, N2, N3, N4. ring. Qed.

Lemma covered_elem r e : rfacts r -> In e (r_shaft r) -> (el_n e <= r_n_last r)%nat.
Proof. intros F He. rewrite (rf_last _ F). apply max_list_ge, in_map. exact He. Qed.
(** the points of the line of a shape on one element *)
Lemma shape_element eig2 r v nz s e k : rfacts r -> covered r -> layers_match r -> rotor_shape eig2 r v nz = Ok s -> In e (r_shaft r) -> (k < 5)%nat ->
  let n := el_n e in let L := sh_L e in let w := sp_evec s in let i := (5 * n + k)%nat in
  ln_x (sp_line s) i = Re (line_x (r_nd r) L w n k) /\ ln_y (sp_line s) i = Re (line_y (r_nd r) L w n k) /\
  ln_z (sp_line s) i = nth n (r_nodes_pos r) 0 + L * zeta k /\
  ln_major (sp_line s) i = ob_major (orbit_init eig2 (line_x (r_nd r) L w n k) (line_y (r_nd r) L w n k)).
Proof.
  intros F Hc Hl H He Hk n L w i. unfold rotor_shape, shape_init in H. destruct (nz && _)%bool; [discriminate|]. inversion H as [Hs]. clear H.
  destruct (shaft_lengths_spec r F Hc Hl) as [A B]. destruct (positions r F Hc Hl) as (P & _).
  assert (Hn := covered_elem r e F He). unfold w. rewrite <- Hs. cbn [sp_line sp_evec]. unfold r_nodes.
  destruct (line_entry eig2 (r_nd r) (if nz then fun j => (v j / scale_of (r_nd r) (r_ndof r) v)%C else v) (r_nodes_pos r) (shaft_lengths r) 0 (length (r_nodes_pos r)) zeros n k) as (E1 & E2 & E3 & E4).
  - rewrite A, P. fold n in Hn. lia.
  - auto.
  - rewrite Nat.sub_0_r in *. unfold n in *. rewrite (B e He) in *. fold L in E1, E2, E3, E4. auto.
Qed.
