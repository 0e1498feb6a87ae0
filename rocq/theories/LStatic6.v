(** Shearing force and bending moment. *)
From Coq Require Import Reals String List Arith Bool Lia Lra Permutation Sorted.
From Verif Require Import PyBase PyDict MatBase SpecMat LMat MMaterial MShaft MDisk MBearing MRotor SpecBeam SpecShaft SpecRotor LShaft LShaftEnergy LShaftProps LShaft6 LShaftEx LBearing LBearing2
  LAssembly LRotor LRotor2 LRotor3 LRotor4 LRotor5 LRotor6 LRotor7 LRotorInit2 MDynamics MResults MSection LSection LSection2 MStatic SpecStatic LResults7 LResults8 LStatic LStatic2 LStatic3 LStatic4 LStatic5.
Import ListNotations.
Open Scope list_scope.
Open Scope R_scope.

Lemma ge_split (g : elem -> R) sh i :
  suml (map g (filter (fun e => (i <=? el_n e)%nat) sh)) = suml (map g (at_node sh i)) + suml (map g (filter (fun e => (S i <=? el_n e)%nat) sh)).
Proof.
  unfold at_node. induction sh as [|e sh IH]; [unfold suml; simpl; ring|]. cbn [filter].
  destruct (Nat.leb_spec i (el_n e)), (Nat.eqb_spec (el_n e) i), (Nat.leb_spec (S i) (el_n e)); try lia; unfold suml in *; cbn [map fold_right]; rewrite ?IH; ring.
Qed.
Lemma ge_all (g : elem -> R) sh : suml (map g (filter (fun e => (0 <=? el_n e)%nat) sh)) = suml (map g sh).
Proof. rewrite (filter_ext _ (fun _ => true)) by (intros e; reflexivity). f_equal. f_equal. induction sh as [|e sh IH]; [reflexivity|]. cbn [filter]. rewrite IH. reflexivity. Qed.
Lemma ge_none (g : elem -> R) sh i : (forall e, In e sh -> (el_n e < i)%nat) -> suml (map g (filter (fun e => (i <=? el_n e)%nat) sh)) = 0.
Proof.
  induction sh as [|e sh IH]; intros H; [reflexivity|]. cbn [filter]. pose proof (H e (or_introl eq_refl)). destruct (Nat.leb_spec i (el_n e)); [lia|]. apply IH. intros e' He'. apply H. right. exact He'.
Qed.
Lemma at_node_filter sh j e : In e (at_node sh j) <-> In e sh /\ el_n e = j.
Proof. unfold at_node. rewrite filter_In, Nat.eqb_eq. tauto. Qed.
Lemma suml_filter_if {A} (p : A -> bool) (g : A -> R) l : suml (map (fun e => if p e then g e else 0) l) = suml (map g (filter p l)).
Proof. induction l as [|a l IH]; [reflexivity|]. cbn [filter]. unfold suml in *. cbn [map fold_right]. rewrite IH. destruct (p a); cbn [map fold_right]; ring. Qed.

Definition plain_cyl (e : elem) : Prop :=
  match e with EShaft _ _ _ s => exists a, shaft_init a = Ok s /\ good_args a /\ cylindrical a | _ => True end.

Section Diag.
Variables (spl : list R -> list R -> R -> R) (r : rotor).
Hypothesis F : rfacts r.
Hypothesis Hc : forall k, (k <= r_n_last r)%nat -> exists e, In e (r_shaft r) /\ el_n e = k.
Hypothesis Hl : layers_match r.
Hypothesis Hs : forall e, In e (r_shaft r) -> no_load e.
Hypothesis Hy : forall e, In e (r_shaft r) -> plain_cyl e.
Variables (ra : rotor) (u nodal weight : vec).
Hypothesis C : core spl r ra u nodal weight.
Let R0 := reaction_of nodal weight.
Let f k := nodal (4 * k + 1)%nat - nodal_shaft_weight (r_shaft r) k.

Lemma cyl_cg e : In e (r_shaft r) -> sh_cg e = sh_L e / 2 /\ sh_L e <> 0.
Proof.
  intros He. pose proof (Hy e He) as H. destruct (rf_shaft _ F e He) as (six & n & t & s & ->). destruct H as (a & Hi & Hg & Hcy).
  cbn [sh_cg sh_L]. split; [apply (cyl_flat a s Hi Hg Hcy)|]. pose proof (shaft_positive _ _ Hi Hg) as Ps. destruct Ps. lra.
Qed.
Lemma unit_P k : (k <= r_n_last r + 1)%nat -> let x := fun j => if Nat.eqb j (4 * k + 1) then 1 else 0 : R in
  P spl r x up4 = suml (map (fun e => sh_m e / 2 * ((if Nat.eqb (el_n e) k then 1 else 0) + (if Nat.eqb (S (el_n e)) k then 1 else 0))) (r_shaft r)) + disk_mass r k.
Proof.
  intros Hk x. unfold P. rewrite map_app, suml_app. f_equal.
  - apply suml_map_ext. intros e He. pose proof (Hy e He) as Hcy. destruct (rf_shaft _ F e He) as (six & n & t & s & E). subst e.
    pose proof (work_fam r _ _ _ _ _ F He eq_refl) as Hnd. pose proof (shaft_node r _ F He) as Hn. cbn [el_n] in Hn. rewrite (work_shaft_M spl 0 r six n t s) by auto.
    destruct Hcy as (a & Hi & Hg & Hcy). rewrite (shaft_cyl_up a s _ _ Hi Hg Hcy).
    + cbn [sh_m el_n]. f_equal. unfold at_n, x. f_equal.
      * destruct (Nat.eqb_spec (4 * n + 1) (4 * k + 1)), (Nat.eqb_spec n k); (reflexivity || lia).
      * destruct (Nat.eqb_spec (4 * n + 5) (4 * k + 1)), (Nat.eqb_spec (S n) k); (reflexivity || lia).
    + intros i _. apply up4_at.
    + unfold at_n, x. destruct (Nat.eqb_spec (4 * n + 2) (4 * k + 1)); [lia|reflexivity].
    + unfold at_n, x. destruct (Nat.eqb_spec (4 * n + 6) (4 * k + 1)); [lia|reflexivity].
  - unfold disk_mass. rewrite <- suml_filter_if. apply suml_map_ext. intros e He. destruct (rf_disk _ F e He) as (six & t & d & E). subst e. destruct (disk_fam r _ _ _ F He) as [Hnd Hn].
    rewrite (work_disk_M spl 0 r six t d) by auto. rewrite disk_up by (intros i _; apply up4_at). cbn [el_n dk_m]. unfold at_n, x.
    destruct (Nat.eqb_spec (4 * d_n d + 1) (4 * k + 1)), (Nat.eqb_spec (d_n d) k); (ring || lia).
Qed.
Lemma load_at k : (k <= r_n_last r + 1)%nat -> f k = node_load r R0 k.
Proof.
  intros Hk. unfold f, node_load, R0, reaction_of. set (i := (4 * k + 1)%nat). assert (Hi : (i < n4 r)%nat) by (unfold i, n4; lia).
  pose proof (co_weight _ _ _ _ _ _ C (fun j => if Nat.eqb j i then 1 else 0)) as E. rewrite (unit_dot r i weight Hi) in E. unfold i in E. rewrite (unit_P k Hk) in E.
  assert (En : nodal_shaft_weight (r_shaft r) k = - g0 * suml (map (fun e => sh_m e / 2 * ((if Nat.eqb (el_n e) k then 1 else 0) + (if Nat.eqb (S (el_n e)) k then 1 else 0))) (r_shaft r))).
  { unfold nodal_shaft_weight. rewrite <- suml_map_scal. apply suml_map_ext. intros e He. destruct (cyl_cg e He) as [Ec HL]. rewrite Ec. unfold grav, g0.
    destruct (Nat.eqb (S (el_n e)) k), (Nat.eqb (el_n e) k); field; exact HL. }
  rewrite En. fold i in E. rewrite E. ring.
Qed.
Lemma react_zero k : (k <= r_n_last r + 1)%nat -> ~ In k (supports r) -> R0 k = 0.
Proof.
  intros Hk Hn. unfold R0. rewrite (reaction_value spl r ra u nodal weight C k Hk). assert (Z : cnt r k = 0).
  { unfold cnt. rewrite (suml_map_ext _ (fun _ => 0 * 0)); [rewrite suml_map_scal; ring|]. intros n Hin. destruct (Nat.eqb_spec n k) as [->|]; [contradiction|ring]. }
  rewrite Z. ring.
Qed.
Lemma all_nodes (h : nat -> R) : suml (map (fun k => h k * R0 k) (seq 0 (r_n_last r + 2))) = - 10 ^ 20 * suml (map (fun n => h n * u (4 * n + 1)%nat) (supports r)).
Proof.
  rewrite (suml_map_ext _ (fun k => - 10 ^ 20 * ((h k * u (4 * k + 1)%nat) * cnt r k))).
  2:{ intros k Hk. apply in_seq in Hk. unfold R0. rewrite (reaction_value spl r ra u nodal weight C k) by lia. ring. }
  rewrite suml_map_scal. f_equal. unfold cnt. apply keys_sum; [apply seq_NoDup|]. intros n Hn. pose proof (support_node r F n Hn). apply in_seq. lia.
Qed.
Lemma disk_sum (h : nat -> R) : suml (map (fun k => h k * disk_mass r k) (seq 0 (r_n_last r + 2))) = suml (map (fun e => dk_m e * h (el_n e)) (r_disk r)).
Proof.
  unfold disk_mass.
  rewrite (suml_map_ext _ (fun k => suml (map (fun e => if Nat.eqb (el_n e) k then dk_m e * h k else 0) (r_disk r)))).
  2:{ intros k _. rewrite <- suml_filter_if, <- suml_map_scal. apply suml_map_ext. intros e _. destruct (Nat.eqb (el_n e) k); ring. }
  assert (Hb : forall e, In e (r_disk r) -> (el_n e < r_n_last r + 2)%nat).
  { intros e He. destruct (rf_disk _ F e He) as (six & t & d & E). subst e. destruct (disk_fam r _ _ _ F He). cbn [el_n]. lia. }
  induction (r_disk r) as [|e l IH].
  - rewrite (suml_map_ext _ (fun _ => 0 * 0)) by (intros; unfold suml; simpl; ring). rewrite suml_map_scal. unfold suml. simpl. ring.
  - rewrite (suml_map_ext _ (fun k => (dk_m e * h k) * (if Nat.eqb (el_n e) k then 1 else 0) + suml (map (fun e => if Nat.eqb (el_n e) k then dk_m e * h k else 0) l))).
    2:{ intros k _. unfold suml. cbn [map fold_right]. destruct (Nat.eqb (el_n e) k); ring. }
    rewrite suml_map_plus, IH by (intros; apply Hb; right; auto).
    change (suml (map (fun e0 => dk_m e0 * h (el_n e0)) (e :: l))) with (dk_m e * h (el_n e) + suml (map (fun e0 => dk_m e0 * h (el_n e0)) l)). f_equal.
    pose proof (keys_sum (fun k => dk_m e * h k) (seq 0 (r_n_last r + 2)) [el_n e] (seq_NoDup _ _)) as Q.
    assert (Q' := Q ltac:(intros n [<-|[]]; apply in_seq; pose proof (Hb e (or_introl eq_refl)); lia)). clear Q.
    transitivity (suml (map (fun k => dk_m e * h k) [el_n e])); [|unfold suml; cbn [map fold_right]; ring]. rewrite <- Q'.
    apply suml_map_ext. intros k _. unfold suml. cbn [map fold_right]. ring.
Qed.
(** equilibrium of the whole shaft *)
Lemma whole b q : suml (map (fun k => (b + q * zpos r k) * node_load r R0 k) (seq 0 (r_n_last r + 2)))
  = g0 * suml (map (fun e => sh_m e * (b + q * (zpos r (el_n e) + sh_cg e))) (r_shaft r)).
Proof.
  rewrite (suml_map_ext _ (fun k => (b + q * zpos r k) * R0 k + - g0 * ((b + q * zpos r k) * disk_mass r k))) by (intros; unfold node_load; ring).
  rewrite suml_map_plus, suml_map_scal, all_nodes, disk_sum.
  pose proof (co_eq _ _ _ _ _ _ C (plane r b q)) as E. rewrite (plane_W spl r F Hc Hl Hs), (plane_P spl r F Hc Hl Hs) in E.
  assert (EG : G r (plane r b q) u = suml (map (fun n => (b + q * zpos r n) * u (4 * n + 1)%nat) (supports r))).
  { apply suml_map_ext. intros n _. unfold grip. replace (4 * n)%nat with (4 * n + 0)%nat at 1 by lia. rewrite !plane_at by lia. cbn [Nat.eqb]. ring. }
  rewrite <- EG. lra.
Qed.

Let N := (r_n_last r + 1)%nat.
Let V := vx_loop (elm_forces (r_shaft r) N f) N.
Lemma tail_load (h : nat -> R) j : (j <= r_n_last r)%nat ->
  suml (map h (seq (S j) (r_n_last r + 1 - j))) = h (S j) + suml (map h (seq (S (S j)) (r_n_last r + 1 - S j))).
Proof. intros Hj. replace (r_n_last r + 1 - j)%nat with (S (r_n_last r + 1 - S j)) by lia. reflexivity. Qed.
Lemma weight_at j : (S j < N)%nat -> elm_weight (r_shaft r) N j = - g0 * suml (map sh_m (at_node (r_shaft r) j)).
Proof. intros H. unfold elm_weight. destruct (Nat.eqb_spec (S j) N); [lia|]. rewrite <- suml_map_scal. apply suml_map_ext. intros e _. unfold grav, g0. ring. Qed.
Lemma weight_last j : S j = N -> elm_weight (r_shaft r) N j = 0.
Proof. intros H. unfold elm_weight. rewrite H, Nat.eqb_refl. reflexivity. Qed.
Lemma res_node j : (j <= r_n_last r)%nat -> resultant r R0 j (S j) = node_load r R0 (S j) + resultant r R0 (S j) (S j).
Proof. intros Hj. unfold resultant. rewrite (tail_load (node_load r R0) j Hj). ring. Qed.
Lemma res_el j : resultant r R0 j j = resultant r R0 j (S j) - g0 * suml (map sh_m (at_node (r_shaft r) j)).
Proof. unfold resultant. rewrite (ge_split sh_m (r_shaft r) j). ring. Qed.
Lemma res_start : node_load r R0 0 = - resultant r R0 0 0.
Proof.
  pose proof (whole 1 0) as E. replace (r_n_last r + 2)%nat with (S (r_n_last r + 1)) in E by lia. cbn [seq] in E. unfold suml in E at 1. cbn [map fold_right] in E.
  fold (suml (map (fun k => (1 + 0 * zpos r k) * node_load r R0 k) (seq 1 (r_n_last r + 1)))) in E.
  rewrite (suml_map_ext _ (node_load r R0)) in E by (intros; ring). rewrite (suml_map_ext (fun e => sh_m e * (1 + 0 * (zpos r (el_n e) + sh_cg e))) sh_m) in E by (intros; ring).
  unfold resultant. rewrite ge_all, Nat.sub_0_r. lra.
Qed.
Lemma V_row j : (2 <= N)%nat -> (j < N)%nat -> fst (V j) = - resultant r R0 j j /\ snd (V j) = - resultant r R0 j (S j).
Proof.
  intros HN. induction j as [|j IH]; intros Hj.
  - assert (E : fst (V 0%nat) = - resultant r R0 0 0) by (unfold V; cbn [vx_loop fst elm_forces]; rewrite load_at by lia; apply res_start).
    split; [exact E|]. unfold V. cbn [vx_loop snd fst]. unfold elm_forces at 2. cbn [snd]. destruct (Nat.eqb_spec 1 N); [lia|]. rewrite weight_at by lia.
    unfold V in E. cbn [vx_loop fst] in E. rewrite E, (res_el 0). ring.
  - destruct (IH ltac:(lia)) as [_ I].
    assert (E : fst (V (S j)) = - resultant r R0 (S j) (S j)).
    { change (fst (V (S j))) with (snd (V j) + f (S j)). rewrite I, load_at by (unfold N in Hj; lia). rewrite res_node by (unfold N in Hj; lia). ring. }
    split; [exact E|].
    assert (E2 : snd (V (S j)) = if Nat.eqb (S (S j)) N then snd (elm_forces (r_shaft r) N f (S j)) else fst (V (S j)) + snd (elm_forces (r_shaft r) N f (S j))) by reflexivity.
    rewrite E2, E. unfold elm_forces. cbn [snd]. destruct (Nat.eqb_spec (S (S j)) N) as [Hn|Hn].
    + rewrite weight_last by exact Hn. rewrite load_at by (unfold N; lia). rewrite res_node by (unfold N in Hn; lia). replace (S (S j)) with N by lia.
      assert (Z : resultant r R0 N N = 0).
      { unfold resultant. replace (r_n_last r + 1 - N)%nat with 0%nat by (unfold N; lia). rewrite ge_none; [unfold suml; simpl; ring|]. intros e He. pose proof (shaft_node r e F He). unfold N. lia. }
      rewrite Z. ring.
    + rewrite weight_at by lia. rewrite (res_el (S j)). ring.
Qed.

Let v := vx_row (elm_forces (r_shaft r) N f) N.
Let ax := axis_row (r_shaft r) (r_nodes_pos r).
Lemma v_row j : (2 <= N)%nat -> (j < N)%nat -> v j = (resultant r R0 j j, resultant r R0 j (S j)).
Proof. intros H1 H2. destruct (V_row j H1 H2) as [E1 E2]. unfold v, vx_row. fold (V j). rewrite E1, E2. f_equal; ring. Qed.
Lemma ax_row j : (j < N)%nat -> ax j = (zpos r j, zpos r (S j)).
Proof.
  intros Hj. unfold ax, axis_row. destruct (Hc j ltac:(unfold N in Hj; lia)) as (e & He & E). destruct (at_node (r_shaft r) j) as [|e' l] eqn:Ea; [|reflexivity].
  exfalso. assert (I : In e (at_node (r_shaft r) j)) by (apply at_node_filter; auto). rewrite Ea in I. destruct I.
Qed.
Lemma moment_step j : (2 <= N)%nat -> (j < N)%nat -> moment_right r R0 j = moment_right r R0 (S j) + area v ax j.
Proof.
  intros HN Hj. assert (Hj' : (j <= r_n_last r)%nat) by (unfold N in Hj; lia). unfold area. rewrite (v_row j HN Hj), (ax_row j Hj). cbn [fst snd]. rewrite (res_el j). unfold moment_right, resultant.
  rewrite (tail_load (fun k => (zpos r k - zpos r j) * node_load r R0 k) j Hj'), (tail_load (node_load r R0) j Hj').
  rewrite (suml_map_ext (fun k => (zpos r k - zpos r j) * node_load r R0 k) (fun k => (zpos r k - zpos r (S j)) * node_load r R0 k + (zpos r (S j) - zpos r j) * node_load r R0 k) (seq (S (S j)) _)) by (intros; ring).
  rewrite suml_map_plus, suml_map_scal. rewrite (ge_split (fun e => sh_m e * (zpos r (el_n e) + sh_cg e - zpos r j)) (r_shaft r) j).
  rewrite (suml_map_ext (fun e => sh_m e * (zpos r (el_n e) + sh_cg e - zpos r j)) (fun e => (zpos r (S j) - zpos r j) / 2 * sh_m e) (at_node (r_shaft r) j)).
  2:{ intros e He. apply at_node_filter in He as [He En]. destruct (cyl_cg e He) as [-> _]. destruct (positions r F Hc Hl) as (_ & _ & Hp & _). specialize (Hp _ He). rewrite En in Hp.
      unfold zpos. rewrite En, Hp. field. }
  rewrite (suml_map_ext (fun e => sh_m e * (zpos r (el_n e) + sh_cg e - zpos r j)) (fun e => sh_m e * (zpos r (el_n e) + sh_cg e - zpos r (S j)) + (zpos r (S j) - zpos r j) * sh_m e) (filter _ (r_shaft r))) by (intros; ring).
  rewrite suml_map_plus, !suml_map_scal. field.
Qed.
Lemma moment_end : moment_right r R0 N = 0.
Proof.
  unfold moment_right. replace (r_n_last r + 1 - N)%nat with 0%nat by (unfold N; lia). rewrite ge_none; [unfold suml; simpl; ring|].
  intros e He. pose proof (shaft_node r e F He). unfold N. lia.
Qed.
Lemma moment_start : moment_right r R0 0 = 0.
Proof.
  destruct (positions r F Hc Hl) as (_ & Z0 & _). pose proof (whole 0 1) as E. replace (r_n_last r + 2)%nat with (S (r_n_last r + 1)) in E by lia. cbn [seq] in E. unfold suml in E at 1. cbn [map fold_right] in E.
  fold (suml (map (fun k => (0 + 1 * zpos r k) * node_load r R0 k) (seq 1 (r_n_last r + 1)))) in E.
  unfold moment_right. rewrite ge_all, Nat.sub_0_r. unfold zpos at 2 4. rewrite Z0. unfold zpos in E at 1. rewrite Z0 in E.
  rewrite (suml_map_ext (fun k => (zpos r k - 0) * node_load r R0 k) (fun k => (0 + 1 * zpos r k) * node_load r R0 k)) by (intros; ring).
  rewrite (suml_map_ext (fun e => sh_m e * (zpos r (el_n e) + sh_cg e - 0)) (fun e => sh_m e * (0 + 1 * (zpos r (el_n e) + sh_cg e)))) by (intros; ring). lra.
Qed.
Lemma m_row j : (2 <= N)%nat -> (j < N)%nat -> mx_row v ax N j = (- moment_right r R0 j, - moment_right r R0 (S j)).
Proof.
  intros HN. induction j as [|j IH]; intros Hj.
  - cbn [mx_row]. destruct (Nat.eqb_spec 1 N); [lia|]. cbv zeta. pose proof (moment_step 0 HN Hj) as E. rewrite moment_start in *. f_equal; lra.
  - specialize (IH ltac:(lia)). pose proof (moment_step (S j) HN Hj) as E.
    assert (X : mx_row v ax N (S j) = if Nat.eqb (S (S j)) N then (- area v ax (S j), 0) else (snd (mx_row v ax N j), snd (mx_row v ax N j) + area v ax (S j))) by reflexivity.
    rewrite X. destruct (Nat.eqb_spec (S (S j)) N) as [Hn|Hn].
    + rewrite Hn in *. rewrite moment_end in *. f_equal; lra.
    + rewrite IH. cbn [snd]. f_equal. lra.
Qed.
End Diag.
