(** Lemmas about cutting a shaft into elements. *)
From Coq Require Import Reals String List Arith Bool Lia Lra Permutation Sorted.
From Verif Require Import PyBase MatBase SpecMat LMat MMaterial MShaft SpecShaft MDisk MBearing MRotor SpecRotor LAssembly LRotor LRotor2 LRotorPos LRotor5 LRotorInit LRotorInit2 LRotor6 MSection SpecSection.
Import ListNotations.
Open Scope list_scope.
Open Scope R_scope.

Lemma collect_all {A B} (f : A -> res B) l els : collect (map f l) = Ok els <-> Forall2 (fun x y => f x = Ok y) l els.
Proof.
  revert els. induction l as [|x l IH]; intros els; simpl.
  - split; [intros [= <-]; constructor|intros H; inversion H; reflexivity].
  - destruct (f x) as [y|e] eqn:E.
    + destruct (collect (map f l)) as [r|e'] eqn:Ec; simpl.
      * split; [intros [= <-]; constructor; [exact E|apply IH; reflexivity]|].
        intros H. inversion H; subst. assert (Ok r = Ok l') by (apply IH; assumption). congruence.
      * split; [discriminate|]. intros H. inversion H; subst. assert (Err e' = Ok l') by (apply IH; assumption). discriminate.
    + split; [discriminate|]. intros H. inversion H; congruence.
Qed.
Lemma collect_ok {A B} (f : A -> res B) l : (forall x, In x l -> exists y, f x = Ok y) -> exists els, collect (map f l) = Ok els.
Proof.
  induction l as [|x l IH]; intros H; simpl; [eauto|].
  destruct (H x (or_introl eq_refl)) as [y ->]. destruct (IH (fun z Hz => H z (or_intror Hz))) as [r ->]. simpl. eauto.
Qed.
Lemma forall2_seq {B} (P : nat -> B -> Prop) a n els : Forall2 P (seq a n) els ->
  length els = n /\ forall i d, (i < n)%nat -> P (a + i)%nat (nth i els d).
Proof.
  revert a els. induction n as [|n IH]; intros a els H; inversion H as [|? y ? els' Hy Hr]; subst.
  - split; [reflexivity|intros; lia].
  - destruct (IH _ _ Hr) as [Hl Hn]. split; [simpl; lia|]. intros [|i] d Hi; [rewrite Nat.add_0_r; exact Hy|].
    rewrite Nat.add_succ_r. apply (Hn i d). lia.
Qed.
Lemma suml_nth {A} (g : A -> R) l d : suml (map g l) = sumn (length l) (fun i => g (nth i l d)).
Proof.
  induction l as [|x l IH] using rev_ind; [reflexivity|].
  rewrite map_app, suml_app, app_length, Nat.add_1_r. cbn [sumn]. rewrite app_nth2, Nat.sub_diag by lia. simpl. rewrite Rplus_0_r. f_equal.
  rewrite IH. apply sumn_ext. intros i Hi. rewrite app_nth1 by lia. reflexivity.
Qed.
Lemma telescope (F : nat -> R) n : sumn n (fun i => F (S i) - F i) = F n - F 0%nat.
Proof. induction n; simpl; [ring|rewrite IHn; ring]. Qed.

(** ** one element *)
Definition cutp (d0 d1 : R) (ne i : nat) : R := d0 + (d1 - d0) * (INR i / INR ne).
Lemma cut_along d0 d1 L ne i : L <> 0 -> (0 < ne)%nat -> (d1 - d0) * INR i * (L / INR ne) / L + d0 = along d0 d1 L (INR i * (L / INR ne)).
Proof. intros HL Hn. unfold along. apply lt_INR in Hn. simpl in Hn. field. split; lra. Qed.
Lemma along_cutp d0 d1 L ne i : L <> 0 -> (0 < ne)%nat -> along d0 d1 L (INR i * (L / INR ne)) = cutp d0 d1 ne i.
Proof. intros HL Hn. unfold along, cutp. apply lt_INR in Hn. simpl in Hn. field. split; lra. Qed.

Lemma cut_part L ne il ol ir or i mt n sh ro gy al be s : L <> 0 -> (0 < ne)%nat ->
  shaft_init (cut_args L (L / INR ne) il ol ir or i (Some mt) n sh ro gy al be) = Ok s ->
  is_part L il ol ir or (INR i * (L / INR ne)) ((INR i + 1) * (L / INR ne)) mt s /\
  s_n s = n /\ s_tag s = None /\ s_axial_force s = 0 /\ s_torque s = 0 /\ s_alpha s = al /\ s_beta s = be /\
  s_shear_effects s = sh /\ s_rotary_inertia s = ro /\ s_gyroscopic s = gy.
Proof.
  intros HL Hn H.
  assert (Hf : s_L s = L / INR ne /\ s_material s = mt /\ s_idl s = (ir - il) * INR i * (L / INR ne) / L + il /\
     s_odl s = (or - ol) * INR i * (L / INR ne) / L + ol /\ s_idr s = (ir - il) * (INR i + 1) * (L / INR ne) / L + il /\
     s_odr s = (or - ol) * (INR i + 1) * (L / INR ne) / L + ol /\
     s_n s = n /\ s_tag s = None /\ s_axial_force s = 0 /\ s_torque s = 0 /\ s_alpha s = al /\ s_beta s = be /\
     s_shear_effects s = sh /\ s_rotary_inertia s = ro /\ s_gyroscopic s = gy).
  { unfold shaft_init in H. cbv zeta in H. cbn [cut_args a_material a_shear_effects a_method shear_kappa] in H.
    destruct sh; injection H as <-; repeat split; reflexivity. }
  destruct Hf as (E1 & E2 & E3 & E4 & E5 & E6 & Hrest).
  split; [|exact Hrest].
  replace (INR i + 1) with (INR (S i)) in * by (rewrite S_INR; ring).
  unfold is_part. rewrite E1, E2, E3, E4, E5, E6, !cut_along by auto. rewrite S_INR. repeat split; ring.
Qed.
Lemma cut_exists L le il ol ir or i mt n sh ro gy al be : exists s, shaft_init (cut_args L le il ol ir or i (Some mt) n sh ro gy al be) = Ok s.
Proof. unfold shaft_init. cbv zeta. cbn [cut_args a_material a_shear_effects a_method shear_kappa]. destruct sh; eexists; reflexivity. Qed.

(** ** mass, first moment and polar inertia of an element in terms of its diameters *)
Definition outer2 (a b : R) := a ^ 2 + a * b + b ^ 2.
Definition mass_f (rho L il ol ir or : R) : R := rho * (PI * (L / 12) * (outer2 ol or - outer2 il ir)).
Definition quart (a b : R) := a ^ 4 + a ^ 3 * b + a ^ 2 * b ^ 2 + a * b ^ 3 + b ^ 4.
Definition polar_f (rho L il ol ir or : R) : R := PI * L * rho / 160 * (quart ol or - quart il ir).
Definition cgn (a b : R) := a ^ 2 + 2 * a * b + 3 * b ^ 2.
Definition moment_f (rho L il ol ir or : R) : R := rho * PI * L ^ 2 / 48 * (cgn ol or - cgn il ir).

Lemma geom_outer il ol ir or : 0 <= il < ol -> 0 <= ir < or -> 0 < outer2 ol or - outer2 il ir.
Proof.
  intros H1 H2. unfold outer2.
  assert (il * il < ol * ol) by (apply Rmult_le_0_lt_compat; lra).
  assert (ir * ir < or * or) by (apply Rmult_le_0_lt_compat; lra).
  assert (il * ir <= ol * or) by (apply Rmult_le_compat; lra). simpl. lra.
Qed.
Lemma elem_mass a s : shaft_init a = Ok s -> good_geometry (a_L a) (a_idl a) (a_odl a) (right_id a) (right_od a) ->
  s_m s = mass_f (mrho (s_material s)) (s_L s) (s_idl s) (s_odl s) (s_idr s) (s_odr s) /\
  s_Im s = polar_f (mrho (s_material s)) (s_L s) (s_idl s) (s_odl s) (s_idr s) (s_odr s) /\
  s_m s * s_beam_cg s = moment_f (mrho (s_material s)) (s_L s) (s_idl s) (s_odl s) (s_idr s) (s_odr s).
Proof.
  intros H (HL & Hl & Hr). unfold shaft_init in H. cbv zeta in H. destruct (a_material a) as [m|]; [|discriminate].
  fold (right_id a) in H. fold (right_od a) in H. change (default (a_idl a) (a_idr a)) with (right_id a) in H. change (default (a_odl a) (a_odr a)) with (right_od a) in H.
  pose proof (geom_outer _ _ _ _ Hl Hr) as Ho. pose proof PI_RGT_0 as HP.
  assert (G : s_L s = a_L a /\ s_material s = m /\ s_idl s = a_idl a /\ s_odl s = a_odl a /\ s_idr s = right_id a /\ s_odr s = right_od a /\
     s_m s = mrho m * (PI * (a_L a / 12) * (outer2 (a_odl a) (right_od a) - outer2 (a_idl a) (right_id a))) /\
     s_Im s = (PI * a_L a * (s_m s / (PI * (a_L a / 12) * (outer2 (a_odl a) (right_od a) - outer2 (a_idl a) (right_id a)))) / 10) *
        (quart (a_odl a / 2) (right_od a / 2) - quart (a_idl a / 2) (right_id a / 2)) /\
     s_beam_cg s = a_L a * (cgn (a_odl a / 2) (right_od a / 2) - (a_idl a / 2) ^ 2 - 2 * (a_idl a / 2) * (right_id a / 2) - 3 * (right_id a / 2) ^ 2)
       / (4 * (outer2 (a_odl a / 2) (right_od a / 2) - outer2 (a_idl a / 2) (right_id a / 2)))).
  { destruct (a_shear_effects a); [destruct (shear_kappa _ _ _ _ _ _) as [k|]; [|discriminate]|]; injection H as <-; repeat split; reflexivity. }
  destruct G as (-> & -> & -> & -> & -> & -> & Em' & Ei & Ec).
  split; [exact Em'|]. rewrite Ei, Ec, Em'. unfold polar_f, moment_f.
  replace (outer2 (a_odl a / 2) (right_od a / 2) - outer2 (a_idl a / 2) (right_id a / 2)) with ((outer2 (a_odl a) (right_od a) - outer2 (a_idl a) (right_id a)) / 4) by (unfold outer2; field).
  set (D := outer2 (a_odl a) (right_od a) - outer2 (a_idl a) (right_id a)) in *.
  split; unfold quart, cgn; field; repeat split; lra.
Qed.

(** ** adding up the parts of a piece *)
Section Parts.
Variables (rho L il ol ir or : R) (ne : nat).
Hypothesis Hne : (0 < ne)%nat.
Let le := L / INR ne.
Lemma ne_pos : 0 < INR ne. Proof. apply lt_INR in Hne. exact Hne. Qed.

Definition P2 (d0 d1 t : R) := d0 ^ 2 * t + d0 * (d1 - d0) * t ^ 2 + (d1 - d0) ^ 2 * t ^ 3 / 3.
Definition P4 (d0 d1 t : R) := let b := d1 - d0 in d0 ^ 4 * t + 2 * d0 ^ 3 * b * t ^ 2 + 2 * d0 ^ 2 * b ^ 2 * t ^ 3 + d0 * b ^ 3 * t ^ 4 + b ^ 4 * t ^ 5 / 5.
Definition P3 (d0 d1 t : R) := d0 ^ 2 * t ^ 2 / 2 + 2 * d0 * (d1 - d0) * t ^ 3 / 3 + (d1 - d0) ^ 2 * t ^ 4 / 4.

Lemma parts_mass : sumn ne (fun i => mass_f rho le (cutp il ir ne i) (cutp ol or ne i) (cutp il ir ne (S i)) (cutp ol or ne (S i))) = mass_f rho L il ol ir or.
Proof.
  pose proof ne_pos as Hp.
  transitivity (sumn ne (fun i => (fun k => rho * PI * L / 4 * (P2 ol or (INR k / INR ne) - P2 il ir (INR k / INR ne))) (S i) -
                                  (fun k => rho * PI * L / 4 * (P2 ol or (INR k / INR ne) - P2 il ir (INR k / INR ne))) i)).
  - apply sumn_ext. intros i _. unfold mass_f, P2, cutp, outer2, le. rewrite S_INR. field. lra.
  - rewrite (telescope (fun k => rho * PI * L / 4 * (P2 ol or (INR k / INR ne) - P2 il ir (INR k / INR ne)))). unfold mass_f, P2, outer2. simpl (INR 0). field. lra.
Qed.
Lemma parts_polar : sumn ne (fun i => polar_f rho le (cutp il ir ne i) (cutp ol or ne i) (cutp il ir ne (S i)) (cutp ol or ne (S i))) = polar_f rho L il ol ir or.
Proof.
  pose proof ne_pos as Hp.
  set (F := fun k => rho * PI * L / 32 * (P4 ol or (INR k / INR ne) - P4 il ir (INR k / INR ne))).
  transitivity (sumn ne (fun i => F (S i) - F i)).
  - apply sumn_ext. intros i _. unfold F, polar_f, P4, cutp, quart, le. rewrite S_INR. field. lra.
  - rewrite telescope. unfold F, polar_f, P4, quart. simpl (INR 0). field. lra.
Qed.
Lemma parts_moment : sumn ne (fun i => INR i * le * mass_f rho le (cutp il ir ne i) (cutp ol or ne i) (cutp il ir ne (S i)) (cutp ol or ne (S i)) +
    moment_f rho le (cutp il ir ne i) (cutp ol or ne i) (cutp il ir ne (S i)) (cutp ol or ne (S i))) = moment_f rho L il ol ir or.
Proof.
  pose proof ne_pos as Hp.
  set (F := fun k => rho * PI * L ^ 2 / 4 * (P3 ol or (INR k / INR ne) - P3 il ir (INR k / INR ne))).
  transitivity (sumn ne (fun i => F (S i) - F i)).
  - apply sumn_ext. intros i _. unfold F, mass_f, moment_f, P3, cutp, outer2, cgn, le. rewrite S_INR. field. lra.
  - rewrite telescope. unfold F, moment_f, P3, cgn. simpl (INR 0). field. lra.
Qed.
End Parts.
