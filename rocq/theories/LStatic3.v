(** Weight and weight moment of one element. *)
From Coq Require Import Reals String List Arith Bool Lia Lra Permutation Sorted.
From Verif Require Import PyBase PyDict MatBase SpecMat LMat MMaterial MShaft MDisk MBearing MRotor SpecBeam SpecShaft SpecRotor LShaft LShaftEnergy LShaftProps LShaft6 LBearing LBearing2
  LAssembly LRotor LRotor2 LRotor3 LRotor4 LRotor5 LRotor6 LRotor7 LRotorInit2 MDynamics MResults MSection LSection LSection2 MStatic SpecStatic LResults7 LResults8 LStatic LStatic2.
Import ListNotations.
Open Scope list_scope.
Open Scope R_scope.

(** a lateral motion of the rotor acts on an element like the lateral motion of its nodes on the lateral element *)
Definition at_n (x : vec) (n : nat) : vec := fun a => x (4 * n + a)%nat.
Lemma wide_at x n a : wide 6 x (6 * n + a)%nat = wide 6 (at_n x n) a.
Proof.
  assert (D := Nat.div_mod a 3 ltac:(lia)). assert (B := Nat.mod_upper_bound a 3 ltac:(lia)).
  set (c := (a / 3)%nat) in *. set (d := (a mod 3)%nat) in *. rewrite D. replace (6 * n + (3 * c + d))%nat with (3 * (2 * n + c) + d)%nat by lia.
  rewrite !wide6 by auto. destruct (Nat.eqb d 2); [reflexivity|]. unfold at_n. f_equal. lia.
Qed.
Lemma bform_vext n A x y x' y' : (forall i, (i < n)%nat -> x i = x' i) -> (forall i, (i < n)%nat -> y i = y' i) -> bform n A x y = bform n A x' y'.
Proof. intros H H'. unfold bform. apply sumn_ext. intros i Hi. rewrite (H i Hi). f_equal. apply sumn_ext. intros j Hj. rewrite (H' j Hj). reflexivity. Qed.
Lemma lat_bform m A6 A4 x y : (forall i j, (i < 2 * m)%nat -> (j < 2 * m)%nat -> A6 (up3 i) (up3 j) = A4 i j) ->
  bform (3 * m) A6 (wide 6 x) (wide 6 y) = bform (2 * m) A4 x y.
Proof. intros H. symmetry. apply up3_bform. intros i j Hi Hj. symmetry. apply H; auto. Qed.
Lemma work_shaft r (six : bool) n t s x y (A6 A4 : mat) f : (r_nd r = if six then 6 else 4)%nat -> (n <= r_n_last r)%nat ->
  (six = false -> f (EShaft six n t s) = Ok (8%nat, A4)) -> (six = true -> f (EShaft six n t s) = Ok (12%nat, A6)) ->
  (forall i j, (i < 8)%nat -> (j < 8)%nat -> A6 (up3 i) (up3 j) = A4 i j) ->
  work f r (wide (r_nd r) x) (wide (r_nd r) y) (EShaft six n t s) = bform 8 A4 (at_n x n) (at_n y n).
Proof.
  intros Hnd Hn H4 H6 HA. unfold work, el_size, el_mat. destruct six; rewrite Hnd.
  - rewrite H6 by auto. cbn [fst snd]. rewrite (bform_vext 12 A6 _ _ (wide 6 (at_n x n)) (wide 6 (at_n y n))).
    + apply (lat_bform 4). exact HA.
    + intros i Hi. rewrite gather_shaft by (auto; lia). apply wide_at.
    + intros i Hi. rewrite gather_shaft by (auto; lia). apply wide_at.
  - rewrite H4 by auto. cbn [fst snd]. apply bform_vext; intros i Hi; rewrite gather_shaft by (auto; lia); reflexivity.
Qed.
Lemma work_shaft_M spl w r (six : bool) n t s x y : (r_nd r = if six then 6 else 4)%nat -> (n <= r_n_last r)%nat ->
  work (el_M spl w) r (wide (r_nd r) x) (wide (r_nd r) y) (EShaft six n t s) = bform 8 (shaft_M s) (at_n x n) (at_n y n).
Proof.
  intros Hnd Hn. apply (work_shaft r six n t s x y (shaft6_M s)); auto; [intros ->; reflexivity|intros ->; reflexivity|].
  intros i j Hi Hj. rewrite <- !lat6_up3 by auto. apply (shaft6_M_lat s); auto.
Qed.
Lemma work_shaft_K spl w r (six : bool) n t s x y : (r_nd r = if six then 6 else 4)%nat -> (n <= r_n_last r)%nat ->
  work (el_K spl w) r (wide (r_nd r) x) (wide (r_nd r) y) (EShaft six n t s) = bform 8 (shaft_K s) (at_n x n) (at_n y n).
Proof.
  intros Hnd Hn. apply (work_shaft r six n t s x y (shaft6_K s)); auto; [intros ->; reflexivity|intros ->; reflexivity|].
  intros i j Hi Hj. rewrite <- !lat6_up3 by auto. apply (shaft6_K_lat s); auto.
Qed.
Lemma work_disk_M spl w r (six : bool) t d x y : (r_nd r = if six then 6 else 4)%nat -> (d_n d <= r_n_last r + 1)%nat ->
  work (el_M spl w) r (wide (r_nd r) x) (wide (r_nd r) y) (EDisk six t d) = bform 4 (disk_M d) (at_n x (d_n d)) (at_n y (d_n d)).
Proof.
  intros Hnd Hn. unfold work, el_size, el_mat. destruct six; rewrite Hnd; cbn [el_M fst snd].
  - rewrite (bform_vext 6 (disk6_M d) _ _ (wide 6 (at_n x (d_n d))) (wide 6 (at_n y (d_n d)))).
    + apply (lat_bform 2). intros i j Hi Hj. rewrite <- !lat3_up3 by auto. apply LDisk.disk6_lat; auto.
    + intros i Hi. rewrite gather_disk by auto. apply wide_at.
    + intros i Hi. rewrite gather_disk by auto. apply wide_at.
  - apply bform_vext; intros i Hi; rewrite gather_disk by auto; reflexivity.
Qed.

(** ** upward acceleration *)
Definition up4 : vec := fun i => if Nat.eqb (i mod 4) 1 then 1 else 0.
Lemma up4_at n a : at_n up4 n a = up4 a.
Proof. unfold at_n, up4. rewrite Nat.add_comm, Nat.mul_comm, Nat.mod_add by lia. reflexivity. Qed.
Lemma up4_lift r : (r_nd r = 4 \/ r_nd r = 6)%nat -> forall i, wide (r_nd r) up4 i = lift r i.
Proof.
  intros [E|E] i; unfold lift; rewrite E; [reflexivity|].
  assert (D := Nat.div_mod i 6 ltac:(lia)). assert (B := Nat.mod_upper_bound i 6 ltac:(lia)). set (c := (i / 6)%nat) in *. set (d := (i mod 6)%nat) in *.
  rewrite D, wide_at. do 6 (destruct d as [|d]; [unfold wide; cbn; rewrite ?up4_at; reflexivity|]). lia.
Qed.

Lemma shaft_up s x y : s_L s <> 0 -> 1 + s_phi s <> 0 -> (forall i, (i < 8)%nat -> y i = up4 i) ->
  bform 8 (shaft_M s) x y = mrho (s_material s) * s_A_l s * s_L s / (1260 * (1 + s_phi s) ^ 2) *
    (x 1%nat * (m1 s + m3 s) - s_L s * x 2%nat * (m2 s + m6 s) + x 5%nat * (m3 s + m8 s) + s_L s * x 6%nat * (m4 s + m9 s)).
Proof.
  intros HL HP Hy. rewrite (bform_vext 8 _ x y x up4) by auto. unfold bform. cbn [sumn].
  unfold up4. cbn [Nat.modulo Nat.divmod snd Nat.sub Nat.eqb fst]. unfold shaft_M, Mt_tab, Mr_tab, lmat. cbn [nth].
  destruct (s_rotary_inertia s); field; auto.
Qed.
Lemma shaft_mass_poly a s : shaft_init a = Ok s -> good_args a -> s_m s = mrho (s_material s) * s_A_l s * s_L s * (1 + s_a1 s / 2 + s_b1 s / 3).
Proof.
  intros Hi Hg. pose proof (shaft_init_facts _ _ Hi) as F. pose proof (shaft_positive _ _ Hi Hg) as Ps. assert (HA : s_A_l s <> 0) by (destruct Ps; lra).
  rewrite (f_m _ _ F), (f_vol _ _ F), (f_a1 _ _ F), (f_b1 _ _ F).
  transitivity (mrho (s_material s) * s_L s * (s_A_l s + PI * (s_odl s / 2 * (s_odr s / 2 - s_odl s / 2) - s_idl s / 2 * (s_idr s / 2 - s_idl s / 2))
     + PI * ((s_odr s / 2 - s_odl s / 2) ^ 2 - (s_idr s / 2 - s_idl s / 2) ^ 2) / 3)).
  - rewrite (f_Al _ _ F). field.
  - field. exact HA.
Qed.
Lemma shaft_cg_poly a s : shaft_init a = Ok s -> good_args a -> s_m s * s_beam_cg s = mrho (s_material s) * s_A_l s * s_L s ^ 2 * (1 / 2 + s_a1 s / 3 + s_b1 s / 4).
Proof.
  intros Hi Hg. pose proof (shaft_init_facts _ _ Hi) as F. pose proof (shaft_positive _ _ Hi Hg) as Ps. assert (HA : s_A_l s <> 0) by (destruct Ps; lra).
  rewrite (f_m _ _ F), (f_vol _ _ F), (f_cg _ _ F), (f_a1 _ _ F), (f_b1 _ _ F).
  transitivity (mrho (s_material s) * s_L s ^ 2 * (s_A_l s / 2 + 2 * PI * (s_odl s / 2 * (s_odr s / 2 - s_odl s / 2) - s_idl s / 2 * (s_idr s / 2 - s_idl s / 2)) / 3
     + PI * ((s_odr s / 2 - s_odl s / 2) ^ 2 - (s_idr s / 2 - s_idl s / 2) ^ 2) / 4)).
  - rewrite (f_Al _ _ F). field. destruct Ps. nra.
  - field. exact HA.
Qed.
(** a rigid motion x (deflection u at the left node, slope v) against the upward acceleration *)
Lemma shaft_rigid_up a s x y u v : shaft_init a = Ok s -> good_args a -> (forall i, (i < 8)%nat -> y i = up4 i) ->
  x 1%nat = u -> x 2%nat = - v -> x 5%nat = u + v * s_L s -> x 6%nat = - v ->
  bform 8 (shaft_M s) x y = s_m s * (u + v * s_beam_cg s).
Proof.
  intros Hi Hg Hy E1 E2 E5 E6. pose proof (shaft_positive _ _ Hi Hg) as Ps. assert (HL : s_L s <> 0) by (destruct Ps; lra). assert (HP : 1 + s_phi s <> 0) by (destruct Ps; lra).
  rewrite (shaft_up s x y HL HP Hy), E1, E2, E5, E6.
  replace (s_m s * (u + v * s_beam_cg s)) with (u * s_m s + v * (s_m s * s_beam_cg s)) by ring.
  rewrite (shaft_cg_poly a s Hi Hg), (shaft_mass_poly a s Hi Hg). unfold m1, m2, m3, m4, m6, m8, m9. field. exact HP.
Qed.
(** a cylinder: half of the weight goes to each end, and the turning moments cancel *)
Lemma cyl_flat a s : shaft_init a = Ok s -> good_args a -> cylindrical a -> s_a1 s = 0 /\ s_b1 s = 0 /\ s_beam_cg s = s_L s / 2.
Proof.
  intros Hi Hg [C1 C2]. pose proof (shaft_init_facts _ _ Hi) as F. pose proof (shaft_positive _ _ Hi Hg) as Ps. assert (HA : s_A_l s <> 0) by (destruct Ps; lra).
  assert (E1 : s_idr s = s_idl s) by (rewrite (f_idr _ _ F), (f_idl _ _ F); exact C1). assert (E2 : s_odr s = s_odl s) by (rewrite (f_odr _ _ F), (f_odl _ _ F); exact C2).
  rewrite (f_a1 _ _ F), (f_b1 _ _ F), (f_cg _ _ F), E1, E2. split; [field; exact HA|]. split; [field; exact HA|]. field. destruct Ps. nra.
Qed.
Lemma shaft_cyl_up a s x y : shaft_init a = Ok s -> good_args a -> cylindrical a -> (forall i, (i < 8)%nat -> y i = up4 i) ->
  x 2%nat = 0 -> x 6%nat = 0 -> bform 8 (shaft_M s) x y = s_m s / 2 * (x 1%nat + x 5%nat).
Proof.
  intros Hi Hg Hc Hy E2 E6. pose proof (shaft_positive _ _ Hi Hg) as Ps. assert (HL : s_L s <> 0) by (destruct Ps; lra). assert (HP : 1 + s_phi s <> 0) by (destruct Ps; lra).
  destruct (cyl_flat a s Hi Hg Hc) as (Z1 & Z2 & _).
  rewrite (shaft_up s x y HL HP Hy), E2, E6, (shaft_mass_poly a s Hi Hg). unfold m1, m2, m3, m4, m6, m8, m9. rewrite Z1, Z2. field. exact HP.
Qed.
Lemma disk_up d x y : (forall i, (i < 4)%nat -> y i = up4 i) -> bform 4 (disk_M d) x y = d_m d * x 1%nat.
Proof.
  intros Hy. rewrite (bform_vext 4 _ x y x up4) by auto. unfold bform. cbn [sumn]. unfold up4. cbn [Nat.modulo Nat.divmod snd Nat.sub Nat.eqb fst]. unfold disk_M, lmat. cbn [nth]. ring.
Qed.
