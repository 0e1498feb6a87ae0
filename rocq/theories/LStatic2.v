(** Lateral part of the matrices, and the bilinear forms of the auxiliary rotors. *)
From Coq Require Import Reals String List Arith Bool Lia Lra Permutation Sorted.
From Verif Require Import PyBase PyDict MatBase SpecMat LMat MMaterial MShaft MDisk MBearing MRotor SpecShaft SpecRotor LShaft LShaftEnergy LShaft6 LBearing LBearing2
  LAssembly LRotor LRotor2 LRotor3 LRotor4 LRotor5 LRotor6 LRotor7 LRotorInit2 MDynamics MResults MSection LSection LSection2 MStatic SpecStatic LResults7 LResults8 LStatic.
Import ListNotations.
Open Scope list_scope.
Open Scope R_scope.

(** a lateral motion (4 dofs per node) as a motion of the rotor *)
Definition wide (nd : nat) (x : vec) : vec :=
  if Nat.eqb nd 6 then fun j => if Nat.eqb (j mod 3) 2 then 0 else x (2 * (j / 3) + j mod 3)%nat else x.
Lemma div3 c d : (d < 3)%nat -> ((3 * c + d) / 3 = c /\ (3 * c + d) mod 3 = d)%nat.
Proof. intros H. split; [symmetry; apply Nat.div_unique with d; lia|symmetry; apply Nat.mod_unique with c; lia]. Qed.
Lemma wide6 x c d : (d < 3)%nat -> wide 6 x (3 * c + d)%nat = if Nat.eqb d 2 then 0 else x (2 * c + d)%nat.
Proof. intros H. unfold wide. cbn [Nat.eqb]. destruct (div3 c d H) as [-> ->]. reflexivity. Qed.
Lemma wide_up3 x i : wide 6 x (up3 i) = x i.
Proof.
  destruct (half_cases i) as [c [-> | ->]]; rewrite ?up3_even, ?up3_odd.
  - replace (3 * c)%nat with (3 * c + 0)%nat by lia. rewrite wide6 by lia. simpl Nat.eqb. cbv iota. f_equal. lia.
  - rewrite wide6 by lia. reflexivity.
Qed.
Lemma wide_third x c : wide 6 x (3 * c + 2)%nat = 0.
Proof. rewrite wide6 by lia. reflexivity. Qed.
Lemma up3_bform m A B x y : (forall i j, (i < 2 * m)%nat -> (j < 2 * m)%nat -> B i j = A (up3 i) (up3 j)) ->
  bform (2 * m) B x y = bform (3 * m) A (wide 6 x) (wide 6 y).
Proof.
  intros H. unfold bform. rewrite (sumn_third m) by (intros c Hc; rewrite wide_third; ring). apply sumn_ext. intros i Hi. rewrite wide_up3. f_equal.
  rewrite (sumn_third m) by (intros c Hc; rewrite wide_third; ring). apply sumn_ext. intros j Hj. rewrite wide_up3, H by auto. reflexivity.
Qed.
Lemma lateral_form r A : rfacts r -> r_pm r = [] ->
  exists B, lateral (Nat.eqb (r_nd r) 6) r (Ok A) = Ok (4 * (r_n_last r + 2), B)%nat /\
  forall x y, bform (4 * (r_n_last r + 2)) B x y = bform (r_ndof r) A (wide (r_nd r) x) (wide (r_nd r) y).
Proof.
  intros F Hp. pose proof (rf_ndof _ F) as Hn. rewrite Hp in Hn. cbn [length] in Hn. destruct (rf_nd _ F) as [E|E]; rewrite E in *.
  - exists A. unfold lateral. cbn [Nat.eqb bind]. rewrite Hn. replace (4 * (r_n_last r + 2) + 4 / 2 * 0)%nat with (4 * (r_n_last r + 2))%nat by lia.
    split; [reflexivity|]. intros x y. reflexivity.
  - unfold lateral, converted. cbn [Nat.eqb bind]. rewrite Hn. set (m := (2 * (r_n_last r + 2))%nat).
    replace (6 * (r_n_last r + 2) + 6 / 2 * 0)%nat with (3 * m)%nat by (unfold m; lia). destruct (remove_third m A) as (B & HB & EB).
    exists B. split; [rewrite HB; f_equal; f_equal; unfold m; lia|]. intros x y. replace (4 * (r_n_last r + 2))%nat with (2 * m)%nat by (unfold m; lia).
    apply up3_bform. intros i j Hi Hj. apply EB; auto.
Qed.
(** the dofs of a node *)
Definition rot (nd d : nat) : nat := if Nat.eqb nd 6 then (match d with 0 => 0 | 1 => 1 | 2 => 3 | _ => 4 end)%nat else d.
Lemma wide_node nd x n d : (nd = 4 \/ nd = 6)%nat -> (d < 4)%nat -> wide nd x (nd * n + rot nd d)%nat = x (4 * n + d)%nat.
Proof.
  intros [-> | ->] Hd; [reflexivity|]. unfold rot. cbn [Nat.eqb].
  destruct d as [|[|[|[|d]]]]; [| | | |lia].
  - replace (6 * n + 0)%nat with (3 * (2 * n) + 0)%nat by lia. rewrite wide6 by lia. cbn [Nat.eqb]. f_equal. lia.
  - replace (6 * n + 1)%nat with (3 * (2 * n) + 1)%nat by lia. rewrite wide6 by lia. cbn [Nat.eqb]. f_equal. lia.
  - replace (6 * n + 3)%nat with (3 * (2 * n + 1) + 0)%nat by lia. rewrite wide6 by lia. cbn [Nat.eqb]. f_equal. lia.
  - replace (6 * n + 4)%nat with (3 * (2 * n + 1) + 1)%nat by lia. rewrite wide6 by lia. cbn [Nat.eqb]. f_equal. lia.
Qed.
Lemma wide_lateral r x : lateral_motion r (wide (r_nd r) x).
Proof.
  intros -> k. split; [replace (6 * k + 2)%nat with (3 * (2 * k) + 2)%nat by lia|replace (6 * k + 5)%nat with (3 * (2 * k + 1) + 2)%nat by lia]; apply wide_third.
Qed.
(** every lateral motion comes from a motion with 4 dofs per node *)
Definition narrow (nd : nat) (x : vec) : vec := if Nat.eqb nd 6 then fun i => x (up3 i) else x.
Lemma wide_narrow r x : (r_nd r = 4 \/ r_nd r = 6)%nat -> lateral_motion r x -> forall i, wide (r_nd r) (narrow (r_nd r) x) i = x i.
Proof.
  intros [E|E] H i; rewrite E; unfold narrow; cbn [Nat.eqb]; [reflexivity|].
  specialize (H E). assert (D := Nat.div_mod i 3 ltac:(lia)). assert (B := Nat.mod_upper_bound i 3 ltac:(lia)).
  set (c := (i / 3)%nat) in *. set (d := (i mod 3)%nat) in *. rewrite D. rewrite wide6 by auto. destruct (Nat.eqb_spec d 2) as [->|N].
  - destruct (half_cases c) as [k [E2|E2]]; rewrite E2.
    + replace (3 * (2 * k) + 2)%nat with (6 * k + 2)%nat by lia. symmetry. apply H.
    + replace (3 * (2 * k + 1) + 2)%nat with (6 * k + 5)%nat by lia. symmetry. apply H.
  - rewrite up3_add. f_equal. destruct d as [|[|d]]; [reflexivity|reflexivity|lia].
Qed.

(** ** forms *)
Lemma spring_form (six : bool) k x y : bform (if six then 3 else 2)%nat (spring six k) x y = k * (x 0%nat * y 0%nat + x 1%nat * y 1%nat).
Proof. destruct six; unfold spring, coef22; unbform; ring. Qed.
Lemma carrier_node r e : rfacts r -> In e (carriers r) -> In e (r_brg r) /\ (el_n e <= r_n_last r + 1)%nat /\ (el_n e < length (r_nodes_pos r))%nat /\ r_nd r = (if el_six e then 6 else 4)%nat.
Proof.
  intros F H. unfold carriers in H. apply filter_In in H as [H1 H2]. split; [exact H1|].
  assert (L : (el_n e < length (r_nodes_pos r))%nat).
  { destruct (rf_brg _ F e H1) as (t & b & ->). unfold carries in H2. destruct b as [[] b|b]; try discriminate; apply Nat.ltb_lt; exact H2. }
  pose proof (pos_length r F). split; [lia|]. split; [exact L|].
  pose proof (rf_fam _ F e (in_brg_elements _ _ H1)) as Hf. destruct (rf_brg _ F e H1) as (t & b & ->). destruct b as [s b|b]; simpl in *; unfold fam in Hf; exact Hf.
Qed.
Lemma mapi_suml {A} (f : elem -> R) (g : nat -> A -> elem) (h : A -> R) l : (forall i a, In a l -> f (g i a) = h a) -> forall i, suml (map f (mapi g i l)) = suml (map h l).
Proof. induction l as [|a l IH]; intros H i; [reflexivity|]. simpl. unfold suml in *. simpl. rewrite H by (left; reflexivity). f_equal. apply IH. intros j b Hb. apply H. right. exact Hb. Qed.
Lemma forall2_suml {A B} (P : A -> B -> Prop) (f : A -> R) (g : B -> R) l l' : Forall2 P l l' -> (forall a b, In a l -> P a b -> g b = f a) -> suml (map g l') = suml (map f l).
Proof.
  induction 1 as [|a b l l' Hab H IH]; intros E; [reflexivity|]. unfold suml in *. simpl. rewrite (E a b (or_introl eq_refl) Hab). f_equal. apply IH. intros; apply E; [right|]; auto.
Qed.
Lemma forall2_in_r {A B} (P : A -> B -> Prop) l l' b : Forall2 P l l' -> In b l' -> exists a, In a l /\ P a b.
Proof. induction 1; intros [].
  - subst. eexists. split; [left; reflexivity|auto].
  - destruct (IHForall2 H1) as (a & Ha & Pa). exists a. split; [right|]; auto. Qed.
Lemma aux_matches r k ra : aux_facts r k ra -> pm_matches ra.
Proof. intros Fa six t p Hin. rewrite (af_pm _ _ _ Fa) in Hin. destruct Hin. Qed.
Lemma aux_brg_work r k ra (f : elem -> res (nat * mat)) c x y : rfacts r -> aux_facts r k ra ->
  (forall e t b, aux_spec (el_six e) (el_n e) k None b -> f (EBrg t b) = Ok ((if el_six e then 3 else 2)%nat, spring (el_six e) c)) ->
  suml (map (work f ra x y) (r_brg ra)) = c * suml (map (support_work r x y) (supports r)).
Proof.
  intros F Fa Hf. destruct (af_brg _ _ _ Fa) as (brgs & Hl & ->). rewrite (suml_perm _ _ (Permutation_map _ (sort_n_perm _))).
  rewrite (mapi_suml _ mk_brg (fun b => work f ra x y (EBrg "" b))).
  2:{ intros i b Hb. destruct (forall2_in_r _ _ _ _ Hl Hb) as (e & He & S). unfold work, mk_brg, el_size, el_mat. rewrite !(Hf e _ _ S). reflexivity. }
  rewrite (forall2_suml _ (fun e => c * support_work r x y (el_n e)) _ _ _ Hl).
  - rewrite suml_map_scal. unfold supports. rewrite map_map. ring.
  - intros e b He S. destruct (carrier_node r e F He) as (He1 & He2 & _ & He4). unfold work, el_size, el_mat. rewrite (Hf e _ _ S). cbn [fst snd].
    rewrite spring_form. rewrite (af_nd _ _ _ Fa), (af_last _ _ _ Fa). rewrite !gather_brg by (rewrite He4; destruct (el_six e); cbn; lia).
    unfold support_work. assert (Eb : b_n (brg_base b) = el_n e) by apply (as_n _ _ _ _ _ S). rewrite Eb. rewrite start_shaft by auto. rewrite Nat.add_0_r. reflexivity.
Qed.
Lemma place_work f r x y e : (forall e, f (place_elem e) = f e) -> work f r x y (place_elem e) = work f r x y e.
Proof. intros H. unfold work, el_size, el_mat. rewrite H, place_acts. reflexivity. Qed.
Lemma work_nd f r ra x y e : r_nd ra = r_nd r -> r_n_last ra = r_n_last r -> work f ra x y e = work f r x y e.
Proof. intros E1 E2. unfold work. rewrite E1, E2. reflexivity. Qed.
Lemma disk_K_work spl w r x y e : In e (r_disk r) -> rfacts r -> work (el_K spl w) r x y e = 0.
Proof. intros He F. destruct (rf_disk _ F e He) as (six & t & d & ->). unfold work, el_size, el_mat. destruct six; simpl; apply mzero_bform. Qed.
Lemma aux_K_form spl r k ra A x y : rfacts r -> aux_facts r k ra -> rotor_K spl ra 0 [] = Ok A ->
  bform (r_ndof ra) A x y = suml (map (work (el_K spl 0) r x y) (r_shaft r)) + k * suml (map (support_work r x y) (supports r)).
Proof.
  intros F Fa HA. rewrite (rotor_K_form spl 0 ra A x y (af_facts _ _ _ Fa) (aux_matches _ _ _ Fa) HA).
  change (suml (map (work (el_K spl 0) ra x y) (r_elements ra)) = suml (map (work (el_K spl 0) r x y) (r_shaft r)) + k * suml (map (support_work r x y) (supports r))).
  unfold r_elements. rewrite (af_pm _ _ _ Fa), app_nil_r, !map_app, !suml_app.
  rewrite (aux_brg_work r k ra (el_K spl 0) k x y F Fa) by (intros e t b S; apply (as_K _ _ _ _ _ S); reflexivity).
  rewrite (af_shaft _ _ _ Fa), (af_disk _ _ _ Fa), !map_map.
  rewrite (suml_map_ext (fun e => work (el_K spl 0) ra x y (place_elem e)) (work (el_K spl 0) r x y)).
  2:{ intros e He. rewrite place_work by apply place_K. apply work_nd; apply Fa. }
  rewrite (suml_map_ext (fun e => work (el_K spl 0) ra x y (place_elem e)) (fun _ => 0 * 0)).
  2:{ intros e He. rewrite place_work by apply place_K. rewrite (work_nd _ r ra) by apply Fa. rewrite disk_K_work by auto. ring. }
  rewrite suml_map_scal. ring.
Qed.
Lemma aux_M_form spl r k ra A x y : rfacts r -> aux_facts r k ra -> rotor_M spl ra (Some 0) = Ok A ->
  bform (r_ndof ra) A x y = suml (map (work (el_M spl 0) r x y) (r_shaft r ++ r_disk r)).
Proof.
  intros F Fa HA. unfold rotor_M in HA. cbn [default] in HA.
  rewrite (assembled_form spl 0 _ _ _ _ x y (af_facts _ _ _ Fa) (aux_matches _ _ _ Fa) (is_M spl 0) (incl_refl _) HA).
  change (suml (map (work (el_M spl 0) ra x y) (r_elements ra)) = suml (map (work (el_M spl 0) r x y) (r_shaft r ++ r_disk r))).
  unfold r_elements. rewrite (af_pm _ _ _ Fa), app_nil_r, !map_app, !suml_app.
  rewrite (aux_brg_work r k ra (el_M spl 0) 0 x y F Fa) by (intros e t b S; apply (as_M _ _ _ _ _ S); reflexivity).
  rewrite (af_shaft _ _ _ Fa), (af_disk _ _ _ Fa), !map_map.
  rewrite !(suml_map_ext (fun e => work (el_M spl 0) ra x y (place_elem e)) (work (el_M spl 0) r x y)) by (intros e He; rewrite place_work by apply place_M; apply work_nd; apply Fa).
  ring.
Qed.
