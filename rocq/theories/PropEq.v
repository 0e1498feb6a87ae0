(** C78: what == means for elements and rotors. C79: which rotors have a stiffness and a damping matrix. *)
From Coq Require Import Reals Lra Lia String List Bool Arith Permutation.
From Verif Require Import PyBase PyDict MatBase MMaterial MShaft MDisk MBearing MRotor MDynamics MSave MEq SpecBearing SpecRotor SpecSave SpecEq LRotor LRotorInit LSave LSave2 LSave3 LSave4 LEq LEq2 LEq3 LEq4 LEq5 LEq6 LRotorEx PropSave.
Import ListNotations.
Open Scope list_scope.
Open Scope R_scope.

(** ** C78 *)

(** Every element equals itself, unless it is a bearing that does not keep its constructor arguments. *)
Theorem C78_reflexive : forall np x d, (forall o, x = IBrg o -> keeps_arguments o) -> py_eq np (x, d) (x, d) = Ok true.
Proof. intros np x d H. apply py_refl. destruct x; cbn; auto. Qed.
(** Elements of different kinds are never equal. *)
Theorem C78_kinds : forall np x y d d', (forall s s', ~ (x = IShaft s /\ y = IShaft s')) -> (forall s s', ~ (x = IDisk s /\ y = IDisk s')) ->
  (forall s s', ~ (x = IBrg s /\ y = IBrg s' /\ brg_class s = brg_class s')) -> (forall s s', ~ (x = IPm s /\ y = IPm s')) -> py_eq np (x, d) (y, d') = Ok false.
Proof.
  intros np x y d d' H1 H2 H3 H4. destruct x as [s|k|o|p], y as [s'|k'|o'|p']; try (unfold py_eq, self_eq; cbn [fst snd]; destruct (proper_subclass _ _); reflexivity).
  - exfalso. exact (H1 s s' (conj eq_refl eq_refl)).
  - exfalso. exact (H2 k k' (conj eq_refl eq_refl)).
  - rewrite brg_split. destruct (bclass_eqb _ _) eqn:E; [|reflexivity]. apply bclass_eqb_iff in E. exfalso. exact (H3 o o' (conj eq_refl (conj eq_refl E))).
  - exfalso. exact (H4 p p' (conj eq_refl eq_refl)).
Qed.

(** Bearings, seals, bearings with six degrees of freedom and magnetic bearings: equal means identical, whatever their place in a rotor. *)
Theorem C78_bearings : forall np o o' d d', built_brg o -> built_brg o' -> keeps_arguments o -> brg_class o <> BCylindrical ->
  (py_eq np (IBrg o, d) (IBrg o', d') = Ok true <-> o = o').
Proof.
  intros np o o' d d' B B' K NC. rewrite brg_split. split.
  - destruct (bclass_eqb _ _) eqn:E; [|discriminate]. apply bclass_eqb_iff in E. intros Q. exact (brg_equal np o o' B B' E K NC Q).
  - intros <-. rewrite (proj2 (bclass_eqb_iff _ _) eq_refl). apply brg_refl, K.
Qed.
(** The comparison of bearings that keep their arguments and have tables that fit ends without an exception. *)
Theorem C78_bearings_end : forall np o o' d d', built_brg o -> built_brg o' -> comparable o o' -> exists b, py_eq np (IBrg o, d) (IBrg o', d') = Ok b.
Proof.
  intros np o o' d d' B B' C. rewrite brg_split. destruct (bclass_eqb _ _) eqn:E; [|eexists; reflexivity]. apply bclass_eqb_iff in E. destruct (C E). apply brg_ok; assumption.
Qed.
(** Two ball bearings, two roller bearings, two fluid flow bearings: AttributeError, even for a bearing and itself. *)
Theorem C78_bearings_raise : forall np c b b' d d', py_eq np (IBrg (OPlain c b), d) (IBrg (OPlain c b'), d') = Err AttributeError.
Proof. exact py_plain. Qed.
(** Two bearings of a class with tables of different lengths, both longer than one: an exception with every version of numpy. *)
Theorem C78_tables_raise : forall np o o' d d', brg_class o = brg_class o' -> ~ fit (entries o) (entries o') -> exists e, py_eq np (IBrg o, d) (IBrg o', d') = Err e.
Proof. intros np o o' d d' CL N. rewrite brg_split, CL, (proj2 (bclass_eqb_iff _ _) eq_refl). apply brg_misfit; assumption. Qed.

(** Equal elements have the same tag, therefore the same hash; only CylindricalBearings break this. *)
Theorem C78_hash : forall np x y d d', built x -> built y -> py_eq np (x, d) (y, d') = Ok true ->
  (forall o, x = IBrg o -> brg_class o <> BCylindrical) -> obj_tag x = obj_tag y.
Proof. intros np x y d d' B B' E N. apply (py_tag np x y d d' B B' E). intros (X & _). destruct x as [| |o|]; try contradiction. exact (N o eq_refl X). Qed.
(** Tag, link, colour and scale factor of a CylindricalBearing do not matter for ==. *)
Theorem C78_cylindrical : forall np sp w l dm c v b t k co sc d d',
  py_eq np (IBrg (OCyl sp w l dm c v b), d) (IBrg (OCyl sp w l dm c v (mkBearing (b_n b) k t co sc (b_frequency b) (b_coef b))), d') = Ok true.
Proof.
  intros np sp w l dm c v b t k co sc d d'. rewrite brg_split. cbn [brg_class bclass_eqb]. unfold brg_eq, is_instance. cbn [brg_class bclass_eqb orb].
  rewrite (proj2 (args_true np _ _ _)).
  - cbn [bind]. rewrite (proj2 (attrs_true np _ _ _)); [reflexivity|].
    intros key Hk. each Hk; field_get; apply attr_refl; first [exact I | cbn [b_frequency]; match goal with |- context [oList ?f] => destruct f; exact I end].
  - intros key Hk. each Hk; field_get; apply arg_refl; exact I.
Qed.
Theorem C78_hash_refuted : ~ forall np x y d d', built x -> built y -> py_eq np (x, d) (y, d') = Ok true -> obj_tag x = obj_tag y.
Proof.
  intros H. assert (X := H Numpy_new (IBrg (OCyl [1] 1 1 1 1 1 (brg0 0 None "a"))) (IBrg (OCyl [1] 1 1 1 1 1 (brg0 0 None "b"))) None None (built_br 0 None "a") (built_br 0 None "b")).
  cbn [obj_tag brg_of] in X. assert (E : b_tag (brg0 0 None "a") = b_tag (brg0 0 None "b")) by (apply X, (C78_cylindrical Numpy_new [1] 1 1 1 1 1 (brg0 0 None "a") (Some "b"%string) None "#355d7a" 1)). discriminate E.
Qed.

(** Shaft elements of one class with a body are equal exactly when they have the same arguments, place, tag, colour and density, the same ratio of the elastic moduli, and moduli that are close. *)
Theorem C78_shafts : forall np a b d d', built_shaft a -> built_shaft b -> has_body a -> has_body b -> os_six a = os_six b ->
  (py_eq np (IShaft a, d) (IShaft b, d') = Ok true <-> d = d' /\ alike a b).
Proof. intros np a b d d' B B' H H' S. rewrite (shaft_py np a b d d' S), (shaft_alike a b B B' H H'). tauto. Qed.
(** They have the same mass and gyroscopic matrices, and the same stiffness and damping matrices when the moduli are the same. *)
Theorem C78_shaft_matrices : forall np a b d d', built_shaft a -> built_shaft b -> has_body a -> has_body b -> os_six a = os_six b -> py_eq np (IShaft a, d) (IShaft b, d') = Ok true ->
  let s := os_s a in let t := os_s b in
  shaft_M s = shaft_M t /\ shaft_G s = shaft_G t /\ shaft6_M s = shaft6_M t /\ shaft6_G s = shaft6_G t /\ shaft6_Kst s = shaft6_Kst t /\
  (mE (s_material s) = mE (s_material t) -> shaft_K s = shaft_K t /\ shaft_C s = shaft_C t /\ shaft6_K s = shaft6_K t /\ shaft6_C s = shaft6_C t).
Proof.
  intros np a b d d' B B' H H' S E. apply (shaft_py np a b d d' S) in E as (_ & E). assert (A := proj1 (shaft_alike a b B B' H H') E). apply shaft_dict_iff in E as (_ & E1 & E2 & E3 & _ & _ & _ & E4).
  destruct A as (_ & _ & ER & EQ & _). destruct (same_matrices _ _ E4 E1 E2 E3 ER) as (M1 & M2 & M3 & M4 & M5 & M6 & M7). cbv zeta. do 5 (split; [assumption|]). intros EE.
  assert (G : mG_s (s_material (os_s a)) = mG_s (s_material (os_s b))).
  { destruct H as (_ & _ & _ & _ & P & _). rewrite EE in EQ, P. apply Rmult_eq_reg_l in EQ; [congruence|lra]. }
  destruct (M6 EE). destruct (M7 EE G). auto.
Qed.

(** two steels whose moduli differ by one part in a million *)
Definition steel_of (g : R) : material := mkMaterial "Steel" 3 (g * (2 * (1 + 0))) g 0 "#525252".
Definition sargs_of (g : R) : shaft_args := mkShaftArgs 1 0 2 None None (Some (steel_of g)) (Some 0%nat) 0 0 false true true Cowper (Some "s"%string) 0 0.
Definition shaft_of (g : R) : shaft := match shaft_init (sargs_of g) with Ok s => s | Err _ => ex_shaft 0 "s" end.
Definition osh_of (six : bool) (g : R) : oshaft := mkOShaft six Cowper (shaft_of g).
Lemma osh_built six g : built_shaft (osh_of six g).
Proof. split; [exists "Steel"%string, 3, None, (Some g), (Some 0), "#525252"%string; reflexivity|]. exists (sargs_of g), (shaft_of g). split; [reflexivity|]. split; [reflexivity|]. exists (Some 0%nat), (Some "s"%string). reflexivity. Qed.
Lemma osh_body six g : 0 < g -> has_body (osh_of six g).
Proof.
  intros H. pose proof PI_RGT_0. unfold has_body, osh_of, shaft_of. cbn [os_s shaft_init sargs_of a_L a_idl a_odl a_idr a_odr a_material a_shear_effects default].
  cbn [s_L s_volume s_A s_Ie s_material]. unfold steel_of. cbn [mE mG_s].
  split; [lra|]. split; [nra|]. split; [|split; [|split; lra]].
  - match goal with |- 0 < ?x => replace x with PI by (field; lra) end. lra.
  - match goal with |- 0 < ?x => replace x with (PI / 4) by (field; lra) end. lra.
Qed.
Lemma osh_alike six six' : alike (osh_of six 1) (osh_of six' (1 + / 1000000)).
Proof.
  unfold alike, same_arguments, osh_of. cbn [os_s os_meth]. unfold shaft_of.
  cbn [shaft_init sargs_of a_L a_idl a_odl a_idr a_odr a_material a_shear_effects a_rotary_inertia a_gyroscopic a_axial_force a_torque a_alpha a_beta a_n a_tag default s_L s_idl s_odl s_idr s_odr s_axial_force s_torque s_alpha s_beta s_shear_effects s_rotary_inertia s_gyroscopic s_n s_tag s_material].
  unfold steel_of. cbn [mcolor mrho mE mG_s]. split; [repeat split|]. split; [reflexivity|]. split; [reflexivity|]. split; [ring|]. unfold close.
  split; [rewrite Rabs_left, Rabs_pos_eq by lra; lra|rewrite Rabs_left, Rabs_pos_eq by lra; lra].
Qed.
Lemma osh_first g : shaft_K (shaft_of g) 0%nat 0%nat = 6 * PI * g.
Proof.
  pose proof PI_RGT_0. set (s := shaft_of g).
  assert (E1 : s_a2 s = 0) by (unfold s, shaft_of; cbn [shaft_init sargs_of a_L a_idl a_odl a_idr a_odr a_material a_shear_effects default s_a2]; field; lra).
  assert (E2 : s_b2 s = 0) by (unfold s, shaft_of; cbn [shaft_init sargs_of a_L a_idl a_odl a_idr a_odr a_material a_shear_effects default s_b2]; field; lra).
  assert (E3 : s_gama s = 0) by (unfold s, shaft_of; cbn [shaft_init sargs_of a_L a_idl a_odl a_idr a_odr a_material a_shear_effects default s_gama]; field; lra).
  assert (E4 : s_delta s = 0) by (unfold s, shaft_of; cbn [shaft_init sargs_of a_L a_idl a_odl a_idr a_odr a_material a_shear_effects default s_delta]; field; lra).
  assert (E5 : s_Ie_l s = PI / 4) by (unfold s, shaft_of; cbn [shaft_init sargs_of a_L a_idl a_odl a_idr a_odr a_material a_shear_effects default s_Ie_l]; field).
  assert (E6 : s_L s = 1) by reflexivity. assert (E7 : s_phi s = 0) by reflexivity. assert (E8 : s_axial_force s = 0) by reflexivity. assert (E9 : s_torque s = 0) by reflexivity.
  assert (E0 : mE (s_material s) = 2 * g) by (unfold s, shaft_of; cbn [shaft_init sargs_of a_material a_shear_effects s_material steel_of mE]; ring).
  unfold shaft_K. rewrite E0, E5, E6, E7, E8, E9. replace (K1_tab s 0%nat 0%nat) with (k1 s) by reflexivity. unfold k1. rewrite E1, E2, E3, E4. unfold Rdiv. generalize (/ s_A s). intros. field.
Qed.
(** Equal shaft elements may have different stiffness matrices. *)
Theorem C78_stiffness_refuted : ~ forall np a b d, built_shaft a -> built_shaft b -> has_body a -> has_body b -> os_six a = os_six b -> py_eq np (IShaft a, d) (IShaft b, d) = Ok true -> shaft_K (os_s a) = shaft_K (os_s b).
Proof.
  intros H. assert (P1 : 0 < 1) by lra. assert (P2 : 0 < 1 + / 1000000) by lra.
  assert (X := H Numpy_new (osh_of false 1) (osh_of false (1 + / 1000000)) None (osh_built _ _) (osh_built _ _) (osh_body _ _ P1) (osh_body _ _ P2) eq_refl
    (proj2 (C78_shafts Numpy_new _ _ None None (osh_built _ _) (osh_built _ _) (osh_body _ _ P1) (osh_body _ _ P2) eq_refl) (conj eq_refl (osh_alike false false)))).
  apply (f_equal (fun M => M 0%nat 0%nat)) in X. unfold osh_of in X. cbn [os_s] in X. rewrite !osh_first in X. pose proof PI_RGT_0. nra.
Qed.
(** The class does not count: a shaft element with four degrees of freedom per node equals one with six. The same for disks. *)
Theorem C78_class_refuted : exists np s s' k k', built_shaft s /\ built_shaft s' /\ os_six s = false /\ os_six s' = true /\ py_eq np (IShaft s, None) (IShaft s', None) = Ok true /\
  od_six k = false /\ od_six k' = true /\ py_eq np (IDisk k, None) (IDisk k', None) = Ok true.
Proof.
  exists Numpy_new, (osh_of false 1), (osh_of true 1), (odk 0 "d"), (mkODisk true (mkDisk 0 5 1 2 (Some "d"%string)) 1 "Firebrick").
  assert (C : forall x, closeb x x = true) by (intros; apply closeb_iff, close_refl). assert (Q : forall l, list_eqb req l l = true) by (intros; apply reals_eq; reflexivity).
  do 4 (split; [first [apply osh_built|reflexivity]|]). split.
  - unfold py_eq, self_eq. cbn [fst snd obj_class osh_of os_six proper_subclass]. unfold shaft_dict_eq. cbn [os_s os_meth]. unfold material_eqb. rewrite !C, Q, !String.eqb_refl, !Bool.eqb_reflx.
    rewrite (proj2 (opt_eqb_iff Nat.eqb Nat.eqb_eq _ _) eq_refl), (proj2 (opt_eqb_iff String.eqb String.eqb_eq _ _) eq_refl). reflexivity.
  - do 2 (split; [reflexivity|]). unfold py_eq, self_eq. cbn [fst snd obj_class od_six odk proper_subclass]. unfold disk_dict_eq. cbn [od_d od_color od_scale]. rewrite !C, !String.eqb_refl. reflexivity.
Qed.

(** Disks are compared with a tolerance. *)
Theorem C78_disks : forall np a b d d', od_six a = od_six b -> (py_eq np (IDisk a, d) (IDisk b, d') = Ok true <-> d = d' /\ close_disk a b).
Proof. exact disk_py. Qed.
Definition disk_of (m : R) : odisk := mkODisk false (mkDisk 1 m 1 2 (Some "d"%string)) 1 "Firebrick".
Lemma disk_of_eq np x y : py_eq np (IDisk (disk_of x), None) (IDisk (disk_of y), None) = Ok true <-> close x y.
Proof. rewrite (C78_disks np (disk_of x) (disk_of y) None None eq_refl). unfold close_disk, disk_of. cbn. pose proof close_refl. intuition. Qed.
(** For disks == is not symmetric and not transitive. *)
Theorem C78_disk_symmetry_refuted : ~ forall np a b d, py_eq np (IDisk a, d) (IDisk b, d) = Ok true -> py_eq np (IDisk b, d) (IDisk a, d) = Ok true.
Proof.
  intros H. assert (X := H Numpy_new (disk_of (1 - 1001 / 100000000)) (disk_of 1) None). rewrite !disk_of_eq in X. unfold close in X.
  assert (A : Rabs (1 - 1001 / 100000000 - 1) <= / 100000000 + / 100000 * Rabs 1) by (rewrite Rabs_left, Rabs_pos_eq by lra; lra).
  specialize (X A). rewrite !Rabs_pos_eq in X by lra. lra.
Qed.
Theorem C78_disk_transitivity_refuted : ~ forall np a b c d, py_eq np (IDisk a, d) (IDisk b, d) = Ok true -> py_eq np (IDisk b, d) (IDisk c, d) = Ok true -> py_eq np (IDisk a, d) (IDisk c, d) = Ok true.
Proof.
  intros H. assert (X := H Numpy_new (disk_of 1) (disk_of (1 + / 100000)) (disk_of (1 + 2 / 100000)) None). rewrite !disk_of_eq in X. unfold close in X.
  assert (A : Rabs (1 - (1 + / 100000)) <= / 100000000 + / 100000 * Rabs (1 + / 100000)) by (rewrite Rabs_left, Rabs_pos_eq by lra; lra).
  assert (B : Rabs (1 + / 100000 - (1 + 2 / 100000)) <= / 100000000 + / 100000 * Rabs (1 + 2 / 100000)) by (rewrite Rabs_left, Rabs_pos_eq by lra; lra).
  specialize (X A B). rewrite Rabs_left, Rabs_pos_eq in X by lra. lra.
Qed.
(** Point masses are equal when they are identical and stand at the same place. *)
Theorem C78_point_masses : forall np a b d d', built_pm a -> built_pm b -> (py_eq np (IPm a, d) (IPm b, d') = Ok true <-> d = d' /\ a = b).
Proof. exact pm_py. Qed.

(** Two rotors are equal when their elements are, in order, and the three speeds; the tag of the rotor does not count. *)
Theorem C78_rotors : forall np r r', rotor_eq np r r' = Ok true <->
  Forall2 (fun x y => py_eq np x y = Ok true) (ro_placed r) (ro_placed r') /\ ro_min r = ro_min r' /\ ro_max r = ro_max r' /\ ro_rated r = ro_rated r'.
Proof. exact rotor_true. Qed.
(** A rotor read back from its file equals the one that was saved, unless it has a seal: then it does not. *)
Theorem C78_loaded : forall np sh dk br pm mn mx rt tag r f, robj_init sh dk br pm mn mx rt tag = Ok r ->
  (forall o, In o (map IShaft sh ++ map IDisk dk ++ map IBrg br ++ map IPm pm) -> built o) -> (forall o, In o (ro_elements r) -> saveable o /\ loadable o) ->
  exists f' r', rotor_save f r = (f', Ok tt) /\ rotor_load f' = Ok r' /\
    ((forall s, ~ In (IBrg (OSeal s)) (ro_elements r)) -> rotor_eq np r r' = Ok true) /\
    (forall s, In (IBrg (OSeal s)) (ro_elements r) -> b_scale_factor (sl_bearing s) <> 0 -> rotor_eq np r r' = Ok false).
Proof.
  intros np sh dk br pm mn mx rt tag r f I B H. exists (rotor_file r (ro_elements r)), (again r).
  split; [apply (rotor_saved _ _ _ _ _ _ _ _ _ f I); intros; apply H; assumption|].
  split; [apply (rotor_loaded _ _ _ _ _ _ _ _ _ I); intros o Ho; split; [exact (robj_built _ _ _ _ _ _ _ _ _ I B o Ho)|apply H; exact Ho]|].
  assert (K : forall o, In o (ro_elements r) -> keeps_obj o) by (intros o Ho; destruct (H o Ho) as (S & _); destruct o as [| |[]|]; cbn in *; auto). split.
  - intros NS. apply loaded_equal. intros o Ho. split; [exact (K o Ho)|]. destruct o as [| |[]|]; cbn; auto. exact (NS s Ho).
  - intros s Hs N. apply (loaded_seal np _ _ _ _ _ _ _ _ _ I s); auto. intros o Ho. split; [exact (robj_built _ _ _ _ _ _ _ _ _ I B o Ho)|exact (K o Ho)].
Qed.
(** Comparing a rotor that has a ball, roller or fluid flow bearing with a copy of it: AttributeError. *)
Theorem C78_rotors_raise : forall np sh dk br pm mn mx rt tag r c b, robj_init sh dk br pm mn mx rt tag = Ok r -> In (IBrg (OPlain c b)) (ro_elements r) -> rotor_eq np r r = Err AttributeError.
Proof. intros np sh dk br pm mn mx rt tag r c b I H. exact (rotor_plain np _ _ _ _ _ _ _ _ _ I c b H). Qed.

(** ** C79 *)

(** When the bearings can be compared, K and C are the sums over all elements whose tags are not ignored, in whatever order the set of elements is walked. *)
Theorem C79_matrices : forall np spl sh dk br pm mn mx rt tag r ignore order w, robj_init sh dk br pm mn mx rt tag = Ok r ->
  (forall o, In o (map IShaft sh ++ map IDisk dk ++ map IBrg br ++ map IPm pm) -> built o) -> comparable_bearings r -> Permutation order (remaining r ignore) ->
  robj_K np spl r order w = rotor_K spl (ro_val r) w ignore /\ robj_C np spl r order w = rotor_C spl (ro_val r) w ignore.
Proof. intros np spl sh dk br pm mn mx rt tag r ignore order w I B C P. split; exact (assemble_is np _ _ _ _ _ _ _ _ _ I B _ ignore order C P). Qed.
(** Two bearings of a class that forgets its arguments, or with tables of different lengths: the rotor has neither matrix, at any speed. *)
Theorem C79_raises : forall np spl sh dk br pm mn mx rt tag r ignore order w i j o o', robj_init sh dk br pm mn mx rt tag = Ok r ->
  (forall o, In o (map IShaft sh ++ map IDisk dk ++ map IBrg br ++ map IPm pm) -> built o) -> Permutation order (remaining r ignore) ->
  (i < j)%nat -> nth_error (ro_br r) i = Some o -> nth_error (ro_br r) j = Some o' -> brg_class o = brg_class o' -> brg_class o <> BCylindrical ->
  ~ keeps_arguments o \/ ~ fit (entries o) (entries o') -> ~ In (tag_str (b_tag (brg_of o'))) ignore ->
  (exists e, robj_K np spl r order w = Err e) /\ (exists e, robj_C np spl r order w = Err e).
Proof.
  intros np spl sh dk br pm mn mx rt tag r ignore order w i j o o' I B P H E E' CL NC BAD IG.
  split; exact (assemble_err np _ _ _ _ _ _ _ _ _ I B _ ignore order i j o o' P H E E' CL NC BAD IG).
Qed.

(** ** Concrete cases *)
(** bearings: the hypotheses of [C78_bearings] and [C78_bearings_end] hold for two bearings that differ in their node *)
Example C78_instance : forall np, py_eq np (IBrg (OBearing (brg0 0 None "b")), None) (IBrg (OBearing (brg0 0 None "b")), Some [0; 1]%nat) = Ok true /\
  py_eq np (IBrg (OBearing (brg0 0 None "b")), None) (IBrg (OBearing (brg0 1 None "b")), None) = Ok false.
Proof.
  intros np. assert (K : keeps_arguments (OBearing (brg0 0 None "b"))) by exact Logic.I.
  split; [apply C78_bearings; [apply built_br|apply built_br|exact K|discriminate|reflexivity]|].
  destruct (C78_bearings_end np (OBearing (brg0 0 None "b")) (OBearing (brg0 1 None "b")) None None (built_br _ _ _) (built_br _ _ _)) as ([|] & E); [intros _; split; [exact K|split; [left; reflexivity|exact Logic.I]]| |exact E].
  apply C78_bearings in E; [discriminate E|apply built_br|apply built_br|exact K|discriminate].
Qed.
(** tables with one and with two entries fit, tables with two and with three do not *)
Definition two_speeds (l : list R) : bargs := mkBArgs 0 (CArr l) (CArr l) None None (CScal 0) (CScal 0) None (CScal 0) (CScal 0) None (CScal 0) (CScal 0) (Some l) (Some "b"%string) None 1 "#355d7a".
Lemma processed c : (forall l, c = CArr l -> l = [1; 2; 3]) -> exists p, process_coefficient (Some [1; 2; 3]) c = Ok p /\ List.length (fst p) = 3%nat.
Proof.
  assert (D : distinct [1; 2; 3] = true) by (cbn; repeat (destruct (Req_EM_T _ _); try lra); reflexivity).
  intros H. destruct c as [x|l]; [|rewrite (H l eq_refl)]; unfold process_coefficient, spline_accepts, interp1d_accepts; cbn [repeat List.length Nat.ltb Nat.leb Nat.eqb andb orb]; rewrite D; (eexists; split; reflexivity).
Qed.
Example C78_tables_instance : exists b b', bearing_init (two_speeds [1; 2]) = Ok b /\ bearing_init (two_speeds [1; 2; 3]) = Ok b' /\ ~ fit (entries (OBearing b)) (entries (OBearing b')).
Proof.
  destruct (processed (CArr [1; 2; 3])) as (p & E & L); [intros l [= <-]; reflexivity|]. destruct (processed (CScal 0)) as (q & F & K); [discriminate|].
  eexists. eexists. split; [reflexivity|]. split.
  - unfold bearing_init. cbn [two_speeds ba_frequency]. unfold cnames. cbn [process_all mapM].
    unfold resolve. cbn [two_speeds ba_kxx ba_kyy ba_kxy ba_kyx ba_cxx ba_cyy ba_cxy ba_cyx ba_mxx ba_myy ba_mxy ba_myx default]. rewrite !E, !F. cbn [bind map].
    unfold length_check. cbn [List.length]. rewrite !L, !K. cbn [forallb Nat.eqb andb]. reflexivity.
  - unfold entries. cbn [brg_of b_coef cindex nth fst]. rewrite L. cbn. unfold fit. intuition discriminate.
Qed.
(** a rotor on two bearings equals the one read back from its file; with a seal it does not *)
Definition TWO := [OBearing (brg0 0 None "b0"); OBearing (brg0 2 None "b1")].
Lemma two_ok : exists r, robj_init SH DK TWO [] (Some 10) None (Some 400) None = Ok r /\ ro_br r = TWO /\
  (forall o, In o (map IShaft SH ++ map IDisk DK ++ map IBrg TWO ++ map IPm []) -> built o) /\ ro_elements r = map IShaft SH ++ map IDisk DK ++ map IBrg TWO.
Proof.
  destruct (robj_ok SH DK TWO [] (Some 10) None (Some 400) None _ (wf_balls BALLS (or_introl eq_refl))) as (r & H). exists r. split; [exact H|]. split.
  - unfold robj_init in H. destruct (rotor_init _ _ _ _); [|discriminate]. injection H as <-. reflexivity.
  - split; [unfold SH, DK, TWO; intros o Ho; ins; first [apply built_sh|exact Logic.I|apply built_br]|]. rewrite (proj1 (robj_elements _ _ _ _ _ _ _ _ _ H)). reflexivity.
Qed.
Example C78_loaded_instance : forall np, exists r f' r', robj_init SH DK TWO [] (Some 10) None (Some 400) None = Ok r /\ rotor_save None r = (f', Ok tt) /\ rotor_load f' = Ok r' /\ rotor_eq np r r' = Ok true.
Proof.
  intros np. destruct two_ok as (r & H & _ & B & E). destruct (C78_loaded np _ _ _ _ _ _ _ _ _ None H B) as (f' & r' & S & L & Q & _).
  { rewrite E. unfold SH, DK, TWO. intros o Ho. ins; (split; [first [exact Logic.I|reflexivity]|]); cbn; try exact Logic.I; try lra; split; discriminate. }
  exists r, f', r'. do 3 (split; [assumption|]). apply Q. rewrite E. unfold SH, DK, TWO. intros s Ho. cbn [map app] in Ho. repeat (destruct Ho as [Ho|Ho]; [discriminate Ho|]). exact Ho.
Qed.
Theorem C78_loaded_refuted : forall np, exists r f' r', robj_init SH DK BR PM (Some 10) None (Some 400) (Some "compressor"%string) = Ok r /\
  rotor_save None r = (f', Ok tt) /\ rotor_load f' = Ok r' /\ rotor_eq np r r' = Ok false.
Proof.
  intros np. destruct C58_instance as (r & H & B & L). destruct (C78_loaded np _ _ _ _ _ _ _ _ _ None H B L) as (f' & r' & S & LD & _ & Q).
  exists r, f', r'. do 3 (split; [assumption|]). apply (Q (seal0 2 "b1")); [|cbn; lra].
  rewrite (proj1 (robj_elements _ _ _ _ _ _ _ _ _ H)). cbn. do 4 right. left. reflexivity.
Qed.
Theorem C78_rotor_reflexivity_refuted : forall np, exists r, robj_init SH DK BALLS [] None None None None = Ok r /\ rotor_eq np r r = Err AttributeError.
Proof.
  intros np. destruct (robj_ok _ _ _ _ None None None None _ (wf_balls BALLS (or_introl eq_refl))) as (r & H). exists r. split; [exact H|].
  apply (C78_rotors_raise np _ _ _ _ _ _ _ _ r PBall (brg0 0 None "b0") H). rewrite (proj1 (robj_elements _ _ _ _ _ _ _ _ _ H)). cbn. do 3 right. left. reflexivity.
Qed.
(** the rotor on two bearings has its matrices; the rotor on two ball bearings has none *)
Example C79_instance : exists r, robj_init SH DK TWO [] (Some 10) None (Some 400) None = Ok r /\ comparable_bearings r.
Proof.
  destruct two_ok as (r & H & E & _). exists r. split; [exact H|]. intros i j o o' HIJ HI HJ. rewrite E in HI, HJ. unfold TWO in HI, HJ.
  destruct i as [|[|[|]]], j as [|[|[|]]]; cbn in HI, HJ; try discriminate; try lia; injection HI as <-; injection HJ as <-.
  split; [intros _; split; [exact Logic.I|split; [left; reflexivity|exact Logic.I]]|discriminate].
Qed.
Theorem C79_two_ball_bearings_refuted : exists r, robj_init SH DK BALLS [] None None None None = Ok r /\
  forall np spl order w, Permutation order (remaining r []) -> (exists e, robj_K np spl r order w = Err e) /\ (exists e, robj_C np spl r order w = Err e).
Proof.
  destruct (robj_ok _ _ _ _ None None None None _ (wf_balls BALLS (or_introl eq_refl))) as (r & H). exists r. split; [exact H|]. intros np spl order w P.
  assert (E : ro_br r = BALLS) by (unfold robj_init in H; destruct (rotor_init _ _ _ _); [|discriminate]; injection H as <-; reflexivity).
  apply (C79_raises np spl _ _ _ _ _ _ _ _ r [] order w 0 1 (OPlain PBall (brg0 0 None "b0")) (OPlain PBall (brg0 2 None "b1")) H); try assumption; try (rewrite E; reflexivity); try reflexivity; try discriminate.
  - unfold SH, DK, BALLS. intros o Ho. ins; first [apply built_sh|exact Logic.I|apply built_ball].
  - lia.
  - left. intros X. exact X.
  - intros [].
Qed.

Print Assumptions C78_reflexive.
Print Assumptions C78_kinds.
Print Assumptions C78_bearings.
Print Assumptions C78_bearings_end.
Print Assumptions C78_bearings_raise.
Print Assumptions C78_tables_raise.
Print Assumptions C78_hash.
Print Assumptions C78_cylindrical.
Print Assumptions C78_hash_refuted.
Print Assumptions C78_shafts.
Print Assumptions C78_shaft_matrices.
Print Assumptions C78_stiffness_refuted.
Print Assumptions C78_class_refuted.
Print Assumptions C78_disks.
Print Assumptions C78_disk_symmetry_refuted.
Print Assumptions C78_disk_transitivity_refuted.
Print Assumptions C78_point_masses.
Print Assumptions C78_rotors.
Print Assumptions C78_loaded.
Print Assumptions C78_rotors_raise.
Print Assumptions C79_matrices.
Print Assumptions C79_raises.
Print Assumptions C78_loaded_refuted.
Print Assumptions C78_rotor_reflexivity_refuted.
Print Assumptions C79_two_ball_bearings_refuted.
