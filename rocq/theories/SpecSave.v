(** What it means to save and load elements and rotors: property C58. *)
From Coq Require Import Reals String List Bool Arith.
From Verif Require Import PyBase PyDict MatBase MMaterial MShaft MDisk MBearing MRotor MSave.
Import ListNotations.
Open Scope list_scope.
Open Scope R_scope.

(** ** Objects that exist: made by a constructor; a rotor may have written the node and the tag since *)
Definition built_material (m : material) : Prop := exists name rho E G nu color, material_init name rho E G nu color = Ok m.
Definition same_but_place (s s' : shaft) : Prop := exists n t,
  s' = mkShaft (s_material s) n t (s_axial_force s) (s_torque s) (s_shear_effects s) (s_rotary_inertia s) (s_gyroscopic s)
    (s_L s) (s_idl s) (s_odl s) (s_idr s) (s_odr s) (s_alpha s) (s_beta s) (s_A_l s) (s_A_r s) (s_Ie_l s) (s_Ie_r s) (s_volume s) (s_m s)
    (s_a1 s) (s_a2 s) (s_b1 s) (s_b2 s) (s_gama s) (s_delta s) (s_A s) (s_Ie s) (s_beam_cg s) (s_slenderness s) (s_Im s) (s_kappa s) (s_phi s).
Definition same_but_tag (b b' : bearing) : Prop := exists t,
  b' = mkBearing (b_n b) (b_n_link b) t (b_color b) (b_scale_factor b) (b_frequency b) (b_coef b).
Definition built_shaft (o : oshaft) : Prop :=
  built_material (s_material (os_s o)) /\ exists a s, a_method a = os_meth o /\ shaft_init a = Ok s /\ same_but_place s (os_s o).
Definition built_bearing (b : bearing) : Prop := exists a b0, bearing_init a = Ok b0 /\ same_but_tag b0 b.
Definition built_brg (o : obrg) : Prop :=
  match o with
  | OSeal s => exists a lk s0, seal_init a lk = Ok s0 /\ same_but_tag (sl_bearing s0) (sl_bearing s) /\ sl_leakage s = lk
  | OBearing6 b => exists a k c m b0, bearing6_init a k c m = Ok b0 /\ same_but_tag (b6 b0) (b6 b) /\
                     b6_kzz b = b6_kzz b0 /\ b6_czz b = b6_czz b0 /\ b6_mzz b = b6_mzz b0
  | OMagnetic a b => exists n t l sc b0, magnetic_init a n t l sc = Ok b0 /\ same_but_tag b0 b
  | o => built_bearing (brg_of o)
  end.
Definition built_pm (o : opm) : Prop :=
  exists n m mx my mz t p, (if op_six o then pmass6_init n m mx my mz t else pmass_init n m mx my t) = Ok p /\
    op_m o = (if op_six o then None else m) /\ exists t', op_p o = mkPMass (p_n p) (p_mx p) (p_my p) (p_mz p) t'.
Definition built (o : obj) : Prop :=
  match o with IShaft s => built_shaft s | IDisk _ => True | IBrg b => built_brg b | IPm p => built_pm p end.

(** ** The objects that survive the journey *)
(** classes that can be saved *)
Definition saveable (o : obj) : Prop :=
  match o with IBrg (OPlain _ _) => False | IPm p => op_six p = false | _ => True end.
(** and read back: shear modulus not zero; bearings with a tag and a colour that are not the empty string; no CylindricalBearing *)
Definition loadable (o : obj) : Prop :=
  match o with
  | IShaft s => mG_s (s_material (os_s s)) <> 0
  | IBrg (OCyl _ _ _ _ _ _ _) => False
  | IBrg b => b_tag (brg_of b) <> Some ""%string /\ (match b with OMagnetic _ _ => True | _ => b_color (brg_of b) <> ""%string end)
  | _ => True
  end.
(** A seal comes back half as large on drawings; everything else comes back as it was. *)
Definition half (b : bearing) : bearing :=
  mkBearing (b_n b) (b_n_link b) (b_tag b) (b_color b) (b_scale_factor b / 2) (b_frequency b) (b_coef b).
Definition back_brg (b : obrg) : obrg := match b with OSeal s => OSeal (mkSeal (half (sl_bearing s)) (sl_leakage s)) | b => b end.
Definition back (o : obj) : obj := match o with IBrg b => IBrg (back_brg b) | o => o end.

(** A file written by toml holds no None entry. *)
Definition clean (f : file) : Prop := forall k s a v, In (k, s) (read_file f) -> In (a, v) s -> v <> TNone.

(** [r'] computes what [r] computes: all matrices and all attributes. *)
Record same_rotor (r r' : rotor) : Prop := {
  sr_M : forall spl w, rotor_M spl r' w = rotor_M spl r w;
  sr_Ms : forall spl w, rotor_M_sync spl r' w = rotor_M_sync spl r w;
  sr_K : forall spl w ignore, rotor_K spl r' w ignore = rotor_K spl r w ignore;
  sr_C : forall spl w ignore, rotor_C spl r' w ignore = rotor_C spl r w ignore;
  sr_G : forall spl, rotor_G spl r' = rotor_G spl r;
  sr_Ksdt : rotor_Ksdt r' = rotor_Ksdt r;
  sr_attributes : (r_nd r', r_n_last r', r_ndof r', r_nodes_pos r', r_shaft_pos r', r_m_disks r', r_m_shaft r', r_m r', r_CG r', r_Ip r')
                  = (r_nd r, r_n_last r, r_ndof r, r_nodes_pos r, r_shaft_pos r, r_m_disks r, r_m_shaft r, r_m r, r_CG r, r_Ip r) }.
