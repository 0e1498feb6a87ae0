(** Model of saving and loading elements and rotors: ross/element.py:21-95, ross/shaft_element.py:403-430,
    ross/bearing_seal_element.py:444-487, ross/rotor_assembly.py:3016-3097. *)
From Coq Require Import Reals String Ascii List Bool Arith.
From Verif Require Import PyBase PyDict MatBase MMaterial MShaft MDisk MBearing MRotor.
Import ListNotations.
Open Scope string_scope.
Open Scope list_scope.
Open Scope R_scope.

(** ** Files *)

(** A value of a toml file or of an attribute. [TMat] is a Material object (never dumped); [TTab] a table. *)
Inductive tval :=
| TNone | TNum (x : R) | TInt (n : nat) | TStr (s : string) | TBool (b : bool) | TList (l : list R)
| TMat (m : material) | TTab (t : list (string * tval)).
Definition section := dict tval.
(** A file: absent, or the tables it holds. The text format is not modelled: toml.load(toml.dump(d)) is [d] without the
    entries whose value is None (numbers read back exactly, order kept). *)
Definition file := option (dict section).
Definition is_none (v : tval) : bool := match v with TNone => true | _ => false end.
Definition dump_section (s : section) : section := filter (fun p => negb (is_none (snd p))) s.
(** toml.load(file) with FileNotFoundError replaced by {} *)
Definition read_file (f : file) : dict section := match f with Some d => d | None => [] end.

(** ** Element objects with the attributes that save() reads *)

(** ShaftElement / ShaftElement6DoF; shear_method_calc is stored at ross/shaft_element.py:186. *)
Record oshaft := mkOShaft { os_six : bool; os_meth : shear_method; os_s : shaft }.
(** DiskElement / DiskElement6DoF, ross/disk_element.py:59-70. *)
Record odisk := mkODisk { od_six : bool; od_d : disk; od_scale : R; od_color : string }.
(** PointMass (attribute m present, ross/point_mass.py:58) or PointMass6DoF (no attribute m, :369-385). *)
Record opm := mkOPm { op_six : bool; op_p : pmass; op_m : option R; op_color : string }.
(** The bearing classes. [OCyl]: the attributes of ross/bearing_seal_element.py:1640-1653. [OPlain]: the classes whose
    constructor parameters are not all stored. *)
Inductive plain_class := PBall | PRoller | PFluid.
Inductive obrg :=
| OBearing (b : bearing)
| OSeal (s : seal)
| OBearing6 (b : bearing6)
| OMagnetic (a : magargs) (b : bearing)
| OCyl (speed : list R) (weight len diam clearance visc : R) (b : bearing)
| OPlain (c : plain_class) (b : bearing).
Inductive obj := IShaft (o : oshaft) | IDisk (o : odisk) | IBrg (o : obrg) | IPm (o : opm).

Definition brg_of (o : obrg) : bearing :=
  match o with OBearing b => b | OSeal s => sl_bearing s | OBearing6 b => b6 b | OMagnetic _ b => b | OCyl _ _ _ _ _ _ b => b | OPlain _ b => b end.

Inductive eclass := CShaft | CShaft6 | CDisk | CDisk6 | CB (c : bclass) | CPm | CPm6.
Definition class_name (c : eclass) : string :=
  match c with
  | CShaft => "ShaftElement" | CShaft6 => "ShaftElement6DoF" | CDisk => "DiskElement" | CDisk6 => "DiskElement6DoF"
  | CB BBearing => "BearingElement" | CB BSeal => "SealElement" | CB BBall => "BallBearingElement" | CB BRoller => "RollerBearingElement"
  | CB BFluid => "BearingFluidFlow" | CB BMagnetic => "MagneticBearingElement" | CB BCylindrical => "CylindricalBearing"
  | CB B6DoF => "BearingElement6DoF" | CPm => "PointMass" | CPm6 => "PointMass6DoF"
  end.
Definition brg_class (o : obrg) : bclass :=
  match o with
  | OBearing _ => BBearing | OSeal _ => BSeal | OBearing6 _ => B6DoF | OMagnetic _ _ => BMagnetic | OCyl _ _ _ _ _ _ _ => BCylindrical
  | OPlain PBall _ => BBall | OPlain PRoller _ => BRoller | OPlain PFluid _ => BFluid
  end.
Definition obj_class (o : obj) : eclass :=
  match o with
  | IShaft o => if os_six o then CShaft6 else CShaft
  | IDisk o => if od_six o then CDisk6 else CDisk
  | IBrg o => CB (brg_class o)
  | IPm o => if op_six o then CPm6 else CPm
  end.
Definition obj_tag (o : obj) : option string :=
  match o with IShaft o => s_tag (os_s o) | IDisk o => d_tag (od_d o) | IBrg o => b_tag (brg_of o) | IPm o => p_tag (op_p o) end.

(** Parameters of the constructors: ross/shaft_element.py:142-160, ross/disk_element.py:59, ross/point_mass.py:56, :369-371. *)
Definition class_params (c : eclass) : list string :=
  match c with
  | CShaft | CShaft6 => ["L"; "idl"; "odl"; "idr"; "odr"; "material"; "n"; "axial_force"; "torque"; "shear_effects"; "rotary_inertia";
                         "gyroscopic"; "shear_method_calc"; "tag"; "alpha"; "beta"]
  | CDisk | CDisk6 => ["n"; "m"; "Id"; "Ip"; "tag"; "scale_factor"; "color"]
  | CB c => bclass_params c
  | CPm => ["n"; "m"; "mx"; "my"; "tag"; "color"]
  | CPm6 => ["n"; "m"; "mx"; "my"; "mz"; "tag"; "color"]
  end.

(** *** Attributes (only those that are constructor parameters or coefficients) *)
Definition oStr (o : option string) : tval := match o with Some s => TStr s | None => TNone end.
Definition oInt (o : option nat) : tval := match o with Some n => TInt n | None => TNone end.
Definition oNum (o : option R) : tval := match o with Some x => TNum x | None => TNone end.
Definition oList (o : option (list R)) : tval := match o with Some l => TList l | None => TNone end.
(** [OtherMethod] stands for any other string. *)
Definition meth_str (m : shear_method) : string := match m with Hutchinson => "hutchinson" | Cowper => "cowper" | OtherMethod => "other" end.
Definition cname_str (c : cname) : string :=
  match c with kxx => "kxx" | kyy => "kyy" | kxy => "kxy" | kyx => "kyx" | cxx => "cxx" | cyy => "cyy" | cxy => "cxy" | cyx => "cyx"
  | mxx => "mxx" | myy => "myy" | mxy => "mxy" | myx => "myx" end.
Definition mag_val (p : magarg) : tval := match p with MScal x => TNum x | MList l => TList l end.

Definition shaft_attrs (o : oshaft) : dict tval :=
  let s := os_s o in
  [("L", TNum (s_L s)); ("idl", TNum (s_idl s)); ("odl", TNum (s_odl s)); ("idr", TNum (s_idr s)); ("odr", TNum (s_odr s));
   ("material", TMat (s_material s)); ("n", oInt (s_n s)); ("axial_force", TNum (s_axial_force s)); ("torque", TNum (s_torque s));
   ("shear_effects", TBool (s_shear_effects s)); ("rotary_inertia", TBool (s_rotary_inertia s)); ("gyroscopic", TBool (s_gyroscopic s));
   ("shear_method_calc", TStr (meth_str (os_meth o))); ("tag", oStr (s_tag s)); ("alpha", TNum (s_alpha s)); ("beta", TNum (s_beta s))].
Definition disk_attrs (o : odisk) : dict tval :=
  let d := od_d o in
  [("n", TInt (d_n d)); ("m", TNum (d_m d)); ("Id", TNum (d_Id d)); ("Ip", TNum (d_Ip d)); ("tag", oStr (d_tag d)); ("color", TStr (od_color o));
   ("scale_factor", TNum (od_scale o))].
Definition pm_attrs (o : opm) : dict tval :=
  let p := op_p o in
  (if op_six o then [("mz", TNum (p_mz p))] else [("m", oNum (op_m o))]) ++
  [("n", TInt (p_n p)); ("mx", TNum (p_mx p)); ("my", TNum (p_my p)); ("tag", oStr (p_tag p)); ("color", TStr (op_color o))].
(** attributes set by BearingElement.__init__, ross/bearing_seal_element.py:143, :185, :203-208 *)
Definition base_dict (b : bearing) : dict tval :=
  ("frequency", oList (b_frequency b)) :: map (fun c => (cname_str c, TList (fst (b_coef b c)))) cnames ++
  [("n", TInt (b_n b)); ("n_link", oInt (b_n_link b)); ("tag", oStr (b_tag b)); ("color", TStr (b_color b)); ("scale_factor", TNum (b_scale_factor b))].
Definition brg_attrs (o : obrg) : dict tval :=
  base_dict (brg_of o) ++
  match o with
  | OSeal s => [("seal_leakage", oNum (sl_leakage s))]
  | OBearing6 b => [("kzz", TList (fst (b6_kzz b))); ("czz", TList (fst (b6_czz b))); ("mzz", TList (fst (b6_mzz b)))]
  | OMagnetic a _ => [("g0", mag_val (g0 a)); ("i0", mag_val (i0 a)); ("ag", mag_val (ag a)); ("nw", mag_val (nw a)); ("alpha", mag_val (malpha a));
      ("kp_pid", mag_val (kp_pid a)); ("kd_pid", mag_val (kd_pid a)); ("k_amp", mag_val (k_amp a)); ("k_sense", mag_val (k_sense a))]
  | OCyl speed w l d c v _ => [("speed", TList speed); ("weight", TNum w); ("bearing_length", TNum l); ("journal_diameter", TNum d);
      ("radial_clearance", TNum c); ("oil_viscosity", TNum v)]
  | _ => []
  end.

(** ** save() *)

(** {arg: getattr(self, arg) for arg in args_list}; [missing] is the exception for an absent attribute. *)
Fixpoint collect (missing : exn) (attrs : dict tval) (args : list string) (acc : section) : res section :=
  match args with
  | [] => Ok acc
  | a :: args => match dget attrs a with Some v => collect missing attrs args (dset acc a v) | None => Err missing end
  end.
(** ross/shaft_element.py:410-416 *)
Definition material_table (m : material) : tval :=
  TTab [("name", TStr (mname m)); ("rho", TNum (mrho m)); ("E", TNum (mE m)); ("G_s", TNum (mG_s m)); ("color", TStr (mcolor m))].
(** ross/bearing_seal_element.py:473-483: [i.item() for i in v] raises for a non-empty string and for a list of numbers, but an
    empty string becomes an empty list. *)
Definition plain_list (v : tval) : tval := match v with TStr EmptyString => TList [] | v => v end.
(** The section save() writes (before toml drops the None entries). *)
Definition section_of (o : obj) : res section :=
  match o with
  | IShaft s => bind (collect AttributeError (shaft_attrs s) (class_params (obj_class o)) [])
                  (fun d => Ok (dset d "material" (material_table (s_material (os_s s)))))
  | IDisk d => collect AttributeError (disk_attrs d) (class_params (obj_class o)) []
  | IPm p => collect AttributeError (pm_attrs p) (class_params (obj_class o)) []
  | IBrg b => bind (collect KeyError (brg_attrs b) (filter (fun a => negb (String.eqb a "kwargs")) (class_params (obj_class o)) ++ coef_attrs) [])
                (fun d => Ok (map (fun p => (fst p, plain_list (snd p))) d))
  end.
(** f"{self.__class__.__name__}_{self.tag}" *)
Definition tag_str (t : option string) : string := match t with Some t => t | None => "None" end.
Definition obj_key (o : obj) : string := (class_name (obj_class o) ++ "_" ++ tag_str (obj_tag o))%string.
(** Element.save, ShaftElement.save, BearingElement.save: the file afterwards, or an exception raised before the file is opened
    for writing. Every table of the file is written again, without None entries. *)
Definition obj_save (f : file) (o : obj) : res file :=
  bind (section_of o) (fun s => Ok (Some (map (fun p => (fst p, dump_section (snd p))) (dset (read_file f) (obj_key o) s)))).

(** ** load() *)

(** cls( **data): an unknown key is a TypeError unless the constructor has **kwargs, which swallows it. *)
Definition accepts (params : list string) (d : section) : bool :=
  str_mem "kwargs" params || forallb (fun p => str_mem (fst p) params) d.
(** a parameter without default / with default, with the type the code needs *)
Definition need {A} (conv : tval -> res A) (d : section) (k : string) : res A :=
  match dget d k with Some v => conv v | None => Err TypeError end.
Definition opt {A} (conv : tval -> res A) (d : section) (k : string) (dflt : A) : res A :=
  match dget d k with Some v => conv v | None => Ok dflt end.
Definition as_num (v : tval) : res R := match v with TNum x => Ok x | TInt n => Ok (INR n) | _ => Err TypeError end.
Definition as_int (v : tval) : res nat := match v with TInt n => Ok n | _ => Err TypeError end.
Definition as_bool (v : tval) : res bool := match v with TBool b => Ok b | _ => Err TypeError end.
(** Simplification: a tag that is not a string is refused here; in the code the Rotor constructor refuses it (unhashable list). *)
Definition as_str (v : tval) : res string := match v with TStr s => Ok s | _ => Err TypeError end.
Definition as_list (v : tval) : res (list R) := match v with TList l => Ok l | _ => Err TypeError end.
Definition as_coef (v : tval) : res coefarg := match v with TNum x => Ok (CScal x) | TList l => Ok (CArr l) | _ => Err TypeError end.
Definition as_mag (v : tval) : res magarg := match v with TNum x => Ok (MScal x) | TList l => Ok (MList l) | _ => Err TypeError end.
Definition some {A} (conv : tval -> res A) (v : tval) : res (option A) := bind (conv v) (fun a => Ok (Some a)).
Definition as_meth (v : tval) : res shear_method :=
  match v with TStr s => Ok (if String.eqb s "hutchinson" then Hutchinson else if String.eqb s "cowper" then Cowper else OtherMethod) | _ => Err TypeError end.

(** Material( **data["material"]), ross/shaft_element.py:429: KeyError without that table. *)
Definition load_mat (d : section) : res material :=
  match dget d "material" with
  | None => Err KeyError
  | Some (TTab t) =>
      bind (need as_str t "name") (fun name => bind (need as_num t "rho") (fun rho =>
      bind (opt (some as_num) t "E" None) (fun E => bind (opt (some as_num) t "G_s" None) (fun G =>
      bind (opt (some as_num) t "Poisson" None) (fun nu => bind (opt as_str t "color" "#525252") (fun color =>
      material_init name rho E G nu color))))))
  | Some _ => Err TypeError
  end.
(** ShaftElement.read_toml_data, ross/shaft_element.py:427-430, with the defaults of :142-160. *)
Definition load_shaft (six : bool) (d : section) : res oshaft :=
  bind (load_mat d) (fun mt =>
  bind (need as_num d "L") (fun L => bind (need as_num d "idl") (fun idl => bind (need as_num d "odl") (fun odl =>
  bind (opt (some as_num) d "idr" None) (fun idr => bind (opt (some as_num) d "odr" None) (fun odr =>
  bind (opt (some as_int) d "n" None) (fun n => bind (opt as_num d "axial_force" 0) (fun af => bind (opt as_num d "torque" 0) (fun tq =>
  bind (opt as_bool d "shear_effects" true) (fun se => bind (opt as_bool d "rotary_inertia" true) (fun ri => bind (opt as_bool d "gyroscopic" true) (fun gy =>
  bind (opt as_meth d "shear_method_calc" Cowper) (fun me => bind (opt (some as_str) d "tag" None) (fun tag =>
  bind (opt as_num d "alpha" 0) (fun al => bind (opt as_num d "beta" 0) (fun be =>
  bind (shaft_init (mkShaftArgs L idl odl idr odr (Some mt) n af tq se ri gy me tag al be)) (fun s => Ok (mkOShaft six me s)))))))))))))))))).
(** DiskElement( **data), ross/disk_element.py:59. *)
Definition load_disk (six : bool) (d : section) : res odisk :=
  bind (need as_int d "n") (fun n => bind (need as_num d "m") (fun m => bind (need as_num d "Id") (fun Id => bind (need as_num d "Ip") (fun Ip =>
  bind (opt (some as_str) d "tag" None) (fun tag => bind (opt as_num d "scale_factor" 1) (fun sc => bind (opt as_str d "color" "Firebrick") (fun co =>
  Ok (mkODisk six (mkDisk n m Id Ip tag) sc co)))))))).
(** PointMass( **data), ross/point_mass.py:56 (n is always stored), PointMass6DoF( **data), :369. *)
Definition load_pm (six : bool) (d : section) : res opm :=
  bind (need as_int d "n") (fun n => bind (opt (some as_num) d "m" None) (fun m => bind (opt (some as_num) d "mx" None) (fun mx =>
  bind (opt (some as_num) d "my" None) (fun my => bind (opt (some as_num) d "mz" None) (fun mz =>
  bind (opt (some as_str) d "tag" None) (fun tag => bind (opt as_str d "color" "DarkSalmon") (fun co =>
  bind (if six then pmass6_init n m mx my mz tag else pmass_init n m mx my tag) (fun p => Ok (mkOPm six p (if six then None else m) co))))))))).
(** BearingElement arguments, ross/bearing_seal_element.py:120-140; [color] and [scale] are the defaults of the class. *)
Definition load_bargs (color : string) (d : section) : res bargs :=
  bind (need as_int d "n") (fun n => bind (need as_coef d "kxx") (fun kxx => bind (need as_coef d "cxx") (fun cxx =>
  bind (opt (some as_coef) d "mxx" None) (fun mxx => bind (opt (some as_coef) d "kyy" None) (fun kyy =>
  bind (opt as_coef d "kxy" (CScal 0)) (fun kxy => bind (opt as_coef d "kyx" (CScal 0)) (fun kyx =>
  bind (opt (some as_coef) d "cyy" None) (fun cyy => bind (opt as_coef d "cxy" (CScal 0)) (fun cxy => bind (opt as_coef d "cyx" (CScal 0)) (fun cyx =>
  bind (opt (some as_coef) d "myy" None) (fun myy => bind (opt as_coef d "mxy" (CScal 0)) (fun mxy => bind (opt as_coef d "myx" (CScal 0)) (fun myx =>
  bind (opt (some as_list) d "frequency" None) (fun fr => bind (opt (some as_str) d "tag" None) (fun tag => bind (opt (some as_int) d "n_link" None) (fun nl =>
  bind (opt as_num d "scale_factor" 1) (fun sc => bind (opt as_str d "color" color) (fun co =>
  Ok (mkBArgs n kxx cxx mxx kyy kxy kyx cyy cxy cyx myy mxy myx fr tag nl sc co))))))))))))))))))).
(** MagneticBearingElement.__init__, ross/bearing_seal_element.py:1458-1565: the colour is always the default. *)
Definition magnetic_init (a : magargs) (n : nat) (tag : option string) (n_link : option nat) (scale : R) : res bearing :=
  bind (mag_coefs a) (fun '(vkxx, vkyy, vcxx, vcyy) =>
  bearing_init (mkBArgs n (CScal vkxx) (CScal vcxx) None (Some (CScal vkyy)) (CScal 0) (CScal 0) (Some (CScal vcyy)) (CScal 0) (CScal 0)
    None (CScal 0) (CScal 0) None tag n_link scale "#355d7a")).
Definition load_magnetic (d : section) : res obrg :=
  bind (need as_int d "n") (fun n => bind (need as_mag d "g0") (fun v1 => bind (need as_mag d "i0") (fun v2 => bind (need as_mag d "ag") (fun v3 =>
  bind (need as_mag d "nw") (fun v4 => bind (need as_mag d "alpha") (fun v5 => bind (need as_mag d "kp_pid") (fun v6 => bind (need as_mag d "kd_pid") (fun v7 =>
  bind (need as_mag d "k_amp") (fun v8 => bind (need as_mag d "k_sense") (fun v9 =>
  bind (opt (some as_str) d "tag" None) (fun tag => bind (opt (some as_int) d "n_link" None) (fun nl => bind (opt as_num d "scale_factor" 1) (fun sc =>
  let a := mkMag v1 v2 v3 v4 v5 v6 v7 v8 v9 in
  bind (magnetic_init a n tag nl sc) (fun b => Ok (OMagnetic a b))))))))))))))).
(** cls.read_toml_data(data) for the bearing classes, ross/element.py:88. CylindricalBearing passes its own coefficients and **kwargs to
    BearingElement.__init__ (ross/bearing_seal_element.py:1727): a coefficient in the file is then given twice. Not modelled: sections of
    the classes BallBearingElement, RollerBearingElement and BearingFluidFlow, and sections of CylindricalBearing without
    coefficients; save() writes neither. *)
Definition load_brg (c : bclass) (d : section) : res obrg :=
  if negb (accepts (bclass_params c) d) then Err TypeError else
  match c with
  | BBearing => bind (load_bargs "#355d7a" d) (fun a => bind (bearing_init a) (fun b => Ok (OBearing b)))
  | BSeal => bind (load_bargs "#77ACA2" d) (fun a => bind (opt (some as_num) d "seal_leakage" None) (fun lk =>
             bind (seal_init a lk) (fun s => Ok (OSeal s))))
  | B6DoF => bind (load_bargs "#355d7a" d) (fun a => bind (opt as_coef d "kzz" (CScal 0)) (fun kz => bind (opt as_coef d "czz" (CScal 0)) (fun cz =>
             bind (opt as_coef d "mzz" (CScal 0)) (fun mz => bind (bearing6_init a kz cz mz) (fun b => Ok (OBearing6 b))))))
  | BMagnetic => load_magnetic d
  | BCylindrical | BBall | BRoller | BFluid => Err TypeError
  end.
Definition read_data (c : eclass) (d : section) : res obj :=
  match c with
  | CShaft | CShaft6 =>
      bind (load_mat d) (fun _ => if accepts (class_params c) d
        then bind (load_shaft (match c with CShaft6 => true | _ => false end) d) (fun o => Ok (IShaft o)) else Err TypeError)
  | CDisk | CDisk6 => if accepts (class_params c) d
        then bind (load_disk (match c with CDisk6 => true | _ => false end) d) (fun o => Ok (IDisk o)) else Err TypeError
  | CPm | CPm6 => if accepts (class_params c) d
        then bind (load_pm (match c with CPm6 => true | _ => false end) d) (fun o => Ok (IPm o)) else Err TypeError
  | CB c => bind (load_brg c d) (fun o => Ok (IBrg o))
  end.
(** cls.load(file), ross/element.py:90-95: list(data.values())[0], whatever the element asked for. *)
Definition obj_load (c : eclass) (f : file) : res obj :=
  match f with
  | None => Err FileNotFound
  | Some [] => Err IndexError
  | Some ((_, s) :: _) => read_data c s
  end.

(** ** Rotors *)

(** The objects as the assembly sees them. *)
Definition to_rshaft (o : oshaft) : rshaft := mkRShaft (os_six o) (os_s o).
Definition to_rdisk (o : odisk) : rdisk := mkRDisk (od_six o) (od_d o).
Definition to_rbrg (o : obrg) : rbrg := match o with OSeal s => RB4 true (sl_bearing s) | OBearing6 b => RB6 b | o => RB4 false (brg_of o) end.
Definition to_rpm (o : opm) : rpmass := mkRPmass (op_six o) (op_p o).

(** sh.n = i, sh.tag = ..., ross/rotor_assembly.py:166-200 *)
Definition shaft_with (s : shaft) (n : nat) (t : string) : shaft :=
  mkShaft (s_material s) (Some n) (Some t) (s_axial_force s) (s_torque s) (s_shear_effects s) (s_rotary_inertia s) (s_gyroscopic s)
    (s_L s) (s_idl s) (s_odl s) (s_idr s) (s_odr s) (s_alpha s) (s_beta s) (s_A_l s) (s_A_r s) (s_Ie_l s) (s_Ie_r s) (s_volume s) (s_m s)
    (s_a1 s) (s_a2 s) (s_b1 s) (s_b2 s) (s_gama s) (s_delta s) (s_A s) (s_Ie s) (s_beam_cg s) (s_slenderness s) (s_Im s) (s_kappa s) (s_phi s).
Definition bearing_with (b : bearing) (t : string) : bearing :=
  mkBearing (b_n b) (b_n_link b) (Some t) (b_color b) (b_scale_factor b) (b_frequency b) (b_coef b).
Definition name_shaft (i : nat) (o : oshaft) : oshaft :=
  let s := os_s o in
  mkOShaft (os_six o) (os_meth o) (shaft_with s (match s_n s with Some n => n | None => i end) (default_tag "ShaftElement " i (s_tag s))).
Definition name_disk (i : nat) (o : odisk) : odisk :=
  let d := od_d o in mkODisk (od_six o) (mkDisk (d_n d) (d_m d) (d_Id d) (d_Ip d) (Some (default_tag "Disk " i (d_tag d)))) (od_scale o) (od_color o).
Definition map_brg (f : bearing -> bearing) (o : obrg) : obrg :=
  match o with
  | OBearing b => OBearing (f b)
  | OSeal s => OSeal (mkSeal (f (sl_bearing s)) (sl_leakage s))
  | OBearing6 b => OBearing6 (mkBearing6 (f (b6 b)) (b6_kzz b) (b6_czz b) (b6_mzz b))
  | OMagnetic a b => OMagnetic a (f b)
  | OCyl s w l d c v b => OCyl s w l d c v (f b)
  | OPlain c b => OPlain c (f b)
  end.
Definition brg_prefix (o : obrg) : string := match o with OSeal _ => "Seal " | _ => "Bearing " end.
Definition name_brg (i : nat) (o : obrg) : obrg :=
  map_brg (fun b => bearing_with b (default_tag (brg_prefix o) i (b_tag b))) o.
Definition name_pm (i : nat) (o : opm) : opm :=
  let p := op_p o in
  mkOPm (op_six o) (mkPMass (p_n p) (p_mx p) (p_my p) (p_mz p) (Some (default_tag "Point Mass " i (p_tag p)))) (op_m o) (op_color o).
(** sorted(l, key=...): stable *)
Fixpoint insert_by {A} (key : A -> nat) (x : A) (l : list A) : list A :=
  match l with [] => [x] | y :: l' => if (key x <=? key y)%nat then x :: l else y :: insert_by key x l' end.
Definition sort_by {A} (key : A -> nat) (l : list A) : list A := fold_right (insert_by key) [] l.
Definition os_n (o : oshaft) : nat := match s_n (os_s o) with Some n => n | None => 0%nat end.
Definition ob_n (o : obrg) : nat := b_n (brg_of o).

(** A rotor object: rotor.shaft_elements, disk_elements, bearing_elements, point_mass_elements, parameters, tag, and the attributes computed
    by the constructor ([ro_val]). *)
Record robj := mkRobj {
  ro_sh : list oshaft; ro_dk : list odisk; ro_br : list obrg; ro_pm : list opm; ro_val : rotor;
  ro_min : option R; ro_max : option R; ro_rated : option R; ro_tag : string }.
Definition ro_elements (r : robj) : list obj := map IShaft (ro_sh r) ++ map IDisk (ro_dk r) ++ map IBrg (ro_br r) ++ map IPm (ro_pm r).
(** Rotor(...), ross/rotor_assembly.py:135-212 *)
Definition robj_init (sh : list oshaft) (dk : list odisk) (br : list obrg) (pm : list opm) (mn mx rated : option R) (tag : option string) : res robj :=
  bind (rotor_init (map to_rshaft sh) (map to_rdisk dk) (map to_rbrg br) (map to_rpm pm)) (fun r =>
  Ok (mkRobj (sort_by os_n (mapi name_shaft 0 sh)) (mapi name_disk 0 dk) (sort_by ob_n (mapi name_brg 0 br)) (mapi name_pm 0 pm) r
        mn mx rated (default "Rotor 0"%string tag))).

(** Rotor.save, ross/rotor_assembly.py:3032-3035: the file is replaced by the parameters, then every element adds its section. Result:
    the file afterwards and the outcome. *)
Definition params_section (r : robj) : section := [("min_w", oNum (ro_min r)); ("max_w", oNum (ro_max r)); ("rated_w", oNum (ro_rated r))].
Fixpoint save_all (f : file) (l : list obj) : file * res unit :=
  match l with
  | [] => (f, Ok tt)
  | o :: l => match obj_save f o with Ok f' => save_all f' l | Err e => (f, Err e) end
  end.
Definition rotor_save (f : file) (r : robj) : file * res unit :=
  save_all (Some [("parameters", dump_section (params_section r))]) (ro_elements r).

(** el_name.split("_")[0] *)
Fixpoint upto_underscore (s : string) : string :=
  match s with EmptyString => EmptyString | String c s => if Ascii.eqb c "_" then EmptyString else String c (upto_underscore s) end.
(** the element classes among globals() of ross/rotor_assembly.py:22-49: CylindricalBearing is not imported *)
Definition global_classes : list eclass :=
  [CB BBall; CB BBearing; CB B6DoF; CB BFluid; CB BMagnetic; CB BRoller; CB BSeal; CDisk; CDisk6; CPm; CPm6; CShaft; CShaft6].
Definition find_class (name : string) : option eclass := find (fun c => String.eqb (class_name c) name) global_classes.
(** ross/rotor_assembly.py:3065-3076. A KeyError leads to "import rossxl", a package outside ross: ImportError ([RuntimeErr]). *)
Fixpoint load_all (d : dict section) : res (list obj) :=
  match d with
  | [] => Ok []
  | (k, s) :: d =>
      if String.eqb k "parameters" then load_all d else
      bind (match find_class (upto_underscore k) with
            | None => Err RuntimeErr
            | Some c => match read_data c s with Err KeyError => Err RuntimeErr | r => r end
            end) (fun o => bind (load_all d) (fun l => Ok (o :: l)))
  end.
(** lines 3078-3090: isinstance tests *)
Definition pick {A} (f : obj -> option A) (l : list obj) : list A := flat_map (fun o => match f o with Some a => [a] | None => [] end) l.
Definition is_shaft (o : obj) := match o with IShaft s => Some s | _ => None end.
Definition is_disk (o : obj) := match o with IDisk s => Some s | _ => None end.
Definition is_brg (o : obj) := match o with IBrg s => Some s | _ => None end.
Definition is_pm (o : obj) := match o with IPm s => Some s | _ => None end.
(** Rotor.load, lines 3062-3097 *)
Definition rotor_load (f : file) : res robj :=
  match f with
  | None => Err FileNotFound
  | Some d =>
      match dget d "parameters" with
      | None => Err KeyError
      | Some ps =>
          bind (load_all d) (fun l =>
          if negb (forallb (fun p => str_mem (fst p) ["min_w"; "max_w"; "rated_w"; "tag"]) ps) then Err TypeError else
          bind (opt (some as_num) ps "min_w" None) (fun mn => bind (opt (some as_num) ps "max_w" None) (fun mx =>
          bind (opt (some as_num) ps "rated_w" None) (fun rt => bind (opt (some as_str) ps "tag" None) (fun tag =>
          robj_init (pick is_shaft l) (pick is_disk l) (pick is_brg l) (pick is_pm l) mn mx rt tag)))))
      end
  end.
