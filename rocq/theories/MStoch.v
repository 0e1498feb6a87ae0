(** Model of ross/stochastic: the ST_ elements, ST_Rotor and its Monte Carlo loops.
    Values are Python objects of the kinds that occur as arguments. Quantities with units are left out (see MUnits). A list stands for a
    list and for a numpy array; float() of a sequence raises TypeError (numpy would accept an array of one entry). *)
From Coq Require Import Reals List String Ascii Bool Arith.
From Coquelicot Require Import Complex.
From Verif Require Import PyBase PyDict MatBase CMat MMaterial MShaft MDisk MBearing MRotor MDynamics.
Import ListNotations.
Open Scope string_scope.
Open Scope list_scope.
Open Scope R_scope.

Inductive sv := SNone | SNum (x : R) | SInt (k : nat) | SBool (b : bool) | SStr (s : string) | SMat (m : material) | SList (l : list sv).

(** len(v), v[i] *)
Definition sv_len (v : sv) : res nat :=
  match v with SList l => Ok (List.length l) | SStr s => Ok (String.length s) | _ => Err TypeError end.
Definition sv_get (v : sv) (i : nat) : res sv :=
  match v with
  | SList l => match nth_error l i with Some x => Ok x | None => Err IndexError end
  | SStr s => match String.get i s with Some c => Ok (SStr (String c "")) | None => Err IndexError end
  | _ => Err TypeError
  end.
Definition str_in (k : string) (l : list string) : bool := existsb (String.eqb k) l.

(** ** Calling the deterministic classes *)
(** f( *args ): positional arguments are bound to the parameters in order; too many raise TypeError *)
Definition kwargs := string -> option sv.
Record pyclass (A : Type) := mkClass { c_sig : list string; c_body : kwargs -> res A }.
Arguments mkClass {A}. Arguments c_sig {A}. Arguments c_body {A}.
Definition call {A} (c : pyclass A) (args : list sv) : res A :=
  if (List.length (c_sig c) <? List.length args)%nat then Err TypeError
  else c_body c (dget (combine (c_sig c) args)).
Definition req (kw : kwargs) (k : string) : res sv := match kw k with Some v => Ok v | None => Err TypeError end.
Definition opt (kw : kwargs) (k : string) (d : sv) : sv := match kw k with Some v => v | None => d end.

(** float(v) *)
Definition to_R (v : sv) : res R :=
  match v with
  | SNum x => Ok x | SInt k => Ok (INR k) | SBool b => Ok (if b then 1 else 0) | SStr _ => Err ValueError | _ => Err TypeError
  end.
Definition to_optR (v : sv) : res (option R) := match v with SNone => Ok None | _ => bind (to_R v) (fun x => Ok (Some x)) end.
(** node numbers, flags, tags: Simplification: a value of another kind raises TypeError at once *)
Definition to_nat (v : sv) : res nat := match v with SInt k => Ok k | _ => Err TypeError end.
Definition to_optnat (v : sv) : res (option nat) := match v with SNone => Ok None | SInt k => Ok (Some k) | _ => Err TypeError end.
Definition to_bool (v : sv) : res bool := match v with SBool b => Ok b | _ => Err TypeError end.
Definition to_str (v : sv) : res string := match v with SStr s => Ok s | _ => Err TypeError end.
Definition to_tag (v : sv) : res (option string) := match v with SNone => Ok None | SStr s => Ok (Some s) | _ => Err TypeError end.

(** Material, ross/materials.py:56-83 *)
Definition material_class : pyclass material := mkClass ["name"; "rho"; "E"; "G_s"; "Poisson"; "color"] (fun kw =>
  bind (bind (req kw "name") to_str) (fun name => bind (bind (req kw "rho") to_R) (fun rho =>
  bind (to_optR (opt kw "E" SNone)) (fun E => bind (to_optR (opt kw "G_s" SNone)) (fun G => bind (to_optR (opt kw "Poisson" SNone)) (fun P =>
  bind (to_str (opt kw "color" (SStr "#525252"))) (fun color => material_init name rho E G P color))))))).

(** DiskElement, ross/disk_element.py:58-70, with the two drawing attributes *)
Record drawn_disk := mkDrawn { dr_disk : disk; dr_scale : sv; dr_color : sv }.
Definition disk_class : pyclass drawn_disk := mkClass ["n"; "m"; "Id"; "Ip"; "tag"; "scale_factor"; "color"] (fun kw =>
  bind (bind (req kw "n") to_nat) (fun n => bind (bind (req kw "m") to_R) (fun m =>
  bind (bind (req kw "Id") to_R) (fun Id => bind (bind (req kw "Ip") to_R) (fun Ip =>
  bind (to_tag (opt kw "tag" SNone)) (fun tag =>
  Ok (mkDrawn (mkDisk n m Id Ip tag) (opt kw "scale_factor" (SNum 1)) (opt kw "color" (SStr "Firebrick"))))))))).

(** PointMass, ross/point_mass.py:55-69 *)
Definition pmass_class : pyclass pmass := mkClass ["n"; "m"; "mx"; "my"; "tag"; "color"] (fun kw =>
  bind (to_nat (opt kw "n" SNone)) (fun n => bind (to_optR (opt kw "m" SNone)) (fun m =>
  bind (to_optR (opt kw "mx" SNone)) (fun mx => bind (to_optR (opt kw "my" SNone)) (fun my =>
  bind (to_tag (opt kw "tag" SNone)) (fun tag => pmass_init n m mx my tag)))))).

(** ShaftElement, ross/shaft_element.py:141-306. Simplification: axial_force and torque must be numbers (the code stores anything), and
    the material must be a Material object (a name is not modelled here). *)
Definition to_method (v : sv) : res shear_method :=
  bind (to_str v) (fun s => Ok (if String.eqb s "hutchinson" then Hutchinson else if String.eqb s "cowper" then Cowper else OtherMethod)).
Definition shaft_class : pyclass shaft := mkClass
  ["L"; "idl"; "odl"; "idr"; "odr"; "material"; "n"; "axial_force"; "torque"; "shear_effects"; "rotary_inertia"; "gyroscopic"; "shear_method_calc"; "tag"; "alpha"; "beta"]
  (fun kw =>
  bind (req kw "L") (fun L => bind (req kw "idl") (fun idl => bind (req kw "odl") (fun odl =>
  bind (to_R L) (fun L => bind (to_R idl) (fun idl => bind (to_R odl) (fun odl =>
  bind (to_optR (opt kw "idr" SNone)) (fun idr => bind (to_optR (opt kw "odr" SNone)) (fun odr =>
  bind (match opt kw "material" SNone with SMat m => Ok m | _ => Err AttributeError end) (fun m =>
  bind (to_optnat (opt kw "n" SNone)) (fun n => bind (to_R (opt kw "axial_force" (SNum 0))) (fun F => bind (to_R (opt kw "torque" (SNum 0))) (fun T =>
  bind (to_bool (opt kw "shear_effects" (SBool true))) (fun b1 => bind (to_bool (opt kw "rotary_inertia" (SBool true))) (fun b2 =>
  bind (to_bool (opt kw "gyroscopic" (SBool true))) (fun b3 => bind (to_method (opt kw "shear_method_calc" (SStr "cowper"))) (fun sm =>
  bind (to_tag (opt kw "tag" SNone)) (fun tag => bind (to_R (opt kw "alpha" (SNum 0))) (fun al => bind (to_R (opt kw "beta" (SNum 0))) (fun be =>
  shaft_init (mkShaftArgs L idl odl idr odr (Some m) n F T b1 b2 b3 sm tag al be))))))))))))))))))))).

(** BearingElement, ross/bearing_seal_element.py:119-208 *)
Definition to_coef (v : sv) : res coefarg :=
  match v with SList l => bind (mapM to_R l) (fun xs => Ok (CArr xs)) | _ => bind (to_R v) (fun x => Ok (CScal x)) end.
Definition to_optcoef (v : sv) : res (option coefarg) := match v with SNone => Ok None | _ => bind (to_coef v) (fun c => Ok (Some c)) end.
Definition to_freq (v : sv) : res (option (list R)) :=
  match v with SNone => Ok None | SList l => bind (mapM to_R l) (fun xs => Ok (Some xs)) | _ => Err TypeError end.
Definition bearing_class : pyclass bearing := mkClass
  ["n"; "kxx"; "cxx"; "mxx"; "kyy"; "kxy"; "kyx"; "cyy"; "cxy"; "cyx"; "myy"; "mxy"; "myx"; "frequency"; "tag"; "n_link"; "scale_factor"; "color"]
  (fun kw =>
  bind (bind (req kw "n") to_nat) (fun n => bind (bind (req kw "kxx") to_coef) (fun kxx => bind (bind (req kw "cxx") to_coef) (fun cxx =>
  bind (to_optcoef (opt kw "mxx" SNone)) (fun mxx => bind (to_optcoef (opt kw "kyy" SNone)) (fun kyy =>
  bind (to_coef (opt kw "kxy" (SNum 0))) (fun kxy => bind (to_coef (opt kw "kyx" (SNum 0))) (fun kyx =>
  bind (to_optcoef (opt kw "cyy" SNone)) (fun cyy => bind (to_coef (opt kw "cxy" (SNum 0))) (fun cxy => bind (to_coef (opt kw "cyx" (SNum 0))) (fun cyx =>
  bind (to_optcoef (opt kw "myy" SNone)) (fun myy => bind (to_coef (opt kw "mxy" (SNum 0))) (fun mxy => bind (to_coef (opt kw "myx" (SNum 0))) (fun myx =>
  bind (to_freq (opt kw "frequency" SNone)) (fun freq => bind (to_tag (opt kw "tag" SNone)) (fun tag => bind (to_optnat (opt kw "n_link" SNone)) (fun link =>
  bind (to_R (opt kw "scale_factor" (SNum 1))) (fun sc => bind (to_str (opt kw "color" (SStr "#355d7a"))) (fun color =>
  bearing_init (mkBArgs n kxx cxx mxx kyy kxy kyx cyy cxy cyx myy mxy myx freq tag link sc color)))))))))))))))))))).

(** ** The ST_ classes: attribute_dict and is_random *)
Record stoch := mkStoch { st_attrs : dict sv; st_random : option (list string) }.

(** random_var of ST_Material, ST_DiskElement, ST_PointMass, ST_ShaftElement (st_disk_element.py:183-196 and the same loop in the others):
    the argument list of sample i, and all the lists *)
Definition sample_row (e : stoch) (rnd : list string) (i : nat) : res (list sv) :=
  mapM (fun kv => if str_in (fst kv) rnd then sv_get (snd kv) i else Ok (snd kv)) (st_attrs e).
Definition first_random (e : stoch) : res (list string * sv) :=
  match st_random e with
  | None => Err TypeError
  | Some [] => Err IndexError
  | Some ((k :: _) as rnd) => match dget (st_attrs e) k with Some v => Ok (rnd, v) | None => Err KeyError end
  end.
Definition random_rows (e : stoch) : res (list (list sv)) :=
  bind (first_random e) (fun p => bind (sv_len (snd p)) (fun n => mapM (sample_row e (fst p)) (seq 0 n))).

(** random_var of ST_BearingElement, st_bearing_seal_element.py:283-310. In the first branch a TypeError (also one met half way) leads
    to the second branch; the rows already collected stay in the list. *)
Definition column_get (v : sv) (i : nat) : res sv :=
  bind (sv_len v) (fun n => bind (mapM (fun j => bind (sv_get v j) (fun r => sv_get r i)) (seq 0 n)) (fun l => Ok (SList l))).
Definition table_row (e : stoch) (rnd : list string) (i : nat) : res (list sv) :=
  mapM (fun kv => if str_in (fst kv) rnd then column_get (snd kv) i else Ok (snd kv)) (st_attrs e).
(** rows collected until the first exception *)
Fixpoint collect_rows (f : nat -> res (list sv)) (l : list nat) : list (list sv) * option exn :=
  match l with
  | [] => ([], None)
  | i :: l => match f i with Ok r => let (rs, x) := collect_rows f l in (r :: rs, x) | Err x => ([], Some x) end
  end.
Definition bearing_rows (e : stoch) : res (list (list sv)) :=
  bind (first_random e) (fun p =>
  let (rnd, v) := p in
  let plain done := bind (sv_len v) (fun n => bind (mapM (sample_row e rnd) (seq 0 n)) (fun rows => Ok (done ++ rows))) in
  match bind (sv_get v 0) sv_len with
  | Ok n => match collect_rows (table_row e rnd) (seq 0 n) with
            | (rows, None) => Ok rows
            | (rows, Some TypeError) => plain rows
            | (_, Some x) => Err x
            end
  | Err TypeError => plain []
  | Err x => Err x
  end).

(** list(iter(element)): the arguments are collected first, then the objects are built one by one *)
Definition st_list {A} (c : pyclass A) (e : stoch) : res (list A) := bind (random_rows e) (mapM (call c)).
Definition st_bearing_list (e : stoch) : res (list bearing) := bind (bearing_rows e) (mapM (call bearing_class)).

(** __getitem__ and __setitem__, st_disk_element.py:90-160 and the same code in the others *)
Definition st_get (e : stoch) (k : string) : res sv := match dget (st_attrs e) k with Some v => Ok v | None => Err KeyError end.
Definition st_set (e : stoch) (k : string) (v : sv) : res stoch :=
  if dmem (st_attrs e) k then Ok (mkStoch (dset (st_attrs e) k v) (st_random e)) else Err KeyError.

(** ST_Material.__init__, st_materials.py:65-105: isinstance(par, Iterable) *)
Definition iterable (v : sv) : bool := match v with SList _ | SStr _ => true | _ => false end.
Definition present (v : sv) : nat := match v with SNone => 0%nat | _ => 1%nat end.
Definition st_material (name : string) (rho E G_s Poisson : sv) (color : string) : res stoch :=
  if has_space name then Err ValueError
  else if negb (Nat.eqb (present E + present G_s + present Poisson) 2) then Err ValueError
  else Ok (mkStoch [("name", SStr name); ("rho", rho); ("E", E); ("G_s", G_s); ("Poisson", Poisson); ("color", SStr color)]
             (Some (map fst (filter (fun kv => iterable (snd kv)) [("rho", rho); ("E", E); ("G_s", G_s); ("Poisson", Poisson)])))).
(** ST_DiskElement.__init__, st_disk_element.py:60-74 *)
Definition st_disk (n m Id Ip tag color : sv) (rnd : option (list string)) : stoch :=
  mkStoch [("n", n); ("m", m); ("Id", Id); ("Ip", Ip); ("tag", tag); ("color", color)] rnd.
(** ST_PointMass.__init__, st_point_mass.py:61-82 *)
Definition st_pmass (n m mx my tag color : sv) (rnd : option (list string)) : stoch :=
  mkStoch [("n", n); ("m", m); ("mx", mx); ("my", my); ("tag", tag); ("color", color)] rnd.

(** the appends to is_random: k2 joins when k1 is in the list and k2 is not. The list is the caller's own list object, so the result
    is also what the caller's variable holds afterwards. *)
Definition join (k1 k2 : string) (rnd : list string) : list string := if str_in k1 rnd && negb (str_in k2 rnd) then rnd ++ [k2] else rnd.
(** ST_ShaftElement.__init__, st_shaft_element.py:88-136; the material is a value or an ST_Material *)
Inductive matarg := MValue (v : sv) | MStoch (e : stoch).
Definition material_value (m : matarg) : res sv :=
  match m with MValue v => Ok v | MStoch e => bind (st_list material_class e) (fun l => Ok (SList (map SMat l))) end.
Record st_shaft_args := mkStShaft { sa_L : sv; sa_idl : sv; sa_odl : sv; sa_idr : sv; sa_odr : sv; sa_material : matarg; sa_n : sv; sa_axial : sv; sa_torque : sv;
  sa_shear : sv; sa_rotary : sv; sa_gyro : sv; sa_method : sv; sa_random : option (list string) }.
Definition resolve_right (left right : sv) (k1 k2 : string) (rnd : option (list string)) : res (sv * option (list string)) :=
  match right with
  | SNone => match rnd with None => Err TypeError | Some l => Ok (left, Some (join k1 k2 l)) end
  | _ => Ok (right, rnd)
  end.
Definition st_shaft (a : st_shaft_args) : res stoch :=
  bind (resolve_right (sa_idl a) (sa_idr a) "idl" "idr" (sa_random a)) (fun p =>
  bind (resolve_right (sa_odl a) (sa_odr a) "odl" "odr" (snd p)) (fun q =>
  bind (material_value (sa_material a)) (fun m =>
  Ok (mkStoch [("L", sa_L a); ("idl", sa_idl a); ("odl", sa_odl a); ("idr", fst p); ("odr", fst q); ("material", m); ("n", sa_n a);
               ("axial_force", sa_axial a); ("torque", sa_torque a); ("shear_effects", sa_shear a); ("rotary_inertia", sa_rotary a);
               ("gyroscopic", sa_gyro a); ("shear_method_calc", sa_method a); ("tag", SNone)] (snd q))))).
(** the effect of ST_ShaftElement.plot_random_var on the object, st_shaft_element.py:300-302: list.remove on self.is_random itself *)
Fixpoint remove_first (k : string) (l : list string) : list string :=
  match l with [] => [] | x :: l => if String.eqb k x then l else x :: remove_first k l end.
Definition st_shaft_plot (e : stoch) : stoch := mkStoch (st_attrs e) (option_map (remove_first "material") (st_random e)).

(** ST_BearingElement.__init__, st_bearing_seal_element.py:113-176 *)
Record st_brg_args := mkStBrg { sb_n : sv; sb_kxx : sv; sb_cxx : sv; sb_mxx : sv; sb_kyy : sv; sb_kxy : sv; sb_kyx : sv; sb_cyy : sv; sb_cxy : sv; sb_cyx : sv;
  sb_myy : sv; sb_mxy : sv; sb_myx : sv; sb_frequency : sv; sb_tag : sv; sb_n_link : sv; sb_scale : sv; sb_random : option (list string) }.
Definition none_or (v d : sv) : sv := match v with SNone => d | _ => v end.
Definition is_none (v : sv) : bool := match v with SNone => true | _ => false end.
Definition st_bearing (a : st_brg_args) : res stoch :=
  match sb_random a with
  | None => Err TypeError
  | Some rnd =>
    if str_in "frequency" rnd then Err ValueError else
    let rnd := if is_none (sb_kyy a) then join "kxx" "kyy" rnd else rnd in
    let rnd := if is_none (sb_cyy a) then join "cxx" "cyy" rnd else rnd in
    let mxx := if is_none (sb_myy a) then none_or (sb_mxx a) (SNum 0) else sb_mxx a in
    let myy := none_or (sb_myy a) (none_or (sb_mxx a) (SNum 0)) in
    let rnd := if is_none (sb_myy a) then join "mxx" "myy" rnd else rnd in
    Ok (mkStoch [("n", sb_n a); ("kxx", sb_kxx a); ("cxx", sb_cxx a); ("mxx", mxx); ("kyy", none_or (sb_kyy a) (sb_kxx a)); ("kxy", sb_kxy a); ("kyx", sb_kyx a);
                 ("cyy", none_or (sb_cyy a) (sb_cxx a)); ("cxy", sb_cxy a); ("cyx", sb_cyx a); ("myy", myy); ("mxy", sb_mxy a); ("myx", sb_myx a);
                 ("frequency", sb_frequency a); ("tag", sb_tag a); ("n_link", sb_n_link a); ("scale_factor", sb_scale a)] (Some rnd))
  end.

(** ST_DiskElement.from_geometry, st_disk_element.py:258-346. numpy arithmetic on numbers and arrays of numbers: arrays must have equal
    length, or one of them length 1. *)
Inductive arr := Sc (x : R) | Ar (l : list R).
Definition zip_with (f : R -> R -> R) (a b : list R) : list R := map (fun p => f (fst p) (snd p)) (combine a b).
Definition arith (f : R -> R -> R) (a b : arr) : res arr :=
  match a, b with
  | Sc x, Sc y => Ok (Sc (f x y))
  | Sc x, Ar l => Ok (Ar (map (f x) l))
  | Ar l, Sc y => Ok (Ar (map (fun x => f x y) l))
  | Ar l, Ar l' => if Nat.eqb (List.length l) (List.length l') then Ok (Ar (zip_with f l l'))
                   else match l, l' with
                        | [x], _ => Ok (Ar (map (f x) l'))
                        | _, [y] => Ok (Ar (map (fun x => f x y) l))
                        | _, _ => Err ValueError
                        end
  end.
Definition apply1 (f : R -> R) (a : arr) : arr := match a with Sc x => Sc (f x) | Ar l => Ar (map f l) end.
Definition to_arr (v : sv) : res arr :=
  match v with SList l => bind (mapM to_R l) (fun xs => Ok (Ar xs)) | _ => bind (to_R v) (fun x => Ok (Sc x)) end.
Definition of_arr (a : arr) : sv := match a with Sc x => SNum x | Ar l => SList (map SNum l) end.
(** material.rho, or the array of the densities of an ST_Material; a plain list has no attribute rho *)
Definition density (m : matarg) : res (sv * arr) :=
  match m with
  | MStoch e => bind (st_list material_class e) (fun l => Ok (SList (map SMat l), Ar (map mrho l)))
  | MValue (SMat mt) => Ok (SMat mt, Sc (mrho mt))
  | MValue _ => Err AttributeError
  end.
(** np.full(size, v) for the attributes not declared random, :327-331: the arrays built are thrown away, but a list of a wrong length raises *)
Definition full_ok (rnd : list string) (size : nat) (kv : string * sv) : res unit :=
  if str_in (fst kv) rnd then Ok tt
  else match snd kv with
       | SList l => if (Nat.eqb (List.length l) size || Nat.eqb (List.length l) 1)%bool then Ok tt else Err ValueError
       | _ => Ok tt
       end.
Definition st_disk_geometry (n : sv) (material : matarg) (width i_d o_d tag : sv) (rnd : option (list string)) : res stoch :=
  bind (density material) (fun mr =>
  let attrs := [("n", n); ("material", fst mr); ("width", width); ("i_d", i_d); ("o_d", o_d); ("tag", tag)] in
  bind (first_random (mkStoch attrs rnd)) (fun p => bind (sv_len (snd p)) (fun size => bind (mapM (full_ok (fst p) size) attrs) (fun _ =>
  bind (to_arr width) (fun w => bind (to_arr i_d) (fun i => bind (to_arr o_d) (fun o =>
  let rho := snd mr in
  bind (arith Rmult (apply1 (fun r => 1 / 4 * r * PI) rho) w) (fun a =>
  bind (arith Rminus (apply1 (fun x => x ^ 2) o) (apply1 (fun x => x ^ 2) i)) (fun d2 =>
  bind (arith Rmult a d2) (fun m =>
  bind (arith Rminus (apply1 (fun x => x ^ 4) o) (apply1 (fun x => x ^ 4) i)) (fun d4 =>
  bind (arith Rmult (apply1 (fun r => 1 / 64 * r * PI) rho) w) (fun a' =>
  bind (arith Rmult a' d4) (fun Id1 =>
  bind (arith Rmult m (apply1 (fun x => x ^ 2) w)) (fun mw =>
  bind (arith Rplus Id1 (apply1 (fun x => x / 12) mw)) (fun Id =>
  bind (arith Rmult (apply1 (fun r => 1 / 32 * r * PI) rho) w) (fun a'' =>
  bind (arith Rmult a'' d4) (fun Ip =>
  Ok (st_disk n (of_arr m) (of_arr Id) (of_arr Ip) tag (SStr "Firebrick") (Some ["m"; "Id"; "Ip"]))))))))))))))))))).

(** ** ST_Rotor *)
(** an entry of an element list: a deterministic element, an ST_ element (given by list(iter(elm)), which is the only use made of it), or a
    plain list of elements, which is what ST_Rotor leaves in the caller's lists *)
Inductive rarg (A : Type) := RFixed (a : A) | RStoch (it : res (list A)) | RSamples (l : list A).
Arguments RFixed {A}. Arguments RStoch {A}. Arguments RSamples {A}.

Fixpoint its {A} (l : list (rarg A)) : list (res (list A)) :=
  match l with [] => [] | RStoch it :: l => it :: its l | _ :: l => its l end.
(** all(len(list(l)) == n for l in it): stops at the first difference *)
Fixpoint all_len {A} (n : nat) (l : list (res (list A))) : res bool :=
  match l with [] => Ok true | it :: l => bind it (fun x => if Nat.eqb (List.length x) n then all_len n l else Ok false) end.
(** st_rotor_assembly.py:116-126 and the three blocks after it *)
Definition class_size {A} (l : list (rarg A)) : res (option nat) :=
  match its l with
  | [] => Ok None
  | it :: rest => bind it (fun x => bind (all_len (List.length x) rest) (fun b => if b then Ok (Some (List.length x)) else Err ValueError))
  end.
(** :165-179: the caller's lists are changed in place *)
Definition expand {A} (l : list (rarg A)) : res (list (rarg A)) :=
  mapM (fun x => match x with RStoch it => bind it (fun l => Ok (RSamples l)) | x => Ok x end) l.
Record elem_args := mkEA { ea_sh : list (rarg rshaft); ea_dk : list (rarg rdisk); ea_br : list (rarg rbrg); ea_pm : list (rarg rpmass) }.
Record st_rotor := mkSR { sr_args : elem_args; sr_sh : bool; sr_dk : bool; sr_br : bool; sr_pm : bool; sr_size : nat; sr_first : rotor }.

(** _get_args, :301-309, for a class with random elements *)
Definition pick_class {A} (i : nat) (l : list (rarg A)) : res (list A) :=
  mapM (fun x => match x with RSamples l => (match nth_error l i with Some a => Ok a | None => Err IndexError end) | RFixed a => Ok a | RStoch _ => Err TypeError end) l.
(** a class without random elements is handed over as it is: Rotor flattens the shaft elements, a plain list among the others fails *)
Definition flat_class {A} (l : list (rarg A)) : res (list A) :=
  bind (mapM (fun x => match x with RFixed a => Ok [a] | RSamples l => Ok l | RStoch _ => Err AttributeError end) l) (fun ls => Ok (List.concat ls)).
Definition plain_class {A} (l : list (rarg A)) : res (list A) :=
  mapM (fun x => match x with RFixed a => Ok a | _ => Err AttributeError end) l.

(** the arguments of rotor i. The argument lists of all the rotors are built before the first rotor; the failing plain lists are noticed
    by Rotor itself. *)
Definition rotor_args := (list rshaft * list rdisk * list rbrg * list rpmass)%type.
Definition class_args {A} (random : bool) (asis : list (rarg A) -> res (list A)) (i : nat) (l : list (rarg A)) : res (list A) :=
  if random then pick_class i l else asis l.
Definition args_of (a : elem_args) (f : bool * bool * bool * bool) (i : nat) : res rotor_args :=
  let '(bs, bd, bb, bp) := f in
  bind (class_args bs flat_class i (ea_sh a)) (fun sh => bind (class_args bd plain_class i (ea_dk a)) (fun dk =>
  bind (class_args bb plain_class i (ea_br a)) (fun br => bind (class_args bp plain_class i (ea_pm a)) (fun pm => Ok (sh, dk, br, pm))))).
Definition make_rotor (x : rotor_args) : res rotor := let '(sh, dk, br, pm) := x in rotor_init sh dk br pm.

Definition is_some {A} (o : option A) : bool := match o with Some _ => true | None => false end.
Definition somes (l : list (option nat)) : list nat := flat_map (fun o => match o with Some n => [n] | None => [] end) l.
(** ST_Rotor.__init__ and _get_rotor_args, :91-200 and :277-305. The rotor returned keeps the expanded lists, which are also what the
    caller's own lists hold afterwards. The branch of _get_rotor_args that averages nodes_pos is never taken: no ST_ShaftElement is left
    in the lists, so ndof, nodes and nodes_pos are those of the first sample. *)
Definition st_rotor_init (a : elem_args) : res st_rotor :=
  bind (class_size (ea_sh a)) (fun s1 => bind (class_size (ea_dk a)) (fun s2 => bind (class_size (ea_br a)) (fun s3 => bind (class_size (ea_pm a)) (fun s4 =>
  match somes [s1; s2; s3; s4] with
  | [] => Err IndexError
  | n :: rest =>
    if forallb (Nat.eqb n) rest then
      bind (expand (ea_sh a)) (fun sh => bind (expand (ea_dk a)) (fun dk => bind (expand (ea_br a)) (fun br => bind (expand (ea_pm a)) (fun pm =>
      let e := mkEA sh dk br pm in
      bind (bind (args_of e (is_some s1, is_some s2, is_some s3, is_some s4) 0) make_rotor) (fun r =>
      Ok (mkSR e (is_some s1) (is_some s2) (is_some s3) (is_some s4) n r))))))
    else Err ValueError
  end)))).

(** var_size of _random_var, :367-377: the length of the first list in the first random class, or the number of elements of the class *)
Fixpoint first_list {A} (l : list (rarg A)) : option nat :=
  match l with [] => None | RSamples x :: _ => Some (List.length x) | _ :: l => first_list l end.
Definition size_of {A} (l : list (rarg A)) : nat := default (List.length l) (first_list l).
Definition iter_size (s : st_rotor) : res nat :=
  let a := sr_args s in
  if sr_sh s then Ok (size_of (ea_sh a)) else if sr_dk s then Ok (size_of (ea_dk a))
  else if sr_br s then Ok (size_of (ea_br a)) else if sr_pm s then Ok (size_of (ea_pm a)) else Err IndexError.
Definition all_args (s : st_rotor) : res (list rotor_args) :=
  bind (iter_size s) (fun n => mapM (args_of (sr_args s) (sr_sh s, sr_dk s, sr_br s, sr_pm s)) (seq 0 n)).
(** [f(rotor) for rotor in iter(st)]: a rotor is built when its turn comes *)
Definition for_rotors {B} (s : st_rotor) (f : rotor -> res B) : res (list B) :=
  bind (all_args s) (mapM (fun x => bind (make_rotor x) f)).
(** for rotor, y in zip(iter(st), ys): one more rotor is built when ys runs out first *)
Fixpoint zip_loop {Y B} (xs : list rotor_args) (ys : list Y) (f : rotor -> Y -> res B) : res (list B) :=
  match xs with
  | [] => Ok []
  | x :: xs => bind (make_rotor x) (fun r => match ys with [] => Ok [] | y :: ys => bind (f r y) (fun b => bind (zip_loop xs ys f) (fun bs => Ok (b :: bs))) end)
  end.
Definition for_rotors_zip {Y B} (s : st_rotor) (ys : list Y) (f : rotor -> Y -> res B) : res (list B) := bind (all_args s) (fun xs => zip_loop xs ys f).
(** the rows of a result array that were never written keep their zeros *)
Definition pad {B} (n : nat) (z : B) (l : list B) : list B := l ++ repeat z (n - List.length l).

(** ST_Rotor.run_freq_response, :489-576, without cluster_points: the entry (inp, out) for every rotor and speed *)
Definition st_freq_response (la : linalg) spl (s : st_rotor) (inp out : nat) (speeds : list R) (modes : option (list nat)) : res (list (list (C * C * C))) :=
  for_rotors s (fun r => bind (run_freq_response la spl r speeds modes) (fun fr =>
    if ((inp <? r_ndof r) && (out <? r_ndof r))%nat%bool
    then Ok (map (fun p => let '(H, V, A) := p in (H inp out, V inp out, A inp out)) fr) else Err IndexError)).

(** ST_Rotor.run_unbalance_response, :648-835, without cluster_points; magnitude and phase are a number, a list or a list of lists *)
Inductive uarg := U0 (x : R) | U1 (l : list R) | U2 (l : list (list R)).
Inductive nodearg := NInt (n : nat) | NList (l : list nat).
(** is the argument treated as random *)
Definition u_random (node : nodearg) (u : uarg) : res bool :=
  match node, u with
  | NInt _, U0 _ => Ok false
  | NInt _, _ => Ok true
  | NList _, U0 _ => Err TypeError
  | NList _, U1 [] | NList _, U2 [] => Err IndexError
  | NList _, U1 _ => Ok false
  | NList _, U2 _ => Ok true
  end.
Definition u_size (u : uarg) : res nat :=
  match u with U0 _ => Err TypeError | U1 l => Ok (List.length l) | U2 [] => Ok 0%nat | U2 (v :: _) => Ok (List.length v) end.
Definition u_get (u : uarg) (i : nat) : res uarg :=
  match u with
  | U0 _ => Err TypeError
  | U1 l => match nth_error l i with Some x => Ok (U0 x) | None => Err IndexError end
  | U2 l => match nth_error l i with Some x => Ok (U1 x) | None => Err IndexError end
  end.
(** Rotor.run_unbalance_response on such arguments: numbers for one node, lists for a list of nodes (the other mixtures fail; which
    exception they raise is not modelled) *)
Definition rotor_unbalance (la : linalg) spl (r : rotor) (node : nodearg) (m p : uarg) (freq : list R) (modes : option (list nat)) : res (list (cvec * cvec * cvec)) :=
  match node, m, p with
  | NInt n, U0 m, U0 p => run_unbalance_response la spl r [n] [m] [p] freq modes
  | NList ns, U1 m, U1 p => run_unbalance_response la spl r ns m p freq modes
  | _, _, _ => Err TypeError
  end.
Definition st_unbalance_response (la : linalg) spl (s : st_rotor) (node : nodearg) (mag phase : uarg) (freq : list R) (modes : option (list nat))
  : res (list (list (cvec * cvec * cvec))) :=
  bind (u_random node mag) (fun bm => bind (u_random node phase) (fun bp =>
  let zero := map (fun _ => ((fun _ => RtoC 0) : cvec, (fun _ => RtoC 0) : cvec, (fun _ => RtoC 0) : cvec)) freq in
  if bm || bp then
    bind (u_size (if bm then mag else phase)) (fun n =>
    bind (mapM (fun i => bind (if bm then u_get mag i else Ok mag) (fun m => bind (if bp then u_get phase i else Ok phase) (fun p => Ok (m, p)))) (seq 0 n)) (fun args =>
    bind (for_rotors_zip s args (fun r y => rotor_unbalance la spl r node (fst y) (snd y) freq modes)) (fun out => Ok (pad (sr_size s) zero out))))
  else for_rotors s (fun r => rotor_unbalance la spl r node mag phase freq None))).

(** ST_Rotor.run_time_response, :578-674; [tr] is Rotor.time_response, a force array is its shape and its entries. The result arrays
    start as zeros. *)
Record arr2 := mkA2 { a2_rows : nat; a2_cols : nat; a2 : nat -> nat -> R }.
Record arr3 := mkA3 { a3_d1 : nat; a3_d2 : nat; a3_d3 : nat; a3 : nat -> nat -> nat -> R }.
Inductive forcearg := F2 (f : arr2) | F3 (f : arr3).
(** iterating over an array of three dimensions: f[0], f[1], ... *)
Definition slices (f : arr3) : list arr2 := map (fun i => mkA2 (a3_d2 f) (a3_d3 f) (a3 f i)) (seq 0 (a3_d1 f)).
Definition st_time_response {IC T} (tr : rotor -> R -> arr2 -> list R -> IC -> res T) (zero : T) (s : st_rotor) (speed : R) (force : forcearg) (times : list R) (ic : IC)
  : res (list T) :=
  match force with
  | F2 f => for_rotors s (fun r => tr r speed f times ic)
  | F3 f => bind (for_rotors_zip s (slices f) (fun r F => tr r speed F times ic)) (fun out => Ok (pad (sr_size s) zero out))
  end.
