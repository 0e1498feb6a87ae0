(** Model of ross/units.py: the unit table and the [check_units] decorator. *)
From Coq Require Import Reals List String Ascii Bool ZArith.
From Verif Require Import PyBase.
Import ListNotations.
Open Scope string_scope.

(** The dictionary [units], ross/units.py:28-93 (the loop at :90-93 unrolled). *)
Definition units_table : list (string * string) := [
  ("E", "N/m**2");
  ("G_s", "N/m**2");
  ("rho", "kg/m**3");
  ("density", "kg/m**3");
  ("L", "meter");
  ("idl", "meter");
  ("idr", "meter");
  ("odl", "meter");
  ("odr", "meter");
  ("id", "meter");
  ("od", "meter");
  ("i_d", "meter");
  ("o_d", "meter");
  ("speed", "radian/second");
  ("frequency", "radian/second");
  ("m", "kg");
  ("mx", "kg");
  ("my", "kg");
  ("Ip", "kg*m**2");
  ("Id", "kg*m**2");
  ("width", "meter");
  ("depth", "meter");
  ("thickness", "meter");
  ("pitch", "meter");
  ("height", "meter");
  ("radius", "meter");
  ("diameter", "meter");
  ("clearance", "meter");
  ("length", "meter");
  ("area", "meter**2");
  ("unbalance_magnitude", "kg*m");
  ("unbalance_phase", "rad");
  ("pressure", "pascal");
  ("pressure_ratio", "dimensionless");
  ("p", "pascal");
  ("temperature", "degK");
  ("T", "degK");
  ("velocity", "m/s");
  ("angle", "rad");
  ("arc", "rad");
  ("convection", "W/(m²*degK)");
  ("conductivity", "W/(m*degK)");
  ("expansion", "1/degK");
  ("stiffness", "N/m");
  ("weight", "N");
  ("load", "N");
  ("force", "N");
  ("torque", "N*m");
  ("flow_v", "meter**3/second");
  ("flow_m", "kilogram/second");
  ("fit", "m");
  ("viscosity", "pascal*s");
  ("h", "joule/kilogram");
  ("s", "joule/(kelvin kilogram)");
  ("b", "meter");
  ("D", "meter");
  ("d", "meter");
  ("roughness", "meter");
  ("head", "joule/kilogram");
  ("eff", "dimensionless");
  ("power", "watt");
  ("kxx", "N/m");
  ("kxy", "N/m");
  ("kxz", "N/m");
  ("kyx", "N/m");
  ("kyy", "N/m");
  ("kyz", "N/m");
  ("kzx", "N/m");
  ("kzy", "N/m");
  ("kzz", "N/m");
  ("cxx", "N*s/m");
  ("cxy", "N*s/m");
  ("cxz", "N*s/m");
  ("cyx", "N*s/m");
  ("cyy", "N*s/m");
  ("cyz", "N*s/m");
  ("czx", "N*s/m");
  ("czy", "N*s/m");
  ("czz", "N*s/m");
  ("mxx", "kg");
  ("mxy", "kg");
  ("mxz", "kg");
  ("myx", "kg");
  ("myy", "kg");
  ("myz", "kg");
  ("mzx", "kg");
  ("mzy", "kg");
  ("mzz", "kg")].

Definition in_units (n : string) : bool := existsb (fun kv => String.eqb (fst kv) n) units_table.
Fixpoint lookup (t : list (string * string)) (n : string) : option string :=
  match t with [] => None | (k, v) :: t => if String.eqb k n then Some v else lookup t n end.

(** [s.split("_")] *)
Fixpoint split_us (s : string) : list string :=
  match s with
  | EmptyString => [EmptyString]
  | String c r =>
      if Ascii.eqb c "_"%char then EmptyString :: split_us r
      else match split_us r with h :: t => String c h :: t | [] => [String c EmptyString] end
  end.

(** [sub in s] for strings *)
Fixpoint contains (sub s : string) : bool :=
  prefix sub s || match s with EmptyString => false | String _ r => contains sub r end.

Definition str_in (n : string) (l : list string) : bool := existsb (String.eqb n) l.

(** A pint unit: its dimension (exponents) and the affine map to the base unit. Pint's registry
    (which unit a string denotes) is not modelled: it is the parameter [reg] below. *)
Record punit := mkUnit { u_dim : list Z; u_scale : R; u_off : R }.

(** Argument values. [VOther] stands for any object without a [to] method (arrays, materials, ...),
    for which [Q_(v, unit).m] gives back the same object. *)
Inductive pyval :=
| VNone | VNum (x : R) | VBool (b : bool) | VStr (s : string)
| VQty (m : R) (u : punit) | VOther (id : nat).

(** [quantity.to(unit).m]; pint raises DimensionalityError, a subclass of TypeError. *)
Definition qty_to (m : R) (u target : punit) : res R :=
  if list_eq_dec Z.eq_dec (u_dim u) (u_dim target)
  then Ok ((m * u_scale u + u_off u - u_off target) / u_scale target)%R
  else Err TypeError.

(** The list of candidate names, ross/units.py:135-149 (arguments) and :169-182 (keywords). *)
Definition candidates (name : string) : list string :=
  let names := split_us name in
  let names := if contains "flow_v" name then "flow_v" :: names else names in
  let names := if contains "flow_m" name then "flow_m" :: names else names in
  if str_in name names then names else name :: names.

(** The loop over candidate names, ross/units.py:150-165 and :183-196. *)
Fixpoint conv_loop (reg : string -> punit) (names : list string) (v : pyval) : res pyval :=
  match names with
  | [] => Ok v
  | n :: rest =>
      match lookup units_table n, v with
      | Some u, VNone => conv_loop reg rest v
      | Some u, VQty m q => bind (qty_to m q (reg u)) (fun x => Ok (VNum x))
      | Some u, _ => Ok v
      | None, _ => conv_loop reg rest v
      end
  end.

(** What happens to one argument, ross/units.py:134-165. *)
Definition convert (reg : string -> punit) (name : string) (v : pyval) : res pyval :=
  if str_in "units" (split_us name) then Ok v else conv_loop reg (candidates name) v.

(** The positional loop, ross/units.py:131-165: [zip] stops at the shorter list. *)
Fixpoint conv_args (reg : string -> punit) (names : list string) (args : list pyval) : res (list pyval) :=
  match names, args with
  | n :: names, v :: args =>
      bind (convert reg n v) (fun v' => bind (conv_args reg names args) (fun r => Ok (v' :: r)))
  | _, _ => Ok []
  end.

(** The keyword loop, ross/units.py:167-196. *)
Fixpoint conv_kwargs (reg : string -> punit) (kw : list (string * pyval)) : res (list (string * pyval)) :=
  match kw with
  | [] => Ok []
  | (k, v) :: kw => bind (convert reg k v) (fun v' => bind (conv_kwargs reg kw) (fun r => Ok ((k, v') :: r)))
  end.

(** The decorated call, ross/units.py:127-198. *)
Definition checked {A} (reg : string -> punit) (argnames : list string)
    (f : list pyval -> list (string * pyval) -> res A) (args : list pyval) (kw : list (string * pyval)) : res A :=
  bind (conv_args reg argnames args) (fun a => bind (conv_kwargs reg kw) (fun k => f a k)).

(** float(v): pint refuses a quantity with a dimension (DimensionalityError, a TypeError). *)
Definition py_float (v : option pyval) : res R :=
  match v with
  | Some (VNum x) => Ok x
  | Some (VBool b) => Ok (if b then 1%R else 0%R)
  | Some (VQty m u) => if list_eq_dec Z.eq_dec (u_dim u) [] then Ok (m * u_scale u)%R else Err TypeError
  | _ => Err TypeError
  end.
Fixpoint kwget (kw : list (string * pyval)) (n : string) : option pyval :=
  match kw with [] => None | (k, v) :: kw => if String.eqb k n then Some v else kwget kw n end.
(** an argument left out or given as None *)
Definition not_none (v : option pyval) : option pyval := match v with Some VNone => None | v => v end.

(** Body of PointMass6DoF.__init__ called with keywords, ross/point_mass.py:369-385; the result is
    the triple of directional masses. *)
Definition pm6_body (kw : list (string * pyval)) : res (R * R * R) :=
  let m := kwget kw "m" in
  let '(mx, my, mz) := match not_none (kwget kw "mx"), not_none (kwget kw "my") with
                       | None, None => (m, m, m) | _, _ => (kwget kw "mx", kwget kw "my", kwget kw "mz") end in
  bind (py_float mx) (fun x => bind (py_float my) (fun y => bind (py_float mz) (fun z => Ok (x, y, z)))).
(** The decorated constructor, ross/point_mass.py:368-385. *)
Definition pm6_call (reg : string -> punit) (kw : list (string * pyval)) : res (R * R * R) :=
  checked reg ["self"; "n"; "m"; "mx"; "my"; "mz"; "tag"; "color"] (fun _ k => pm6_body k) [] kw.
