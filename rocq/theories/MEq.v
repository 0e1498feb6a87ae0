(** Comparison of elements and rotors with == (ross/shaft_element.py:308-338, ross/disk_element.py:72-114, ross/point_mass.py:74-98,
    ross/bearing_seal_element.py:377-439 and :1913-1978, ross/rotor_assembly.py:595-611) and the choice of elements in Rotor.K and Rotor.C
    (ross/rotor_assembly.py:1010 and :1084), which compares elements. *)
From Coq Require Import Reals String List Bool Arith.
From Verif Require Import PyBase PyDict MatBase MMaterial MShaft MDisk MBearing MRotor MDynamics MSave.
Import ListNotations.
Open Scope string_scope.
Open Scope list_scope.
Open Scope R_scope.

(** Two numpy arrays of lengths that do not fit: == raises ValueError since version 1.25, before it gave the boolean False. *)
Inductive numpy := Numpy_old | Numpy_new.

(** An element object with its dof_global_index (None until a rotor numbers it). Only the values of that dictionary are kept; the keys follow
    from the class, the node and the link. Simplification: attributes written by summary() are left out. *)
Definition placed := (obj * option (list nat))%type.

Definition req (a b : R) : bool := if Req_EM_T a b then true else false.
Fixpoint list_eqb {A} (f : A -> A -> bool) (l l' : list A) : bool :=
  match l, l' with [], [] => true | x :: l, y :: l' => f x y && list_eqb f l l' | _, _ => false end.
Definition opt_eqb {A} (f : A -> A -> bool) (o o' : option A) : bool :=
  match o, o' with None, None => true | Some x, Some y => f x y | _, _ => false end.
Definition dofs_eqb : option (list nat) -> option (list nat) -> bool := opt_eqb (list_eqb Nat.eqb).
(** numpy.allclose of two numbers *)
Definition closeb (a b : R) : bool := if Rle_dec (Rabs (a - b)) (/ 100000000 + / 100000 * Rabs b) then true else false.
(** Material.__eq__, ross/materials.py:85-112 *)
Definition material_eqb (a b : material) : bool :=
  closeb (mrho a) (mrho b) && closeb (mE a) (mE b) && closeb (mG_s a) (mG_s b) && closeb (mPoisson a) (mPoisson b).

(** ** ShaftElement.__eq__: the attribute dictionaries are compared, not the classes. Materials are compared with their own ==; the colour is
    an attribute of the element as well. *)
Definition shaft_reals (s : shaft) : list R :=
  [s_axial_force s; s_torque s; s_L s; s_idl s; s_odl s; s_idr s; s_odr s; s_alpha s; s_beta s; s_A_l s; s_A_r s; s_Ie_l s; s_Ie_r s; s_volume s;
   s_m s; s_a1 s; s_a2 s; s_b1 s; s_b2 s; s_gama s; s_delta s; s_A s; s_Ie s; s_beam_cg s; s_slenderness s; s_Im s; s_kappa s; s_phi s].
Definition shaft_dict_eq (a b : oshaft) : bool :=
  let s := os_s a in let t := os_s b in
  material_eqb (s_material s) (s_material t) && String.eqb (mcolor (s_material s)) (mcolor (s_material t)) &&
  Bool.eqb (s_shear_effects s) (s_shear_effects t) && Bool.eqb (s_rotary_inertia s) (s_rotary_inertia t) && Bool.eqb (s_gyroscopic s) (s_gyroscopic t) &&
  opt_eqb Nat.eqb (s_n s) (s_n t) && opt_eqb String.eqb (s_tag s) (s_tag t) && String.eqb (meth_str (os_meth a)) (meth_str (os_meth b)) &&
  list_eqb req (shaft_reals s) (shaft_reals t).

(** ** DiskElement.__eq__: numbers by numpy.allclose(self, other), the rest with ==; n_l and n_r are n *)
Definition disk_dict_eq (a b : odisk) : bool :=
  let d := od_d a in let e := od_d b in
  closeb (INR (d_n d)) (INR (d_n e)) && closeb (d_m d) (d_m e) && closeb (d_Id d) (d_Id e) && closeb (d_Ip d) (d_Ip e) &&
  opt_eqb String.eqb (d_tag d) (d_tag e) && String.eqb (od_color a) (od_color b) && closeb (od_scale a) (od_scale b).

(** ** PointMass.__eq__: the dictionaries are compared; PointMass has m, PointMass6DoF has mz *)
Definition pm_dict_eq (a b : opm) : bool :=
  let p := op_p a in let q := op_p b in
  Bool.eqb (op_six a) (op_six b) && Nat.eqb (p_n p) (p_n q) && req (p_mx p) (p_mx q) && req (p_my p) (p_my q) &&
  (if op_six a then req (p_mz p) (p_mz q) else opt_eqb req (op_m a) (op_m b)) &&
  opt_eqb String.eqb (p_tag p) (p_tag q) && String.eqb (op_color a) (op_color b).

(** ** BearingElement.__eq__, BearingElement6DoF.__eq__ *)

(** a == b of two arrays, then .all(); None when the lengths do not fit (an array of one entry fits any other) *)
Definition broadcast_eq (l l' : list R) : option bool :=
  if Nat.eqb (length l) (length l') then Some (list_eqb req l l')
  else match l, l' with [x], _ => Some (forallb (req x) l') | _, [y] => Some (forallb (fun x => req x y) l) | _, _ => None end.
(** frequency (ross/bearing_seal_element.py:143) and speed are arrays; tables of coefficients are taken to be lists *)
Definition is_array (k : string) : bool := String.eqb k "frequency" || String.eqb k "speed".
(** getattr(self, arg) == getattr(other, arg), then all(...) when that works, lines 418-424 *)
Definition arg_eq (np : numpy) (k : string) (v w : tval) : res bool :=
  match v, w with
  | TNone, TNone => Ok true
  | TNum x, TNum y => Ok (req x y)
  | TInt n, TInt m => Ok (Nat.eqb n m)
  | TStr s, TStr t => Ok (String.eqb s t)
  | TBool b, TBool c => Ok (Bool.eqb b c)
  | TList l, TList l' =>
      if is_array k then match broadcast_eq l l', np with Some b, _ => Ok b | None, Numpy_old => Ok false | None, Numpy_new => Err ValueError end
      else Ok (list_eqb req l l')
  | TNone, TList l | TList l, TNone => Ok (is_array k && match l with [] => true | _ => false end)%bool
  | _, _ => Ok false
  end.
(** every argument is compared, lines 412-426; an absent attribute raises AttributeError *)
Fixpoint args_eq (np : numpy) (a b : dict tval) (args : list string) : res bool :=
  match args with
  | [] => Ok true
  | k :: args =>
      match dget a k, dget b k with
      | Some v, Some w => bind (arg_eq np k v w) (fun c => bind (args_eq np a b args) (fun cs => Ok (c && cs)%bool))
      | _, _ => Err AttributeError
      end
  end.
(** (np.array(getattr(self, attr)) == np.array(getattr(other, attr))).all(), lines 427-434: the boolean False has no method all *)
Definition attr_eq (np : numpy) (v w : tval) : res bool :=
  match v, w with
  | TList l, TList l' => match broadcast_eq l l', np with Some b, _ => Ok b | None, Numpy_old => Err AttributeError | None, Numpy_new => Err ValueError end
  | TNone, TNone => Ok true
  | TNone, TList l | TList l, TNone => Ok match l with [] => true | _ => false end
  | _, _ => Ok false
  end.
(** all(...) stops at the first difference *)
Fixpoint attrs_eq (np : numpy) (a b : dict tval) (attrs : list string) : res bool :=
  match attrs with
  | [] => Ok true
  | k :: attrs =>
      match dget a k, dget b k with
      | Some v, Some w => bind (attr_eq np v w) (fun c => if c then attrs_eq np a b attrs else Ok false)
      | _, _ => Err AttributeError
      end
  end.
Definition compared_attributes (c : bclass) : list string :=
  match c with
  | B6DoF => ["kxx"; "kyy"; "kxy"; "kyx"; "kzz"; "cxx"; "cyy"; "cxy"; "cyx"; "czz"; "mxx"; "myy"; "mxy"; "myx"; "mzz"; "frequency"]
  | _ => ["kxx"; "kyy"; "kxy"; "kyx"; "cxx"; "cyy"; "cxy"; "cyx"; "mxx"; "myy"; "mxy"; "myx"; "frequency"]
  end.
Definition bclass_eqb (c c' : bclass) : bool :=
  match c, c' with
  | BBearing, BBearing | BSeal, BSeal | BBall, BBall | BRoller, BRoller | BFluid, BFluid | BMagnetic, BMagnetic | BCylindrical, BCylindrical | B6DoF, B6DoF => true
  | _, _ => false
  end.
(** isinstance(other, self.__class__): every bearing class is BearingElement or a subclass of it *)
Definition is_instance (c c' : bclass) : bool := bclass_eqb c' BBearing || bclass_eqb c c'.
Definition brg_eq (np : numpy) (a b : obrg) : res bool :=
  if is_instance (brg_class b) (brg_class a) then
    let x := brg_attrs a in let y := brg_attrs b in
    bind (args_eq np x y (filter (fun p => negb (String.eqb p "kwargs")) (bclass_params (brg_class a)))) (fun c =>
    bind (attrs_eq np x y (compared_attributes (brg_class a))) (fun cs => Ok (c && cs)%bool))
  else Ok false.

(** ** a == b *)

(** a.__eq__(b). Dictionaries of elements of different kinds have different keys. *)
Definition self_eq (np : numpy) (a b : placed) : res bool :=
  match fst a, fst b with
  | IShaft s, IShaft t => Ok (shaft_dict_eq s t && dofs_eqb (snd a) (snd b))%bool
  | IDisk d, IDisk e => Ok (disk_dict_eq d e && dofs_eqb (snd a) (snd b))%bool
  | IPm p, IPm q => Ok (pm_dict_eq p q && dofs_eqb (snd a) (snd b))%bool
  | IBrg p, IBrg q => brg_eq np p q
  | _, _ => Ok false
  end.
(** Python asks the right operand first when its class is a proper subclass of the class of the left operand. *)
Definition proper_subclass (c c' : eclass) : bool :=
  match c, c' with
  | CShaft6, CShaft | CDisk6, CDisk | CPm6, CPm => true
  | CB c, CB BBearing => negb (bclass_eqb c BBearing)
  | _, _ => false
  end.
Definition py_eq (np : numpy) (a b : placed) : res bool :=
  if proper_subclass (obj_class (fst b)) (obj_class (fst a)) then self_eq np b a else self_eq np a b.

(** ** Rotors *)

(** rotor.elements with their dof numbers, ross/rotor_assembly.py:381-440 *)
Definition ro_placed (r : robj) : list placed := combine (ro_elements r) (map (fun e => Some (r_dofs (ro_val r) e)) (r_elements (ro_val r))).
(** list == list for different objects: lengths first, then the entries until the first difference *)
Fixpoint lists_eq (np : numpy) (l l' : list placed) : res bool :=
  match l, l' with
  | [], [] => Ok true
  | x :: l, y :: l' => bind (py_eq np x y) (fun b => if b then lists_eq np l l' else Ok false)
  | _, _ => Ok false
  end.
(** Rotor.__eq__, ross/rotor_assembly.py:595-611, for two rotors without common element objects; parameters are min_w, max_w and rated_w *)
Definition rotor_eq (np : numpy) (r r' : robj) : res bool :=
  bind (if Nat.eqb (length (ro_placed r)) (length (ro_placed r')) then lists_eq np (ro_placed r) (ro_placed r') else Ok false) (fun b =>
  Ok (b && opt_eqb req (ro_min r) (ro_min r') && opt_eqb req (ro_max r) (ro_max r') && opt_eqb req (ro_rated r) (ro_rated r'))%bool).

(** ** Rotor.K and Rotor.C *)

(** self.elements.index(x) for the object x at position i of the list: the entries before it are compared with x *)
Fixpoint index_from (np : numpy) (j : nat) (l : list placed) (i : nat) (x : placed) : res nat :=
  match l with
  | [] => Err ValueError
  | y :: l => if Nat.eqb j i then Ok j else bind (py_eq np y x) (fun b => if b then Ok j else index_from np (S j) l i x)
  end.
Definition index_of (np : numpy) (l : list placed) (i : nat) : res nat :=
  match nth_error l i with Some x => index_from np 0 l i x | None => Err IndexError end.
(** sorted(set(self.elements) - set(ignore), key=self.elements.index): [order] lists the positions of the elements in the order of the set.
    Elements are hashed by tag; two tags with one hash are left out of consideration. *)
Definition sorted_elements (np : numpy) (l : list placed) (order : list nat) : res (list nat) :=
  bind (mapM (fun i => bind (index_of np l i) (fun k => Ok (k, i))) order) (fun keys => Ok (map snd (sort_by fst keys))).
(** the positions of the elements that are left when those with a tag in [ignore] are taken away *)
Definition remaining (r : robj) (ignore : list string) : list nat :=
  filter (fun i => match nth_error (r_elements (ro_val r)) i with Some e => negb (existsb (String.eqb (el_tag e)) ignore) | None => false end)
    (seq 0 (length (r_elements (ro_val r)))).
Definition assemble_sorted (np : numpy) (f : elem -> res (nat * mat)) (r : robj) (order : list nat) : res mat :=
  bind (sorted_elements np (ro_placed r) order) (fun l =>
  assemble (r_ndof (ro_val r)) (r_dofs (ro_val r)) f (flat_map (fun i => match nth_error (r_elements (ro_val r)) i with Some e => [e] | None => [] end) l) mzero).
(** Rotor.K(frequency, ignore), lines 984-1019; Rotor.C, lines 1058-1093 *)
Definition robj_K (np : numpy) spl (r : robj) (order : list nat) (frequency : R) : res mat := assemble_sorted np (el_K spl frequency) r order.
Definition robj_C (np : numpy) spl (r : robj) (order : list nat) (frequency : R) : res mat := assemble_sorted np (el_C spl frequency) r order.
