(** Model of Rotor.run_static, ross/rotor_assembly.py:3099-3297: deflection under gravity, reactions, shearing force and bending moment. *)
From Coq Require Import Reals String List Bool Arith.
From Verif Require Import PyBase PyDict MatBase MMaterial MShaft MDisk MBearing MRotor MDynamics MResults MSection.
Import ListNotations.
Open Scope list_scope.
Open Scope R_scope.

(** The shaft element objects of a rotor: node and tag have been filled in (:174-178). *)
Definition place_shaft (n : nat) (t : string) (s : shaft) : shaft :=
  mkShaft (s_material s) (Some n) (Some t) (s_axial_force s) (s_torque s) (s_shear_effects s) (s_rotary_inertia s) (s_gyroscopic s)
    (s_L s) (s_idl s) (s_odl s) (s_idr s) (s_odr s) (s_alpha s) (s_beta s) (s_A_l s) (s_A_r s) (s_Ie_l s) (s_Ie_r s) (s_volume s) (s_m s)
    (s_a1 s) (s_a2 s) (s_b1 s) (s_b2 s) (s_gama s) (s_delta s) (s_A s) (s_Ie s) (s_beam_cg s) (s_slenderness s) (s_Im s) (s_kappa s) (s_phi s).
Definition el_rshaft (e : elem) : list rshaft := match e with EShaft six n t s => [mkRShaft six (place_shaft n t s)] | _ => [] end.

(** elm.__class__(n=n, kxx=k, cxx=0[, n_link=m]), :3171-3181. Simplification: the class is BearingElement or BearingElement6DoF;
    the other bearing classes have constructors without these arguments and raise TypeError here. *)
Definition aux_args (n : nat) (k : R) (link : option nat) : bargs :=
  mkBArgs n (CScal k) (CScal 0) None None (CScal 0) (CScal 0) None (CScal 0) (CScal 0) None (CScal 0) (CScal 0) None None link 1 "#355d7a".
Definition aux_bearing (six : bool) (n : nat) (k : R) (link : option nat) : res rbrg :=
  if six then bind (bearing6_init (aux_args n k link) (CScal 0) (CScal 0) (CScal 0)) (fun b => Ok (RB6 b))
  else bind (bearing_init (aux_args n k link)) (fun b => Ok (RB4 false b)).
(** the loop over the bearings, :3168-3181; [count] is len(self.nodes), so [n in self.nodes] is n < count *)
Definition is_seal (e : elem) : bool := match e with EBrg _ (RB4 true _) => true | _ => false end.
Definition el_six (e : elem) : bool := match e with EBrg _ (RB6 _) => true | _ => false end.
Definition aux_of (count : nat) (k : R) (e : elem) : list (res rbrg) :=
  if is_seal e then [] else
  if negb (el_n e <? count)%nat then [] else
  match el_link e with
  | Some m => if (m <? count)%nat then [aux_bearing (el_six e) (el_n e) k (Some m)] else [aux_bearing (el_six e) (el_n e) k None]
  | None => [aux_bearing (el_six e) (el_n e) k None]
  end.
Definition aux_rotor (r : rotor) (k : R) : res rotor :=
  bind (collect (flat_map (aux_of (length (r_nodes_pos r)) k) (r_brg r))) (fun brgs =>
  rotor_init (flat_map el_rshaft (r_shaft r)) (flat_map el_disk (r_disk r)) brgs []).

(** [remove_dofs] when the rotor has six dofs per node (:3191-3194): size and matrix *)
Definition lateral (six : bool) (r : rotor) (A : res mat) : res (nat * mat) :=
  if six then converted r A else bind A (fun m => Ok (r_ndof r, m)).

Definition grav : R := - (98065 / 10000).
(** gravity[1::4] = g *)
Definition gravity : vec := fun i => if Nat.eqb (i mod 4) 1 then grav else 0.

(** d[f"node_{n}"] = v; the key is kept as the node number *)
Fixpoint nset (d : list (nat * R)) (n : nat) (v : R) : list (nat * R) :=
  match d with [] => [(n, v)] | (m, w) :: d' => if Nat.eqb n m then (n, v) :: d' else (m, w) :: nset d' n v end.

(** ** Diagrams. Rows are functions of the row number j < N = len(nodes_pos) - 1; a row is a pair. *)
Definition at_node (sh : list elem) (j : nat) : list elem := filter (fun e => Nat.eqb (el_n e) j) sh.
(** elm_weight[j, 1] after the loop and :3233 *)
Definition elm_weight (sh : list elem) (N j : nat) : R :=
  if Nat.eqb (S j) N then 0 else suml (map (fun e => grav * sh_m e) (at_node sh j)).
(** nodal_shaft_weight, :3229-3230 *)
Definition nodal_shaft_weight (sh : list elem) (k : nat) : R :=
  suml (map (fun e => (if Nat.eqb (S (el_n e)) k then grav * sh_m e * sh_cg e / sh_L e else 0)
                      + (if Nat.eqb (el_n e) k then grav * sh_m e * (1 - sh_cg e / sh_L e) else 0)) sh).
(** vx_axis[j], :3222-3226 *)
Definition axis_row (sh : list elem) (pos : list R) (j : nat) : R * R :=
  match at_node sh j with [] => (0, 0) | _ => (nth j pos 0, nth (S j) pos 0) end.
(** elm_forces_y[j], :3248-3252 *)
Definition elm_forces (sh : list elem) (N : nat) (f : nat -> R) (j : nat) : R * R :=
  (f j, (if Nat.eqb (S j) N then - f N else 0) + elm_weight sh N j).
(** vx before the change of sign, :3256-3265 *)
Fixpoint vx_loop (F : nat -> R * R) (N j : nat) : R * R :=
  match j with
  | O => (fst (F 0%nat), fst (F 0%nat) + snd (F 0%nat))
  | S i => let l := snd (vx_loop F N i) + fst (F j) in
           (l, if Nat.eqb (S j) N then snd (F j) else l + snd (F j))
  end.
Definition vx_row (F : nat -> R * R) (N j : nat) : R * R := let p := vx_loop F N j in (- fst p, - snd p).
(** mx, :3270-3278 *)
Definition area (v ax : nat -> R * R) (j : nat) : R := 1 / 2 * (fst (v j) + snd (v j)) * (snd (ax j) - fst (ax j)).
Fixpoint mx_row (v ax : nat -> R * R) (N j : nat) : R * R :=
  if Nat.eqb (S j) N then (- area v ax j, 0) else
  let l := match j with O => 0 | S i => snd (mx_row v ax N i) end in (l, l + area v ax j).

Record static := mkStatic {
  st_displacement_y : list R; st_Vx : list (R * R); st_Bm : list (R * R); st_axis : list (R * R); st_w_shaft : R;
  st_disk_nodal : list (nat * R); st_brg_nodal : list (nat * R); st_disk_tag : dict R; st_brg_tag : dict R }.

(** Rotor.run_static. The arrays Vx, Bm and the axis are kept as lists of rows (the code flattens them). A bearing node beyond the
    shaft never reaches the dictionaries, because those bearings are skipped. *)
Definition run_static (la : linalg) spl (r : rotor) : res static :=
  if forallb is_seal (r_brg r) then Err ValueError else
  bind (aux_rotor r (10 ^ 20)) (fun ra =>
  bind (aux_rotor r 0) (fun rb =>
  let six := Nat.eqb (r_nd r) 6 in
  bind (lateral six ra (rotor_M spl ra (Some 0))) (fun nM =>
  bind (lateral six ra (rotor_K spl ra 0 [])) (fun nK =>
  bind (lateral six rb (rotor_K spl rb 0 [])) (fun nK1 =>
  let n := fst nM in
  let weight := mulv n (snd nM) gravity in
  bind (la_solve la n (snd nK) (fun i _ => weight i)) (fun X =>
  let u : vec := fun i => X i 0%nat in
  let nodal := mulv n (snd nK1) u in
  let pos := r_nodes_pos r in
  let N := (length pos - 1)%nat in
  let sh := r_shaft r in
  if negb (forallb (fun e => el_n e <? N)%nat sh) then Err IndexError else
  let reaction k := nodal (4 * k + 1)%nat - weight (4 * k + 1)%nat in
  let f k := nodal (4 * k + 1)%nat - nodal_shaft_weight sh k in
  let v := vx_row (elm_forces sh N f) N in
  let ax := axis_row sh pos in
  Ok (mkStatic (map (fun k => u (4 * k + 1)%nat) (seq 0 (n / 4))) (map v (seq 0 N)) (map (mx_row v ax N) (seq 0 N)) (map ax (seq 0 N))
        (suml (map sh_m sh) * (- grav))
        (fold_left (fun d e => nset d (el_n e) (- dk_m e * grav)) (r_disk ra) [])
        (fold_left (fun d e => nset d (el_n e) (reaction (el_n e))) (r_brg ra) [])
        (fold_left (fun d e => dset d (el_tag e) (- dk_m e * grav)) (r_disk ra) [])
        (fold_left (fun d e => dset d (el_tag e) (reaction (el_n e))) (r_brg ra) [])))))))).
