(** Model of the objects handed to Rotor(...), ross/rotor_assembly.py:160-202 and :381-440: shaft elements are copied, disks, bearings and
    point masses are not. The constructor writes default tags and global dof numbers into the caller's objects; the matrices of a rotor are
    assembled from these objects when they are asked for (lines 924-1118). *)
From Coq Require Import Reals String List Bool Arith.
From Verif Require Import PyBase MatBase MMaterial MShaft MDisk MBearing MRotor.
Import ListNotations.
Open Scope list_scope.
Open Scope R_scope.

(** An object that exists before the call is a number (its identity); there is one store per kind. A disk, bearing or point mass has its
    attributes and, once a rotor has numbered it, [dof_global_index] (only the values, in dictionary order). Simplification: [n_l], [n_r] of
    a bearing (always [n]) and the attribute "type" written by summary() are left out. *)
Definition ref := nat.
Definition dofs := option (list nat).
Record heap := mkHeap { h_sh : ref -> rshaft; h_dk : ref -> rdisk * dofs; h_br : ref -> rbrg * dofs; h_pm : ref -> rpmass * dofs }.
Definition upd {A} (st : ref -> A) (x : ref) (v : A) : ref -> A := fun y => if Nat.eqb y x then v else st y.

(** elm.tag = t *)
Definition set_dtag (t : string) (r : rdisk) : rdisk :=
  mkRDisk (rd_six r) (let d := rd_d r in mkDisk (d_n d) (d_m d) (d_Id d) (d_Ip d) (Some t)).
Definition set_base (t : string) (b : bearing) : bearing :=
  mkBearing (b_n b) (b_n_link b) (Some t) (b_color b) (b_scale_factor b) (b_frequency b) (b_coef b).
Definition set_btag (t : string) (r : rbrg) : rbrg :=
  match r with
  | RB4 s b => RB4 s (set_base t b)
  | RB6 b => RB6 (mkBearing6 (set_base t (b6 b)) (b6_kzz b) (b6_czz b) (b6_mzz b))
  end.
Definition set_ptag (t : string) (r : rpmass) : rpmass :=
  mkRPmass (rp_six r) (let p := rp_p r in mkPMass (p_n p) (p_mx p) (p_my p) (p_mz p) (Some t)).

(** A kind of object: reading and writing the tag, the prefix of its default tag, the object as an element of [rotor.elements]. *)
Record kind (A : Type) := mkKind { k_tag : A -> option string; k_set : string -> A -> A; k_prefix : A -> string; k_elem : nat -> A -> elem }.
Arguments k_tag {A}. Arguments k_set {A}. Arguments k_prefix {A}. Arguments k_elem {A}.
Definition disks_kind : kind rdisk := mkKind _ (fun r => d_tag (rd_d r)) set_dtag (fun _ => "Disk "%string) mk_disk.
Definition brgs_kind : kind rbrg :=
  mkKind _ (fun r => b_tag (brg_base r)) set_btag (fun r => match r with RB4 true _ => "Seal " | _ => "Bearing " end)%string mk_brg.
Definition pms_kind : kind rpmass := mkKind _ (fun r => p_tag (rp_p r)) set_ptag (fun _ => "Point Mass "%string) mk_pm.

(** for i, el in enumerate(elements): if el.tag is None: el.tag = prefix + str(i)   (lines 181-200) *)
Fixpoint tag_from {A} (k : kind A) (i : nat) (l : list ref) (st : ref -> A * dofs) : ref -> A * dofs :=
  match l with
  | [] => st
  | x :: l =>
      let v := fst (st x) in
      tag_from k (S i) l (match k_tag k v with
                          | None => upd st x (k_set k (k_prefix k v ++ str i) v, snd (st x))
                          | Some _ => st
                          end)
  end.
(** elm.dof_global_index = global_dof_mapping   (line 437) *)
Definition number_all {A} (k : kind A) (nd n_last : nat) (l : list ref) (st : ref -> A * dofs) : ref -> A * dofs :=
  fold_left (fun st x => upd st x (fst (st x), Some (el_dofs nd n_last (k_elem k 0 (fst (st x)))))) l st.

(** sorted(bearing_elements, key=lambda el: el.n)   (line 205) *)
Fixpoint insert_ref (h : ref -> rbrg * dofs) (x : ref) (l : list ref) : list ref :=
  match l with
  | [] => [x]
  | y :: l' => if (b_n (brg_base (fst (h x))) <=? b_n (brg_base (fst (h y))))%nat then x :: l else y :: insert_ref h x l'
  end.
Definition sort_refs (h : ref -> rbrg * dofs) (l : list ref) : list ref := fold_right (insert_ref h) [] l.

(** One call Rotor(shaft_elements, disk_elements, bearing_elements, point_mass_elements) with references to existing objects. *)
Record call := mkCall { c_sh : list ref; c_dk : list ref; c_br : list ref; c_pm : list ref }.
Definition vals {A} (st : ref -> A * dofs) (l : list ref) : list A := map (fun x => fst (st x)) l.

(** The constructor gets as far as line 381 (numbering): the checks before it, as in [rotor_init]. *)
Definition reached (shafts : list rshaft) (disks : list rdisk) (brgs : list rbrg) (pms : list rpmass) : option (nat * nat) :=
  let sh := sort_n (mapi mk_shaft 0 shafts) in
  let dk := mapi mk_disk 0 disks in
  let br := sort_n (mapi mk_brg 0 brgs) in
  let pm := mapi mk_pm 0 pms in
  if negb (tags_unique (map el_tag (sh ++ dk ++ br ++ pm))) then None else
  match check_number_dof sh dk br with
  | Err _ => None
  | Ok nd =>
      if negb (location_ok sh dk br pm) then None else
      match disk_positions (nodes_pos sh) dk with
      | Err _ => None
      | Ok _ => Some (nd, match rev sh with e :: _ => el_n e | [] => 0%nat end)
      end
  end.

(** The rotor object: its own copies of the shaft elements with their dof numbers, references to the other elements, and the attributes
    computed once ([hr_val]; its element lists are those seen by the constructor). *)
Record hrotor := mkHRotor { hr_val : rotor; hr_dk : list ref; hr_br : list ref; hr_pm : list ref }.

(** Rotor.__init__: the objects after the call, also when it raises, and the outcome. *)
Definition build (h : heap) (c : call) : heap * res hrotor :=
  let dk := tag_from disks_kind 0 (c_dk c) (h_dk h) in
  let br := tag_from brgs_kind 0 (c_br c) (h_br h) in
  let pm := tag_from pms_kind 0 (c_pm c) (h_pm h) in
  let shafts := map (h_sh h) (c_sh c) in
  let h1 := mkHeap (h_sh h) dk br pm in
  let h2 := match reached shafts (vals dk (c_dk c)) (vals br (c_br c)) (vals pm (c_pm c)) with
            | None => h1
            | Some (nd, n_last) =>
                mkHeap (h_sh h) (number_all disks_kind nd n_last (c_dk c) dk) (number_all brgs_kind nd n_last (c_br c) br)
                  (number_all pms_kind nd n_last (c_pm c) pm)
            end in
  (h2, match rotor_init shafts (vals dk (c_dk c)) (vals br (c_br c)) (vals pm (c_pm c)) with
       | Err e => Err e
       | Ok r => Ok (mkHRotor r (c_dk c) (sort_refs br (c_br c)) (c_pm c))
       end).
(** a program that makes several rotors one after the other, whatever the outcome of each call *)
Definition run_calls (h : heap) (cs : list call) : heap := fold_left (fun h c => fst (build h c)) cs h.

(** rotor.elements with the dof numbers the objects carry now *)
Definition now {A} (k : kind A) (st : ref -> A * dofs) (l : list ref) : list (elem * dofs) :=
  map (fun x => (k_elem k 0 (fst (st x)), snd (st x))) l.
Definition h_elements (h : heap) (r : hrotor) : list (elem * dofs) :=
  map (fun e => (e, Some (r_dofs (hr_val r) e))) (r_shaft (hr_val r)) ++ now disks_kind (h_dk h) (hr_dk r)
  ++ now brgs_kind (h_br h) (hr_br r) ++ now pms_kind (h_pm h) (hr_pm r).

(** the assembly loop: dofs = list(elm.dof_global_index.values()); M0[np.ix_(dofs, dofs)] += elm.M() *)
Fixpoint assemble_now (N : nat) (f : elem -> res (nat * mat)) (l : list (elem * dofs)) (acc : mat) : res mat :=
  match l with
  | [] => Ok acc
  | (e, None) :: l => Err AttributeError
  | (e, Some ds) :: l => bind (f e) (fun km => bind (add_at N ds km acc) (assemble_now N f l))
  end.
Definition kept_now (ignore : list string) (l : list (elem * dofs)) : list (elem * dofs) :=
  filter (fun p => negb (existsb (String.eqb (el_tag (fst p))) ignore)) l.

(** Rotor.M, M(synchronous), K, C, G at a moment of the program: ross/rotor_assembly.py:924-1118. *)
Definition now_M spl (h : heap) (r : hrotor) (frequency : option R) : res mat :=
  assemble_now (r_ndof (hr_val r)) (el_M spl (default 0 frequency)) (h_elements h r) mzero.
Definition now_M_sync spl (h : heap) (r : hrotor) (frequency : option R) : res mat :=
  assemble_now (r_ndof (hr_val r)) (el_M_sync spl (default 0 frequency)) (h_elements h r) mzero.
Definition now_K spl (h : heap) (r : hrotor) (frequency : R) (ignore : list string) : res mat :=
  assemble_now (r_ndof (hr_val r)) (el_K spl frequency) (kept_now ignore (h_elements h r)) mzero.
Definition now_C spl (h : heap) (r : hrotor) (frequency : R) (ignore : list string) : res mat :=
  assemble_now (r_ndof (hr_val r)) (el_C spl frequency) (kept_now ignore (h_elements h r)) mzero.
Definition now_G spl (h : heap) (r : hrotor) : res mat :=
  assemble_now (r_ndof (hr_val r)) (el_G spl) (h_elements h r) mzero.
