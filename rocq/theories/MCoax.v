(** Model of CoAxialRotor, ross/rotor_assembly.py:3607-4146: several shafts in one model, numbered one after the other and placed along the
    axis with the help of the bearings that connect them. *)
From Coq Require Import Reals String List Bool Arith ZArith.
From Verif Require Import PyBase MatBase MMaterial MShaft MDisk MBearing MRotor MShare.
Import ListNotations.
Open Scope list_scope.
Open Scope R_scope.

(** ** Nodes and tags of the shaft elements, lines 3715-3725 *)

(** The attributes n and tag of the caller's shaft elements (an object is a number, see MShare.v). The shaft elements are changed in place:
    line 3730 copies the lists, not the elements. *)
Definition names := ref -> option nat * option string.
Definition given_names (st : ref -> rshaft) : names := fun x => (s_n (rs_s (st x)), s_tag (rs_s (st x))).

(** str of an integer *)
Definition zstr (z : Z) : string := if (z <? 0)%Z then ("-" ++ str (Z.to_nat (- z)))%string else str (Z.to_nat z).
(** sh.__class__.__name__ *)
Definition sh_class (r : rshaft) : string := if rs_six r then "ShaftElement6DoF" else "ShaftElement".

(** the body of the inner loop: if sh.n is None: ...; if sh.tag is None: ... *)
Definition name_one (st : ref -> rshaft) (aux_n : nat) (aux_t : Z) (i : nat) (x : ref) (nm : names) : names :=
  upd nm x (match fst (nm x) with Some n => Some n | None => Some (i + aux_n)%nat end,
            match snd (nm x) with Some t => Some t | None => Some (sh_class (st x) ++ " " ++ zstr (Z.of_nat i + aux_t))%string end).
Fixpoint name_shaft st aux_n aux_t (i : nat) (shaft : list ref) (nm : names) : names :=
  match shaft with [] => nm | x :: shaft => name_shaft st aux_n aux_t (S i) shaft (name_one st aux_n aux_t i x nm) end.
(** the outer loop; shaft[-1] of an empty list raises IndexError *)
Fixpoint name_shafts st (aux_n : nat) (aux_t : Z) (j : nat) (shafts : list (list ref)) (nm : names) : names * res unit :=
  match shafts with
  | [] => (nm, Ok tt)
  | shaft :: shafts =>
      let nm := name_shaft st aux_n aux_t 0 shaft nm in
      match rev shaft with
      | [] => (nm, Err IndexError)
      | x :: _ =>
          let n_r := match fst (nm x) with Some n => S n | None => 0%nat end in
          name_shafts st (S n_r) (Z.of_nat n_r - Z.of_nat j)%Z (S j) shafts nm
      end
  end.

(** a shaft element with the node and the tag it has now *)
Definition cx_elem (st : ref -> rshaft) (nm : names) (x : ref) : elem :=
  EShaft (rs_six (st x)) (default 0%nat (fst (nm x))) (default EmptyString (snd (nm x))) (rs_s (st x)).

(** ** Axial positions, lines 3817-3860 *)

(** The numpy arrays nodes_pos_l, nodes_pos_r, axial_cg_pos (of length N; index -1 is the last one) and the attribute axial_cg_pos of the
    shaft elements. *)
Record zpos := mkZ { z_l : nat -> R; z_r : nat -> R; z_cg : nat -> R; z_ax : ref -> R }.
Definition put (a : nat -> R) (i : nat) (v : R) : nat -> R := fun t => if Nat.eqb t i then v else a t.
(** a[i:stop] += d *)
Definition shift (a : nat -> R) (i stop : nat) (d : R) : nat -> R := fun t => if ((i <=? t)%nat && (t <? stop)%nat)%bool then a t + d else a t.
(** index i - 1 of an array of length N *)
Definition before (N i : nat) : nat := match i with O => (N - 1)%nat | S i => i end.
(** df_bearings.loc[df_bearings.n_link == n, "n"].values[0]: node of the first bearing that is linked to node n *)
Definition linked (brgs : list elem) (n : nat) : option nat :=
  match find (fun b => onat_is (el_link b) n) brgs with Some b => Some (el_n b) | None => None end.

(** One pass of the inner loop for the element [e] (object [x]), the k-th of its shaft, whose shaft starts at row [i]. Length and node come
    from the table df_shaft, which is sorted by node ([Ls], [ns]); [brgs]: the rows of df_bearings (no seals). *)
Definition place (N : nat) (ns : list nat) (Ls : list R) (brgs : list elem) (i k : nat) (x : ref) (e : elem) (z : zpos) : res zpos :=
  let p := (k + i)%nat in
  let L := nth p Ls 0 in
  (* if k == 0 *)
  let z := if Nat.eqb k 0 then
             let cg := sh_cg e + z_l z p in mkZ (z_l z) (put (z_r z) p L) (put (z_cg z) p cg) (upd (z_ax z) x cg)
           else z in
  let z := if (negb (Nat.eqb k 0) && Nat.eqb (nth p ns 0%nat) (nth (p - 1) ns 0%nat))%bool then
             mkZ (put (z_l z) p (z_l z (p - 1)%nat)) (put (z_r z) p (z_r z (p - 1)%nat)) (z_cg z) (z_ax z)
           else
             let l := z_r z (before N p) in mkZ (put (z_l z) p l) (put (z_r z) p (l + L)) (z_cg z) (z_ax z) in
  let moved := fun idx stop =>
    if (idx <? N)%nat then
      let l := shift (z_l z) i stop (z_l z idx - z_l z p) in
      let r := shift (z_r z) i stop (z_r z idx - z_r z p) in
      Ok (mkZ l r (shift (z_cg z) i stop (r idx - r p)) (z_ax z))
    else Err IndexError in
  bind (match linked brgs (el_n e) with
        | Some n => moved n (el_n e)
        | None => match linked brgs (S (el_n e)) with
                  | Some n => moved (before N n) (S (el_n e))
                  | None => Ok z
                  end
        end) (fun z =>
  let cg := sh_cg e + z_l z p in Ok (mkZ (z_l z) (z_r z) (put (z_cg z) p cg) (upd (z_ax z) x cg))).
Fixpoint place_shaft N ns Ls brgs (i k : nat) (shaft : list (ref * elem)) (z : zpos) : res zpos :=
  match shaft with
  | [] => Ok z
  | (x, e) :: shaft => bind (place N ns Ls brgs i k x e z) (place_shaft N ns Ls brgs i (S k) shaft)
  end.
Fixpoint place_shafts N ns Ls brgs (i : nat) (shafts : list (list (ref * elem))) (z : zpos) : res zpos :=
  match shafts with
  | [] => Ok z
  | shaft :: shafts => bind (place_shaft N ns Ls brgs i 0 shaft z) (place_shafts N ns Ls brgs (i + length shaft) shafts)
  end.
Definition z_zero (ax : ref -> R) : zpos := mkZ (fun _ => 0) (fun _ => 0) (fun _ => 0) ax.

(** sorted(shaft_elements, key=lambda el: el.n) for elements with their objects, line 3757 *)
Fixpoint insert_obj (x : ref * elem) (l : list (ref * elem)) : list (ref * elem) :=
  match l with [] => [x] | y :: l' => if (el_n (snd x) <=? el_n (snd y))%nat then x :: l else y :: insert_obj x l' end.
Definition sort_objs (l : list (ref * elem)) : list (ref * elem) := fold_right insert_obj [] l.

(** The last node of every shaft is inserted into the list of node positions, lines 3882-3891. [ends]: shaft[-1].n_r of every shaft; the
    value is taken from row n_r - 1 of the table. *)
Fixpoint insert_ends (N : nat) (zr : nat -> R) (ends : list nat) (pos : list R) : res (list R) :=
  match ends with
  | [] => Ok pos
  | [_] => Ok (pos ++ [zr (N - 1)%nat])
  | p :: ends => if (p - 1 <? N)%nat then insert_ends N zr ends (firstn p pos ++ zr (p - 1)%nat :: skipn p pos) else Err IndexError
  end.

(** ** The constructor *)

(** [cx_tag]: the attribute tag, which is only set when no tag is given (lines 3701-3702). [cx_rot] collects the attributes that a Rotor has
    as well; [cx_l], [cx_r]: the columns nodes_pos_l, nodes_pos_r of df_shaft. *)
Record coax := mkCoax { cx_rot : rotor; cx_tag : option string; cx_objs : list ref; cx_l : list R; cx_r : list R; cx_cgpos : list R }.
(** A call returns (a rotor or an exception) or does not end. *)
Inductive outcome := Returns (r : res coax) | Loops.

Definition is_seal (e : elem) : bool := match e with EBrg _ (RB4 true _) => true | _ => false end.
Definition el_six (e : elem) : bool :=
  match e with EShaft s _ _ _ | EDisk s _ _ | EPm s _ _ => s | EBrg _ (RB4 _ _) => false | EBrg _ (RB6 _) => true end.
(** The search for the shaft number of an element, lines 3930-3956: a row with another tag that starts or ends at the node of the element or
    is linked to it. Disks, bearings and point masses are searched again and again until all of them are found. *)
Definition findable (rows : list row) (e : elem) : bool :=
  existsb (fun r => negb (String.eqb (w_tag r) (el_tag e)) &&
                    (onat_is (w_nl r) (el_n e) || onat_is (w_nr r) (el_n e) || onat_is (w_link r) (el_n e)))%bool rows.

(** CoAxialRotor.__init__, lines 3689-4146, for shaft elements [shafts] that are objects of the store [st]. Not modelled: diameters at nodes
    and drawing heights (lines 3879-3895, 4060-4133), the numbers of the shafts in the tables, link_nodes; bearings are BearingElement,
    SealElement or BearingElement6DoF, as in [rotor_init] (any other class makes lines 3961-3963 raise ValueError, like BearingElement6DoF). *)
Definition coax_names (st : ref -> rshaft) (shafts : list (list ref)) : names * res unit := name_shafts st 0 0 0 shafts (given_names st).
Definition coax_init (st : ref -> rshaft) (ax : ref -> R) (shafts : list (list ref)) (disks : list rdisk) (brgs : list rbrg) (pms : list rpmass)
    (tag : option string) : outcome :=
  let '(nm, ok) := coax_names st shafts in
  match ok with Err e => Returns (Err e) | Ok _ =>
  let objs := map (map (fun x => (x, cx_elem st nm x))) shafts in
  let table := sort_objs (concat objs) in
  let sh := map snd table in
  let dk := mapi mk_disk 0 disks in
  let br := sort_n (mapi mk_brg 0 brgs) in
  let pm := mapi mk_pm 0 pms in
  match check_number_dof sh dk br with Err e => Returns (Err e) | Ok nd =>
  let plain := filter (fun b => negb (is_seal b)) br in
  match plain with [] => Returns (Err KeyError) | _ :: _ =>
  let N := length sh in
  match place_shafts N (map el_n sh) (map sh_L sh) plain 0 objs (z_zero ax) with Err e => Returns (Err e) | Ok z =>
  if negb (location_ok sh dk br pm) then Returns (Err ValueError) else
  let ends := map (fun shaft => match rev shaft with (_, e) :: _ => S (el_n e) | [] => 0%nat end) objs in
  match insert_ends N (z_r z) ends (group_max (combine (map el_n sh) (map (z_l z) (seq 0 N)))) with Err e => Returns (Err e) | Ok pos =>
  match disk_positions pos dk with Err e => Returns (Err e) | Ok dpos =>
  let m_disks := suml (map dk_m dk) in
  let m_shaft := suml (map sh_m sh) in
  let m := m_disks + m_shaft in
  let CG := suml (map (fun p => sh_m (snd p) * z_ax z (fst p) / m) table)
            + suml (map (fun p => dk_m (fst p) * snd p / m) (combine dk dpos)) in
  let Ip := suml (map sh_Im sh) + suml (map dk_Ip dk) in
  let n_last := match rev sh with e :: _ => el_n e | [] => 0%nat end in
  let ndof := (4 * max_list (map el_n sh) + 8 + 2 * length pm)%nat in
  let els := sh ++ dk ++ br ++ pm in
  let rows := map (fun e => elem_row e None None) els in
  if existsb (fun e => negb (existsb (String.eqb (el_tag e)) (map el_tag sh)) && negb (findable rows e))%bool (dk ++ br ++ pm) then Loops
  else if existsb el_six (dk ++ br ++ pm) then Returns (Err ValueError)
  else if negb (pm_ok plain pm) then Returns (Err IndexError)
  else Returns (Ok (mkCoax (mkRotor sh dk br pm nd n_last ndof pos (map (fun i => (z_l z i, z_r z i)) (seq 0 N)) m_disks m_shaft m CG Ip)
                      (match tag with None => Some "Rotor 0"%string | Some _ => None end) (map fst table)
                      (map (z_l z) (seq 0 N)) (map (z_r z) (seq 0 N)) (map (z_cg z) (seq 0 N))))
  end end end end end end.

(** self.L = nodes_pos[-1], line 3901 *)
Definition cx_L (c : coax) : R := last (r_nodes_pos (cx_rot c)) 0.

(** dof_global_index of the elements, lines 3985-4010: numbers for 4 dofs a node, whatever the elements are. *)
Definition cx_dofs (c : coax) (e : elem) : list nat := el_dofs 4 (r_n_last (cx_rot c)) e.
(** Rotor.M, K, C, G (inherited, lines 924-1118) *)
Definition coax_M spl (c : coax) (frequency : option R) : res mat :=
  assemble (r_ndof (cx_rot c)) (cx_dofs c) (el_M spl (default 0 frequency)) (r_elements (cx_rot c)) mzero.
Definition coax_K spl (c : coax) (frequency : R) (ignore : list string) : res mat :=
  assemble (r_ndof (cx_rot c)) (cx_dofs c) (el_K spl frequency) (kept ignore (r_elements (cx_rot c))) mzero.
Definition coax_C spl (c : coax) (frequency : R) (ignore : list string) : res mat :=
  assemble (r_ndof (cx_rot c)) (cx_dofs c) (el_C spl frequency) (kept ignore (r_elements (cx_rot c))) mzero.
Definition coax_G spl (c : coax) : res mat :=
  assemble (r_ndof (cx_rot c)) (cx_dofs c) (el_G spl) (r_elements (cx_rot c)) mzero.
