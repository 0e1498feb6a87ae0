(** Model of ross/rotor_assembly.py: construction of a Rotor (lines 135-593) and assembly of its
    matrices (lines 924-1118). Floats are real numbers; nodes are natural numbers. *)
From Coq Require Import Reals String List Bool Arith DecimalString.
From Verif Require Import PyBase MatBase MMaterial MShaft MDisk MBearing.
Import ListNotations.
Open Scope list_scope.
Open Scope R_scope.

(** ** The element objects given to Rotor(...) *)

(** ShaftElement ([false]) or ShaftElement6DoF ([true]); node and tag are fields of [shaft]. *)
Record rshaft := mkRShaft { rs_six : bool; rs_s : shaft }.
(** DiskElement or DiskElement6DoF. *)
Record rdisk := mkRDisk { rd_six : bool; rd_d : disk }.
(** BearingElement or SealElement (flag), BearingElement6DoF. *)
Inductive rbrg := RB4 (is_seal : bool) (b : bearing) | RB6 (b : bearing6).
(** PointMass or PointMass6DoF. *)
Record rpmass := mkRPmass { rp_six : bool; rp_p : pmass }.

Definition brg_base (b : rbrg) : bearing := match b with RB4 _ b => b | RB6 b => b6 b end.

(** An element with its final node and tag, as stored in [rotor.elements]. *)
Inductive elem :=
| EShaft (six : bool) (n : nat) (tag : string) (s : shaft)
| EDisk (six : bool) (tag : string) (d : disk)
| EBrg (tag : string) (b : rbrg)
| EPm (six : bool) (tag : string) (p : pmass).

Definition el_n (e : elem) : nat :=
  match e with EShaft _ n _ _ => n | EDisk _ _ d => d_n d | EBrg _ b => b_n (brg_base b) | EPm _ _ p => p_n p end.
Definition el_tag (e : elem) : string :=
  match e with EShaft _ _ t _ => t | EDisk _ t _ => t | EBrg t _ => t | EPm _ t _ => t end.
(** [hasattr(elm, "n_link") and elm.n_link is not None] *)
Definition el_link (e : elem) : option nat := match e with EBrg _ b => b_n_link (brg_base b) | _ => None end.

(** ** Degrees of freedom *)
Inductive letter := Lx | Ly | Lz | La | Lb | Lt.
Definition letter_eqb (a b : letter) : bool :=
  match a, b with Lx, Lx | Ly, Ly | Lz, Lz | La, La | Lb, Lb | Lt, Lt => true | _, _ => false end.
(** A dictionary key such as "alpha_12": the letter and the node number. *)
Definition dkey := (letter * nat)%type.
Definition dkey_eqb (a b : dkey) : bool := letter_eqb (fst a) (fst b) && Nat.eqb (snd a) (snd b).

Definition node4 : list letter := [Lx; Ly; La; Lb].
Definition node6 : list letter := [Lx; Ly; Lz; La; Lb; Lt].
(** dof_mapping of the element classes: ross/shaft_element.py:496-498, :1366-1379,
    ross/disk_element.py:186, :583, ross/bearing_seal_element.py:513, :2007, ross/point_mass.py:252, :485.
    Key (letter, local node), value = position in the returned dictionary. *)
Definition local_keys (e : elem) : list dkey :=
  match e with
  | EShaft false _ _ _ => map (fun l => (l, 0%nat)) node4 ++ map (fun l => (l, 1%nat)) node4
  | EShaft true _ _ _ => map (fun l => (l, 0%nat)) node6 ++ map (fun l => (l, 1%nat)) node6
  | EDisk false _ _ => map (fun l => (l, 0%nat)) node4
  | EDisk true _ _ => map (fun l => (l, 0%nat)) node6
  | EBrg _ (RB4 _ _) => [(Lx, 0%nat); (Ly, 0%nat)]
  | EBrg _ (RB6 _) => [(Lx, 0%nat); (Ly, 0%nat); (Lz, 0%nat)]
  | EPm false _ _ => [(Lx, 0%nat); (Ly, 0%nat)]
  | EPm true _ _ => [(Lx, 0%nat); (Ly, 0%nat); (Lz, 0%nat)]
  end.
Definition dof_mapping (e : elem) : list (dkey * nat) :=
  combine (local_keys e) (seq 0 (length (local_keys e))).

(** d[k] = v for dictionaries keyed by degrees of freedom *)
Fixpoint kset (d : list (dkey * nat)) (k : dkey) (v : nat) : list (dkey * nat) :=
  match d with
  | [] => [(k, v)]
  | (k', v') :: d' => if dkey_eqb k k' then (k, v) :: d' else (k', v') :: kset d' k v
  end.

(** The global number of local dof [v] of node [n], ross/rotor_assembly.py:396-404, :406-435:
    shaft nodes have [nd] dofs, later (support) nodes [nd/2]. *)
Definition gidx (nd n_last n v : nat) : nat :=
  if (n <=? n_last + 1)%nat then (nd * n + v)%nat
  else (Nat.div2 nd * n_last + Nat.div2 nd * n + nd + v)%nat.

(** elm.dof_global_index, ross/rotor_assembly.py:387-437. *)
Definition dof_index (nd n_last : nat) (e : elem) : list (dkey * nat) :=
  let base := map (fun p => ((fst (fst p), (snd (fst p) + el_n e)%nat), gidx nd n_last (el_n e) (snd p))) (dof_mapping e) in
  match el_link e with
  | None => base
  | Some m =>
      let d := kset (kset base (Lx, m) (gidx nd n_last m 0)) (Ly, m) (gidx nd n_last m 1) in
      if Nat.eqb nd 6 then kset d (Lz, m) (gidx nd n_last m 2) else d
  end.
(** list(elm.dof_global_index.values()) *)
Definition el_dofs (nd n_last : nat) (e : elem) : list nat := map snd (dof_index nd n_last e).

(** ** Construction *)

Definition str (n : nat) : string := NilEmpty.string_of_uint (Nat.to_uint n).
Definition default_tag (prefix : string) (i : nat) (t : option string) : string :=
  match t with Some t => t | None => (prefix ++ str i)%string end.

Fixpoint mapi {A B} (f : nat -> A -> B) (i : nat) (l : list A) : list B :=
  match l with [] => [] | x :: l => f i x :: mapi f (S i) l end.

(** ross/rotor_assembly.py:166-202: default nodes (the place in the list) and default tags. *)
Definition mk_shaft (i : nat) (r : rshaft) : elem :=
  EShaft (rs_six r) (match s_n (rs_s r) with Some n => n | None => i end)
    (default_tag "ShaftElement " i (s_tag (rs_s r))) (rs_s r).
Definition mk_disk (i : nat) (r : rdisk) : elem := EDisk (rd_six r) (default_tag "Disk " i (d_tag (rd_d r))) (rd_d r).
Definition mk_brg (i : nat) (r : rbrg) : elem :=
  EBrg (default_tag (match r with RB4 true _ => "Seal " | _ => "Bearing " end)%string i (b_tag (brg_base r))) r.
Definition mk_pm (i : nat) (r : rpmass) : elem :=
  EPm (rp_six r) (default_tag "Point Mass " i (p_tag (rp_p r))) (rp_p r).

(** sorted(l, key=lambda el: el.n): stable *)
Fixpoint insert_n (x : elem) (l : list elem) : list elem :=
  match l with [] => [x] | y :: l' => if (el_n x <=? el_n y)%nat then x :: l else y :: insert_n x l' end.
Definition sort_n (l : list elem) : list elem := fold_right insert_n [] l.

Fixpoint tags_unique (l : list string) : bool :=
  match l with [] => true | t :: l => negb (existsb (String.eqb t) l) && tags_unique l end.

(** Rotor._check_number_dof, ross/rotor_assembly.py:555-593 ([raise Exception] is [RuntimeErr];
    point masses are not checked there). *)
Definition check_number_dof (sh dk br : list elem) : res nat :=
  match sh with
  | [] => Err IndexError
  | s0 :: _ =>
      let k := length (dof_mapping s0) in
      let nd := Nat.div2 k in
      if existsb (fun s => negb (Nat.eqb (length (dof_mapping s)) k)) sh then Err RuntimeErr
      else if existsb (fun d => negb (Nat.eqb (length (dof_mapping d)) nd)) dk then Err RuntimeErr
      else if existsb (fun b => negb (Nat.eqb (length (dof_mapping b)) (Nat.div2 nd))) br then Err RuntimeErr
      else Ok nd
  end.

Definition sh_L (e : elem) : R := match e with EShaft _ _ _ s => s_L s | _ => 0 end.
Definition sh_cg (e : elem) : R := match e with EShaft _ _ _ s => s_beam_cg s | _ => 0 end.
Definition sh_m (e : elem) : R := match e with EShaft _ _ _ s => s_m s | _ => 0 end.
Definition sh_Im (e : elem) : R := match e with EShaft _ _ _ s => s_Im s | _ => 0 end.
Definition dk_m (e : elem) : R := match e with EDisk _ _ d => d_m d | _ => 0 end.
Definition dk_Ip (e : elem) : R := match e with EDisk _ _ d => d_Ip d | _ => 0 end.

(** nodes_pos_l and nodes_pos_r of every shaft element, ross/rotor_assembly.py:272-289. *)
Fixpoint shaft_pos_from (prev_n : nat) (pl pr : R) (sh : list elem) : list (R * R) :=
  match sh with
  | [] => []
  | e :: sh' =>
      let p := if Nat.eqb (el_n e) prev_n then (pl, pr) else (pr, pr + sh_L e) in
      p :: shaft_pos_from (el_n e) (fst p) (snd p) sh'
  end.
Definition shaft_pos (sh : list elem) : list (R * R) :=
  match sh with [] => [] | e :: sh' => (0, 0 + sh_L e) :: shaft_pos_from (el_n e) 0 (0 + sh_L e) sh' end.

(** df_shaft.groupby("n_l")["nodes_pos_l"].max(): one value for every distinct node, in
    increasing order; the shaft list is sorted, so equal nodes are adjacent. Lines 324-327. *)
Fixpoint group_max (l : list (nat * R)) : list R :=
  match l with
  | [] => []
  | (n, p) :: l' =>
      match l' with
      | [] => [p]
      | (n', _) :: _ =>
          let g := group_max l' in
          if Nat.eqb n n' then match g with q :: g' => Rmax p q :: g' | [] => [p] end else p :: g
      end
  end.
Definition nodes_pos (sh : list elem) : list R :=
  group_max (combine (map el_n sh) (map fst (shaft_pos sh))) ++ [last (map snd (shaft_pos sh)) 0].

Definition max_list (l : list nat) : nat := fold_right Nat.max 0%nat l.

(** The location check, ross/rotor_assembly.py:313-321. Point masses have no [n_l]. *)
Definition location_ok (sh dk br pm : list elem) : bool :=
  (max_list (map el_n (sh ++ dk ++ br)) <=? Nat.max (max_list (map (fun e => S (el_n e)) sh)) (max_list (map el_n pm)))%nat.

(** nodes_pos[disk.n] for every disk, or IndexError; ross/rotor_assembly.py:366-368 *)
Fixpoint disk_positions (pos : list R) (dk : list elem) : res (list R) :=
  match dk with
  | [] => Ok []
  | d :: dk => match nth_error pos (el_n d) with
               | None => Err IndexError
               | Some p => bind (disk_positions pos dk) (fun l => Ok (p :: l))
               end
  end.

(** *** Axial location of bearings, ross/rotor_assembly.py:439-551 *)

(** A row of the table [df]; a missing position (NaN) is [None]. *)
Record row := mkRow { w_tag : string; w_nl : option nat; w_nr : option nat; w_link : option nat; w_pl : option R; w_pr : option R }.
Definition elem_row (e : elem) (pl pr : option R) : row :=
  match e with
  | EShaft _ n t _ => mkRow t (Some n) (Some (S n)) None pl pr
  | EDisk _ t d => mkRow t (Some (d_n d)) (Some (d_n d)) None pl pr
  | EBrg t b => mkRow t (Some (el_n e)) (Some (el_n e)) (el_link e) pl pr
  | EPm _ t _ => mkRow t None None None pl pr
  end.
Fixpoint insert_row (x : row) (l : list row) : list row :=
  match l with
  | [] => [x]
  | y :: l' => match w_nl x, w_nl y with
               | Some a, Some b => if (a <=? b)%nat then x :: l else y :: insert_row x l'
               | Some _, None => x :: l
               | None, Some _ => y :: insert_row x l'
               | None, None => x :: l
               end
  end.
(** df.sort_values(by="n_l"), line 295: rows without n_l go last. Simplification: pandas does not
    promise to keep the order of rows with equal keys, the model does. *)
Definition sort_rows (l : list row) : list row := fold_right insert_row [] l.

Definition onat_is (o : option nat) (n : nat) : bool := match o with Some m => Nat.eqb m n | None => false end.
Definition set_pos (t : string) (p : option R) (df : list row) : list row :=
  map (fun r => if String.eqb (w_tag r) t then mkRow (w_tag r) (w_nl r) (w_nr r) (w_link r) p p else r) df.
(** The body of the loop for one bearing (lines 457-477). Every bearing starts without a location and leaves
    the set of unlocated bearings the first time it is visited, so the cycle is one pass. *)
Definition locate_one (df : list row) (b : elem) : res (list row) :=
  let other := filter (fun r => negb (String.eqb (w_tag r) (el_tag b))) df in
  let node_l := map w_pl (filter (fun r => onat_is (w_nl r) (el_n b)) other) in
  let node_r := map w_pr (filter (fun r => onat_is (w_nr r) (el_n b)) other) in
  match node_l, node_r with
  | [], [] =>
      match map w_pl (filter (fun r => onat_is (w_link r) (el_n b)) other) with
      | [] => Err ValueError
      | p :: _ => Ok (set_pos (el_tag b) p df)
      end
  | p :: _, _ => Ok (set_pos (el_tag b) p df)
  | [], p :: _ => Ok (set_pos (el_tag b) p df)
  end.
Fixpoint locate_all (df : list row) (br : list elem) : res (list row) :=
  match br with [] => Ok df | b :: br => bind (locate_one df b) (fun df => locate_all df br) end.

Definition row_pos (df : list row) (t : string) : option R :=
  match find (fun r => String.eqb (w_tag r) t) df with Some r => w_pl r | None => None end.

(** Choice of the drawing height of the bearings at one axial position, lines 494-527. Only
    whether it raises is modelled: an unlocated bearing gives an empty table (IndexError) and a node
    without shaft gives max() of an empty array (ValueError). [ns]: nodes of the bearings there. *)
Definition height_ok (sh : list elem) (z : option R) (ns : list nat) : res unit :=
  match z, ns with
  | None, _ | _, [] => Err IndexError
  | Some z, n0 :: ns' =>
      let n := fold_right Nat.min n0 ns' in
      let has k := existsb (fun e => Nat.eqb (el_n e) k) sh in
      let first := match shaft_pos sh with p :: _ => fst p | [] => 0 end in
      let lastp := last (map snd (shaft_pos sh)) 0 in
      if Req_EM_T z first then (if has n then Ok tt else Err ValueError)
      else if Req_EM_T z lastp then
        (match n with S k => if has k then Ok tt else Err ValueError | O => Err ValueError end)
      else match n with
           | S k => if has n && has k then Ok tt else Err ValueError
           | O => Err ValueError
           end
  end.
Definition same_pos (a b : option R) : bool :=
  match a, b with Some x, Some y => if Req_EM_T x y then true else false | _, _ => false end.
Fixpoint heights_ok (sh br : list elem) (df : list row) (todo : list elem) : res unit :=
  match todo with
  | [] => Ok tt
  | b :: todo =>
      let z := row_pos df (el_tag b) in
      bind (height_ok sh z (map el_n (filter (fun c => same_pos (row_pos df (el_tag c)) z) br)))
           (fun _ => heights_ok sh br df todo)
  end.
(** lines 545-551: a point mass needs a bearing at its node *)
Definition pm_ok (br pm : list elem) : bool :=
  forallb (fun p => existsb (fun b => Nat.eqb (el_n b) (el_n p)) br) pm.

Record rotor := mkRotor {
  r_shaft : list elem; r_disk : list elem; r_brg : list elem; r_pm : list elem;
  r_nd : nat; r_n_last : nat; r_ndof : nat;
  r_nodes_pos : list R; r_shaft_pos : list (R * R);
  r_m_disks : R; r_m_shaft : R; r_m : R; r_CG : R; r_Ip : R }.
Definition r_elements (r : rotor) : list elem := r_shaft r ++ r_disk r ++ r_brg r ++ r_pm r.

(** Rotor.__init__, ross/rotor_assembly.py:135-553. Lists are already flat. Not modelled: the
    attributes that only serve plots (diameters at nodes, heights), negative node numbers. *)
Definition rotor_init (shafts : list rshaft) (disks : list rdisk) (brgs : list rbrg) (pms : list rpmass) : res rotor :=
  let sh := sort_n (mapi mk_shaft 0 shafts) in
  let dk := mapi mk_disk 0 disks in
  let br := sort_n (mapi mk_brg 0 brgs) in
  let pm := mapi mk_pm 0 pms in
  if negb (tags_unique (map el_tag (sh ++ dk ++ br ++ pm))) then Err ValueError else
  bind (check_number_dof sh dk br) (fun nd =>
  if negb (location_ok sh dk br pm) then Err ValueError else
  let pos := nodes_pos sh in
  let m_disks := suml (map dk_m dk) in
  let m_shaft := suml (map sh_m sh) in
  let m := m_disks + m_shaft in
  bind (disk_positions pos dk) (fun dpos =>
  let cgpos := map (fun p => sh_cg (fst p) + fst (snd p)) (combine sh (shaft_pos sh)) in
  let CG := suml (map (fun p => sh_m (fst p) * snd p / m) (combine sh cgpos))
            + suml (map (fun p => dk_m (fst p) * snd p / m) (combine dk dpos)) in
  let Ip := suml (map sh_Im sh) + suml (map dk_Ip dk) in
  let n_last := match rev sh with e :: _ => el_n e | [] => 0%nat end in
  let ndof := (nd * (max_list (map el_n sh) + 2) + Nat.div2 nd * length pm)%nat in
  let rows := sort_rows (
      map (fun p => elem_row (fst p) (Some (fst (snd p))) (Some (snd (snd p)))) (combine sh (shaft_pos sh))
      ++ map (fun p => elem_row (fst p) (Some (snd p)) (Some (snd p))) (combine dk dpos)
      ++ map (fun b => elem_row b None None) (filter (fun b => match b with EBrg _ (RB4 true _) => false | _ => true end) br)
      ++ map (fun b => elem_row b None None) pm
      ++ map (fun b => elem_row b None None) (filter (fun b => match b with EBrg _ (RB4 true _) => true | _ => false end) br)) in
  bind (locate_all rows br) (fun df =>
  bind (heights_ok sh br df br) (fun _ =>
  if negb (pm_ok br pm) then Err IndexError else
  Ok (mkRotor sh dk br pm nd n_last ndof pos (shaft_pos sh) m_disks m_shaft m CG Ip))))).

(** ** Element matrices as seen by the assembly loops: (size, matrix) at a frequency.
    [try: elm.M(frequency) except TypeError: elm.M()], ross/rotor_assembly.py:955-958 *)
Definition sized (k : nat) (r : res mat) : res (nat * mat) := bind r (fun m => Ok (k, m)).
Definition brg_size (b : rbrg) : nat :=
  (match b with RB4 _ _ => 2 | RB6 _ => 3 end * match b_n_link (brg_base b) with Some _ => 2 | None => 1 end)%nat.

Definition el_M (spl : list R -> list R -> R -> R) (w : R) (e : elem) : res (nat * mat) :=
  match e with
  | EShaft false _ _ s => Ok (8%nat, shaft_M s) | EShaft true _ _ s => Ok (12%nat, shaft6_M s)
  | EDisk false _ d => Ok (4%nat, disk_M d) | EDisk true _ d => Ok (6%nat, disk6_M d)
  | EBrg _ b => sized (brg_size b) (match b with RB4 _ b => bearing_M spl b w | RB6 b => bearing6_M spl b w end)
  | EPm false _ p => Ok (2%nat, pmass_M p) | EPm true _ p => Ok (3%nat, pmass6_M p)
  end.
Definition el_K (spl : list R -> list R -> R -> R) (w : R) (e : elem) : res (nat * mat) :=
  match e with
  | EShaft false _ _ s => Ok (8%nat, shaft_K s) | EShaft true _ _ s => Ok (12%nat, shaft6_K s)
  | EDisk false _ d => Ok (4%nat, disk_K d) | EDisk true _ d => Ok (6%nat, disk6_K d)
  | EBrg _ b => sized (brg_size b) (match b with RB4 _ b => bearing_K spl b w | RB6 b => bearing6_K spl b w end)
  | EPm false _ p => Ok (2%nat, mzero) | EPm true _ p => Ok (3%nat, mzero)
  end.
Definition el_C (spl : list R -> list R -> R -> R) (w : R) (e : elem) : res (nat * mat) :=
  match e with
  | EShaft false _ _ s => Ok (8%nat, shaft_C s) | EShaft true _ _ s => Ok (12%nat, shaft6_C s)
  | EDisk false _ d => Ok (4%nat, disk_C d) | EDisk true _ d => Ok (6%nat, disk6_C d)
  | EBrg _ b => sized (brg_size b) (match b with RB4 _ b => bearing_C spl b w | RB6 b => bearing6_C spl b w end)
  | EPm false _ p => Ok (2%nat, mzero) | EPm true _ p => Ok (3%nat, mzero)
  end.
(** bearings: np.zeros_like(self.K(0)), ross/bearing_seal_element.py:626-645 *)
Definition el_G (spl : list R -> list R -> R -> R) (e : elem) : res (nat * mat) :=
  match e with
  | EShaft false _ _ s => Ok (8%nat, shaft_G s) | EShaft true _ _ s => Ok (12%nat, shaft6_G s)
  | EDisk false _ d => Ok (4%nat, disk_G d) | EDisk true _ d => Ok (6%nat, disk6_G d)
  | EBrg _ b => bind (el_K spl 0 e) (fun p => Ok (fst p, mzero))
  | EPm false _ p => Ok (2%nat, mzero) | EPm true _ p => Ok (3%nat, mzero)
  end.

(** ** Assembly *)
Fixpoint last_index_from (k : nat) (i : nat) (dofs : list nat) : option nat :=
  match dofs with
  | [] => None
  | d :: dofs => match last_index_from (S k) i dofs with
                 | Some a => Some a
                 | None => if Nat.eqb d i then Some k else None
                 end
  end.
Definition last_index (i : nat) (dofs : list nat) : option nat := last_index_from 0 i dofs.

(** M0[np.ix_(dofs, dofs)] += M : an index out of range raises IndexError, a matrix of another
    shape ValueError; with repeated indices only the last write stays. *)
Definition add_at (N : nat) (dofs : list nat) (km : nat * mat) (acc : mat) : res mat :=
  if existsb (fun d => (N <=? d)%nat) dofs then Err IndexError
  else if negb (Nat.eqb (length dofs) (fst km)) then Err ValueError
  else Ok (fun i j => match last_index i dofs, last_index j dofs with
                      | Some a, Some b => acc i j + snd km a b
                      | _, _ => acc i j
                      end).
Fixpoint assemble (N : nat) (dofs : elem -> list nat) (f : elem -> res (nat * mat)) (l : list elem) (acc : mat) : res mat :=
  match l with
  | [] => Ok acc
  | e :: l => bind (f e) (fun km => bind (add_at N (dofs e) km acc) (assemble N dofs f l))
  end.

(** The synchronous modification of the mass matrix of one element, ross/rotor_assembly.py:960-979. *)
Definition mset (M : mat) (i j : nat) (v : R) : mat := fun a b => if (Nat.eqb a i && Nat.eqb b j)%bool then v else M a b.
Definition sync_row (G : mat) (M : mat) (i : nat) : mat :=
  if existsb (Nat.eqb i) [0; 3; 4; 7]%nat then
    mset (mset (mset (mset M i 0%nat (M i 0%nat - G i 1%nat)) i 3%nat (M i 3%nat + G i 2%nat))
      i 4%nat (M i 4%nat - G i 5%nat)) i 7%nat (M i 7%nat + G i 6%nat)
  else
    mset (mset (mset (mset M i 1%nat (M i 1%nat + G i 0%nat)) i 2%nat (M i 2%nat - G i 3%nat))
      i 5%nat (M i 5%nat + G i 4%nat)) i 6%nat (M i 6%nat - G i 7%nat).
Definition sync_shaft (M G : mat) : mat := fold_left (sync_row G) (seq 0 8) M.
Definition sync_disk (M G : mat) : mat :=
  mset (mset M 2 2 (M 2%nat 2%nat - G 2%nat 3%nat)) 3 3 (M 3%nat 3%nat + G 3%nat 2%nat).
Definition el_M_sync (spl : list R -> list R -> R -> R) (w : R) (e : elem) : res (nat * mat) :=
  bind (el_M spl w e) (fun km =>
  match e with
  | EShaft _ _ _ _ => bind (el_G spl e) (fun kg => Ok (fst km, sync_shaft (snd km) (snd kg)))
  | EDisk _ _ _ => bind (el_G spl e) (fun kg => Ok (fst km, sync_disk (snd km) (snd kg)))
  | _ => Ok km
  end).

Definition r_dofs (r : rotor) (e : elem) : list nat := el_dofs (r_nd r) (r_n_last r) e.

(** Rotor.M, K, C, G, Ksdt: ross/rotor_assembly.py:924-982, :984-1019, :1058-1093, :1095-1118, :1021-1056.
    [ignore] holds the tags of the elements left out (elements are hashed by tag). *)
Definition rotor_M spl (r : rotor) (frequency : option R) : res mat :=
  assemble (r_ndof r) (r_dofs r) (el_M spl (default 0 frequency)) (r_elements r) mzero.
Definition rotor_M_sync spl (r : rotor) (frequency : option R) : res mat :=
  assemble (r_ndof r) (r_dofs r) (el_M_sync spl (default 0 frequency)) (r_elements r) mzero.
Definition kept (ignore : list string) (l : list elem) : list elem :=
  filter (fun e => negb (existsb (String.eqb (el_tag e)) ignore)) l.
Definition rotor_K spl (r : rotor) (frequency : R) (ignore : list string) : res mat :=
  assemble (r_ndof r) (r_dofs r) (el_K spl frequency) (kept ignore (r_elements r)) mzero.
Definition rotor_C spl (r : rotor) (frequency : R) (ignore : list string) : res mat :=
  assemble (r_ndof r) (r_dofs r) (el_C spl frequency) (kept ignore (r_elements r)) mzero.
Definition rotor_G spl (r : rotor) : res mat :=
  assemble (r_ndof r) (r_dofs r) (el_G spl) (r_elements r) mzero.
Definition el_Ksdt (e : elem) : res (nat * mat) :=
  match e with
  | EShaft _ _ _ s => Ok (12%nat, shaft6_Kst s)
  | EDisk _ _ d => Ok (6%nat, disk6_Kdt d)
  | _ => Err AttributeError (* not reached: only shafts and disks are looped over *)
  end.
Definition rotor_Ksdt (r : rotor) : res mat :=
  if Nat.eqb (r_nd r) 6 then assemble (r_ndof r) (r_dofs r) el_Ksdt (r_shaft r ++ r_disk r) mzero
  else Ok mzero.
