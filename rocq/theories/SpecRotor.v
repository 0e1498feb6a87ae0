(** What an assembled rotor means (specification vocabulary for the rotor theorems). *)
From Coq Require Import Reals String List Arith Bool Permutation.
From Verif Require Import PyBase MatBase SpecMat MShaft MDisk MBearing MRotor SpecShaft.
Import ListNotations.
Open Scope list_scope.
Open Scope R_scope.

(** What a k x k element matrix acting on the global dofs [dofs] adds to entry (i, j). *)
Definition contribution (dofs : list nat) (k : nat) (M : mat) (i j : nat) : R :=
  sumn k (fun a => sumn k (fun b =>
    if (Nat.eqb (nth a dofs 0%nat) i && Nat.eqb (nth b dofs 0%nat) j)%bool then M a b else 0)).

(** The coordinates of an element, picked out of the coordinates of the rotor. *)
Definition gather (dofs : list nat) (x : vec) : vec := fun a => x (nth a dofs 0%nat).

(** The first dof of a node: shaft nodes 0 .. last+1 have nd dofs each, the support nodes that follow have nd/2. *)
Definition node_start (nd last n : nat) : nat :=
  if (n <=? last + 1)%nat then (nd * n)%nat else (nd * (last + 2) + (nd / 2) * (n - (last + 2)))%nat.
Definition node_dofs (nd last n : nat) : nat := if (n <=? last + 1)%nat then nd else (nd / 2)%nat.
(** The dofs an element acts on. *)
Definition acts_on (nd last : nat) (e : elem) : list nat :=
  match e with
  | EShaft _ n _ _ => seq (node_start nd last n) nd ++ seq (node_start nd last (S n)) nd
  | EDisk _ _ d => seq (node_start nd last (d_n d)) nd
  | EBrg _ b => seq (node_start nd last (b_n (brg_base b))) (nd / 2) ++
                match b_n_link (brg_base b) with Some m => seq (node_start nd last m) (nd / 2) | None => [] end
  | EPm _ _ p => seq (node_start nd last (p_n p)) (nd / 2)
  end.

(** size and matrix of an element, when it can be evaluated *)
Definition el_size (f : elem -> res (nat * mat)) (e : elem) : nat := match f e with Ok p => fst p | Err _ => 0%nat end.
Definition el_mat (f : elem -> res (nat * mat)) (e : elem) : mat := match f e with Ok p => snd p | Err _ => mzero end.

(** point masses have the same kind of dofs as the shaft *)
Definition pm_matches (r : rotor) : Prop :=
  forall six t p, In (EPm six t p) (r_pm r) -> r_nd r = (if six then 6 else 4)%nat.
(** A regular rotor: no gap in the shaft nodes, the point masses sit one on each of the nodes
    that follow the shaft, and they have the same kind of dofs as the shaft. *)
Record regular (r : rotor) : Prop := {
  reg_shaft : forall k, (k <= r_n_last r)%nat -> exists e, In e (r_shaft r) /\ el_n e = k;
  reg_pm : Permutation (map el_n (r_pm r)) (seq (r_n_last r + 2) (length (r_pm r)));
  reg_pm_dof : pm_matches r }.

(** bearings connect two different existing nodes *)
Definition links_ok (r : rotor) : Prop :=
  forall e m, In e (r_brg r) -> el_link e = Some m -> m <> el_n e /\ (m < r_n_last r + 2 + length (r_pm r))%nat.

(** the motion in which every node moves by one along axis [c] (0: x, 1: y, 2: z in the 6-dof case) *)
Definition translation (nd last c : nat) : vec := fun i =>
  let j := if (i <? nd * (last + 2))%nat then (i mod nd)%nat else ((i - nd * (last + 2)) mod (nd / 2))%nat in
  if Nat.eqb j c then 1 else 0.

(** elements that start at the same node (layers) have the same length *)
Definition layers_match (r : rotor) : Prop :=
  forall e e', In e (r_shaft r) -> In e' (r_shaft r) -> el_n e = el_n e' -> sh_L e = sh_L e'.

(** A rigid motion of the whole rotor: translations a, b and rotations p, q of the axis (and an
    axial translation c and a rotation th about the axis with 6 dofs); z is the axial position of the node. *)
Definition rigid_motion (r : rotor) (x : vec) : Prop :=
  exists a b p q c th, forall n z, nth_error (r_nodes_pos r) n = Some z ->
    let at_ l := x (r_nd r * n + l)%nat in
    at_ 0%nat = a + z * q /\ at_ 1%nat = b - z * p /\
    if Nat.eqb (r_nd r) 6 then at_ 2%nat = c /\ at_ 3%nat = p /\ at_ 4%nat = q /\ at_ 5%nat = th
    else at_ 2%nat = p /\ at_ 3%nat = q.

(** every shaft element comes from meaningful constructor arguments *)
Definition good_shaft (e : elem) : Prop :=
  match e with EShaft _ _ _ s => exists a, shaft_init a = Ok s /\ good_args a | _ => True end.

(** ** Mass *)
(** The mass an element adds to a motion along direction c (0: x, 1: y, 2: z). A bearing between two nodes
    that move together adds nothing; a grounded bearing adds its own mass coefficient. *)
Definition moved_mass (f : elem -> res (nat * mat)) (c : nat) (e : elem) : R :=
  match e with
  | EShaft _ _ _ s => s_m s
  | EDisk _ _ d => d_m d
  | EPm _ _ p => match c with 0 => p_mx p | 1 => p_my p | _ => p_mz p end%nat
  | EBrg _ b => match b_n_link (brg_base b) with None => el_mat f e c c | Some _ => 0 end
  end.
(** both ends of the shaft element have the same section *)
Definition cylinder (e : elem) : Prop :=
  match e with EShaft _ _ _ s => exists a, shaft_init a = Ok s /\ cylindrical a | _ => True end.
(** non-negative inertia of disks, positive point masses, non-negative bearing masses *)
Definition good_inertia (f : elem -> res (nat * mat)) (e : elem) : Prop :=
  match e with
  | EShaft _ _ _ _ => good_shaft e
  | EDisk _ _ d => 0 <= d_m d /\ 0 <= d_Id d /\ 0 <= d_Ip d
  | EPm six _ p => 0 < p_mx p /\ 0 < p_my p /\ (six = true -> 0 < p_mz p)
  | EBrg _ _ => pos_semidef (el_size f e) (el_mat f e)
  end.

(** ** Stiffness *)
(** a shaft element without torque, whose axial force is not compressive / is zero *)
Definition no_compression (e : elem) : Prop :=
  match e with EShaft _ _ _ s => exists a, shaft_init a = Ok s /\ good_args a /\ a_torque a = 0 /\ 0 <= a_axial_force a | _ => True end.
Definition no_load (e : elem) : Prop :=
  match e with EShaft _ _ _ s => exists a, shaft_init a = Ok s /\ good_args a /\ a_torque a = 0 /\ a_axial_force a = 0 | _ => True end.
(** A bearing that resists every relative displacement of the two things it connects. *)
Definition grips (f : elem -> res (nat * mat)) (e : elem) : Prop :=
  let h := (match e with EBrg _ (RB6 _) => 3 | _ => 2 end)%nat in
  match el_link e with
  | None => pos_def h (el_mat f e)
  | Some _ => forall x, (exists i, (i < h)%nat /\ x i <> x (h + i)%nat) -> 0 < bform (2 * h) (el_mat f e) x x
  end.
(** The nodes that gripping bearings connect, directly or through other nodes, to the ground. *)
Inductive held (f : elem -> res (nat * mat)) (r : rotor) : nat -> Prop :=
| held_ground e : In e (r_brg r) -> el_link e = None -> grips f e -> held f r (el_n e)
| held_from e m : In e (r_brg r) -> el_link e = Some m -> grips f e -> held f r m -> held f r (el_n e)
| held_to e m : In e (r_brg r) -> el_link e = Some m -> grips f e -> held f r (el_n e) -> held f r m.
(** the rotation of the whole rotor about its own axis (6 dofs) *)
Definition axis_rotation (r : rotor) (x : vec) : Prop :=
  exists th, forall i, (i < r_ndof r)%nat ->
    x i = if ((i <? r_nd r * (r_n_last r + 2)) && Nat.eqb (i mod r_nd r) 5)%bool then th else 0.

(** ** Input that makes sense *)
Definition given_tags (shafts : list rshaft) (disks : list rdisk) (brgs : list rbrg) (pms : list rpmass) : list (option string) :=
  map (fun s => s_tag (rs_s s)) shafts ++ map (fun d => d_tag (rd_d d)) disks ++
  map (fun b => b_tag (brg_base b)) brgs ++ map (fun p => p_tag (rp_p p)) pms.
Definition brg_six (b : rbrg) : bool := match b with RB4 _ _ => false | RB6 _ => true end.
Definition brg_n (b : rbrg) : nat := b_n (brg_base b).
Definition brg_link (b : rbrg) : option nat := b_n_link (brg_base b).
(** The element lists describe a rotor whose shaft has the nodes 0 .. last+1: every tag is given and all
    are different; one kind of dofs; no gap in the shaft; layers of equal positive length; disks on the shaft; no
    two bearings (or seals) share a node; a bearing that does not sit on the shaft sits on a point mass and
    hangs from a bearing with a smaller node; every point mass has a bearing on its node. *)
Record well_formed (shafts : list rshaft) (disks : list rdisk) (brgs : list rbrg) (pms : list rpmass) (last : nat) : Prop := {
  wf_tags : exists ts, given_tags shafts disks brgs pms = map Some ts /\ NoDup ts;
  wf_six : exists six, (forall s, In s shafts -> rs_six s = six) /\ (forall d, In d disks -> rd_six d = six) /\
                       (forall b, In b brgs -> brg_six b = six);
  wf_nodes : forall s, In s shafts -> exists n, s_n (rs_s s) = Some n /\ (n <= last)%nat;
  wf_cover : forall k, (k <= last)%nat -> exists s, In s shafts /\ s_n (rs_s s) = Some k;
  wf_length : forall s s', In s shafts -> In s' shafts -> s_n (rs_s s) = s_n (rs_s s') -> s_L (rs_s s) = s_L (rs_s s');
  wf_positive : forall s, In s shafts -> 0 < s_L (rs_s s);
  wf_disk : forall d, In d disks -> (d_n (rd_d d) <= last + 1)%nat;
  wf_brg_nodes : NoDup (map brg_n brgs);
  wf_brg : forall b, In b brgs -> (brg_n b <= last + 1)%nat \/
     (exists p, In p pms /\ p_n (rp_p p) = brg_n b) /\ exists b', In b' brgs /\ brg_link b' = Some (brg_n b);
  wf_link : forall b m, In b brgs -> brg_link b = Some m -> (brg_n b < m)%nat \/ (m <= last + 1)%nat;
  wf_pm : forall p, In p pms -> exists b, In b brgs /\ brg_n b = p_n (rp_p p) }.
(** The nodes of a rotor that are connected to the shaft: the ends of the shaft elements, the nodes of the disks,
    and the nodes that bearings at connected nodes are linked to. *)
Inductive connected (r : rotor) : nat -> Prop :=
| conn_left e : In e (r_shaft r) -> connected r (el_n e)
| conn_right e : In e (r_shaft r) -> connected r (S (el_n e))
| conn_disk e : In e (r_disk r) -> connected r (el_n e)
| conn_link e m : In e (r_brg r) -> el_link e = Some m -> connected r (el_n e) -> connected r m.
(** what an accepted rotor is guaranteed to satisfy *)
Record accepted (shafts : list rshaft) (disks : list rdisk) (brgs : list rbrg) (pms : list rpmass) (r : rotor) : Prop := {
  acc_shaft : shafts <> [];
  acc_six : exists six, (forall s, In s shafts -> rs_six s = six) /\ (forall d, In d disks -> rd_six d = six) /\
                        (forall b, In b brgs -> brg_six b = six);
  acc_tags : forall i j t, nth_error (given_tags shafts disks brgs pms) i = Some (Some t) ->
                           nth_error (given_tags shafts disks brgs pms) j = Some (Some t) -> i = j;
  acc_disk : forall d, In d disks -> (d_n (rd_d d) <= r_n_last r + 1)%nat;
  acc_brg : forall b, In b brgs -> connected r (brg_n b);
  acc_pm : forall p, In p pms -> exists b, In b brgs /\ brg_n b = p_n (rp_p p) }.
(** Every entry of A is the sum of what the elements of [l] add there. *)
Definition sum_of (f : elem -> res (nat * mat)) (r : rotor) (l : list elem) (A : mat) : Prop :=
  forall i j, A i j = suml (map (fun e => contribution (acts_on (r_nd r) (r_n_last r) e) (el_size f e) (el_mat f e) i j) l).
(** the elements whose tag is in the list *)
Definition tagged (ig : list string) (r : rotor) : list elem :=
  filter (fun e => existsb (String.eqb (el_tag e)) ig) (r_elements r).
Definition untagged (ig : list string) (r : rotor) : list elem :=
  filter (fun e => negb (existsb (String.eqb (el_tag e)) ig)) (r_elements r).
(** nodes and tags are given for every element *)
Definition explicit (shafts : list rshaft) (disks : list rdisk) (brgs : list rbrg) (pms : list rpmass) : Prop :=
  (forall s, In s shafts -> s_n (rs_s s) <> None /\ s_tag (rs_s s) <> None) /\
  (forall d, In d disks -> d_tag (rd_d d) <> None) /\ (forall b, In b brgs -> b_tag (brg_base b) <> None) /\
  (forall p, In p pms -> p_tag (rp_p p) <> None).
