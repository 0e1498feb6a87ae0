(** What it means that rotors can share elements: property C60. *)
From Coq Require Import Reals String List Bool Arith.
From Verif Require Import PyBase MatBase MMaterial MShaft MDisk MBearing MRotor SpecRotor MShare.
Import ListNotations.
Open Scope list_scope.
Open Scope R_scope.

(** The rotor object [hr], looked at in heap [h], is the rotor [r] made of plain values: all its matrices and all attributes it computes. *)
Record behaves_as (h : heap) (hr : hrotor) (r : rotor) : Prop := {
  ba_M : forall spl w, now_M spl h hr w = rotor_M spl r w;
  ba_Ms : forall spl w, now_M_sync spl h hr w = rotor_M_sync spl r w;
  ba_K : forall spl w ignore, now_K spl h hr w ignore = rotor_K spl r w ignore;
  ba_C : forall spl w ignore, now_C spl h hr w ignore = rotor_C spl r w ignore;
  ba_G : forall spl, now_G spl h hr = rotor_G spl r;
  ba_attributes : let v := hr_val hr in
    (r_nd v, r_n_last v, r_ndof v, r_nodes_pos v, r_shaft_pos v, r_m_disks v, r_m_shaft v, r_m v, r_CG v, r_Ip v)
    = (r_nd r, r_n_last r, r_ndof r, r_nodes_pos r, r_shaft_pos r, r_m_disks r, r_m_shaft r, r_m r, r_CG r, r_Ip r) }.

(** the values of the objects named in a call *)
Definition shafts_of (h : heap) (c : call) : list rshaft := map (h_sh h) (c_sh c).
Definition disks_of (h : heap) (c : call) : list rdisk := map (fun x => fst (h_dk h x)) (c_dk c).
Definition brgs_of (h : heap) (c : call) : list rbrg := map (fun x => fst (h_br h x)) (c_br c).
Definition pms_of (h : heap) (c : call) : list rpmass := map (fun x => fst (h_pm h x)) (c_pm c).
(** no object is named twice *)
Definition distinct (c : call) : Prop := NoDup (c_dk c) /\ NoDup (c_br c) /\ NoDup (c_pm c).
(** every disk, bearing and point mass of the call already has a tag *)
Definition all_tagged (h : heap) (c : call) : Prop :=
  (forall x, In x (c_dk c) -> d_tag (rd_d (fst (h_dk h x))) <> None) /\
  (forall x, In x (c_br c) -> b_tag (brg_base (fst (h_br h x))) <> None) /\
  (forall x, In x (c_pm c) -> p_tag (rp_p (fst (h_pm h x))) <> None).

(** left node of the last shaft element: the greatest of the nodes given, or of the places in the list where none is given *)
Definition last_node (shafts : list rshaft) : nat := max_list (mapi (fun i s => default i (s_n (rs_s s))) 0 shafts).
Definition dofs_per_node (six : bool) : nat := if six then 6%nat else 4%nat.

(** A later call [c] leaves the shared elements of rotor [hr] in their place: its shaft has the same last node, or the elements it shares
    with [hr] sit on nodes up to the first one after the shorter of the two shafts. Disks are always on the shaft. A shared point mass must
    also go to a rotor of the same kind. *)
Definition near (hr : hrotor) (shafts : list rshaft) (n : nat) : Prop :=
  last_node shafts = r_n_last (hr_val hr) \/ (n <= Nat.min (last_node shafts) (r_n_last (hr_val hr)) + 2)%nat.
Record fits (h : heap) (hr : hrotor) (c : call) : Prop := {
  fits_br : forall x, In x (hr_br hr) -> In x (c_br c) -> near hr (shafts_of h c) (brg_n (fst (h_br h x))) /\
            forall m, brg_link (fst (h_br h x)) = Some m -> near hr (shafts_of h c) m;
  fits_pm : forall x, In x (hr_pm hr) -> In x (c_pm c) -> near hr (shafts_of h c) (p_n (rp_p (fst (h_pm h x)))) /\
            forall s, In s (shafts_of h c) -> r_nd (hr_val hr) = dofs_per_node (rs_six s) }.
