(** What a user expects of a co-axial rotor, without reference to how CoAxialRotor computes it. *)
From Coq Require Import Reals String List Bool Arith.
From Verif Require Import PyBase MatBase MMaterial MShaft MDisk MBearing MRotor MShare SpecRotor.
Import ListNotations.
Open Scope list_scope.
Open Scope R_scope.

(** A shaft with k elements has k + 1 nodes; the nodes of the shafts follow each other. First node of shaft j: *)
Fixpoint first_node {A} (shafts : list (list A)) (j : nat) : nat :=
  match j, shafts with S j, s :: shafts => (length s + 1 + first_node shafts j)%nat | _, _ => 0%nat end.
(** node n belongs to shaft j *)
Definition on_node {A} (shafts : list (list A)) (j n : nat) : Prop :=
  exists s, nth_error shafts j = Some s /\ (first_node shafts j <= n <= first_node shafts j + length s)%nat.
(** place of element k of shaft j when all elements are counted *)
Definition rank {A} (shafts : list (list A)) (j k : nat) : nat := (length (concat (firstn j shafts)) + k)%nat.

(** every shaft has an element, no element object is used twice *)
Definition proper (shafts : list (list ref)) : Prop := (forall s, In s shafts -> s <> []) /\ NoDup (concat shafts).
(** the caller leaves the numbering (the naming) to the constructor *)
Definition unnumbered (st : ref -> rshaft) (shafts : list (list ref)) : Prop := forall x, In x (concat shafts) -> s_n (rs_s (st x)) = None.
Definition untagged_shafts (st : ref -> rshaft) (shafts : list (list ref)) : Prop := forall x, In x (concat shafts) -> s_tag (rs_s (st x)) = None.

(** distance from the first to the k-th node of a shaft whose elements have lengths [L] *)
Definition along (L : list R) (k : nat) : R := suml (firstn k L).
Definition lengths (st : ref -> rshaft) (shaft : list ref) : list R := map (fun x => s_L (rs_s (st x))) shaft.

(** Two shafts of p and q elements; exactly one bearing (not a seal) is linked to a node of a shaft: it leads from node a of the first shaft to
    node b of the second. *)
Definition one_link (brgs : list rbrg) (p q a b : nat) : Prop :=
  (a <= p)%nat /\ (b <= q)%nat /\
  (exists s, In (RB4 false s) brgs /\ b_n s = a /\ b_n_link s = Some (p + 1 + b)%nat) /\
  (forall x m, In x brgs -> brg_link x = Some m -> (m <= p + q + 1)%nat -> brg_n x = a /\ m = (p + 1 + b)%nat).
(** no bearing is linked to a node of a shaft *)
Definition no_link (brgs : list rbrg) (last : nat) : Prop := forall x m, In x brgs -> brg_link x = Some m -> (last + 1 < m)%nat.

(** The elements on both sides of the connected nodes have the same length in both shafts. *)
Definition same_mesh (La Lb : list R) (a b : nat) : Prop :=
  ((a < length La)%nat -> (b < length Lb)%nat -> nth a La 0 = nth b Lb 0) /\
  ((0 < a)%nat -> (0 < b)%nat -> nth (a - 1) La 0 = nth (b - 1) Lb 0).
(** The connected node is an end of the second shaft, or a node inside the first. *)
Definition tidy (p q a b : nat) : Prop := ((0 < b)%nat -> (0 < a)%nat) /\ ((0 < b < q)%nat -> (a < p)%nat).

(** Where node k of the second shaft is, when its node b is where node a of the first is. *)
Definition outer_pos (La Lb : list R) (a b k : nat) : R := along La a + (along Lb k - along Lb b).
Definition node_at (La Lb : list R) (a b n : nat) : R :=
  if (n <=? length La)%nat then along La n else outer_pos La Lb a b (n - length La - 1).

(** First moments about the origin: element k of a shaft has its left end at [pos k], node n is at [where_ n]. *)
Definition shaft_moment (st : ref -> rshaft) (shaft : list ref) (pos : nat -> R) : R :=
  suml (mapi (fun k x => s_m (rs_s (st x)) * (s_beam_cg (rs_s (st x)) + pos k)) 0 shaft).
Definition disk_moment (disks : list rdisk) (where_ : nat -> R) : R := suml (map (fun d => d_m (rd_d d) * where_ (d_n (rd_d d))) disks).
Definition shaft_mass (st : ref -> rshaft) (shaft : list ref) : R := suml (map (fun x => s_m (rs_s (st x))) shaft).
