(** What the static analysis means (specification vocabulary for C48). *)
From Coq Require Import Reals String List Arith Bool.
From Verif Require Import PyBase PyDict MatBase SpecMat MMaterial MShaft MDisk MBearing MRotor SpecRotor.
Import ListNotations.
Open Scope list_scope.
Open Scope R_scope.

(** the acceleration of gravity used by the analysis *)
Definition g0 : R := 98065 / 10000.

(** The bearings that carry the shaft: every bearing that is not a seal and sits on a node of the shaft. *)
Definition carries (r : rotor) (e : elem) : bool :=
  match e with EBrg _ (RB4 true _) => false | _ => (el_n e <? length (r_nodes_pos r))%nat end.
Definition carriers (r : rotor) : list elem := filter (carries r) (r_brg r).
Definition supports (r : rotor) : list nat := map el_n (carriers r).
(** no such bearing connects the shaft to another node of the same shaft *)
Definition apart (r : rotor) : Prop :=
  forall e m, In e (carriers r) -> el_link e = Some m -> (length (r_nodes_pos r) <= m)%nat.

(** no shaft element or disk has a tag of the form "Bearing <number>" *)
Definition free_tags (r : rotor) : Prop := forall e i, In e (r_shaft r ++ r_disk r) -> el_tag e <> ("Bearing " ++ str i)%string.

(** position of a node *)
Definition zpos (r : rotor) (k : nat) : R := nth k (r_nodes_pos r) 0.

(** Lateral motions: with six dofs per node the axial displacement and the twist are zero. *)
Definition lateral_motion (r : rotor) (x : vec) : Prop :=
  r_nd r = 6%nat -> forall k, x (6 * k + 2)%nat = 0 /\ x (6 * k + 5)%nat = 0.
(** Work of the elastic and inertia forces of an element, for the motions x and y of the whole rotor *)
Definition work (f : elem -> res (nat * mat)) (r : rotor) (x y : vec) (e : elem) : R :=
  bform (el_size f e) (el_mat f e) (gather (acts_on (r_nd r) (r_n_last r) e) x) (gather (acts_on (r_nd r) (r_n_last r) e) y).
(** the upward unit acceleration of every node *)
Definition lift (r : rotor) : vec := fun i => if Nat.eqb (i mod r_nd r) 1 then 1 else 0.

(** work of a unit stiffness in both lateral directions between node n and the ground *)
Definition support_work (r : rotor) (x y : vec) (n : nat) : R :=
  x (r_nd r * n)%nat * y (r_nd r * n)%nat + x (r_nd r * n + 1)%nat * y (r_nd r * n + 1)%nat.
(** number of bearings that carry the shaft at a node *)
Definition support_count (r : rotor) (k : nat) : nat := length (filter (Nat.eqb k) (supports r)).

(** value of a key in a dictionary of nodes *)
Fixpoint lookup (d : list (nat * R)) (n : nat) : option R :=
  match d with [] => None | (m, v) :: d => if Nat.eqb n m then Some v else lookup d n end.
(** the force in the dictionary, 0 when the node is not there *)
Definition force_at (d : list (nat * R)) (n : nat) : R := default 0 (lookup d n).

(** ** Loads on the shaft *)
(** total mass of the disks at a node *)
Definition disk_mass (r : rotor) (k : nat) : R := suml (map dk_m (filter (fun e => Nat.eqb (el_n e) k) (r_disk r))).
(** upward load at node k: reaction minus weight of the disks *)
Definition node_load (r : rotor) (react : nat -> R) (k : nat) : R := react k - g0 * disk_mass r k.
(** The resultant of everything to the right of the left (right) end of the elements that start at node j, upward. *)
Definition resultant (r : rotor) (react : nat -> R) (j i : nat) : R :=
  suml (map (node_load r react) (seq (S j) (r_n_last r + 1 - j)))
  - g0 * suml (map sh_m (filter (fun e => (i <=? el_n e)%nat) (r_shaft r))).
(** The moment about node j of everything to its right: loads at the nodes, and the weight of every element acting at
    its centre of gravity. *)
Definition moment_right (r : rotor) (react : nat -> R) (j : nat) : R :=
  suml (map (fun k => (zpos r k - zpos r j) * node_load r react k) (seq (S j) (r_n_last r + 1 - j)))
  - g0 * suml (map (fun e => sh_m e * (zpos r (el_n e) + sh_cg e - zpos r j)) (filter (fun e => (j <=? el_n e)%nat) (r_shaft r))).

(** ** Conical elements *)
(** mass of a prism of the section of the right end minus that of the left end *)
Definition mass_rise (e : elem) : R := match e with EShaft _ _ _ s => mrho (s_material s) * s_L s * (s_A_r s - s_A_l s) | _ => 0 end.
(** the part of the mass that the shape functions of the element put at the right end instead of the left one, compared with the levers of
    the centre of gravity *)
Definition shift (e : elem) : R := match e with EShaft _ _ _ s => mass_rise e / (60 * (1 + s_phi s)) | _ => 0 end.
Definition shift_at (r : rotor) (j : nat) : R := suml (map shift (filter (fun e => Nat.eqb (el_n e) j) (r_shaft r))).
(** error of the trapezoidal rule over the element, less the moment of the shifted mass *)
Definition bend_error (e : elem) : R := mass_rise e * sh_L e / 12 - sh_L e * shift e.
Definition bend_at (r : rotor) (j : nat) : R := suml (map bend_error (filter (fun e => Nat.eqb (el_n e) j) (r_shaft r))).
