(** Geometry of a shaft cut into elements (specification vocabulary). *)
From Coq Require Import Reals String List Arith.
From Verif Require Import PyBase MatBase MMaterial MShaft SpecShaft MDisk MBearing MRotor SpecRotor MSection.
Import ListNotations.
Open Scope list_scope.
Open Scope R_scope.

(** the diameter at distance z from the left end of a piece of length L with end diameters d0, d1 *)
Definition along (d0 d1 L z : R) : R := d0 + (d1 - d0) * (z / L).

(** The element [s] is the part from z0 to z1 of a piece of length L with the given end diameters. *)
Definition is_part (L il ol ir or z0 z1 : R) (mt : material) (s : shaft) : Prop :=
  s_L s = z1 - z0 /\ s_material s = mt /\
  s_idl s = along il ir L z0 /\ s_odl s = along ol or L z0 /\ s_idr s = along il ir L z1 /\ s_odr s = along ol or L z1.

(** first moment of mass of consecutive elements about the left end of the first one, which lies at z *)
Fixpoint mass_moment (z : R) (l : list shaft) : R :=
  match l with [] => 0 | s :: l => s_m s * (z + s_beam_cg s) + mass_moment (z + s_L s) l end.

(** every element ends with the diameters the next one starts with *)
Fixpoint joined (l : list shaft) : Prop :=
  match l with
  | s :: ((s' :: _) as l') => s_odr s = s_odl s' /\ s_idr s = s_idl s' /\ joined l'
  | _ => True
  end.

(** ** the data given to Rotor.from_section *)
(** missing right diameters equal the left ones *)
Definition right_ends (left : list R) (right : option (list R)) : list R := match right with Some l => l | None => left end.
(** the material of section i *)
Definition section_material (mt : matarg) (i : nat) : option material :=
  match mt with MatOne m => Some m | MatList l => nth_error l i end.
(** axial position of the left end of section i (the right end of the last one for i = number of sections) *)
Definition section_start (lens : list R) (i : nat) : R := suml (firstn i lens).
(** all sections have a positive length and non-empty hollow ends *)
Definition good_sections (lens il ol ir or : list R) : Prop :=
  forall i, (i < length lens)%nat -> good_geometry (nth i lens 0) (nth i il 0) (nth i ol 0) (nth i ir 0) (nth i or 0).

(** The lists given to from_section describe a rotor: one entry per section in every list, at least one section and one
    element per section, positive lengths, a material for every section; disks and bearings with 4 dofs on the section ends, bearings on
    different nodes and on the ground or linked to one of the first nodes; all tags given, different, and not one of the names the shaft elements get. *)
Record good_section_input (lens il ol : list R) (ir or : option (list R)) (mt : matarg) (disks : list rdisk) (brgs : list rbrg) (nel : nat) : Prop := {
  gi_some : (0 < length lens)%nat; gi_nel : (0 < nel)%nat;
  gi_il : length il = length lens; gi_ol : length ol = length lens;
  gi_ir : length (right_ends il ir) = length lens; gi_or : length (right_ends ol or) = length lens;
  gi_pos : forall L, In L lens -> 0 < L;
  gi_mt : match mt with MatOne _ => True | MatList l => length l = length lens end;
  gi_disk : forall d, In d disks -> rd_six d = false /\ (d_n (rd_d d) <= length lens)%nat;
  gi_brg : forall b, In b brgs -> brg_six b = false /\ (brg_n b <= length lens)%nat /\ forall m, brg_link b = Some m -> (m <= length lens)%nat;
  gi_brg_nodes : NoDup (map brg_n brgs);
  gi_tags : exists ts, map (fun d => d_tag (rd_d d)) disks ++ map (fun b => b_tag (brg_base b)) brgs = map Some ts /\ NoDup ts /\
              forall t k, In t ts -> t <> default_tag "ShaftElement " k None }.

(** ** refining a rotor *)
(** the shaft elements of a rotor *)
Definition shafts_of (r : rotor) : list shaft := flat_map (fun e => match e with EShaft _ _ _ s => [s] | _ => [] end) (r_shaft r).
(** one element between every two nodes: element k of the list starts at node k *)
Definition unlayered (r : rotor) : Prop := forall k e, nth_error (r_shaft r) k = Some e -> el_n e = k.
(** a shaft element with constant diameters built from meaningful arguments *)
Definition good_cyl (s : shaft) : Prop :=
  (exists a, shaft_init a = Ok s /\ good_args a) /\ s_idl s = s_idr s /\ s_odl s = s_odr s.

(** [r'] is [r] with every shaft element cut into nel equal elements: same material and diameters, disks and bearings with the same
    matrices and tags at the same places, the same mass, centre of gravity and polar inertia. *)
Record refinement (nel : nat) (r r' : rotor) : Prop := {
  re_count : length (r_shaft r') = (nel * length (r_shaft r))%nat;
  re_shaft : forall k j s, nth_error (shafts_of r) k = Some s -> (j < nel)%nat ->
    exists t s', nth_error (r_shaft r') (nel * k + j) = Some (EShaft false (nel * k + j) t s') /\
      s_L s' = s_L s / INR nel /\ s_material s' = s_material s /\
      s_idl s' = s_idl s /\ s_odl s' = s_odl s /\ s_idr s' = s_idr s /\ s_odr s' = s_odr s /\
      s_shear_effects s' = s_shear_effects s /\ s_rotary_inertia s' = s_rotary_inertia s /\ s_gyroscopic s' = s_gyroscopic s;
  re_nodes : length (r_nodes_pos r') = S (nel * length (r_shaft r));
  re_pos : forall k j s, nth_error (shafts_of r) k = Some s -> (j <= nel)%nat ->
    nth (nel * k + j) (r_nodes_pos r') 0 = nth k (r_nodes_pos r) 0 + INR j * (s_L s / INR nel);
  re_disk : forall k e, nth_error (r_disk r) k = Some e -> exists e', nth_error (r_disk r') k = Some e' /\
    el_tag e' = el_tag e /\ nth (el_n e') (r_nodes_pos r') 0 = nth (el_n e) (r_nodes_pos r) 0 /\
    forall spl w, el_M spl w e' = el_M spl w e /\ el_G spl e' = el_G spl e;
  re_ndisk : length (r_disk r') = length (r_disk r);
  re_brg : forall e, In e (r_brg r) -> exists e', In e' (r_brg r') /\
    el_tag e' = el_tag e /\ el_n e' = (nel * el_n e)%nat /\ el_link e' = el_link e /\
    forall spl w, el_M spl w e' = el_M spl w e /\ el_K spl w e' = el_K spl w e /\ el_C spl w e' = el_C spl w e;
  re_nbrg : length (r_brg r') = length (r_brg r);
  re_m : r_m r' = r_m r; re_Ip : r_Ip r' = r_Ip r; re_CG : r_m r <> 0 -> r_CG r' = r_CG r }.
(** what a rotor must satisfy for [convergence] to keep its geometry: meaningful cylindrical shaft elements, one between
    every two nodes *)
Record refinable (r : rotor) : Prop := {
  rn_line : unlayered r; rn_cyl : forall s, In s (shafts_of r) -> good_cyl s }.

(** The rotor built by from_section out of nel elements per section. *)
Record built_from (lens il ol ir or : list R) (mt : matarg) (disks : list rdisk) (brgs : list rbrg) (nel : nat) (r : rotor) : Prop := {
  bf_nodes : length (r_nodes_pos r) = S (nel * length lens);
  bf_pos : forall k j, (k < length lens)%nat -> (j <= nel)%nat ->
    nth (nel * k + j) (r_nodes_pos r) 0 = section_start lens k + INR j * (nth k lens 0 / INR nel);
  bf_ends : forall k, (k <= length lens)%nat -> nth (nel * k) (r_nodes_pos r) 0 = section_start lens k;
  bf_count : length (r_shaft r) = (nel * length lens)%nat;
  bf_shaft : forall k j, (k < length lens)%nat -> (j < nel)%nat ->
    exists t s m, nth_error (r_shaft r) (nel * k + j) = Some (EShaft false (nel * k + j) t s) /\ section_material mt k = Some m /\
      is_part (nth k lens 0) (nth k il 0) (nth k ol 0) (nth k ir 0) (nth k or 0)
        (INR j * (nth k lens 0 / INR nel)) ((INR j + 1) * (nth k lens 0 / INR nel)) m s /\
      s_shear_effects s = true /\ s_rotary_inertia s = true /\ s_gyroscopic s = true /\
      s_axial_force s = 0 /\ s_torque s = 0 /\ s_alpha s = 0 /\ s_beta s = 0;
  bf_ndisk : length (r_disk r) = length disks;
  bf_disk : forall i d, nth_error disks i = Some d -> exists t d', nth_error (r_disk r) i = Some (EDisk (rd_six d) t d') /\
    d_n d' = (nel * d_n (rd_d d))%nat /\ nth (d_n d') (r_nodes_pos r) 0 = section_start lens (d_n (rd_d d)) /\
    d_m d' = d_m (rd_d d) /\ d_Id d' = d_Id (rd_d d) /\ d_Ip d' = d_Ip (rd_d d);
  bf_nbrg : length (r_brg r) = length brgs;
  bf_brg : forall b, In b brgs -> exists e, In e (r_brg r) /\ el_n e = (nel * brg_n b)%nat /\ el_link e = brg_link b /\
    ((brg_n b <= length lens)%nat -> nth (el_n e) (r_nodes_pos r) 0 = section_start lens (brg_n b)) /\
    forall t spl w, el_M spl w e = el_M spl w (EBrg t b) /\ el_K spl w e = el_K spl w (EBrg t b) /\ el_C spl w e = el_C spl w (EBrg t b);
  bf_pm : r_pm r = [] }.
