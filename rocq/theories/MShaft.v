(** Model of ross/shaft_element.py: ShaftElement and ShaftElement6DoF.
    Floats are real numbers. The coefficient tables are transcribed entry by entry. *)
From Coq Require Import Reals List String Bool.
From Verif Require Import PyBase MatBase MMaterial.
Import ListNotations.
Open Scope R_scope.

(** The argument shear_method_calc, ross/shaft_element.py:275-293; [OtherMethod] stands for
    every string other than the two implemented ones. *)
Inductive shear_method := Hutchinson | Cowper | OtherMethod.

(** Constructor arguments, ross/shaft_element.py:142-160.
    Not modelled: the material given by name (see MMaterial.load_material), units (MUnits). *)
Record shaft_args := mkShaftArgs {
  a_L : R; a_idl : R; a_odl : R; a_idr : option R; a_odr : option R;
  a_material : option material; a_n : option nat;
  a_axial_force : R; a_torque : R;
  a_shear_effects : bool; a_rotary_inertia : bool; a_gyroscopic : bool;
  a_method : shear_method; a_tag : option string; a_alpha : R; a_beta : R }.

(** Attributes of a constructed element, ross/shaft_element.py:173-306. *)
Record shaft := mkShaft {
  s_material : material; s_n : option nat; s_tag : option string;
  s_axial_force : R; s_torque : R;
  s_shear_effects : bool; s_rotary_inertia : bool; s_gyroscopic : bool;
  s_L : R; s_idl : R; s_odl : R; s_idr : R; s_odr : R; s_alpha : R; s_beta : R;
  s_A_l : R; s_A_r : R; s_Ie_l : R; s_Ie_r : R; s_volume : R; s_m : R;
  s_a1 : R; s_a2 : R; s_b1 : R; s_b2 : R; s_gama : R; s_delta : R;
  s_A : R; s_Ie : R; s_beam_cg : R; s_slenderness : R; s_Im : R;
  s_kappa : R; (* 0 when shear effects are off: the attribute is then not set *)
  s_phi : R }.

(** The shear coefficient kappa, ross/shaft_element.py:271-293. *)
Definition shear_kappa (meth : shear_method) (nu idl odl idr odr : R) : res R :=
  let r := ((idl + idr) / 2) / ((odl + odr) / 2) in
  let r2 := r * r in
  let r12 := (1 + r2) ^ 2 in
  match meth with
  | Hutchinson =>
      Ok (6 * r12 * ((1 + nu) / (r12 * (7 + 12 * nu + 4 * nu ^ 2) + 4 * r2 * (5 + 6 * nu + 2 * nu ^ 2))))
  | Cowper =>
      Ok (6 * r12 * ((1 + nu) / (r12 * (7 + 6 * nu) + r2 * (20 + 12 * nu))))
  | OtherMethod => Err WarningExn
  end.

(** ShaftElement.__init__, ross/shaft_element.py:141-306. *)
Definition shaft_init (a : shaft_args) : res shaft :=
  let L := a_L a in
  let idl := a_idl a in
  let odl := a_odl a in
  let idr := default idl (a_idr a) in
  let odr := default odl (a_odr a) in
  match a_material a with
  | None => Err AttributeError
  | Some mt =>
    let A_l := PI * (odl ^ 2 - idl ^ 2) / 4 in
    let A_r := PI * (odr ^ 2 - idr ^ 2) / 4 in
    let Ie_l := PI * (odl ^ 4 - idl ^ 4) / 64 in
    let Ie_r := PI * (odr ^ 4 - idr ^ 4) / 64 in
    let outer := odl ^ 2 + odl * odr + odr ^ 2 in
    let inner := idl ^ 2 + idl * idr + idr ^ 2 in
    let volume := PI * (L / 12) * (outer - inner) in
    let m := mrho mt * volume in
    let roj := odl / 2 in
    let rij := idl / 2 in
    let rok := odr / 2 in
    let rik := idr / 2 in
    let delta_ro := rok - roj in
    let delta_ri := rik - rij in
    let a1 := 2 * PI * (roj * delta_ro - rij * delta_ri) / A_l in
    let a2 := PI * (roj ^ 3 * delta_ro - rij ^ 3 * delta_ri) / Ie_l in
    let b1 := PI * (delta_ro ^ 2 - delta_ri ^ 2) / A_l in
    let b2 := 3 * PI * (roj ^ 2 * delta_ro ^ 2 - rij ^ 2 * delta_ri ^ 2) / (2 * Ie_l) in
    let gama := PI * (roj * delta_ro ^ 3 - rij * delta_ri ^ 3) / Ie_l in
    let delta := PI * (delta_ro ^ 4 - delta_ri ^ 4) / (4 * Ie_l) in
    let A := A_l * (1 + a1 * (1 / 2) + b1 * (1 / 2) ^ 2) in
    let Ie := Ie_l * (1 + a2 * (1 / 2) + b2 * (1 / 2) ^ 2 + gama * (1 / 2) ^ 3 + delta * (1 / 2) ^ 4) in
    let c1 := roj ^ 2 + 2 * roj * rok + 3 * rok ^ 2 - rij ^ 2 - 2 * rij * rik - 3 * rik ^ 2 in
    let c2 := (roj ^ 2 + roj * rok + rok ^ 2) - (rij ^ 2 + rij * rik + rik ^ 2) in
    let beam_cg := L * c1 / (4 * c2) in
    let sld := (mG_s mt * A * L ^ 2) / (mE mt * Ie) in
    let Im := (PI * L * (m / volume) / 10) *
       ((roj ^ 4 + roj ^ 3 * rok + roj ^ 2 * rok ^ 2 + roj * rok ^ 3 + rok ^ 4) -
        (rij ^ 4 + rij ^ 3 * rik + rij ^ 2 * rik ^ 2 + rij * rik ^ 3 + rik ^ 4)) in
    let mk := fun kappa phi =>
      mkShaft mt (a_n a) (a_tag a) (a_axial_force a) (a_torque a)
        (a_shear_effects a) (a_rotary_inertia a) (a_gyroscopic a)
        L idl odl idr odr (a_alpha a) (a_beta a)
        A_l A_r Ie_l Ie_r volume m a1 a2 b1 b2 gama delta A Ie beam_cg sld Im kappa phi in
    if a_shear_effects a then
      match shear_kappa (a_method a) (mPoisson mt) idl odl idr odr with
      | Err e => Err e
      | Ok kappa => Ok (mk kappa (12 * mE mt * Ie / (mG_s mt * kappa * A * L ^ 2)))
      end
    else Ok (mk 0 0)
  end.

(** ** Coefficient tables of the four degree of freedom element *)

(* ShaftElement.M: m1, ross/shaft_element.py:532-536 *)
Definition m1 (s : shaft) : R :=
  468 + 882 * s.(s_phi) + 420 * s.(s_phi) ^ 2 + s.(s_a1) * (108 + 210 * s.(s_phi) + 105 * s.(s_phi) ^ 2) + s.(s_b1) * (38 + 78 * s.(s_phi) + 42 * s.(s_phi) ^ 2).
(* ShaftElement.M: m2, ross/shaft_element.py:537-541 *)
Definition m2 (s : shaft) : R :=
  66 + 231/2 * s.(s_phi) + 105/2 * s.(s_phi) ^ 2 + s.(s_a1) * (21 + 81/2 * s.(s_phi) + 21 * s.(s_phi) ^ 2) + s.(s_b1) * (17/2 + 18 * s.(s_phi) + 21/2 * s.(s_phi) ^ 2).
(* ShaftElement.M: m3, ross/shaft_element.py:542-546 *)
Definition m3 (s : shaft) : R :=
  162 + 378 * s.(s_phi) + 210 * s.(s_phi) ^ 2 + s.(s_a1) * (81 + 189 * s.(s_phi) + 105 * s.(s_phi) ^ 2) + s.(s_b1) * (46 + 111 * s.(s_phi) + 63 * s.(s_phi) ^ 2).
(* ShaftElement.M: m4, ross/shaft_element.py:547-551 *)
Definition m4 (s : shaft) : R :=
  39 + 189/2 * s.(s_phi) + 105/2 * s.(s_phi) ^ 2 + s.(s_a1) * (18 + 81/2 * s.(s_phi) + 21 * s.(s_phi) ^ 2) + s.(s_b1) * (19/2 + 21 * s.(s_phi) + 21/2 * s.(s_phi) ^ 2).
(* ShaftElement.M: m5, ross/shaft_element.py:552-556 *)
Definition m5 (s : shaft) : R :=
  12 + 21 * s.(s_phi) + 21/2 * s.(s_phi) ^ 2 + s.(s_a1) * (9/2 + 9 * s.(s_phi) + 21/4 * s.(s_phi) ^ 2) + s.(s_b1) * (2 + 9/2 * s.(s_phi) + 3 * s.(s_phi) ^ 2).
(* ShaftElement.M: m6, ross/shaft_element.py:557-561 *)
Definition m6 (s : shaft) : R :=
  39 + 189/2 * s.(s_phi) + 105/2 * s.(s_phi) ^ 2 + s.(s_a1) * (21 + 54 * s.(s_phi) + 63/2 * s.(s_phi) ^ 2) + s.(s_b1) * (25/2 + 69/2 * s.(s_phi) + 21 * s.(s_phi) ^ 2).
(* ShaftElement.M: m7, ross/shaft_element.py:562-566 *)
Definition m7 (s : shaft) : R :=
  9 + 21 * s.(s_phi) + 21/2 * s.(s_phi) ^ 2 + s.(s_a1) * (9/2 + 21/2 * s.(s_phi) + 21/4 * s.(s_phi) ^ 2) + s.(s_b1) * (5/2 + 6 * s.(s_phi) + 3 * s.(s_phi) ^ 2).
(* ShaftElement.M: m8, ross/shaft_element.py:567-571 *)
Definition m8 (s : shaft) : R :=
  468 + 882 * s.(s_phi) + 420 * s.(s_phi) ^ 2 + s.(s_a1) * (360 + 672 * s.(s_phi) + 315 * s.(s_phi) ^ 2) + s.(s_b1) * (290 + 540 * s.(s_phi) + 252 * s.(s_phi) ^ 2).
(* ShaftElement.M: m9, ross/shaft_element.py:572-576 *)
Definition m9 (s : shaft) : R :=
  66 + 231/2 * s.(s_phi) + 105/2 * s.(s_phi) ^ 2 + s.(s_a1) * (45 + 75 * s.(s_phi) + 63/2 * s.(s_phi) ^ 2) + s.(s_b1) * (65/2 + 105/2 * s.(s_phi) + 21 * s.(s_phi) ^ 2).
(* ShaftElement.M: m10, ross/shaft_element.py:577-581 *)
Definition m10 (s : shaft) : R :=
  12 + 21 * s.(s_phi) + 21/2 * s.(s_phi) ^ 2 + s.(s_a1) * (15/2 + 12 * s.(s_phi) + 21/4 * s.(s_phi) ^ 2) + s.(s_b1) * (5 + 15/2 * s.(s_phi) + 3 * s.(s_phi) ^ 2).

(** ShaftElement.M: the literal table Mt, ross/shaft_element.py:584-593. *)
Definition Mt_tab (s : shaft) : mat := lmat [
  [(m1 s); 0; 0; s.(s_L) * (m2 s); (m3 s); 0; 0; (- s.(s_L)) * (m4 s)];
  [0; (m1 s); (- s.(s_L)) * (m2 s); 0; 0; (m3 s); s.(s_L) * (m4 s); 0];
  [0; (- s.(s_L)) * (m2 s); s.(s_L) ^ 2 * (m5 s); 0; 0; (- s.(s_L)) * (m6 s); (- s.(s_L) ^ 2) * (m7 s); 0];
  [s.(s_L) * (m2 s); 0; 0; s.(s_L) ^ 2 * (m5 s); s.(s_L) * (m6 s); 0; 0; (- s.(s_L) ^ 2) * (m7 s)];
  [(m3 s); 0; 0; s.(s_L) * (m6 s); (m8 s); 0; 0; (- s.(s_L)) * (m9 s)];
  [0; (m3 s); (- s.(s_L)) * (m6 s); 0; 0; (m8 s); s.(s_L) * (m9 s); 0];
  [0; s.(s_L) * (m4 s); (- s.(s_L) ^ 2) * (m7 s); 0; 0; s.(s_L) * (m9 s); s.(s_L) ^ 2 * (m10 s); 0];
  [(- s.(s_L)) * (m4 s); 0; 0; (- s.(s_L) ^ 2) * (m7 s); (- s.(s_L)) * (m9 s); 0; 0; s.(s_L) ^ 2 * (m10 s)]].

(* ShaftElement.M: m11, ross/shaft_element.py:599-599 *)
Definition m11 (s : shaft) : R :=
  252 + 126 * s.(s_a2) + 72 * s.(s_b2) + 45 * s.(s_gama) + 30 * s.(s_delta).
(* ShaftElement.M: m12, ross/shaft_element.py:600-606 *)
Definition m12 (s : shaft) : R :=
  21 - 105 * s.(s_phi) + s.(s_a2) * (21 - 42 * s.(s_phi)) + s.(s_b2) * (15 - 21 * s.(s_phi)) + s.(s_gama) * (21/2 - 12 * s.(s_phi)) + s.(s_delta) * (15/2 - 15/2 * s.(s_phi)).
(* ShaftElement.M: m13, ross/shaft_element.py:607-613 *)
Definition m13 (s : shaft) : R :=
  21 - 105 * s.(s_phi) - 63 * s.(s_a2) * s.(s_phi) - s.(s_b2) * (6 + 42 * s.(s_phi)) - s.(s_gama) * (15/2 + 30 * s.(s_phi)) - s.(s_delta) * (15/2 + 45/2 * s.(s_phi)).
(* ShaftElement.M: m14, ross/shaft_element.py:614-620 *)
Definition m14 (s : shaft) : R :=
  28 + 35 * s.(s_phi) + 70 * s.(s_phi) ^ 2 + s.(s_a2) * (7 - 7 * s.(s_phi) + 35/2 * s.(s_phi) ^ 2) + s.(s_b2) * (4 - 7 * s.(s_phi) + 7 * s.(s_phi) ^ 2) + s.(s_gama) * (11/4 - 5 * s.(s_phi) + 7/2 * s.(s_phi) ^ 2) + s.(s_delta) * (2 - 7/2 * s.(s_phi) + 2 * s.(s_phi) ^ 2).
(* ShaftElement.M: m15, ross/shaft_element.py:621-627 *)
Definition m15 (s : shaft) : R :=
  7 + 35 * s.(s_phi) - 35 * s.(s_phi) ^ 2 + s.(s_a2) * (7/2 + 35/2 * s.(s_phi) - 35/2 * s.(s_phi) ^ 2) + s.(s_b2) * (3 + 21/2 * s.(s_phi) - 21/2 * s.(s_phi) ^ 2) + s.(s_gama) * (11/4 + 7 * s.(s_phi) - 7 * s.(s_phi) ^ 2) + s.(s_delta) * (5/2 + 5 * s.(s_phi) - 5 * s.(s_phi) ^ 2).
(* ShaftElement.M: m16, ross/shaft_element.py:628-634 *)
Definition m16 (s : shaft) : R :=
  28 + 35 * s.(s_phi) + 70 * s.(s_phi) ^ 2 + s.(s_a2) * (21 + 42 * s.(s_phi) + 105/2 * s.(s_phi) ^ 2) + s.(s_b2) * (18 + 42 * s.(s_phi) + 42 * s.(s_phi) ^ 2) + s.(s_gama) * (65/4 + 40 * s.(s_phi) + 35 * s.(s_phi) ^ 2) + s.(s_delta) * (15 + 75/2 * s.(s_phi) + 30 * s.(s_phi) ^ 2).

(** ShaftElement.M: the literal table Mr, ross/shaft_element.py:636-645. *)
Definition Mr_tab (s : shaft) : mat := lmat [
  [(m11 s); 0; 0; s.(s_L) * (m12 s); - (m11 s); 0; 0; s.(s_L) * (m13 s)];
  [0; (m11 s); (- s.(s_L)) * (m12 s); 0; 0; - (m11 s); (- s.(s_L)) * (m13 s); 0];
  [0; (- s.(s_L)) * (m12 s); s.(s_L) ^ 2 * (m14 s); 0; 0; s.(s_L) * (m12 s); (- s.(s_L) ^ 2) * (m15 s); 0];
  [s.(s_L) * (m12 s); 0; 0; s.(s_L) ^ 2 * (m14 s); (- s.(s_L)) * (m12 s); 0; 0; (- s.(s_L) ^ 2) * (m15 s)];
  [- (m11 s); 0; 0; (- s.(s_L)) * (m12 s); (m11 s); 0; 0; (- s.(s_L)) * (m13 s)];
  [0; - (m11 s); s.(s_L) * (m12 s); 0; 0; (m11 s); s.(s_L) * (m13 s); 0];
  [0; (- s.(s_L)) * (m13 s); (- s.(s_L) ^ 2) * (m15 s); 0; 0; s.(s_L) * (m13 s); s.(s_L) ^ 2 * (m16 s); 0];
  [s.(s_L) * (m13 s); 0; 0; (- s.(s_L) ^ 2) * (m15 s); (- s.(s_L)) * (m13 s); 0; 0; s.(s_L) ^ 2 * (m16 s)]].

(* ShaftElement.K: k1, ross/shaft_element.py:688-688 *)
Definition k1 (s : shaft) : R :=
  1260 + 630 * s.(s_a2) + 504 * s.(s_b2) + 441 * s.(s_gama) + 396 * s.(s_delta).
(* ShaftElement.K: k2, ross/shaft_element.py:689-696 *)
Definition k2 (s : shaft) : R :=
  630 + 210 * s.(s_a2) + 147 * s.(s_b2) + 126 * s.(s_gama) + 114 * s.(s_delta) - s.(s_phi) * (105 * s.(s_a2) + 105 * s.(s_b2) + 189/2 * s.(s_gama) + 84 * s.(s_delta)).
(* ShaftElement.K: k3, ross/shaft_element.py:697-704 *)
Definition k3 (s : shaft) : R :=
  630 + 420 * s.(s_a2) + 357 * s.(s_b2) + 315 * s.(s_gama) + 282 * s.(s_delta) + s.(s_phi) * (105 * s.(s_a2) + 105 * s.(s_b2) + 189/2 * s.(s_gama) + 84 * s.(s_delta)).
(* ShaftElement.K: k4, ross/shaft_element.py:705-711 *)
Definition k4 (s : shaft) : R :=
  420 + 210 * s.(s_phi) + 105 * s.(s_phi) ^ 2 + s.(s_a2) * (105 + 105/2 * s.(s_phi) ^ 2) + s.(s_b2) * (56 - 35 * s.(s_phi) + 35 * s.(s_phi) ^ 2) + s.(s_gama) * (42 - 42 * s.(s_phi) + 105/4 * s.(s_phi) ^ 2) + s.(s_delta) * (36 - 42 * s.(s_phi) + 21 * s.(s_phi) ^ 2).
(* ShaftElement.K: k5, ross/shaft_element.py:712-718 *)
Definition k5 (s : shaft) : R :=
  210 - 210 * s.(s_phi) - 105 * s.(s_phi) ^ 2 + s.(s_a2) * (105 - 105 * s.(s_phi) - 105/2 * s.(s_phi) ^ 2) + s.(s_b2) * (91 - 70 * s.(s_phi) - 35 * s.(s_phi) ^ 2) + s.(s_gama) * (84 - 105/2 * s.(s_phi) - 105/4 * s.(s_phi) ^ 2) + s.(s_delta) * (78 - 42 * s.(s_phi) - 21 * s.(s_phi) ^ 2).
(* ShaftElement.K: k6, ross/shaft_element.py:719-725 *)
Definition k6 (s : shaft) : R :=
  420 + 210 * s.(s_phi) + 105 * s.(s_phi) ^ 2 + s.(s_a2) * (315 + 210 * s.(s_phi) + 105/2 * s.(s_phi) ^ 2) + s.(s_b2) * (266 + 175 * s.(s_phi) + 35 * s.(s_phi) ^ 2) + s.(s_gama) * (231 + 147 * s.(s_phi) + 105/4 * s.(s_phi) ^ 2) + s.(s_delta) * (204 + 126 * s.(s_phi) + 21 * s.(s_phi) ^ 2).
(* ShaftElement.K: k7, ross/shaft_element.py:726-726 *)
Definition k7 (s : shaft) : R :=
  12 + 6 * s.(s_a1) + 4 * s.(s_b1).
(* ShaftElement.K: k8, ross/shaft_element.py:727-727 *)
Definition k8 (s : shaft) : R :=
  6 + 3 * s.(s_a1) + 2 * s.(s_b1).
(* ShaftElement.K: k9, ross/shaft_element.py:728-728 *)
Definition k9 (s : shaft) : R :=
  3 + 3/2 * s.(s_a1) + s.(s_b1).

(** ShaftElement.K: the literal table K1, ross/shaft_element.py:730-739. *)
Definition K1_tab (s : shaft) : mat := lmat [
  [(k1 s); 0; 0; s.(s_L) * (k2 s); - (k1 s); 0; 0; s.(s_L) * (k3 s)];
  [0; (k1 s); (- s.(s_L)) * (k2 s); 0; 0; - (k1 s); (- s.(s_L)) * (k3 s); 0];
  [0; (- s.(s_L)) * (k2 s); s.(s_L) ^ 2 * (k4 s); 0; 0; s.(s_L) * (k2 s); s.(s_L) ^ 2 * (k5 s); 0];
  [s.(s_L) * (k2 s); 0; 0; s.(s_L) ^ 2 * (k4 s); (- s.(s_L)) * (k2 s); 0; 0; s.(s_L) ^ 2 * (k5 s)];
  [- (k1 s); 0; 0; (- s.(s_L)) * (k2 s); (k1 s); 0; 0; (- s.(s_L)) * (k3 s)];
  [0; - (k1 s); s.(s_L) * (k2 s); 0; 0; (k1 s); s.(s_L) * (k3 s); 0];
  [0; (- s.(s_L)) * (k3 s); s.(s_L) ^ 2 * (k5 s); 0; 0; s.(s_L) * (k3 s); s.(s_L) ^ 2 * (k6 s); 0];
  [s.(s_L) * (k3 s); 0; 0; s.(s_L) ^ 2 * (k5 s); (- s.(s_L)) * (k3 s); 0; 0; s.(s_L) ^ 2 * (k6 s)]].


(** ShaftElement.K: the literal table K2, ross/shaft_element.py:741-750. *)
Definition K2_tab (s : shaft) : mat := lmat [
  [(k7 s); 0; 0; s.(s_L) * (k8 s); - (k7 s); 0; 0; s.(s_L) * (k8 s)];
  [0; (k7 s); (- s.(s_L)) * (k8 s); 0; 0; - (k7 s); (- s.(s_L)) * (k8 s); 0];
  [0; (- s.(s_L)) * (k8 s); s.(s_L) ^ 2 * (k9 s); 0; 0; s.(s_L) * (k8 s); s.(s_L) ^ 2 * (k9 s); 0];
  [s.(s_L) * (k8 s); 0; 0; s.(s_L) ^ 2 * (k9 s); (- s.(s_L)) * (k8 s); 0; 0; s.(s_L) ^ 2 * (k9 s)];
  [- (k7 s); 0; 0; (- s.(s_L)) * (k8 s); (k7 s); 0; 0; (- s.(s_L)) * (k8 s)];
  [0; - (k7 s); s.(s_L) * (k8 s); 0; 0; (k7 s); s.(s_L) * (k8 s); 0];
  [0; (- s.(s_L)) * (k8 s); s.(s_L) ^ 2 * (k9 s); 0; 0; s.(s_L) * (k8 s); s.(s_L) ^ 2 * (k9 s); 0];
  [s.(s_L) * (k8 s); 0; 0; s.(s_L) ^ 2 * (k9 s); (- s.(s_L)) * (k8 s); 0; 0; s.(s_L) ^ 2 * (k9 s)]].

(* ShaftElement.K: k10, ross/shaft_element.py:755-755 *)
Definition k10 (s : shaft) : R :=
  36 + 60 * s.(s_phi) + 30 * s.(s_phi) ^ 2.
(* ShaftElement.K: k11, ross/shaft_element.py:756-756 *)
Definition k11 (s : shaft) : R :=
  s.(s_L) * 3.
(* ShaftElement.K: k12, ross/shaft_element.py:757-757 *)
Definition k12 (s : shaft) : R :=
  s.(s_L) ^ 2 * (4 + 5 * s.(s_phi) + 5/2 * s.(s_phi) ^ 2).
(* ShaftElement.K: k13, ross/shaft_element.py:758-758 *)
Definition k13 (s : shaft) : R :=
  s.(s_L) ^ 2 * (1 + 5 * s.(s_phi) + 5/2 * s.(s_phi) ^ 2).

(** ShaftElement.K: the literal table Kaxial, ross/shaft_element.py:760-769. *)
Definition Kaxial_tab (s : shaft) : mat := lmat [
  [(k10 s); 0; 0; (k11 s); - (k10 s); 0; 0; (k11 s)];
  [0; (k10 s); - (k11 s); 0; 0; - (k10 s); - (k11 s); 0];
  [0; - (k11 s); (k12 s); 0; 0; (k11 s); - (k13 s); 0];
  [(k11 s); 0; 0; (k12 s); - (k11 s); 0; 0; - (k13 s)];
  [- (k10 s); 0; 0; - (k11 s); (k10 s); 0; 0; - (k11 s)];
  [0; - (k10 s); (k11 s); 0; 0; (k10 s); (k11 s); 0];
  [0; - (k11 s); - (k13 s); 0; 0; (k11 s); (k12 s); 0];
  [(k11 s); 0; 0; - (k13 s); - (k11 s); 0; 0; (k12 s)]].


(** ShaftElement.K: the literal table Ktorque, ross/shaft_element.py:775-784. *)
Definition Ktorque_tab (s : shaft) : mat := lmat [
  [0; 0; 1; 0; 0; 0; - 1; 0];
  [0; 0; 0; 1; 0; 0; 0; - 1];
  [1; 0; 0; (- s.(s_L)) / 2; - 1; 0; 0; s.(s_L) / 2];
  [0; 1; s.(s_L) / 2; 0; 0; - 1; (- s.(s_L)) / 2; 0];
  [0; 0; - 1; 0; 0; 0; 1; 0];
  [0; 0; 0; - 1; 0; 0; 0; 1];
  [- 1; 0; 0; (- s.(s_L)) / 2; 1; 0; 0; s.(s_L) / 2];
  [0; - 1; s.(s_L) / 2; 0; 0; 1; (- s.(s_L)) / 2; 0]].

(* ShaftElement.G: g1, ross/shaft_element.py:852-852 *)
Definition g1 (s : shaft) : R :=
  252 + 126 * s.(s_a2) + 72 * s.(s_b2) + 45 * s.(s_gama) + 30 * s.(s_delta).
(* ShaftElement.G: g2, ross/shaft_element.py:853-859 *)
Definition g2 (s : shaft) : R :=
  21 - 105 * s.(s_phi) + s.(s_a2) * (21 - 42 * s.(s_phi)) + s.(s_b2) * (15 - 21 * s.(s_phi)) + s.(s_gama) * (21/2 - 12 * s.(s_phi)) + s.(s_delta) * (15/2 - 15/2 * s.(s_phi)).
(* ShaftElement.G: g3, ross/shaft_element.py:860-866 *)
Definition g3 (s : shaft) : R :=
  21 - 105 * s.(s_phi) - 63 * s.(s_a2) * s.(s_phi) - s.(s_b2) * (6 + 42 * s.(s_phi)) - s.(s_gama) * (15/2 + 30 * s.(s_phi)) - s.(s_delta) * (15/2 + 45/2 * s.(s_phi)).
(* ShaftElement.G: g4, ross/shaft_element.py:867-873 *)
Definition g4 (s : shaft) : R :=
  28 + 35 * s.(s_phi) + 70 * s.(s_phi) ^ 2 + s.(s_a2) * (7 - 7 * s.(s_phi) + 35/2 * s.(s_phi) ^ 2) + s.(s_b2) * (4 - 7 * s.(s_phi) + 7 * s.(s_phi) ^ 2) + s.(s_gama) * (11/4 - 5 * s.(s_phi) + 7/2 * s.(s_phi) ^ 2) + s.(s_delta) * (2 - 7/2 * s.(s_phi) + 2 * s.(s_phi) ^ 2).
(* ShaftElement.G: g5, ross/shaft_element.py:874-880 *)
Definition g5 (s : shaft) : R :=
  7 + 35 * s.(s_phi) - 35 * s.(s_phi) ^ 2 + s.(s_a2) * (7/2 + 35/2 * s.(s_phi) - 35/2 * s.(s_phi) ^ 2) + s.(s_b2) * (3 + 21/2 * s.(s_phi) - 21/2 * s.(s_phi) ^ 2) + s.(s_gama) * (11/4 + 7 * s.(s_phi) - 7 * s.(s_phi) ^ 2) + s.(s_delta) * (5/2 + 5 * s.(s_phi) - 5 * s.(s_phi) ^ 2).
(* ShaftElement.G: g6, ross/shaft_element.py:881-887 *)
Definition g6 (s : shaft) : R :=
  28 + 35 * s.(s_phi) + 70 * s.(s_phi) ^ 2 + s.(s_a2) * (21 + 42 * s.(s_phi) + 105/2 * s.(s_phi) ^ 2) + s.(s_b2) * (18 + 42 * s.(s_phi) + 42 * s.(s_phi) ^ 2) + s.(s_gama) * (65/4 + 40 * s.(s_phi) + 35 * s.(s_phi) ^ 2) + s.(s_delta) * (15 + 75/2 * s.(s_phi) + 30 * s.(s_phi) ^ 2).

(** ShaftElement.G: the literal table G, ross/shaft_element.py:889-898. *)
Definition G_tab (s : shaft) : mat := lmat [
  [0; (g1 s); (- s.(s_L)) * (g2 s); 0; 0; - (g1 s); (- s.(s_L)) * (g3 s); 0];
  [- (g1 s); 0; 0; (- s.(s_L)) * (g2 s); (g1 s); 0; 0; (- s.(s_L)) * (g3 s)];
  [s.(s_L) * (g2 s); 0; 0; s.(s_L) ^ 2 * (g4 s); (- s.(s_L)) * (g2 s); 0; 0; (- s.(s_L) ^ 2) * (g5 s)];
  [0; s.(s_L) * (g2 s); (- s.(s_L) ^ 2) * (g4 s); 0; 0; (- s.(s_L)) * (g2 s); s.(s_L) ^ 2 * (g5 s); 0];
  [0; - (g1 s); s.(s_L) * (g2 s); 0; 0; (g1 s); s.(s_L) * (g3 s); 0];
  [(g1 s); 0; 0; s.(s_L) * (g2 s); - (g1 s); 0; 0; s.(s_L) * (g3 s)];
  [s.(s_L) * (g3 s); 0; 0; (- s.(s_L) ^ 2) * (g5 s); (- s.(s_L)) * (g3 s); 0; 0; s.(s_L) ^ 2 * (g6 s)];
  [0; s.(s_L) * (g3 s); s.(s_L) ^ 2 * (g5 s); 0; 0; (- s.(s_L)) * (g3 s); (- s.(s_L) ^ 2) * (g6 s); 0]].

(** ** Six degrees of freedom (ShaftElement6DoF) *)

(* ShaftElement6DoF.M: m1, ross/shaft_element.py:1404-1408 *)
Definition m1_6 (s : shaft) : R :=
  468 + 882 * s.(s_phi) + 420 * s.(s_phi) ^ 2 + s.(s_a1) * (108 + 210 * s.(s_phi) + 105 * s.(s_phi) ^ 2) + s.(s_b1) * (38 + 78 * s.(s_phi) + 42 * s.(s_phi) ^ 2).
(* ShaftElement6DoF.M: m2, ross/shaft_element.py:1409-1413 *)
Definition m2_6 (s : shaft) : R :=
  (66 + 231/2 * s.(s_phi) + 105/2 * s.(s_phi) ^ 2 + s.(s_a1) * (21 + 81/2 * s.(s_phi) + 21 * s.(s_phi) ^ 2) + s.(s_b1) * (17/2 + 18 * s.(s_phi) + 21/2 * s.(s_phi) ^ 2)) * s.(s_L).
(* ShaftElement6DoF.M: m3, ross/shaft_element.py:1414-1418 *)
Definition m3_6 (s : shaft) : R :=
  162 + 378 * s.(s_phi) + 210 * s.(s_phi) ^ 2 + s.(s_a1) * (81 + 189 * s.(s_phi) + 105 * s.(s_phi) ^ 2) + s.(s_b1) * (46 + 111 * s.(s_phi) + 63 * s.(s_phi) ^ 2).
(* ShaftElement6DoF.M: m4, ross/shaft_element.py:1419-1423 *)
Definition m4_6 (s : shaft) : R :=
  (39 + 189/2 * s.(s_phi) + 105/2 * s.(s_phi) ^ 2 + s.(s_a1) * (18 + 81/2 * s.(s_phi) + 21 * s.(s_phi) ^ 2) + s.(s_b1) * (19/2 + 21 * s.(s_phi) + 21/2 * s.(s_phi) ^ 2)) * s.(s_L).
(* ShaftElement6DoF.M: m5, ross/shaft_element.py:1424-1428 *)
Definition m5_6 (s : shaft) : R :=
  (12 + 21 * s.(s_phi) + 21/2 * s.(s_phi) ^ 2 + s.(s_a1) * (9/2 + 9 * s.(s_phi) + 21/4 * s.(s_phi) ^ 2) + s.(s_b1) * (2 + 9/2 * s.(s_phi) + 3 * s.(s_phi) ^ 2)) * s.(s_L) ^ 2.
(* ShaftElement6DoF.M: m6, ross/shaft_element.py:1429-1433 *)
Definition m6_6 (s : shaft) : R :=
  (39 + 189/2 * s.(s_phi) + 105/2 * s.(s_phi) ^ 2 + s.(s_a1) * (21 + 54 * s.(s_phi) + 63/2 * s.(s_phi) ^ 2) + s.(s_b1) * (25/2 + 69/2 * s.(s_phi) + 21 * s.(s_phi) ^ 2)) * s.(s_L).
(* ShaftElement6DoF.M: m7, ross/shaft_element.py:1434-1438 *)
Definition m7_6 (s : shaft) : R :=
  (9 + 21 * s.(s_phi) + 21/2 * s.(s_phi) ^ 2 + s.(s_a1) * (9/2 + 21/2 * s.(s_phi) + 21/4 * s.(s_phi) ^ 2) + s.(s_b1) * (5/2 + 6 * s.(s_phi) + 3 * s.(s_phi) ^ 2)) * s.(s_L) ^ 2.
(* ShaftElement6DoF.M: m8, ross/shaft_element.py:1439-1443 *)
Definition m8_6 (s : shaft) : R :=
  468 + 882 * s.(s_phi) + 420 * s.(s_phi) ^ 2 + s.(s_a1) * (360 + 672 * s.(s_phi) + 315 * s.(s_phi) ^ 2) + s.(s_b1) * (290 + 540 * s.(s_phi) + 252 * s.(s_phi) ^ 2).
(* ShaftElement6DoF.M: m9, ross/shaft_element.py:1444-1448 *)
Definition m9_6 (s : shaft) : R :=
  (66 + 231/2 * s.(s_phi) + 105/2 * s.(s_phi) ^ 2 + s.(s_a1) * (45 + 75 * s.(s_phi) + 63/2 * s.(s_phi) ^ 2) + s.(s_b1) * (65/2 + 105/2 * s.(s_phi) + 21 * s.(s_phi) ^ 2)) * s.(s_L).
(* ShaftElement6DoF.M: m10, ross/shaft_element.py:1449-1453 *)
Definition m10_6 (s : shaft) : R :=
  (12 + 21 * s.(s_phi) + 21/2 * s.(s_phi) ^ 2 + s.(s_a1) * (15/2 + 12 * s.(s_phi) + 21/4 * s.(s_phi) ^ 2) + s.(s_b1) * (5 + 15/2 * s.(s_phi) + 3 * s.(s_phi) ^ 2)) * s.(s_L) ^ 2.

(** ShaftElement6DoF.M: the literal table M, ross/shaft_element.py:1456-1469. *)
Definition M6_tab (s : shaft) : mat := lmat [
  [(m1_6 s); 0; 0; 0; (m2_6 s); 0; (m3_6 s); 0; 0; 0; - (m4_6 s); 0];
  [0; (m1_6 s); 0; - (m2_6 s); 0; 0; 0; (m3_6 s); 0; (m4_6 s); 0; 0];
  [0; 0; 0; 0; 0; 0; 0; 0; 0; 0; 0; 0];
  [0; - (m2_6 s); 0; (m5_6 s); 0; 0; 0; - (m6_6 s); 0; - (m7_6 s); 0; 0];
  [(m2_6 s); 0; 0; 0; (m5_6 s); 0; (m6_6 s); 0; 0; 0; - (m7_6 s); 0];
  [0; 0; 0; 0; 0; 0; 0; 0; 0; 0; 0; 0];
  [(m3_6 s); 0; 0; 0; (m6_6 s); 0; (m8_6 s); 0; 0; 0; - (m9_6 s); 0];
  [0; (m3_6 s); 0; - (m6_6 s); 0; 0; 0; (m8_6 s); 0; (m9_6 s); 0; 0];
  [0; 0; 0; 0; 0; 0; 0; 0; 0; 0; 0; 0];
  [0; (m4_6 s); 0; - (m7_6 s); 0; 0; 0; (m9_6 s); 0; (m10_6 s); 0; 0];
  [- (m4_6 s); 0; 0; 0; - (m7_6 s); 0; - (m9_6 s); 0; 0; 0; (m10_6 s); 0];
  [0; 0; 0; 0; 0; 0; 0; 0; 0; 0; 0; 0]].


(** ShaftElement6DoF.M: the literal table Mam, ross/shaft_element.py:1531-1544. *)
Definition Mam6_tab (s : shaft) : mat := lmat [
  [0; 0; 0; 0; 0; 0; 0; 0; 0; 0; 0; 0];
  [0; 0; 0; 0; 0; 0; 0; 0; 0; 0; 0; 0];
  [0; 0; 2; 0; 0; 0; 0; 0; 1; 0; 0; 0];
  [0; 0; 0; 0; 0; 0; 0; 0; 0; 0; 0; 0];
  [0; 0; 0; 0; 0; 0; 0; 0; 0; 0; 0; 0];
  [0; 0; 0; 0; 0; 0; 0; 0; 0; 0; 0; 0];
  [0; 0; 0; 0; 0; 0; 0; 0; 0; 0; 0; 0];
  [0; 0; 0; 0; 0; 0; 0; 0; 0; 0; 0; 0];
  [0; 0; 1; 0; 0; 0; 0; 0; 2; 0; 0; 0];
  [0; 0; 0; 0; 0; 0; 0; 0; 0; 0; 0; 0];
  [0; 0; 0; 0; 0; 0; 0; 0; 0; 0; 0; 0];
  [0; 0; 0; 0; 0; 0; 0; 0; 0; 0; 0; 0]].


(** ShaftElement6DoF.M: the literal table Mts, ross/shaft_element.py:1551-1564. *)
Definition Mts6_tab (s : shaft) : mat := lmat [
  [0; 0; 0; 0; 0; 0; 0; 0; 0; 0; 0; 0];
  [0; 0; 0; 0; 0; 0; 0; 0; 0; 0; 0; 0];
  [0; 0; 0; 0; 0; 0; 0; 0; 0; 0; 0; 0];
  [0; 0; 0; 0; 0; 0; 0; 0; 0; 0; 0; 0];
  [0; 0; 0; 0; 0; 0; 0; 0; 0; 0; 0; 0];
  [0; 0; 0; 0; 0; 2; 0; 0; 0; 0; 0; 1];
  [0; 0; 0; 0; 0; 0; 0; 0; 0; 0; 0; 0];
  [0; 0; 0; 0; 0; 0; 0; 0; 0; 0; 0; 0];
  [0; 0; 0; 0; 0; 0; 0; 0; 0; 0; 0; 0];
  [0; 0; 0; 0; 0; 0; 0; 0; 0; 0; 0; 0];
  [0; 0; 0; 0; 0; 0; 0; 0; 0; 0; 0; 0];
  [0; 0; 0; 0; 0; 1; 0; 0; 0; 0; 0; 2]].

(* ShaftElement6DoF.M: m11, ross/shaft_element.py:1474-1474 *)
Definition m11_6 (s : shaft) : R :=
  252 + 126 * s.(s_a2) + 72 * s.(s_b2) + 45 * s.(s_gama) + 30 * s.(s_delta).
(* ShaftElement6DoF.M: m12, ross/shaft_element.py:1475-1481 *)
Definition m12_6 (s : shaft) : R :=
  (21 - 105 * s.(s_phi) + s.(s_a2) * (21 - 42 * s.(s_phi)) + s.(s_b2) * (15 - 21 * s.(s_phi)) + s.(s_gama) * (21/2 - 12 * s.(s_phi)) + s.(s_delta) * (15/2 - 15/2 * s.(s_phi))) * s.(s_L).
(* ShaftElement6DoF.M: m13, ross/shaft_element.py:1482-1488 *)
Definition m13_6 (s : shaft) : R :=
  (21 - 105 * s.(s_phi) - 63 * s.(s_a2) * s.(s_phi) - s.(s_b2) * (6 + 42 * s.(s_phi)) - s.(s_gama) * (15/2 + 30 * s.(s_phi)) - s.(s_delta) * (15/2 + 45/2 * s.(s_phi))) * s.(s_L).
(* ShaftElement6DoF.M: m14, ross/shaft_element.py:1489-1495 *)
Definition m14_6 (s : shaft) : R :=
  (28 + 35 * s.(s_phi) + 70 * s.(s_phi) ^ 2 + s.(s_a2) * (7 - 7 * s.(s_phi) + 35/2 * s.(s_phi) ^ 2) + s.(s_b2) * (4 - 7 * s.(s_phi) + 7 * s.(s_phi) ^ 2) + s.(s_gama) * (11/4 - 5 * s.(s_phi) + 7/2 * s.(s_phi) ^ 2) + s.(s_delta) * (2 - 7/2 * s.(s_phi) + 2 * s.(s_phi) ^ 2)) * s.(s_L) ^ 2.
(* ShaftElement6DoF.M: m15, ross/shaft_element.py:1496-1502 *)
Definition m15_6 (s : shaft) : R :=
  (7 + 35 * s.(s_phi) - 35 * s.(s_phi) ^ 2 + s.(s_a2) * (7/2 + 35/2 * s.(s_phi) - 35/2 * s.(s_phi) ^ 2) + s.(s_b2) * (3 + 21/2 * s.(s_phi) - 21/2 * s.(s_phi) ^ 2) + s.(s_gama) * (11/4 + 7 * s.(s_phi) - 7 * s.(s_phi) ^ 2) + s.(s_delta) * (5/2 + 5 * s.(s_phi) - 5 * s.(s_phi) ^ 2)) * s.(s_L) ^ 2.
(* ShaftElement6DoF.M: m16, ross/shaft_element.py:1503-1509 *)
Definition m16_6 (s : shaft) : R :=
  (28 + 35 * s.(s_phi) + 70 * s.(s_phi) ^ 2 + s.(s_a2) * (21 + 42 * s.(s_phi) + 105/2 * s.(s_phi) ^ 2) + s.(s_b2) * (18 + 42 * s.(s_phi) + 42 * s.(s_phi) ^ 2) + s.(s_gama) * (65/4 + 40 * s.(s_phi) + 35 * s.(s_phi) ^ 2) + s.(s_delta) * (15 + 75/2 * s.(s_phi) + 30 * s.(s_phi) ^ 2)) * s.(s_L) ^ 2.

(** ShaftElement6DoF.M: the literal table Mr, ross/shaft_element.py:1511-1524. *)
Definition Mr6_tab (s : shaft) : mat := lmat [
  [(m11_6 s); 0; 0; 0; (m12_6 s); 0; - (m11_6 s); 0; 0; 0; (m13_6 s); 0];
  [0; (m11_6 s); 0; - (m12_6 s); 0; 0; 0; - (m11_6 s); 0; - (m13_6 s); 0; 0];
  [0; 0; 0; 0; 0; 0; 0; 0; 0; 0; 0; 0];
  [0; - (m12_6 s); 0; (m14_6 s); 0; 0; 0; (m12_6 s); 0; - (m15_6 s); 0; 0];
  [(m12_6 s); 0; 0; 0; (m14_6 s); 0; - (m12_6 s); 0; 0; 0; - (m15_6 s); 0];
  [0; 0; 0; 0; 0; 0; 0; 0; 0; 0; 0; 0];
  [- (m11_6 s); 0; 0; 0; - (m12_6 s); 0; (m11_6 s); 0; 0; 0; - (m13_6 s); 0];
  [0; - (m11_6 s); 0; (m12_6 s); 0; 0; 0; (m11_6 s); 0; (m13_6 s); 0; 0];
  [0; 0; 0; 0; 0; 0; 0; 0; 0; 0; 0; 0];
  [0; - (m13_6 s); 0; - (m15_6 s); 0; 0; 0; (m13_6 s); 0; (m16_6 s); 0; 0];
  [(m13_6 s); 0; 0; 0; - (m15_6 s); 0; - (m13_6 s); 0; 0; 0; (m16_6 s); 0];
  [0; 0; 0; 0; 0; 0; 0; 0; 0; 0; 0; 0]].

(* ShaftElement6DoF.K: k1, ross/shaft_element.py:1595-1595 *)
Definition k1_6 (s : shaft) : R :=
  1260 + 630 * s.(s_a2) + 504 * s.(s_b2) + 441 * s.(s_gama) + 396 * s.(s_delta).
(* ShaftElement6DoF.K: k2, ross/shaft_element.py:1596-1603 *)
Definition k2_6 (s : shaft) : R :=
  (630 + 210 * s.(s_a2) + 147 * s.(s_b2) + 126 * s.(s_gama) + 114 * s.(s_delta) - s.(s_phi) * (105 * s.(s_a2) + 105 * s.(s_b2) + 189/2 * s.(s_gama) + 84 * s.(s_delta))) * s.(s_L).
(* ShaftElement6DoF.K: k3, ross/shaft_element.py:1604-1611 *)
Definition k3_6 (s : shaft) : R :=
  (630 + 420 * s.(s_a2) + 357 * s.(s_b2) + 315 * s.(s_gama) + 282 * s.(s_delta) + s.(s_phi) * (105 * s.(s_a2) + 105 * s.(s_b2) + 189/2 * s.(s_gama) + 84 * s.(s_delta))) * s.(s_L).
(* ShaftElement6DoF.K: k4, ross/shaft_element.py:1612-1618 *)
Definition k4_6 (s : shaft) : R :=
  (420 + 210 * s.(s_phi) + 105 * s.(s_phi) ^ 2 + s.(s_a2) * (105 + 105/2 * s.(s_phi) ^ 2) + s.(s_b2) * (56 - 35 * s.(s_phi) + 35 * s.(s_phi) ^ 2) + s.(s_gama) * (42 - 42 * s.(s_phi) + 105/4 * s.(s_phi) ^ 2) + s.(s_delta) * (36 - 42 * s.(s_phi) + 21 * s.(s_phi) ^ 2)) * s.(s_L) ^ 2.
(* ShaftElement6DoF.K: k5, ross/shaft_element.py:1619-1625 *)
Definition k5_6 (s : shaft) : R :=
  (210 - 210 * s.(s_phi) - 105 * s.(s_phi) ^ 2 + s.(s_a2) * (105 - 105 * s.(s_phi) - 105/2 * s.(s_phi) ^ 2) + s.(s_b2) * (91 - 70 * s.(s_phi) - 35 * s.(s_phi) ^ 2) + s.(s_gama) * (84 - 105/2 * s.(s_phi) - 105/4 * s.(s_phi) ^ 2) + s.(s_delta) * (78 - 42 * s.(s_phi) - 21 * s.(s_phi) ^ 2)) * s.(s_L) ^ 2.
(* ShaftElement6DoF.K: k6, ross/shaft_element.py:1626-1632 *)
Definition k6_6 (s : shaft) : R :=
  (420 + 210 * s.(s_phi) + 105 * s.(s_phi) ^ 2 + s.(s_a2) * (315 + 210 * s.(s_phi) + 105/2 * s.(s_phi) ^ 2) + s.(s_b2) * (266 + 175 * s.(s_phi) + 35 * s.(s_phi) ^ 2) + s.(s_gama) * (231 + 147 * s.(s_phi) + 105/4 * s.(s_phi) ^ 2) + s.(s_delta) * (204 + 126 * s.(s_phi) + 21 * s.(s_phi) ^ 2)) * s.(s_L) ^ 2.
(* ShaftElement6DoF.K: k7, ross/shaft_element.py:1633-1633 *)
Definition k7_6 (s : shaft) : R :=
  12 + 6 * s.(s_a1) + 4 * s.(s_b1).
(* ShaftElement6DoF.K: k8, ross/shaft_element.py:1634-1634 *)
Definition k8_6 (s : shaft) : R :=
  (6 + 3 * s.(s_a1) + 2 * s.(s_b1)) * s.(s_L).
(* ShaftElement6DoF.K: k9, ross/shaft_element.py:1635-1635 *)
Definition k9_6 (s : shaft) : R :=
  (3 + 3/2 * s.(s_a1) + s.(s_b1)) * s.(s_L) ^ 2.

(** ShaftElement6DoF.K: the literal table K1, ross/shaft_element.py:1637-1650. *)
Definition K1_6_tab (s : shaft) : mat := lmat [
  [(k1_6 s); 0; 0; 0; (k2_6 s); 0; - (k1_6 s); 0; 0; 0; (k3_6 s); 0];
  [0; (k1_6 s); 0; - (k2_6 s); 0; 0; 0; - (k1_6 s); 0; - (k3_6 s); 0; 0];
  [0; 0; 0; 0; 0; 0; 0; 0; 0; 0; 0; 0];
  [0; - (k2_6 s); 0; (k4_6 s); 0; 0; 0; (k2_6 s); 0; (k5_6 s); 0; 0];
  [(k2_6 s); 0; 0; 0; (k4_6 s); 0; - (k2_6 s); 0; 0; 0; (k5_6 s); 0];
  [0; 0; 0; 0; 0; 0; 0; 0; 0; 0; 0; 0];
  [- (k1_6 s); 0; 0; 0; - (k2_6 s); 0; (k1_6 s); 0; 0; 0; - (k3_6 s); 0];
  [0; - (k1_6 s); 0; (k2_6 s); 0; 0; 0; (k1_6 s); 0; (k3_6 s); 0; 0];
  [0; 0; 0; 0; 0; 0; 0; 0; 0; 0; 0; 0];
  [0; - (k3_6 s); 0; (k5_6 s); 0; 0; 0; (k3_6 s); 0; (k6_6 s); 0; 0];
  [(k3_6 s); 0; 0; 0; (k5_6 s); 0; - (k3_6 s); 0; 0; 0; (k6_6 s); 0];
  [0; 0; 0; 0; 0; 0; 0; 0; 0; 0; 0; 0]].


(** ShaftElement6DoF.K: the literal table K2, ross/shaft_element.py:1652-1665. *)
Definition K2_6_tab (s : shaft) : mat := lmat [
  [(k7_6 s); 0; 0; 0; (k8_6 s); 0; - (k7_6 s); 0; 0; 0; (k8_6 s); 0];
  [0; (k7_6 s); 0; - (k8_6 s); 0; 0; 0; - (k7_6 s); 0; - (k8_6 s); 0; 0];
  [0; 0; 0; 0; 0; 0; 0; 0; 0; 0; 0; 0];
  [0; - (k8_6 s); 0; (k9_6 s); 0; 0; 0; (k8_6 s); 0; (k9_6 s); 0; 0];
  [(k8_6 s); 0; 0; 0; (k9_6 s); 0; - (k8_6 s); 0; 0; 0; (k9_6 s); 0];
  [0; 0; 0; 0; 0; 0; 0; 0; 0; 0; 0; 0];
  [- (k7_6 s); 0; 0; 0; - (k8_6 s); 0; (k7_6 s); 0; 0; 0; - (k8_6 s); 0];
  [0; - (k7_6 s); 0; (k8_6 s); 0; 0; 0; (k7_6 s); 0; (k8_6 s); 0; 0];
  [0; 0; 0; 0; 0; 0; 0; 0; 0; 0; 0; 0];
  [0; - (k8_6 s); 0; (k9_6 s); 0; 0; 0; (k8_6 s); 0; (k9_6 s); 0; 0];
  [(k8_6 s); 0; 0; 0; (k9_6 s); 0; - (k8_6 s); 0; 0; 0; (k9_6 s); 0];
  [0; 0; 0; 0; 0; 0; 0; 0; 0; 0; 0; 0]].

(* ShaftElement6DoF.K: k10, ross/shaft_element.py:1671-1671 *)
Definition k10_6 (s : shaft) : R :=
  36 + 60 * s.(s_phi) + 30 * s.(s_phi) ^ 2.
(* ShaftElement6DoF.K: k11, ross/shaft_element.py:1672-1672 *)
Definition k11_6 (s : shaft) : R :=
  3 * s.(s_L).
(* ShaftElement6DoF.K: k12, ross/shaft_element.py:1673-1673 *)
Definition k12_6 (s : shaft) : R :=
  (4 + 5 * s.(s_phi) + 5/2 * s.(s_phi) ^ 2) * s.(s_L) ^ 2.
(* ShaftElement6DoF.K: k13, ross/shaft_element.py:1674-1674 *)
Definition k13_6 (s : shaft) : R :=
  (1 + 5 * s.(s_phi) + 5/2 * s.(s_phi) ^ 2) * s.(s_L) ^ 2.

(** ShaftElement6DoF.K: the literal table Kaf, ross/shaft_element.py:1676-1689. *)
Definition Kaf6_tab (s : shaft) : mat := lmat [
  [(k10_6 s); 0; 0; 0; (k11_6 s); 0; - (k10_6 s); 0; 0; 0; (k11_6 s); 0];
  [0; (k10_6 s); 0; - (k11_6 s); 0; 0; 0; - (k10_6 s); 0; - (k11_6 s); 0; 0];
  [0; 0; 0; 0; 0; 0; 0; 0; 0; 0; 0; 0];
  [0; - (k11_6 s); 0; (k12_6 s); 0; 0; 0; (k11_6 s); 0; - (k13_6 s); 0; 0];
  [(k11_6 s); 0; 0; 0; (k12_6 s); 0; - (k11_6 s); 0; 0; 0; - (k13_6 s); 0];
  [0; 0; 0; 0; 0; 0; 0; 0; 0; 0; 0; 0];
  [- (k10_6 s); 0; 0; 0; - (k11_6 s); 0; (k10_6 s); 0; 0; 0; - (k11_6 s); 0];
  [0; - (k10_6 s); 0; (k11_6 s); 0; 0; 0; (k10_6 s); 0; (k11_6 s); 0; 0];
  [0; 0; 0; 0; 0; 0; 0; 0; 0; 0; 0; 0];
  [0; - (k11_6 s); 0; - (k13_6 s); 0; 0; 0; (k11_6 s); 0; (k12_6 s); 0; 0];
  [(k11_6 s); 0; 0; 0; - (k13_6 s); 0; - (k11_6 s); 0; 0; 0; (k12_6 s); 0];
  [0; 0; 0; 0; 0; 0; 0; 0; 0; 0; 0; 0]].


(** ShaftElement6DoF.K: the literal table Ktq, ross/shaft_element.py:1695-1708. *)
Definition Ktq6_tab (s : shaft) : mat := lmat [
  [0; 0; 0; 1; 0; 0; 0; 0; 0; - 1; 0; 0];
  [0; 0; 0; 0; 1; 0; 0; 0; 0; 0; - 1; 0];
  [0; 0; 0; 0; 0; 0; 0; 0; 0; 0; 0; 0];
  [1; 0; 0; 0; (- s.(s_L)) / 2; 0; - 1; 0; 0; 0; s.(s_L) / 2; 0];
  [0; 1; 0; s.(s_L) / 2; 0; 0; 0; - 1; 0; (- s.(s_L)) / 2; 0; 0];
  [0; 0; 0; 0; 0; 0; 0; 0; 0; 0; 0; 0];
  [0; 0; 0; - 1; 0; 0; 0; 0; 0; 1; 0; 0];
  [0; 0; 0; 0; - 1; 0; 0; 0; 0; 0; 1; 0];
  [0; 0; 0; 0; 0; 0; 0; 0; 0; 0; 0; 0];
  [- 1; 0; 0; 0; (- s.(s_L)) / 2; 0; 1; 0; 0; 0; s.(s_L) / 2; 0];
  [0; - 1; 0; s.(s_L) / 2; 0; 0; 0; 1; 0; (- s.(s_L)) / 2; 0; 0];
  [0; 0; 0; 0; 0; 0; 0; 0; 0; 0; 0; 0]].


(** ShaftElement6DoF.K: the literal table Kam, ross/shaft_element.py:1715-1728. *)
Definition Kam6_tab (s : shaft) : mat := lmat [
  [0; 0; 0; 0; 0; 0; 0; 0; 0; 0; 0; 0];
  [0; 0; 0; 0; 0; 0; 0; 0; 0; 0; 0; 0];
  [0; 0; 1; 0; 0; 0; 0; 0; - 1; 0; 0; 0];
  [0; 0; 0; 0; 0; 0; 0; 0; 0; 0; 0; 0];
  [0; 0; 0; 0; 0; 0; 0; 0; 0; 0; 0; 0];
  [0; 0; 0; 0; 0; 0; 0; 0; 0; 0; 0; 0];
  [0; 0; 0; 0; 0; 0; 0; 0; 0; 0; 0; 0];
  [0; 0; 0; 0; 0; 0; 0; 0; 0; 0; 0; 0];
  [0; 0; - 1; 0; 0; 0; 0; 0; 1; 0; 0; 0];
  [0; 0; 0; 0; 0; 0; 0; 0; 0; 0; 0; 0];
  [0; 0; 0; 0; 0; 0; 0; 0; 0; 0; 0; 0];
  [0; 0; 0; 0; 0; 0; 0; 0; 0; 0; 0; 0]].


(** ShaftElement6DoF.K: the literal table Kts, ross/shaft_element.py:1735-1748. *)
Definition Kts6_tab (s : shaft) : mat := lmat [
  [0; 0; 0; 0; 0; 0; 0; 0; 0; 0; 0; 0];
  [0; 0; 0; 0; 0; 0; 0; 0; 0; 0; 0; 0];
  [0; 0; 0; 0; 0; 0; 0; 0; 0; 0; 0; 0];
  [0; 0; 0; 0; 0; 0; 0; 0; 0; 0; 0; 0];
  [0; 0; 0; 0; 0; 0; 0; 0; 0; 0; 0; 0];
  [0; 0; 0; 0; 0; 1; 0; 0; 0; 0; 0; - 1];
  [0; 0; 0; 0; 0; 0; 0; 0; 0; 0; 0; 0];
  [0; 0; 0; 0; 0; 0; 0; 0; 0; 0; 0; 0];
  [0; 0; 0; 0; 0; 0; 0; 0; 0; 0; 0; 0];
  [0; 0; 0; 0; 0; 0; 0; 0; 0; 0; 0; 0];
  [0; 0; 0; 0; 0; 0; 0; 0; 0; 0; 0; 0];
  [0; 0; 0; 0; 0; - 1; 0; 0; 0; 0; 0; 1]].


(** ShaftElement6DoF.Kst: the literal table Kst, ross/shaft_element.py:1777-1790. *)
Definition Kst6_tab (s : shaft) : mat := lmat [
  [0; - 36; 0; 3 * s.(s_L); 0; 0; 0; 36; 0; 3 * s.(s_L); 0; 0];
  [0; 0; 0; 0; 0; 0; 0; 0; 0; 0; 0; 0];
  [0; 0; 0; 0; 0; 0; 0; 0; 0; 0; 0; 0];
  [0; 0; 0; 0; 0; 0; 0; 0; 0; 0; 0; 0];
  [0; (- 3) * s.(s_L); 0; 4 * s.(s_L) ^ 2; 0; 0; 0; 3 * s.(s_L); 0; - s.(s_L) ^ 2; 0; 0];
  [0; 0; 0; 0; 0; 0; 0; 0; 0; 0; 0; 0];
  [0; 36; 0; (- 3) * s.(s_L); 0; 0; 0; - 36; 0; (- 3) * s.(s_L); 0; 0];
  [0; 0; 0; 0; 0; 0; 0; 0; 0; 0; 0; 0];
  [0; 0; 0; 0; 0; 0; 0; 0; 0; 0; 0; 0];
  [0; 0; 0; 0; 0; 0; 0; 0; 0; 0; 0; 0];
  [0; (- 3) * s.(s_L); 0; - s.(s_L) ^ 2; 0; 0; 0; 3 * s.(s_L); 0; 4 * s.(s_L) ^ 2; 0; 0];
  [0; 0; 0; 0; 0; 0; 0; 0; 0; 0; 0; 0]].

(* ShaftElement6DoF.G: g1, ross/shaft_element.py:1843-1843 *)
Definition g1_6 (s : shaft) : R :=
  252 + 126 * s.(s_a2) + 72 * s.(s_b2) + 45 * s.(s_gama) + 30 * s.(s_delta).
(* ShaftElement6DoF.G: g2, ross/shaft_element.py:1844-1851 *)
Definition g2_6 (s : shaft) : R :=
  (21 - 105 * s.(s_phi) + s.(s_a2) * (21 - 42 * s.(s_phi)) + s.(s_b2) * (15 - 21 * s.(s_phi)) + s.(s_gama) * (21/2 - 12 * s.(s_phi)) + s.(s_delta) * (15/2 - 15/2 * s.(s_phi))) * s.(s_L).
(* ShaftElement6DoF.G: g3, ross/shaft_element.py:1852-1859 *)
Definition g3_6 (s : shaft) : R :=
  (21 - 105 * s.(s_phi) - 63 * s.(s_a2) * s.(s_phi) - s.(s_b2) * (6 + 42 * s.(s_phi)) - s.(s_gama) * (15/2 + 30 * s.(s_phi)) - s.(s_delta) * (15/2 + 45/2 * s.(s_phi))) * s.(s_L).
(* ShaftElement6DoF.G: g4, ross/shaft_element.py:1860-1868 *)
Definition g4_6 (s : shaft) : R :=
  (28 + 35 * s.(s_phi) + 70 * s.(s_phi) ^ 2 + s.(s_a2) * (7 - 7 * s.(s_phi) + 35/2 * s.(s_phi) ^ 2) + s.(s_b2) * (4 - 7 * s.(s_phi) + 7 * s.(s_phi) ^ 2) + s.(s_gama) * (11/4 - 5 * s.(s_phi) + 7/2 * s.(s_phi) ^ 2) + s.(s_delta) * (2 - 7/2 * s.(s_phi) + 2 * s.(s_phi) ^ 2)) * s.(s_L) ^ 2.
(* ShaftElement6DoF.G: g5, ross/shaft_element.py:1869-1877 *)
Definition g5_6 (s : shaft) : R :=
  (7 + 35 * s.(s_phi) - 35 * s.(s_phi) ^ 2 + s.(s_a2) * (7/2 + 35/2 * s.(s_phi) - 35/2 * s.(s_phi) ^ 2) + s.(s_b2) * (3 + 21/2 * s.(s_phi) - 21/2 * s.(s_phi) ^ 2) + s.(s_gama) * (11/4 + 7 * s.(s_phi) - 7 * s.(s_phi) * 2) + s.(s_delta) * (5/2 + 5 * s.(s_phi) - 5 * s.(s_phi) ^ 2)) * s.(s_L) ^ 2.
(* ShaftElement6DoF.G: g6, ross/shaft_element.py:1878-1886 *)
Definition g6_6 (s : shaft) : R :=
  (28 + 35 * s.(s_phi) + 70 * s.(s_phi) ^ 2 + s.(s_a2) * (21 + 42 * s.(s_phi) + 105/2 * s.(s_phi) ^ 2) + s.(s_b2) * (18 + 42 * s.(s_phi) + 42 * s.(s_phi) ^ 2) + s.(s_gama) * (65/4 + 40 * s.(s_phi) + 35 * s.(s_phi) ^ 2) + s.(s_delta) * (15 + 75/2 * s.(s_phi) + 30 * s.(s_phi) ^ 2)) * s.(s_L) ^ 2.

(** ShaftElement6DoF.G: the literal table G, ross/shaft_element.py:1888-1901. *)
Definition G6_tab (s : shaft) : mat := lmat [
  [0; (g1_6 s); 0; - (g2_6 s); 0; 0; 0; - (g1_6 s); 0; - (g3_6 s); 0; 0];
  [- (g1_6 s); 0; 0; 0; - (g2_6 s); 0; (g1_6 s); 0; 0; 0; - (g3_6 s); 0];
  [0; 0; 0; 0; 0; 0; 0; 0; 0; 0; 0; 0];
  [(g2_6 s); 0; 0; 0; (g4_6 s); 0; - (g2_6 s); 0; 0; 0; - (g5_6 s); 0];
  [0; (g2_6 s); 0; - (g4_6 s); 0; 0; 0; - (g2_6 s); 0; (g5_6 s); 0; 0];
  [0; 0; 0; 0; 0; 0; 0; 0; 0; 0; 0; 0];
  [0; - (g1_6 s); 0; (g2_6 s); 0; 0; 0; (g1_6 s); 0; (g3_6 s); 0; 0];
  [(g1_6 s); 0; 0; 0; (g2_6 s); 0; - (g1_6 s); 0; 0; 0; (g3_6 s); 0];
  [0; 0; 0; 0; 0; 0; 0; 0; 0; 0; 0; 0];
  [(g3_6 s); 0; 0; 0; - (g5_6 s); 0; - (g3_6 s); 0; 0; 0; (g6_6 s); 0];
  [0; (g3_6 s); 0; (g5_6 s); 0; 0; 0; - (g3_6 s); 0; - (g6_6 s); 0; 0];
  [0; 0; 0; 0; 0; 0; 0; 0; 0; 0; 0; 0]].


(** ** The matrices *)

(** ShaftElement.M, ross/shaft_element.py:594-650. *)
Definition shaft_M (s : shaft) : mat := fun i j =>
  (mrho (s_material s) * s_A_l s * s_L s * Mt_tab s i j / (1260 * (1 + s_phi s) ^ 2)) +
  (if s_rotary_inertia s
   then mrho (s_material s) * s_Ie_l s * Mr_tab s i j / (210 * s_L s * (1 + s_phi s) ^ 2)
   else 0).

(** ShaftElement.K, ross/shaft_element.py:752-790. *)
Definition shaft_K (s : shaft) : mat := fun i j =>
  mE (s_material s) * / (s_L s ^ 3) * / ((1 + s_phi s) ^ 2) *
    (K1_tab s i j * s_Ie_l s / 105 + K2_tab s i j * s_Ie s * s_phi s * s_A_l s / s_A s)
  + Kaxial_tab s i j * (s_axial_force s / (30 * s_L s * (1 + s_phi s) ^ 2))
  + Ktorque_tab s i j * (s_torque s / s_L s).

(** ShaftElement.C, ross/shaft_element.py:815. *)
Definition shaft_C (s : shaft) : mat := fun i j =>
  s_alpha s * shaft_M s i j + s_beta s * shaft_K s i j.

(** ShaftElement.G, ross/shaft_element.py:843-905. *)
Definition shaft_G (s : shaft) : mat := fun i j =>
  if s_gyroscopic s
  then mrho (s_material s) * s_Ie_l s * 2 * G_tab s i j / (210 * s_L s * (1 + s_phi s) ^ 2)
  else 0.

(** ShaftElement6DoF.M, ross/shaft_element.py:1381-1568. *)
Definition shaft6_M (s : shaft) : mat := fun i j =>
  M6_tab s i j * mrho (s_material s) * s_A_l s * s_L s / (1260 * (1 + s_phi s) ^ 2)
  + (if s_rotary_inertia s
     then Mr6_tab s i j * mrho (s_material s) * s_Ie_l s / (210 * s_L s * (1 + s_phi s) ^ 2)
     else 0)
  + Mam6_tab s i j * mrho (s_material s) * ((s_A_l s + s_A_r s) / 2) * s_L s / 6
  + Mts6_tab s i j * mrho (s_material s) * (2 * (s_Ie_l s + s_Ie_r s) / 2) * s_L s / 6.

(** ShaftElement6DoF.K, ross/shaft_element.py:1570-1752. *)
Definition shaft6_K (s : shaft) : mat := fun i j =>
  mE (s_material s) * / (s_L s ^ 3) * / ((1 + s_phi s) ^ 2) *
    (K1_6_tab s i j * s_Ie_l s / 105 + K2_6_tab s i j * s_Ie s * s_phi s * s_A_l s / s_A s)
  + Kaf6_tab s i j * s_axial_force s / (30 * s_L s * (1 + s_phi s) ^ 2)
  + Ktq6_tab s i j * s_torque s / s_L s
  + Kam6_tab s i j * mE (s_material s) * ((s_A_l s + s_A_r s) / 2) / s_L s
  + Kts6_tab s i j * mG_s (s_material s) * (2 * (s_Ie_l s + s_Ie_r s) / 2) / s_L s.

(** ShaftElement6DoF.Kst, ross/shaft_element.py:1754-1793. *)
Definition shaft6_Kst (s : shaft) : mat := fun i j =>
  Kst6_tab s i j * mrho (s_material s) * ((s_Ie_l s + s_Ie_r s) / 2) / (15 * s_L s).

(** ShaftElement6DoF.C, ross/shaft_element.py:1795-1813. *)
Definition shaft6_C (s : shaft) : mat := fun i j =>
  s_alpha s * shaft6_M s i j + s_beta s * shaft6_K s i j.

(** ShaftElement6DoF.G, ross/shaft_element.py:1815-1907. *)
Definition shaft6_G (s : shaft) : mat := fun i j =>
  if s_gyroscopic s
  then G6_tab s i j * mrho (s_material s) * s_Ie_l s * 2 / (210 * s_L s * (1 + s_phi s) ^ 2)
  else 0.
