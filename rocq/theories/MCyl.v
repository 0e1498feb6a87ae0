(** Model of CylindricalBearing.__init__, ross/bearing_seal_element.py:1629-1727. Numbers are exact reals.
    [roots] is the library call Polynomial(...).roots(); it gets the same quartic as the fluid flow code, coefficients written highest degree first. *)
From Coq Require Import Reals String List Arith Bool.
From Coquelicot Require Import Coquelicot.
From Verif Require Import PyBase MatBase CMat MFluid.
Import ListNotations.
Open Scope R_scope.

(** :1643-1649 *)
Definition cyl_speed (w : R) : R := if Req_EM_T w 0 then / 10 else w.
(** :1657-1663; the speed as given, not the replaced one *)
Definition cyl_sommerfeld (d w mu len c weight : R) : R := d * w * mu * len ^ 3 / (8 * c ^ 2 * weight).
(** :1683-1688: (0 < root < 1) and np.isreal(root) *)
Definition open_real (z : C) : bool := if Req_EM_T (snd z) 0 then (if Rlt_dec 0 (fst z) then (if Rlt_dec (fst z) 1 then true else false) else false) else false.
Definition cyl_roots (roots : list R -> list C) (s : R) : list R := map fst (filter open_real (roots (ecc_coeffs s))).
(** :1690 *)
Definition cyl_ecc (roots : list R -> list C) (d mu len c weight : R) (speeds : list R) : list R :=
  map sqrt (concat (map (fun w => cyl_roots roots (cyl_sommerfeld d w mu len c weight)) speeds)).
(** :1691-1693 *)
Definition cyl_attitude (e : R) : R := atan (PI * sqrt (1 - e ^ 2) / 4 * e).
(** :1707-1725: kxx, kxy, kyx, kyy, cxx, cxy, cyx, cyy at one speed *)
Definition cyl_row (weight c e spd : R) : list R :=
  let h0 := 1 / Rpower (PI ^ 2 * (1 - e ^ 2) + 16 * e ^ 2) (3 / 2) in
  let auu := h0 * 4 * (PI ^ 2 * (2 - e ^ 2) + 16 * e ^ 2) in
  let auv := h0 * PI * (PI ^ 2 * (1 - e ^ 2) ^ 2 - 16 * e ^ 4) / (e * sqrt (1 - e ^ 2)) in
  let avu := - h0 * PI * (PI ^ 2 * (1 - e ^ 2) * (1 + 2 * e ^ 2) + 32 * e ^ 2 * (1 + e ^ 2)) / (e * sqrt (1 - e ^ 2)) in
  let avv := h0 * 4 * (PI ^ 2 * (1 + 2 * e ^ 2) + 32 * e ^ 2 * (1 + e ^ 2) / (1 - e ^ 2)) in
  let buu := h0 * 2 * PI * sqrt (1 - e ^ 2) * (PI ^ 2 * (1 + 2 * e ^ 2) - 16 * e ^ 2) / e in
  let buv := - h0 * 8 * (PI ^ 2 * (1 + 2 * e ^ 2) - 16 * e ^ 2) in
  let bvv := h0 * 2 * PI * (PI ^ 2 * (1 - e ^ 2) ^ 2 + 48 * e ^ 2) / (e * sqrt (1 - e ^ 2)) in
  map (fun term => weight / c * term) [auu; auv; avu; avv] ++ map (fun term => weight / (c * spd) * term) [buu; buv; buv; bvv].
(** one row for each pair of zip(self.eccentricity, self.speed) *)
Definition cyl_rows (roots : list R -> list C) (d mu len c weight : R) (speeds : list R) : list (list R) :=
  map (fun '(e, spd) => cyl_row weight c e spd) (combine (cyl_ecc roots d mu len c weight speeds) (map cyl_speed speeds)).
(** the arguments frequency and kxx ... cyy that the class hands to BearingElement.__init__ (modelled elsewhere) *)
Definition cyl_table (roots : list R -> list C) (d mu len c weight : R) (speeds : list R) : list R * list (list R) :=
  (map cyl_speed speeds, map (fun k => map (fun row => nth k row 0) (cyl_rows roots d mu len c weight speeds)) (seq 0 8)).
