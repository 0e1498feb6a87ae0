(** Model of ross/disk_element.py and ross/point_mass.py. *)
From Coq Require Import Reals List String Bool.
From Verif Require Import PyBase MatBase MMaterial.
Import ListNotations.
Open Scope R_scope.

(** DiskElement attributes, ross/disk_element.py:59-70 (drawing attributes left out). *)
Record disk := mkDisk { d_n : nat; d_m : R; d_Id : R; d_Ip : R; d_tag : option string }.

(** DiskElement.from_geometry, ross/disk_element.py:451-457. *)
Definition disk_from_geometry (n : nat) (mt : material) (width i_d o_d : R) (tag : option string) : disk :=
  let m := mrho mt * PI * width * (o_d ^ 2 - i_d ^ 2) / 4 in
  let Ip := m * (o_d ^ 2 + i_d ^ 2) / 8 in
  let Id := 1 / 2 * Ip + 1 / 12 * m * width ^ 2 in
  mkDisk n m Id Ip tag.

(** DiskElement.M, ross/disk_element.py:206-213. *)
Definition disk_M (d : disk) : mat := lmat [
  [d_m d; 0; 0; 0];
  [0; d_m d; 0; 0];
  [0; 0; d_Id d; 0];
  [0; 0; 0; d_Id d]].

(** DiskElement.G, ross/disk_element.py:283-290. *)
Definition disk_G (d : disk) : mat := lmat [
  [0; 0; 0; 0];
  [0; 0; 0; 0];
  [0; 0; 0; d_Ip d];
  [0; 0; - d_Ip d; 0]].

(** DiskElement.K and C, ross/disk_element.py:234, :257. *)
Definition disk_K (d : disk) : mat := mzero.
Definition disk_C (d : disk) : mat := mzero.

(** DiskElement6DoF.M, ross/disk_element.py:607-620. *)
Definition disk6_M (d : disk) : mat := lmat [
  [d_m d; 0; 0; 0; 0; 0];
  [0; d_m d; 0; 0; 0; 0];
  [0; 0; d_m d; 0; 0; 0];
  [0; 0; 0; d_Id d; 0; 0];
  [0; 0; 0; 0; d_Id d; 0];
  [0; 0; 0; 0; 0; d_Ip d]].

(** DiskElement6DoF.Kdt, ross/disk_element.py:673-682. *)
Definition disk6_Kdt (d : disk) : mat := lmat [
  [0; 0; 0; 0; 0; 0];
  [0; 0; 0; 0; 0; 0];
  [0; 0; 0; 0; 0; 0];
  [0; 0; 0; 0; 0; 0];
  [0; 0; 0; d_Ip d; 0; 0];
  [0; 0; 0; 0; 0; 0]].

(** DiskElement6DoF.G, ross/disk_element.py:727-738. *)
Definition disk6_G (d : disk) : mat := lmat [
  [0; 0; 0; 0; 0; 0];
  [0; 0; 0; 0; 0; 0];
  [0; 0; 0; 0; 0; 0];
  [0; 0; 0; 0; d_Ip d; 0];
  [0; 0; 0; - d_Ip d; 0; 0];
  [0; 0; 0; 0; 0; 0]].

(** DiskElement6DoF.K and C, ross/disk_element.py:644, :703. *)
Definition disk6_K (d : disk) : mat := mzero.
Definition disk6_C (d : disk) : mat := mzero.

(** PointMass attributes, ross/point_mass.py:57-69; [p_mz] only matters for 6 dof. *)
Record pmass := mkPMass { p_n : nat; p_mx : R; p_my : R; p_mz : R; p_tag : option string }.

(** float(x): TypeError for None *)
Definition to_float (o : option R) : res R := match o with Some x => Ok x | None => Err TypeError end.

(** PointMass.__init__, ross/point_mass.py:56-69. *)
Definition pmass_init (n : nat) (m mx my : option R) (tag : option string) : res pmass :=
  let '(mx, my) := match mx, my with None, None => (m, m) | _, _ => (mx, my) end in
  bind (to_float mx) (fun mx => bind (to_float my) (fun my => Ok (mkPMass n mx my 0 tag))).

(** PointMass6DoF.__init__, ross/point_mass.py:369-385. *)
Definition pmass6_init (n : nat) (m mx my mz : option R) (tag : option string) : res pmass :=
  let '(mx, my, mz) := match mx, my with None, None => (m, m, m) | _, _ => (mx, my, mz) end in
  bind (to_float mx) (fun mx => bind (to_float my) (fun my => bind (to_float mz) (fun mz =>
    Ok (mkPMass n mx my mz tag)))).

(** PointMass.M, ross/point_mass.py:156-163; C, K, G are zero (:184, :205, :226). *)
Definition pmass_M (p : pmass) : mat := lmat [[p_mx p; 0]; [0; p_my p]].
(** PointMass6DoF.M, ross/point_mass.py:449-457. *)
Definition pmass6_M (p : pmass) : mat := lmat [[p_mx p; 0; 0]; [0; p_my p; 0]; [0; 0; p_mz p]].
