(** Model of the code that cuts shafts into elements: ShaftElement.section, Rotor.from_section and
    Rotor.convergence. Floats are real numbers. *)
From Coq Require Import Reals String List Bool Arith.
From Verif Require Import PyBase MatBase MMaterial MShaft MDisk MBearing MRotor.
Import ListNotations.
Open Scope list_scope.
Open Scope R_scope.

(** a list comprehension or a loop of appends: the values in order, or the first exception *)
Fixpoint collect {A} (l : list (res A)) : res (list A) :=
  match l with
  | [] => Ok []
  | Err e :: _ => Err e
  | Ok a :: l => bind (collect l) (fun r => Ok (a :: r))
  end.

(** ** ShaftElement.section *)

(** The arguments of element [i] of a piece of length [L] cut into elements of length [le]:
    ross/shaft_element.py:1197-1213; the same formulas are at ross/rotor_assembly.py:3468-3488. *)
Definition cut_args (L le : R) (il ol ir or : R) (i : nat) (mt : option material) (n : option nat)
    (shear rotary gyro : bool) (alpha beta : R) : shaft_args :=
  mkShaftArgs le
    ((ir - il) * INR i * le / L + il) ((or - ol) * INR i * le / L + ol)
    (Some ((ir - il) * (INR i + 1) * le / L + il)) (Some ((or - ol) * (INR i + 1) * le / L + ol))
    mt n 0 0 shear rotary gyro Cowper None alpha beta.

(** ShaftElement.section, ross/shaft_element.py:1115-1217. Simplification: a negative [ne] (empty list) is not
    modelled. L / 0 and x / 0 raise ZeroDivisionError. *)
Definition section (L : R) (ne : nat) (s_idl s_odl : R) (s_idr s_odr : option R) (mt : option material) (n : option nat)
    (shear rotary gyro : bool) (alpha beta : R) : res (list shaft) :=
  let ir := default s_idl s_idr in
  let or := default s_odl s_odr in
  if Nat.eqb ne 0 then Err ZeroDivision else
  let le := L / INR ne in
  if Req_EM_T L 0 then Err ZeroDivision else
  collect (map (fun i => shaft_init (cut_args L le s_idl s_odl ir or i mt n shear rotary gyro alpha beta)) (seq 0 ne)).

(** ** Rotor.from_section *)

(** material_data: one material, or a list of them. A material given by name is not modelled. *)
Inductive matarg := MatOne (m : material) | MatList (l : list material).

(** One rotor region, ross/rotor_assembly.py:3465-3488 (list of materials) and :3490-3512 (one material). *)
Definition region (nel : nat) (leng : R) (il ol : R) (ir or : option R) (mt : material) : res (list shaft) :=
  if Nat.eqb nel 0 then Err ZeroDivision else
  match ir, or with
  | Some ir, Some or =>
      if Req_EM_T leng 0 then Err ZeroDivision else
      collect (map (fun j => shaft_init (cut_args leng (leng / INR nel) il ol ir or j (Some mt) None true true true 0 0)) (seq 0 nel))
  | _, _ => Err IndexError
  end.

(** The loop over the regions, with the lists indexed by the number of the region. *)
Fixpoint regions (nel : nat) (i : nat) (lens : list R) (il ol ir or : list R) (mt : nat -> material) : res (list shaft) :=
  match lens with
  | [] => Ok []
  | leng :: lens =>
      bind (region nel leng (nth i il 0) (nth i ol 0) (nth_error ir i) (nth_error or i) (mt i)) (fun els =>
      bind (regions nel (S i) lens il ol ir or mt) (fun rest => Ok (els ++ rest)))
  end.

(** deepcopy of a disk or bearing with [n] multiplied, ross/rotor_assembly.py:3516-3528. The link node
    [n_link] is copied as it is. *)
Definition scale_disk (k : nat) (d : rdisk) : rdisk :=
  mkRDisk (rd_six d) (mkDisk (k * d_n (rd_d d)) (d_m (rd_d d)) (d_Id (rd_d d)) (d_Ip (rd_d d)) (d_tag (rd_d d))).
Definition scale_bearing (k : nat) (b : bearing) : bearing :=
  mkBearing (k * b_n b) (b_n_link b) (b_tag b) (b_color b) (b_scale_factor b) (b_frequency b) (b_coef b).
Definition scale_brg (k : nat) (b : rbrg) : rbrg :=
  match b with
  | RB4 s b => RB4 s (scale_bearing k b)
  | RB6 b => RB6 (mkBearing6 (scale_bearing k (b6 b)) (b6_kzz b) (b6_czz b) (b6_mzz b))
  end.

(** Rotor.from_section, ross/rotor_assembly.py:3336-3550. Iterating over None raises TypeError (:3515, :3522).
    min_w, max_w, rated_w and tag only label the rotor and are not modelled. *)
Definition from_section (lens il ol : list R) (ir or : option (list R)) (mt : option matarg)
    (disks : option (list rdisk)) (brgs : option (list rbrg)) (nel : nat) : res rotor :=
  if negb (Nat.eqb (length lens) (length ol) && Nat.eqb (length lens) (length il)) then Err ValueError else
  match mt with
  | None => Err AttributeError
  | Some mt =>
      let ir' := default il ir in
      let or' := default ol or in
      if match or with
         | None => false
         | Some _ => negb (Nat.eqb (length lens) (length or') && Nat.eqb (length lens) (length ir'))
         end then Err ValueError else
      bind (match mt with
            | MatOne m => regions nel 0 lens il ol ir' or' (fun _ => m)
            | MatList l => if Nat.eqb (length lens) (length l)
                           then regions nel 0 lens il ol ir' or' (fun i => nth i l (mkMaterial "" 0 0 0 0 "" ))
                           else Err IndexError
            end) (fun shafts =>
      match disks, brgs with
      | Some disks, Some brgs =>
          rotor_init (map (mkRShaft false) shafts) (map (scale_disk nel) disks) (map (scale_brg nel) brgs) []
      | _, _ => Err TypeError
      end)
  end.

(** ** Rotor.convergence *)

(** The elements one shaft element is replaced by, ross/rotor_assembly.py:867-894: the four diameters are
    overwritten in every pass of the loop. *)
Fixpoint refine_loop (nel : nat) (s : shaft) (js : list nat) (odl odr idl idr : R) : list shaft_args :=
  match js with
  | [] => []
  | j :: js =>
      let n := INR nel in
      let odr := ((n - INR j - 1) * odl + (INR j + 1) * odr) / n in
      let idr := ((n - INR j - 1) * idl + (INR j + 1) * idr) / n in
      let odl := ((n - INR j) * odl + INR j * odr) / n in
      let idl := ((n - INR j) * idl + INR j * idr) / n in
      mkShaftArgs (s_L s / n) idl odl (Some idr) (Some odr) (Some (s_material s)) None 0 0
        (s_shear_effects s) (s_rotary_inertia s) (s_gyroscopic s) Cowper None 0 0
      :: refine_loop nel s js odl odr idl idr
  end.
Definition refine_shaft (nel : nat) (s : shaft) : list shaft_args :=
  refine_loop nel s (seq 0 nel) (s_odl s) (s_odr s) (s_idl s) (s_idr s).

Definition el_shaft (e : elem) : list shaft := match e with EShaft _ _ _ s => [s] | _ => [] end.
(** the disk and bearing objects of a rotor, whose tags have been filled in (:892-900) *)
Definition el_disk (e : elem) : list rdisk :=
  match e with EDisk six t d => [mkRDisk six (mkDisk (d_n d) (d_m d) (d_Id d) (d_Ip d) (Some t))] | _ => [] end.
Definition tag_bearing (t : string) (b : bearing) : bearing :=
  mkBearing (b_n b) (b_n_link b) (Some t) (b_color b) (b_scale_factor b) (b_frequency b) (b_coef b).
Definition el_brg (e : elem) : list rbrg :=
  match e with
  | EBrg t (RB4 s b) => [RB4 s (tag_bearing t b)]
  | EBrg t (RB6 b) => [RB6 (mkBearing6 (tag_bearing t (b6 b)) (b6_kzz b) (b6_czz b) (b6_mzz b))]
  | _ => []
  end.

(** One pass of the while loop up to the construction of the new rotor, ross/rotor_assembly.py:862-902. The point
    masses of the rotor are not passed on. Simplification: the copied attributes n_l, n_r of disks and
    bearings, which only enter the position bearings are drawn at, follow n. *)
Definition refine (nel : nat) (r : rotor) : res rotor :=
  bind (collect (map shaft_init (flat_map (refine_shaft nel) (flat_map el_shaft (r_shaft r))))) (fun shafts =>
  rotor_init (map (mkRShaft false) shafts) (map (scale_disk nel) (flat_map el_disk (r_disk r)))
    (map (scale_brg nel) (flat_map el_brg (r_brg r))) []).

(** abs(1 - new / old) with numpy floats: division by zero gives infinity or nan (:909) *)
Inductive change := Finite (x : R) | Infinite | NaN.
Definition rel_change (old new : R) : change :=
  if Req_EM_T old 0 then (if Req_EM_T new 0 then NaN else Infinite) else Finite (Rabs (1 - new / old)).
(** error > err_max *)
Definition above (c : change) (err_max : R) : bool :=
  match c with Finite x => if Rlt_dec err_max x then true else false | Infinite => true | NaN => false end.

(** What convergence leaves behind: the rotor the object has become and the three arrays of the result; the
    entries of error_arr are 100 * error and are kept here as the errors themselves. *)
Record convergence_out := mkConv { cv_rotor : rotor; cv_el_num : list nat; cv_eigv : list R; cv_errors : list change }.

(** The while loop, ross/rotor_assembly.py:861-913, run for at most [fuel] passes ([None]: still running). [wn] stands for
    run_modal(speed=0).wn[n_eigval]. *)
Fixpoint conv_loop (fuel nel : nat) (wn : rotor -> res R) (err_max : R) (r : rotor) (old : R)
    (nums : list nat) (eigs : list R) (errs : list change) : option (res convergence_out) :=
  match fuel with
  | O => None
  | S fuel =>
      match refine nel r with
      | Err e => Some (Err e)
      | Ok r' =>
          match wn r' with
          | Err e => Some (Err e)
          | Ok w =>
              let c := rel_change old w in
              let nums := nums ++ [length (r_shaft r')] in
              let eigs := eigs ++ [w] in
              let errs := errs ++ [c] in
              if above c err_max then conv_loop fuel (nel * 2) wn err_max r w nums eigs errs
              else Some (Ok (mkConv r' nums eigs errs))
          end
      end
  end.
(** Rotor.convergence, ross/rotor_assembly.py:803-922; the loop starts because 1.0e10 > err_max is assumed. *)
Definition convergence (fuel : nat) (wn : rotor -> res R) (err_max : R) (r : rotor) : option (res convergence_out) :=
  match wn r with
  | Err e => Some (Err e)
  | Ok w => conv_loop fuel 2 wn err_max r w [] [] []
  end.
