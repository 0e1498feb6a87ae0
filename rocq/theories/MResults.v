(** Post-processing of results: orbits, mode shapes, whirl labels, probes, bending moments, the modal quantities and the small
    matrix utilities.

    Models ross/results.py (Orbit, Shape, ModalResults, ForcedResponseResults, TimeResponseResults), ross/probe.py,
    ross/utils.py:remove_dofs, convert_6dof_to_4dof, intersection, and ross/rotor_assembly.py:run_modal. Floats are exact
    reals, so signed zeros and nan do not exist; where the code would produce a nan the comment says what is returned. *)
From Coq Require Import Reals String List Arith ZArith Bool.
From Coquelicot Require Import Complex.
From Verif Require Import PyBase MatBase CMat MMaterial MShaft MDisk MBearing MRotor MDynamics MFault.
Import ListNotations.
Open Scope list_scope.
Open Scope R_scope.

(** np.angle(z) = arctan2(imag, real), in (-pi, pi], and 0 for z = 0 *)
Definition carg (z : C) : R := atan2 (Im z) (Re z).

(** ** Orbit, ross/results.py:222-331 *)
Inductive whirl := Forward | Backward | Mixed.
Definition whirl_eqb (a b : whirl) : bool :=
  match a, b with Forward, Forward | Backward, Backward | Mixed, Mixed => true | _, _ => false end.

(** np.linspace(0, 2 * np.pi, 360), lines 242-243 *)
Definition sample (k : nat) : R := INR k * (2 * PI / 359).
(** np.argmax of f over 0 .. n-1: the first index of a largest value *)
Fixpoint argmax (f : nat -> R) (n : nat) : nat :=
  match n with
  | O => O
  | S O => O
  | S k => let b := argmax f k in if Rlt_dec (f b) (f k) then k else b
  end.
Definition argmin (f : nat -> R) (n : nat) : nat := argmax (fun k => - f k) n.

Record orbit := mkOrbit {
  ob_x : nat -> R; ob_y : nat -> R; ob_angle : nat -> R;
  ob_major_index : nat; ob_major_x : R; ob_major_y : R; ob_major_angle : R; ob_minor_angle : R;
  ob_minor : R; ob_major : R; ob_kappa : R; ob_whirl : whirl }.

(** Orbit.__init__, lines 235-303. [eig2] is scipy.linalg.eig(H)[0] on a 2 x 2 matrix: its two eigenvalues in some order.
    The square roots are taken of non-negative eigenvalues (H = T T^t). When both amplitudes are zero, minor / major is a nan,
    which line 291 replaces by 0 because both angles are 0. The colour is not modelled. *)
Definition orbit_init (eig2 : mat -> R * R) (ru_e rv_e : C) : orbit :=
  let x k := Re (ru_e * expi (sample k))%C in
  let y k := Re (rv_e * expi (sample k))%C in
  let angle k := let a := atan2 (y k) (x k) in if Rlt_dec a 0 then a + 2 * PI else a in
  let mi := argmax (fun k => sqrt (x k ^ 2 + y k ^ 2)) 180 in
  let ru := Cmod ru_e in let rv := Cmod rv_e in
  let nu := carg ru_e in let nv := carg rv_e in
  let T := lmat [[ru * cos nu; - ru * sin nu]; [rv * cos nv; - rv * sin nv]] in
  let H := mulm 2 T (mtrans T) in
  let lam := eig2 H in
  let minor := sqrt (Rmin (fst lam) (snd lam)) in
  let major := sqrt (Rmax (fst lam) (snd lam)) in
  let kappa := minor / major in
  let diff := nv - nu in
  let diff := if Rlt_dec diff (- PI) then diff + 2 * PI else if Rlt_dec PI diff then diff - 2 * PI else diff in
  let kappa := if Req_EM_T diff 0 then 0 else if Req_EM_T diff PI then 0
               else if Rlt_dec 0 diff then (if Rlt_dec diff PI then - kappa else kappa) else kappa in
  mkOrbit x y angle mi (x mi) (y mi) (angle mi) (angle mi + PI / 2) minor major kappa
    (if Rlt_dec 0 kappa then Forward else Backward).

(** the two eigenvalues of a 2 x 2 matrix: what the code relies on in scipy.linalg.eig *)
Definition eig2_ok (eig2 : mat -> R * R) : Prop :=
  forall H : mat, H 0%nat 1%nat = H 1%nat 0%nat ->
    fst (eig2 H) + snd (eig2 H) = H 0%nat 0%nat + H 1%nat 1%nat /\
    fst (eig2 H) * snd (eig2 H) = H 0%nat 0%nat * H 1%nat 1%nat - H 0%nat 1%nat * H 1%nat 0%nat.

(** the [angle] argument: "major", "minor" or a number (rad) *)
Inductive orientation := AMajor | AMinor | AAngle (a : R).
(** Orbit.calculate_amplitude, lines 306-331 *)
Definition calculate_amplitude (o : orbit) (a : orientation) : R * R :=
  match a with
  | AMajor => (ob_major o, ob_major_angle o)
  | AMinor => (ob_minor o, ob_minor_angle o)
  | AAngle t =>
      let idx := argmin (fun k => Rabs (ob_angle o k - t)) 360 in
      let phase := ob_angle o 0%nat + t in
      (sqrt (ob_x o idx ^ 2 + ob_y o idx ^ 2), if Rlt_dec (2 * PI) phase then phase - 2 * PI else phase)
  end.

(** ** Shape, ross/results.py:385-536 *)
Inductive mode_type := Lateral | Axial | Torsional.
(** Shape._calculate_orbits, lines 451-474: the label of the shape *)
Definition shape_whirl (ws : list whirl) : whirl :=
  if forallb (whirl_eqb Forward) ws then Forward else if forallb (whirl_eqb Backward) ws then Backward else Mixed.
(** Shape._classify, lines 433-449: [size] is len(vector); np.abs(v).round(6) is nonzero when the modulus in units of 1e-6
    rounds (half to even) to a nonzero integer *)
Definition rounds_nonzero (z : C) : bool := negb (Z.eqb (round_half_even (Cmod z * 10 ^ 6)) 0).
Definition classify (nd size : nat) (v : nat -> C) : mode_type :=
  if Nat.eqb nd 6 then
    let nonzero := filter (fun i => rounds_nonzero (v i)) (seq 0 size) in
    if forallb (fun i => Nat.eqb (i mod nd) 2) nonzero then Axial
    else if forallb (fun i => Nat.eqb (i mod nd) 5) nonzero then Torsional
    else Lateral
  else Lateral.
(** the number of entries of v[start::nd] for a vector of length size *)
Definition slice_len (nd size start : nat) : nat := ((size - start + nd - 1) / nd)%nat.
(** lines 412-421: the component the vector is divided by *)
Definition scale_of (nd size : nat) (v : nat -> C) : C :=
  let mx k := v (k * nd)%nat in
  let my k := v (1 + k * nd)%nat in
  let ix := argmax (fun k => Cmod (mx k)) (slice_len nd size 0) in
  let iy := argmax (fun k => Cmod (my k)) (slice_len nd size 1) in
  if Rlt_dec (Cmod (mx ix)) (Cmod (my iy)) then my iy else mx ix.

(** the Hermite polynomials of lines 503-506 *)
Definition N1 (z : R) : R := 1 - 3 * z ^ 2 + 2 * z ^ 3.
Definition N2 (z : R) : R := z - 2 * z ^ 2 + z ^ 3.
Definition N3 (z : R) : R := 3 * z ^ 2 - 2 * z ^ 3.
Definition N4 (z : R) : R := - z ^ 2 + z ^ 3.
(** np.linspace(0, 1, 5) *)
Definition zeta (k : nat) : R := INR k / 4.
(** one row of Nx @ evec[xx] and Ny @ evec[yy], lines 508-532 *)
Definition line_x (nd : nat) (Le : R) (v : nat -> C) (n k : nat) : C :=
  let ind := (nd * n)%nat in let z := zeta k in
  (N1 z * v ind + (Le * N2 z)%R * v (ind + nd / 2 + 1)%nat + N3 z * v (ind + nd)%nat + (Le * N4 z)%R * v (ind + 3 * nd / 2 + 1)%nat)%C.
Definition line_y (nd : nat) (Le : R) (v : nat -> C) (n k : nat) : C :=
  let ind := (nd * n)%nat in let z := zeta k in
  (N1 z * v (ind + 1)%nat + (- Le * N2 z)%R * v (ind + nd / 2)%nat + N3 z * v (ind + nd + 1)%nat + (- Le * N4 z)%R * v (ind + 3 * nd / 2)%nat)%C.
Record line := mkLine { ln_x : nat -> R; ln_y : nat -> R; ln_z : nat -> R; ln_major : nat -> R }.
Definition zeros : line := mkLine (fun _ => 0) (fun _ => 0) (fun _ => 0) (fun _ => 0).
(** the body of the loop over zip(shaft_elements_length, nodes): entries 5 n .. 5 n + 4 are overwritten *)
Definition line_step (eig2 : mat -> R * R) (nd : nat) (v : nat -> C) (pos : list R) (l : line) (p : R * nat) : line :=
  let (Le, n) := p in
  let inside i := ((5 * n <=? i) && (i <? 5 * (n + 1)))%nat in
  let k i := (i - 5 * n)%nat in
  mkLine (fun i => if inside i then Re (line_x nd Le v n (k i)) else ln_x l i)
         (fun i => if inside i then Re (line_y nd Le v n (k i)) else ln_y l i)
         (fun i => if inside i then nth n pos 0 + Le * zeta (k i) else ln_z l i)
         (fun i => if inside i then ob_major (orbit_init eig2 (line_x nd Le v n (k i)) (line_y nd Le v n (k i))) else ln_major l i).

Record shape := mkShape { sp_evec : nat -> C; sp_type : mode_type; sp_orbits : list orbit; sp_whirl : whirl; sp_line : line }.
(** Shape.__init__. The vector has [size] entries. With normalize=True and no motion in x or y the division gives nans and
    scipy.linalg.eig in the first Orbit raises ValueError. The sampled major_x, major_y, major_angle of the line are not
    modelled. *)
Definition shape_init (eig2 : mat -> R * R) (v : nat -> C) (size : nat) (nodes : list nat) (pos lens : list R) (nd : nat) (normalize : bool) : res shape :=
  let d := scale_of nd size v in
  if (normalize && if Req_EM_T (Cmod d) 0 then true else false)%bool then Err ValueError else
  let evec := if normalize then (fun i => v i / d)%C else v in
  let orbits := map (fun n => orbit_init eig2 (evec (nd * n)%nat) (evec (nd * n + 1)%nat)) nodes in
  Ok (mkShape evec (classify nd size v) orbits (shape_whirl (map ob_whirl orbits))
        (fold_left (line_step eig2 nd evec pos) (combine lens nodes) zeros)).

(** ** ModalResults.whirl and whirl_to_cmap, ross/results.py:915-968 *)
Definition modal_whirl (kappa : list R) : whirl :=
  if forallb (fun k => if Rle_dec (- / 1000) k then true else false) kappa then Forward
  else if forallb (fun k => if Rle_dec k (/ 1000) then true else false) kappa then Backward else Mixed.
Definition whirl_to_cmap (w : whirl) : R := match w with Forward => 0 | Backward => 1 | Mixed => / 2 end.

(** ** Rotor.nodes, shaft_elements_length and link_nodes, ross/rotor_assembly.py:327, 347-355 *)
Definition r_nodes (r : rotor) : list nat := seq 0 (length (r_nodes_pos r)).
(** groupby("n_l")["L"].min(); the shaft list is sorted, so equal nodes are adjacent *)
Fixpoint group_min (l : list (nat * R)) : list R :=
  match l with
  | [] => []
  | (n, p) :: l' =>
      match l' with
      | [] => [p]
      | (n', _) :: _ =>
          let g := group_min l' in
          if Nat.eqb n n' then match g with q :: g' => Rmin p q :: g' | [] => [p] end else p :: g
      end
  end.
Definition shaft_lengths (r : rotor) : list R := group_min (combine (map el_n (r_shaft r)) (map sh_L (r_shaft r))).
(** membership in link_nodes *)
Definition is_link (r : rotor) (n : nat) : bool :=
  existsb (fun e => match el_link e with Some m => Nat.eqb m n | None => false end) (r_brg r).
(** the shape of a rotor that run_modal and the deflected shapes build (ross/results.py:896-906, 3321-3331) *)
Definition rotor_shape (eig2 : mat -> R * R) (r : rotor) (v : nat -> C) (normalize : bool) : res shape :=
  shape_init eig2 v (r_ndof r) (r_nodes r) (r_nodes_pos r) (shaft_lengths r) (r_nd r) normalize.

(** ** Modal quantities, ross/rotor_assembly.py:672-682 *)
Definition modal_wn (ev : nat -> C) (i : nat) : R := Cmod (ev i).
Definition modal_wd (ev : nat -> C) (i : nat) : R := Im (ev i).
Definition modal_damping_ratio (ev : nat -> C) (i : nat) : R := - Re (ev i) / Cmod (ev i).
Definition modal_log_dec (ev : nat -> C) (i : nat) : R :=
  2 * PI * modal_damping_ratio ev i / sqrt (1 - modal_damping_ratio ev i ^ 2).
(** wn[:wn_len] with wn_len = num_modes // 2, of [n] eigenvalues *)
Definition modal_list (q : (nat -> C) -> nat -> R) (ev : nat -> C) (n num_modes : nat) : list R :=
  firstn (num_modes / 2) (map (q ev) (seq 0 n)).

(** ** Probe, ross/probe.py:42-58. The direction is a string in the code. *)
Record probe := mkProbe { pr_node : nat; pr_angle : option R; pr_axial : bool }.
Definition probe_init (node : nat) (angle : option R) (direction : string) : res probe :=
  if negb (String.eqb direction "radial" || String.eqb direction "axial") then Err ValueError
  else if String.eqb direction "radial" then match angle with None => Err ValueError | Some _ => Ok (mkProbe node angle false) end
  else Ok (mkProbe node None true).

(** a[:, i] for an axis of length n: negative indices count from the end *)
Definition py_index (n : nat) (i : Z) : res nat :=
  if (0 <=? i)%Z then (if (i <? Z.of_nat n)%Z then Ok (Z.to_nat i) else Err IndexError)
  else if (- Z.of_nat n <=? i)%Z then Ok (Z.to_nat (i + Z.of_nat n)) else Err IndexError.
(** ndof * node + c - fix_dof, lines 4581-4584 and 3054-3056; nodes[-1] is the number of the last shaft node *)
Definition probe_dof (r : rotor) (node : nat) (c : nat) : Z :=
  let nd := Z.of_nat (r_nd r) in
  let last := (Z.of_nat (length (r_nodes_pos r)) - 1)%Z in
  let fix_dof := if is_link r node then ((Z.of_nat node - last - 1) * nd / 2)%Z else 0%Z in
  (nd * Z.of_nat node + Z.of_nat c - fix_dof)%Z.
(** TimeResponseResults.data_time_response, ross/results.py:4546-4610, for one Probe object, in metres: the row [yout] of one time
    instant is mapped to the reading. None: the probe is skipped. Not modelled: the deprecated tuples, unit conversion, labels. *)
Definition time_reading (r : rotor) (yout : vec) (p : probe) : res (option R) :=
  let nd := r_nd r in
  if (pr_axial p && negb (Nat.eqb nd 6))%bool then Ok None
  else if pr_axial p then
    bind (py_index (r_ndof r) (probe_dof r (pr_node p) 2)) (fun dz => Ok (Some (yout dz)))
  else
    bind (py_index (r_ndof r) (probe_dof r (pr_node p) 0)) (fun dx =>
    bind (py_index (r_ndof r) (probe_dof r (pr_node p) 1)) (fun dy =>
    match pr_angle p with
    | Some a => Ok (Some (cos a * yout dx + sin a * yout dy))
    | None => Err TypeError
    end)).

(** ForcedResponseResults.data_magnitude and data_phase, ross/results.py:2410-2556, for one Probe object and one speed:
    (amplitude, phase), or None when the probe is skipped. [resp] has r_ndof entries. *)
Definition forced_reading (eig2 : mat -> R * R) (r : rotor) (resp : nat -> C) (p : probe) : res (option (R * R)) :=
  if pr_axial p then Ok None else
  let d := (r_nd r * pr_node p)%nat in
  if negb (d + 2 <=? r_ndof r)%nat then Err ValueError else
  if negb (pr_node p <? length (r_nodes_pos r))%nat then Err IndexError else
  let o := orbit_init eig2 (resp d) (resp (d + 1)%nat) in
  match pr_angle p with
  | Some a => Ok (Some (calculate_amplitude o (AAngle a)))
  | None => Err TypeError
  end.

(** ForcedResponseResults._calculate_major_axis_per_node, ross/results.py:3005-3106, for one speed:
    forward vector, backward vector, axis angle, amplitude, phase *)
Record axis_vec := mkAxis { ax_fow : C; ax_back : C; ax_angle : R; ax_value : R; ax_phase : R }.
Definition wrap_angle (a : R) : R := if Rlt_dec a 0 then a + 2 * PI else a.
Definition axis_vector (x y : C) (o : orientation) : axis_vec :=
  let rel := expi (PI / 2) in
  let fow := (x / 2 + rel * y / 2)%C in
  let back := (Cconj x / 2 + rel * Cconj y / 2)%C in
  let af := wrap_angle (carg fow) in let ab := wrap_angle (carg back) in
  let fold a := if Rlt_dec PI a then a - PI else a in
  let t := match o with AMajor => fold ((ab - af) / 2) | AMinor => fold ((ab - af + PI) / 2) | AAngle a => a end in
  let z := (fow * expi t + back * expi (- t))%C in
  mkAxis fow back t (Cmod z) (carg z).
Definition axis_per_node (r : rotor) (resp : nat -> C) (node : nat) (o : orientation) : res axis_vec :=
  bind (py_index (r_ndof r) (probe_dof r node 0)) (fun dx =>
  bind (py_index (r_ndof r) (probe_dof r node 1)) (fun dy =>
  Ok (axis_vector (resp dx) (resp dy) o))).
(** _calculate_major_axis_per_speed, lines 3108-3198: row 4 (the amplitude of the major axis) of one shaft node *)
Definition axis_per_speed (r : rotor) (resp : nat -> C) (node : nat) : axis_vec :=
  axis_vector (resp (r_nd r * node)%nat) (resp (r_nd r * node + 1)%nat) AMajor.

(** ** Bending moments of a deflected shape, _calculate_bending_moment, ross/results.py:3200-3257 *)
(** mag * cos(-phase), lines 3220-3228 *)
Definition resp_real (resp : nat -> C) (i : nat) : R := Cmod (resp i) * cos (- carg (resp i)).
Definition vadd_at (m : nat -> R) (i : nat) (x : R) : nat -> R := fun j => if Nat.eqb j i then m j + x else m j.
(** one pass of the loop for direction x (sign 1) or y (sign -1): el.n_l and el.n_r get the two rows *)
Definition moment_step (nd : nat) (d ro : nat) (sg : R) (q : nat -> R) (m : nat -> R) (e : elem) : nat -> R :=
  match e with
  | EShaft _ n _ s =>
      let L := s_L s in let f := - mE (s_material s) * s_Ie s / L ^ 2 in
      let xl := q (nd * n + d)%nat in let xr := q (nd * (n + 1) + d)%nat in
      let rl := q (nd * n + nd / 2 + ro)%nat in let rr := q (nd * (n + 1) + nd / 2 + ro)%nat in
      vadd_at (vadd_at m n (f * (- 6 * xl + 6 * xr - sg * (4 * L) * rl - sg * (2 * L) * rr)))
              (n + 1)%nat (f * (6 * xl - 6 * xr + sg * (2 * L) * rl + sg * (4 * L) * rr))
  | _ => m
  end.
Definition bending_moment (r : rotor) (resp : nat -> C) : (nat -> R) * (nat -> R) :=
  let q := resp_real resp in
  (fold_left (moment_step (r_nd r) 0 1 1 q) (r_shaft r) (fun _ => 0),
   fold_left (moment_step (r_nd r) 1 0 (- 1) q) (r_shaft r) (fun _ => 0)).

(** ** remove_dofs and convert_6dof_to_4dof, ross/utils.py:815-907 *)
(** np.delete keeps the other indices in order; an index outside the axis raises IndexError. Negative indices are not modelled. *)
Definition kept_idx (n : nat) (dofs : list nat) : list nat := filter (fun i => negb (existsb (Nat.eqb i) dofs)) (seq 0 n).
Definition every_third (n : nat) : list nat := filter (fun i => Nat.eqb (i mod 3) 2) (seq 0 n).
Definition remove_dofs (nm : nat * mat) (dofs : option (list nat)) : res (nat * mat) :=
  let (n, M) := nm in
  let ds := default (every_third n) dofs in
  if negb (forallb (fun d => d <? n)%nat ds) then Err IndexError else
  let k := kept_idx n ds in
  Ok (length k, fun i j => M (nth i k 0%nat) (nth j k 0%nat)).
(** the matrices of the converted rotor; its number_dof is 4 and its ndof is len(M()) *)
Definition converted (r : rotor) (A : res mat) : res (nat * mat) := bind A (fun m => remove_dofs (r_ndof r, m) None).
Definition converted_ndof spl (r : rotor) : res nat := bind (converted r (rotor_M spl r None)) (fun p => Ok (fst p)).

(** ** intersection, ross/utils.py:459-565. Curves are lists of points. *)
Definition pt := (R * R)%type.
Fixpoint segments (c : list pt) : list (pt * pt) :=
  match c with p :: ((q :: _) as t) => (p, q) :: segments t | _ => [] end.
Definition overlap (a b c d : R) : bool :=
  if Rle_dec (Rmin a b) (Rmax c d) then (if Rle_dec (Rmin c d) (Rmax a b) then true else false) else false.
Definition boxes_meet (s t : pt * pt) : bool :=
  overlap (fst (fst s)) (fst (snd s)) (fst (fst t)) (fst (snd t)) && overlap (snd (fst s)) (snd (snd s)) (snd (fst t)) (snd (snd t)).
Definition seg_matrix (s t : pt * pt) : mat :=
  let dx1 := fst (snd s) - fst (fst s) in let dy1 := snd (snd s) - snd (fst s) in
  let dx2 := fst (snd t) - fst (fst t) in let dy2 := snd (snd t) - snd (fst t) in
  lmat [[dx1; 0; -1; 0]; [0; dx2; -1; 0]; [dy1; 0; 0; -1]; [0; dy2; 0; -1]].
Definition seg_rhs (s t : pt * pt) : mat := lmat [[- fst (fst s)]; [- fst (fst t)]; [- snd (fst s)]; [- snd (fst t)]].
Definition unit_range (x : R) : bool := if Rle_dec 0 x then (if Rle_dec x 1 then true else false) else false.
(** a failed solve leaves infinities, which the range test removes *)
Definition seg_meet (la : linalg) (s t : pt * pt) : list pt :=
  if boxes_meet s t then
    match la_solve la 4 (seg_matrix s t) (seg_rhs s t) with
    | Ok T => if (unit_range (T 0%nat 0%nat) && unit_range (T 1%nat 0%nat))%bool then [(T 2%nat 0%nat, T 3%nat 0%nat)] else []
    | Err _ => []
    end
  else [].
Definition intersection (la : linalg) (c1 c2 : list pt) : list pt :=
  flat_map (fun s => flat_map (fun t => seg_meet la s t) (segments c2)) (segments c1).
