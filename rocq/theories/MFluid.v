(** Model of ross/fluid_flow: fluid_flow_geometry.py, fluid_flow.py, fluid_flow_coefficients.py. Numbers are exact reals. *)
From Coq Require Import Reals String List Arith Bool.
From Coquelicot Require Import Coquelicot.
From Verif Require Import PyBase MatBase CMat MDynamics MFault.
Import ListNotations.
Open Scope R_scope.

(** ** Libraries that are called and not modelled.
    [fl_roots]: np.roots on the coefficients, highest degree first. [fl_refine f x]: scipy.optimize.root(f, x, tol=1e-10).x[0].
    [fl_lsq g]: least_squares on the residual g with bounds ([0, -1], [1, 0]), the point it stops at.
    [fl_simpson y x]: scipy.integrate.simpson(y, x=x). Linear systems: [fl_la], as for the rotor. *)
Record fluidlib := mkFluidLib { fl_roots : list R -> list C; fl_refine : (R -> R) -> R -> R;
  fl_lsq : (R * R -> R * R) -> R * R; fl_simpson : list R -> list R -> R; fl_la : linalg }.

(** ** fluid_flow_geometry.py *)
(** calculate_attitude_angle, :5-26 *)
Definition attitude_angle (e : R) : R := atan ((PI * sqrt (1 - e ^ 2)) / (4 * e)).

(** internal_radius_function, :29-72; the two coordinates are radius * cos gama, radius * sin gama *)
Definition internal_radius (gama att rr ecc : R) : R :=
  let alpha := if Rlt_dec (PI / 2 + att) gama then
                 (if Rlt_dec gama (3 * PI / 2 + att) then Rabs (3 * PI / 2 - gama + att) else gama + PI / 2 - att)
               else gama + PI / 2 - att in
  sqrt (rr ^ 2 - (ecc * sin alpha) ^ 2) + ecc * cos alpha.

(** external_radius_function, :75-180; same remark on the coordinates. [None] is the default of max_depth; dividing it raises TypeError. *)
Definition elip_alpha (gama : R) : R :=
  if Rle_dec 0 gama then
    (if Rle_dec gama (PI / 2) then PI / 2 + gama
     else if Rle_dec gama PI then 3 * PI / 2 - gama
     else if Rle_dec gama (3 * PI / 2) then gama - PI / 2 else 5 * PI / 2 - gama)
  else 5 * PI / 2 - gama.
Definition wear_depth (gama cr depth disp : R) : R :=
  let theta_s := PI / 2 + acos (depth / cr - 1) + disp in
  let theta_f_0 := PI / 2 - acos (depth / cr - 1) + disp in
  let theta_f := 2 * PI + theta_f_0 in
  let d g := depth - cr * (1 + cos (g - PI / 2 - disp)) in
  if Rle_dec theta_f (2 * PI) then
    (if Rle_dec theta_s gama then (if Rle_dec gama theta_f then d gama else 0) else 0)
  else
    let wrapped := if Rle_dec 0 gama then (if Rle_dec gama theta_f_0 then d (gama + 2 * PI) else 0) else 0 in
    if Rle_dec theta_s gama then (if Rle_dec gama (2 * PI) then d gama else wrapped) else wrapped.
Definition external_radius (gama rs rr : R) (shape : string) (preload disp : R) (depth : option R) : res R :=
  if String.eqb shape "eliptical" then
    let elip := preload * (rs - rr) in
    Ok (elip * cos (elip_alpha gama) + sqrt (rs ^ 2 - (elip * sin (elip_alpha gama)) ^ 2))
  else if String.eqb shape "wear" then
    match depth with
    | None => Err TypeError
    | Some dp => Ok (rs + (if Req_EM_T dp 0 then 0 else wear_depth gama (rs - rr) dp disp))
    end
  else Ok rs.

(** reynolds_number, :183-211 *)
Definition reynolds_number (density speed clearance mu : R) : R := (density * speed * clearance) / mu.
(** modified_sommerfeld_number, :214-249 *)
Definition modified_sommerfeld (rs omega mu length load clearance : R) : R :=
  (rs * 2 * omega * mu * length ^ 3) / (8 * load * clearance ^ 2).
(** sommerfeld_number, :252-285 *)
Definition sommerfeld (ms rs length : R) : R := (ms / PI) * (rs * 2 / length) ^ 2.

(** calculate_eccentricity_ratio, :288-332 *)
Definition ecc_coeffs (s : R) : list R := [1; -4; 6 - s ^ 2 * (16 - PI ^ 2); - (4 + PI ^ 2 * s ^ 2); 1].
Definition ecc_poly (s x : R) : R :=
  let c k := nth k (ecc_coeffs s) 0 in c 0%nat * x ^ 4 + c 1%nat * x ^ 3 + c 2%nat * x ^ 2 + c 3%nat * x ^ 1 + c 4%nat * x ^ 0.
(** np.isclose(roots.imag, 1e-16): atol = 1e-8, rtol = 1e-5 *)
Definition near_real (z : C) : bool := if Rle_dec (Rabs (snd z - / 10 ^ 16)) (/ 10 ^ 8 + / 10 ^ 5 * / 10 ^ 16) then true else false.
Fixpoint insert_r (x : R) (l : list R) : list R :=
  match l with [] => [x] | y :: l' => if Rle_dec x y then x :: l else y :: insert_r x l' end.
(** np.sort *)
Definition sort_r (l : list R) : list R := fold_right insert_r [] l.
Definition in_unit (x : R) : bool := if Rle_dec 0 x then (if Rle_dec x 1 then true else false) else false.
Definition eccentricity_ratio (fl : fluidlib) (s : R) : res R :=
  match find in_unit (sort_r (map fst (filter near_real (fl_roots fl (ecc_coeffs s))))) with
  | Some i => Ok (sqrt (fl_refine fl (ecc_poly s) i))
  | None => Err ValueError
  end.

(** calculate_rotor_load, :335-384 *)
Definition rotor_load (rs omega mu length clearance e : R) : R :=
  ((PI * rs * 2 * omega * mu * length ^ 3 * e) / (8 * clearance ^ 2 * (1 - e ^ 2) ^ 2)) * sqrt ((16 / PI ^ 2 - 1) * e ^ 2 + 1).

(** ** FluidFlow, fluid_flow.py. The attributes that only serve results (density, characteristic_speed, flags) are left out. *)
Record fluid := mkFluid {
  ff_nz : nat; ff_nt : nat; ff_length : R; ff_omega : R; ff_pin : R; ff_pout : R; ff_rr : R; ff_rs : R; ff_mu : R;
  ff_type : string; ff_shape : string; ff_preload : R; ff_disp : R; ff_depth : option R; ff_omegap : R;
  ff_load : option R; ff_ratio : R; ff_ecc : R; ff_att : R; ff_xi : R; ff_yi : R;
  ff_t : R; ff_xp : R; ff_yp : R;
  ff_gama : mat; ff_re : mat; ff_ri : mat; ff_pana : mat; ff_pnum : mat }.
Definition ff_clear (f : fluid) : R := ff_rs f - ff_rr f.
Definition ff_dz (f : fluid) : R := ff_length f / INR (ff_nz f - 1).
Definition ff_dt (f : fluid) : R := 2 * PI / INR (ff_nt f - 1).
(** coordinates of the grid points on the two surfaces *)
Definition ff_xre (f : fluid) : mat := fun i j => ff_re f i j * cos (ff_gama f i j).
Definition ff_yre (f : fluid) : mat := fun i j => ff_re f i j * sin (ff_gama f i j).
Definition ff_xri (f : fluid) : mat := fun i j => ff_ri f i j * cos (ff_gama f i j).
Definition ff_yri (f : fluid) : mat := fun i j => ff_ri f i j * sin (ff_gama f i j).
Definition set_pos (f : fluid) (xi yi ecc ratio att : R) : fluid :=
  mkFluid (ff_nz f) (ff_nt f) (ff_length f) (ff_omega f) (ff_pin f) (ff_pout f) (ff_rr f) (ff_rs f) (ff_mu f) (ff_type f) (ff_shape f) (ff_preload f) (ff_disp f) (ff_depth f) (ff_omegap f)
    (ff_load f) ratio ecc att xi yi (ff_t f) (ff_xp f) (ff_yp f) (ff_gama f) (ff_re f) (ff_ri f) (ff_pana f) (ff_pnum f).
Definition set_grid (f : fluid) (gama re ri : mat) : fluid :=
  mkFluid (ff_nz f) (ff_nt f) (ff_length f) (ff_omega f) (ff_pin f) (ff_pout f) (ff_rr f) (ff_rs f) (ff_mu f) (ff_type f) (ff_shape f) (ff_preload f) (ff_disp f) (ff_depth f) (ff_omegap f)
    (ff_load f) (ff_ratio f) (ff_ecc f) (ff_att f) (ff_xi f) (ff_yi f) (ff_t f) (ff_xp f) (ff_yp f) gama re ri (ff_pana f) (ff_pnum f).
Definition set_press (f : fluid) (pana pnum : mat) : fluid :=
  mkFluid (ff_nz f) (ff_nt f) (ff_length f) (ff_omega f) (ff_pin f) (ff_pout f) (ff_rr f) (ff_rs f) (ff_mu f) (ff_type f) (ff_shape f) (ff_preload f) (ff_disp f) (ff_depth f) (ff_omegap f)
    (ff_load f) (ff_ratio f) (ff_ecc f) (ff_att f) (ff_xi f) (ff_yi f) (ff_t f) (ff_xp f) (ff_yp f) (ff_gama f) (ff_re f) (ff_ri f) pana pnum.
Definition set_pert (f : fluid) (t xp yp : R) : fluid :=
  mkFluid (ff_nz f) (ff_nt f) (ff_length f) (ff_omega f) (ff_pin f) (ff_pout f) (ff_rr f) (ff_rs f) (ff_mu f) (ff_type f) (ff_shape f) (ff_preload f) (ff_disp f) (ff_depth f) (ff_omegap f)
    (ff_load f) (ff_ratio f) (ff_ecc f) (ff_att f) (ff_xi f) (ff_yi f) t xp yp (ff_gama f) (ff_re f) (ff_ri f) (ff_pana f) (ff_pnum f).

(** move_rotor_center_abs and move_rotor_center, fluid_flow_geometry.py:387-452 *)
Definition move_abs (f : fluid) (x y : R) : fluid :=
  let e := sqrt (x ^ 2 + y ^ 2) in set_pos f x y e (e / ff_clear f) (acos (Rabs (y / e))).
Definition move_center (f : fluid) (dx dy : R) : fluid := move_abs f (ff_xi f + dx) (ff_yi f + dy).

(** geometry_description, fluid_flow.py:454-482 *)
Definition ff_start (f : fluid) : R := if String.eqb (ff_shape f) "cylindrical" then PI / 2 + ff_att f else 0.
Definition geometry_description (f : fluid) : res fluid :=
  let gama : mat := fun _ j => INR j * ff_dt f + ff_start f in
  let ext g := external_radius g (ff_rs f) (ff_rr f) (ff_shape f) (ff_preload f) (ff_disp f) (ff_depth f) in
  match ext 0 with
  | Err e => Err e
  | Ok _ => Ok (set_grid f gama (fun i j => match ext (gama i j) with Ok r => r | Err _ => 0 end)
                 (fun i j => internal_radius (gama i j) (ff_att f) (ff_rr f) (ff_ecc f)))
  end.

(** calculate_pressure_matrix_analytical, fluid_flow.py:373-452 *)
Definition clip (x : R) : R := if Rlt_dec x 0 then 0 else x.
Definition p_short0 (f : fluid) (i j : nat) : R :=
  ((-3 * ff_mu f * ff_omega f) / ff_clear f ^ 2) * ((INR i * ff_dz f - ff_length f / 2) ^ 2 - ff_length f ^ 2 / 4)
  * (ff_ratio f * sin (INR j * ff_dt f)) / (1 + ff_ratio f * cos (INR j * ff_dt f)) ^ 3.
Definition p_short1 (f : fluid) (i j : nat) : R :=
  (3 * ff_mu f / (ff_clear f ^ 2 * (1 + ff_ratio f * cos (INR j * ff_dt f)) ^ 3))
  * (- ff_ratio f * ff_omega f * sin (INR j * ff_dt f)) * ((INR i * ff_dz f - ff_length f / 2) ^ 2 - ff_length f ^ 2 / 4).
Definition p_long (f : fluid) (i j : nat) : R :=
  (6 * ff_mu f * ff_omega f * (ff_rr f / ff_clear f) ^ 2 * ff_ratio f * sin (ff_dt f * INR j) * (2 + ff_ratio f * cos (ff_dt f * INR j)))
  / ((2 + ff_ratio f ^ 2) * (1 + ff_ratio f * cos (ff_dt f * INR j)) ^ 2) + ff_pin f.
Definition pressure_analytical (f : fluid) (method : nat) (force : option string) : res fluid :=
  let is t s := match t with Some x => String.eqb x s | None => false end in
  if String.eqb (ff_type f) "short_bearing" || is force "short"%string then
    match method with
    | 0%nat => Ok (set_press f (fun i j => clip (p_short0 f i j)) (ff_pnum f))
    | 1%nat => Ok (set_press f (fun i j => clip (p_short1 f i j)) (ff_pnum f))
    | _ => Ok f
    end
  else if String.eqb (ff_type f) "long_bearing" || is force "long"%string then
    match method with 0%nat => Ok (set_press f (fun i j => clip (p_long f i j)) (ff_pnum f)) | _ => Ok f end
  else if String.eqb (ff_type f) "medium_size" || negb (String.eqb (ff_shape f) "cylindrical") then Err ValueError
  else Ok f.

(** calculate_coefficients, fluid_flow.py:484-553 *)
Inductive dirn := DirX | DirY.
Definition fk (re ri : R) : R := (re ^ 2 * (ln re - 1 / 2) - ri ^ 2 * (ln ri - 1 / 2)) / (ri ^ 2 - re ^ 2).
Definition fc1 (mu re ri : R) : R :=
  (1 / (4 * mu)) * ((re ^ 2 * ln re - ri ^ 2 * ln ri + (re ^ 2 - ri ^ 2) * (fk re ri - 1))
                    - 2 * re ^ 2 * ((ln re + fk re ri - 1 / 2) * ln (re / ri))).
Definition fc2 (mu re ri : R) : R :=
  (- ri ^ 2) / (8 * mu) * ((re ^ 2 - ri ^ 2 - (re ^ 4 - ri ^ 4) / (2 * ri ^ 2))
    + ((re ^ 2 - ri ^ 2) / (ri ^ 2 * ln (re / ri))) * (re ^ 2 * ln (re / ri) - (re ^ 2 - ri ^ 2) / 2)).
Definition fc0 (w re ri : R) : R := - w * ri * (ln (re / ri) * (1 + ri ^ 2 / (re ^ 2 - ri ^ 2)) - 1 / 2).
Definition outside (f : fluid) (i j : nat) : bool :=
  (if Rlt_dec (Rabs (ff_xre f i j)) (Rabs (ff_xri f i j)) then true else false)
  || (if Rlt_dec (Rabs (ff_yre f i j)) (Rabs (ff_yri f i j)) then true else false).
Definition coef_c0w (f : fluid) (d : option dirn) (i j : nat) : R :=
  fc0 (ff_omega f * ff_rr f) (ff_re f i j) (ff_ri f i j) +
  match d with
  | Some DirX => ff_ri f i j * (ff_omegap f * ff_xp f * cos (ff_omegap f * ff_t f)) * sin (ff_gama f i j)
  | Some DirY => - (ff_ri f i j * (ff_omegap f * ff_yp f * cos (ff_omegap f * ff_t f)) * cos (ff_gama f i j))
  | None => 0
  end.
Definition coefficients (f : fluid) (d : option dirn) : res (mat * mat * mat) :=
  if existsb (fun i => existsb (outside f i) (seq 0 (ff_nt f))) (seq 0 (ff_nz f)) then Err ValueError
  else Ok (fun i j => fc1 (ff_mu f) (ff_re f i j) (ff_ri f i j), fun i j => fc2 (ff_mu f) (ff_re f i j) (ff_ri f i j), coef_c0w f d).

(** mounting_matrix, fluid_flow.py:555-631: assignments in program order; [count] is the loop variable of the code *)
Definition mset (M : mat) (a b : nat) (v : R) : mat := fun i j => if Nat.eqb i a && Nat.eqb j b then v else M i j.
Definition vset (f : vec) (a : nat) (v : R) : vec := fun i => if Nat.eqb i a then v else f i.
Definition mount_bounds (nz nt : nat) (pin pout : R) (s : nat * mat * vec) : nat * mat * vec :=
  fold_left (fun '(count, M, f) _ =>
    let M := mset M count count 1 in let f := vset f count pin in
    let count := (count + nz - 1)%nat in
    let M := mset M count count 1 in let f := vset f count pout in
    ((count + 1)%nat, M, f)) (seq 0 nt) s.
Definition mount_period (nz ntot : nat) (M : mat) : mat :=
  fold_left (fun M count => mset (mset M (ntot - nz + 1 + count) (1 + count) 1) (ntot - nz + 1 + count) (ntot - nz + 1 + count) (-1)) (seq 0 (nz - 2)) M.
(** the rows of the first column of points (j = 0) *)
Definition mount_first (nz nt ntot : nat) (dz dt : R) (c1 c2 : mat) (M : mat) : mat :=
  snd (fold_left (fun '(count, M) i =>
    let M := mset M count (ntot - 2 * nz + count) ((1 / dt ^ 2) * c1 i (nt - 1)%nat) in
    let M := mset M count (count - 1) ((1 / dz ^ 2) * c2 (i - 1)%nat 0%nat) in
    let M := mset M count count (- ((1 / dt ^ 2) * (c1 i 0%nat + c1 i (nt - 1)%nat) + (1 / dz ^ 2) * (c2 i 0%nat + c2 (i - 1)%nat 0%nat))) in
    let M := mset M count (count + 1) ((1 / dz ^ 2) * c2 i 0%nat) in
    let M := mset M count (count + nz) ((1 / dt ^ 2) * c1 i 0%nat) in
    ((count + 1)%nat, M)) (seq 1 (nz - 2)) (1%nat, M)).
Definition mount_inner (nz nt : nat) (dz dt : R) (c1 c2 : mat) (M : mat) : mat :=
  snd (fold_left (fun s j =>
    let '(count, M) := fold_left (fun '(count, M) i =>
      let M := mset M count (count - nz) ((1 / dt ^ 2) * c1 i (j - 1)%nat) in
      let M := mset M count (count - 1) ((1 / dz ^ 2) * c2 (i - 1)%nat j) in
      let M := mset M count count (- ((1 / dt ^ 2) * (c1 i j + c1 i (j - 1)%nat) + (1 / dz ^ 2) * (c2 i j + c2 (i - 1)%nat j))) in
      let M := mset M count (count + 1) ((1 / dz ^ 2) * c2 i j) in
      let M := mset M count (count + nz) ((1 / dt ^ 2) * c1 i j) in
      ((count + 1)%nat, M)) (seq 1 (nz - 2)) s in
    ((count + 2)%nat, M)) (seq 1 (nt - 2)) ((nz + 1)%nat, M)).
Definition mount_source (nz nt : nat) (dt : R) (c0w : mat) (f : vec) : vec :=
  snd (fold_left (fun s j =>
    let '(count, f) := fold_left (fun '(count, f) i =>
      ((count + 1)%nat, vset f count ((c0w i j - c0w i (if Nat.eqb j 0 then nt - 1 else j - 1)%nat) / dt))) (seq 1 (nz - 2)) s in
    ((count + 2)%nat, f)) (seq 0 (nt - 1)) (1%nat, f)).
Definition mounting_matrix (nz nt : nat) (dz dt pin pout : R) (c1 c2 c0w : mat) : mat * vec :=
  let ntot := (nz * nt)%nat in
  let '(_, M, f) := mount_bounds nz nt pin pout (0%nat, mzero, fun _ => 0) in
  (mount_inner nz nt dz dt c1 c2 (mount_first nz nt ntot dz dt c1 c2 (mount_period nz ntot M)), mount_source nz nt dt c0w f).

(** resolves_matrix and calculate_pressure_matrix_numerical, fluid_flow.py:633-686. spsolve warns on a singular matrix and returns nan; here it raises. *)
Definition pressure_numerical (fl : fluidlib) (f : fluid) (d : option dirn) : res fluid :=
  bind (coefficients f d) (fun '(c1, c2, c0w) =>
  let '(M, b) := mounting_matrix (ff_nz f) (ff_nt f) (ff_dz f) (ff_dt f) (ff_pin f) (ff_pout f) c1 c2 c0w in
  bind (la_solve (fl_la fl) (ff_nz f * ff_nt f) M (fun i _ => b i)) (fun X =>
  Ok (set_press f (ff_pana f) (fun i j => clip (X (j * ff_nz f + i)%nat 0%nat))))).

(** ** fluid_flow_coefficients.py *)
(** calculate_oil_film_force, :11-146: radial, tangential, x and y force *)
Definition force_xy (att fr ft : R) : R * R * R * R := (fr, ft, - fr * sin att + ft * cos att, fr * cos att + ft * sin att).
Definition film_short (f : fluid) : R * R * R * R :=
  let e := ff_ratio f in
  let k := / 2 * ff_mu f * (ff_rr f / ff_clear f) ^ 2 * (ff_length f ^ 3 / ff_rr f) in
  force_xy (ff_att f) (k * ((2 * e ^ 2 * ff_omega f) / (1 - e ^ 2) ^ 2)) (k * ((PI * e * ff_omega f) / (2 * Rpower (1 - e ^ 2) (3 / 2)))).
Definition film_long (f : fluid) : R * R * R * R :=
  let e := ff_ratio f in
  let k := 6 * ff_mu f * (ff_rr f / ff_clear f) ^ 2 * ff_rr f * ff_length f in
  force_xy (ff_att f) (k * ((2 * e ^ 2 * ff_omega f) / ((2 + e ^ 2) * (1 - e ^ 2)))) (k * ((PI * e * ff_omega f) / ((2 + e ^ 2) * sqrt (1 - e ^ 2)))).
Definition film_numerical (fl : fluidlib) (f : fluid) : R * R * R * R :=
  let ang i j := atan2 (ff_yre f i j - ff_yi f) (ff_xre f i j - ff_xi f) in
  let base := ang 0%nat 0%nat in
  let between i j := let a := ang i j - base in if Rlt_dec a 0 then a + 2 * PI else a in
  let gam := map (fun j => ff_gama f 0%nat j) (seq 0 (ff_nt f)) in
  let zs := map (fun i => INR i * ff_dz f) (seq 0 (ff_nz f)) in
  let integral g := fl_simpson fl (map (fun i => fl_simpson fl (map (fun j => ff_pnum f i j * g (between i j)) (seq 0 (ff_nt f))) gam) (seq 0 (ff_nz f))) zs in
  let corr := PI / 2 - base + ff_att f in
  let ra := ff_rr f * integral cos in
  let ta := ff_rr f * integral sin in
  force_xy (ff_att f) (ra * cos (corr + PI) + ta * cos (corr + PI / 2)) (ra * cos (corr + PI / 2) + ta * cos corr).
Definition oil_film_force (fl : fluidlib) (f : fluid) (force : option string) : R * R * R * R :=
  let is t s := match t with Some x => String.eqb x s | None => false end in
  if negb (is force "numerical"%string) && (is force "short"%string || String.eqb (ff_type f) "short_bearing") then film_short f
  else if negb (is force "numerical"%string) && (is force "long"%string || String.eqb (ff_type f) "long_bearing") then film_long f
  else film_numerical fl f.

(** calculate_stiffness_and_damping_coefficients, :149-271. The forces measured at the N = 6 instants, then a least squares fit F = [1, d, d'] P.
    np.linalg.inv(X^T X) is the library inverse. *)
Definition instants (om : R) : list R := map (fun i => INR i * (2 * PI / om / 5)) (seq 0 6).
Definition pert_force (fl : fluidlib) (f : fluid) (d : dirn) : res (R * R) :=
  bind (geometry_description f) (fun f => bind (pressure_numerical fl f (Some d)) (fun f =>
  let '(_, _, fx, fy) := film_numerical fl f in Ok (fx, fy))).
Fixpoint mapM {A B} (g : A -> res B) (l : list A) : res (list B) :=
  match l with [] => Ok [] | a :: l => bind (g a) (fun b => bind (mapM g l) (fun bs => Ok (b :: bs))) end.
(** one instant: the displacement of each direction, its speed, and -force_xx, -force_yx, -force_xy, -force_yy; the state the next instant starts from *)
Definition one_instant (fl : fluidlib) (f : fluid) (t : R) : res (fluid * (R * R * (R * R) * (R * R))) :=
  let f := set_pert f t (ff_xp f) (ff_yp f) in
  let dx := ff_xp f * sin (ff_omegap f * t) in
  let vx := ff_omegap f * ff_xp f * cos (ff_omegap f * t) in
  let dy := ff_yp f * sin (ff_omegap f * t) in
  let f1 := move_center f dx 0 in
  bind (pert_force fl f1 DirX) (fun '(fxx, fyx) =>
  let f2 := move_center (move_center f1 (- dx) 0) 0 dy in
  bind (pert_force fl f2 DirY) (fun '(fxy, fyy) =>
  Ok (move_center f2 0 (- dy), (dx, vx, (- fxx, - fyx), (- fxy, - fyy))))).
Fixpoint all_instants (fl : fluidlib) (f : fluid) (l : list R) : res (list (R * R * (R * R) * (R * R))) :=
  match l with [] => Ok [] | t :: l => bind (one_instant fl f t) (fun '(f, m) => bind (all_instants fl f l) (fun ms => Ok (m :: ms))) end.
(** np.dot(np.dot(inv(X^T X), X^T), F) for the N x 3 matrix X of the rows [1, d, v] *)
Definition least_squares3 (la : linalg) (rows : list (R * R)) (F : list R) : res vec :=
  let X : mat := fun i j => let '(d, v) := nth i rows (0, 0) in nth j [1; d; v] 0 in
  let n := length rows in
  bind (la_inv la 3 (of_mat (mulm n (mtrans X) X))) (fun I =>
  Ok (mulv n (mulm 3 (fun i j => fst (I i j)) (mtrans X)) (fun i => nth i F 0))).
Definition stiffness_damping (fl : fluidlib) (f : fluid) : res (list R * list R) :=
  let f := set_pert f (ff_t f) (ff_clear f * / 10000) (ff_clear f * / 10000) in
  bind (all_instants fl f (instants (ff_omegap f))) (fun ms =>
  let rows := map (fun '(d, v, _, _) => (d, v)) ms in
  bind (least_squares3 (fl_la fl) rows (map (fun '(_, _, (a, _), _) => a) ms)) (fun P1 =>
  bind (least_squares3 (fl_la fl) rows (map (fun '(_, _, _, (a, _)) => a) ms)) (fun P2 =>
  bind (least_squares3 (fl_la fl) rows (map (fun '(_, _, (_, b), _) => b) ms)) (fun P3 =>
  bind (least_squares3 (fl_la fl) rows (map (fun '(_, _, _, (_, b)) => b) ms)) (fun P4 =>
  Ok ([P1 1%nat; P2 1%nat; P3 1%nat; P4 1%nat], [P1 2%nat; P2 2%nat; P3 2%nat; P4 2%nat])))))).

(** calculate_short_stiffness_matrix, :274-352 and calculate_short_damping_matrix, :355-385 *)
Definition short_h0 (e : R) : R := 1 / Rpower (PI ^ 2 * (1 - e ^ 2) + 16 * e ^ 2) (3 / 2).
Definition short_stiffness (load clearance e : R) : list R :=
  let a := load / clearance in let h0 := short_h0 e in
  [ a * h0 * 4 * (PI ^ 2 * (2 - e ^ 2) + 16 * e ^ 2);
    a * h0 * PI * (PI ^ 2 * (1 - e ^ 2) ^ 2 - 16 * e ^ 4) / (e * sqrt (1 - e ^ 2));
    - a * h0 * PI * (PI ^ 2 * (1 - e ^ 2) * (1 + 2 * e ^ 2) + 32 * e ^ 2 * (1 + e ^ 2)) / (e * sqrt (1 - e ^ 2));
    a * h0 * 4 * (PI ^ 2 * (1 + 2 * e ^ 2) + (32 * e ^ 2 * (1 + e ^ 2)) / (1 - e ^ 2)) ].
Definition short_damping (load clearance omega e : R) : list R :=
  let a := load / (clearance * omega) in let h0 := short_h0 e in
  let cxy := - a * h0 * 8 * (PI ^ 2 * (1 + 2 * e ^ 2) - 16 * e ^ 2) in
  [ a * h0 * 2 * PI * sqrt (1 - e ^ 2) * (PI ^ 2 * (1 + 2 * e ^ 2) - 16 * e ^ 2) / e; cxy; cxy;
    a * h0 * (2 * PI * (PI ^ 2 * (1 - e ^ 2) ^ 2 + 48 * e ^ 2)) / (e * sqrt (1 - e ^ 2)) ].

(** find_equilibrium_position, :388-445 *)
Definition numeric_force (fl : fluidlib) (f : fluid) : res (R * R) :=
  bind (geometry_description f) (fun f => bind (pressure_numerical fl f None) (fun f => let '(_, _, fx, fy) := film_numerical fl f in Ok (fx, fy))).
(** an exception inside the residual is an exception of the call: it is raised first for the start point; the residual is total otherwise *)
Definition residual (fl : fluidlib) (f : fluid) (x : R * R) : R * R :=
  match numeric_force fl (move_abs f (fst x * ff_clear f) (snd x * ff_clear f)), ff_load f with
  | Ok (fx, fy), Some w => (fx, fy - w) | _, _ => (0, 0) end.
Definition find_equilibrium (fl : fluidlib) (f : fluid) : res fluid :=
  match ff_load f with
  | None => Err SystemExit
  | Some _ =>
    bind (numeric_force fl (move_abs f (0 * ff_clear f) (- / 1000 * ff_clear f))) (fun _ =>
    let x := fl_lsq fl (residual fl f) in
    geometry_description (move_abs f (fst x * ff_clear f) (snd x * ff_clear f)))
  end.

(** FluidFlow.__init__, fluid_flow.py:218-371 *)
Record ffargs := mkFfArgs { fa_nz : nat; fa_nt : nat; fa_length : R; fa_omega : R; fa_pin : R; fa_pout : R; fa_rr : R; fa_rs : R; fa_mu : R;
  fa_att : option R; fa_ecc : option R; fa_load : option R; fa_omegap : option R; fa_now : bool; fa_type : option string; fa_shape : string;
  fa_preload : R; fa_disp : R; fa_depth : option R }.
Definition bearing_type (a : ffargs) : string :=
  match fa_type a with
  | Some t => t
  | None => if Rle_dec (fa_length a / (2 * fa_rs a)) (1 / 4) then "short_bearing"%string
            else if Rlt_dec 4 (fa_length a / (2 * fa_rs a)) then "long_bearing"%string else "medium_size"%string
  end.
Definition ff_base (a : ffargs) (load : option R) (ratio ecc att : R) : fluid :=
  mkFluid (fa_nz a) (fa_nt a) (fa_length a) (fa_omega a) (fa_pin a) (fa_pout a) (fa_rr a) (fa_rs a) (fa_mu a) (bearing_type a) (fa_shape a) (fa_preload a) (fa_disp a) (fa_depth a)
    (default (fa_omega a) (fa_omegap a)) load ratio ecc att (ecc * cos (3 * PI / 2 + att)) (ecc * sin (3 * PI / 2 + att)) 0 0 0 mzero mzero mzero mzero mzero.
Definition ff_init (fl : fluidlib) (a : ffargs) : res fluid :=
  let c := fa_rs a - fa_rr a in
  let finish f := if fa_now a then pressure_numerical fl f None else Ok f in
  if String.eqb (bearing_type a) "short_bearing" && String.eqb (fa_shape a) "cylindrical" then
    let ms w := modified_sommerfeld (fa_rs a) (fa_omega a) (fa_mu a) (fa_length a) w c in
    let go load ratio ecc := bind (geometry_description (ff_base a load ratio ecc (default (attitude_angle ratio) (fa_att a)))) finish in
    match fa_ecc a, fa_load a with
    | None, Some w => bind (eccentricity_ratio fl (ms w)) (fun e => go (Some w) e (e * c))
    | Some ecc, Some w => bind (eccentricity_ratio fl (ms w)) (fun e => go (Some w) e ecc)
    | Some ecc, None => go (Some (rotor_load (fa_rs a) (fa_omega a) (fa_mu a) (fa_length a) c (ecc / c))) (ecc / c) ecc
    | None, None => Err SystemExit
    end
  else
    bind (match fa_load a with
          | Some w =>
            bind (find_equilibrium fl (ff_base a (Some w) 0 (default 0 (fa_ecc a)) (default 0 (fa_att a)))) (fun f =>
            Ok (ff_base a (Some w) (default (ff_ecc f) (fa_ecc a) / c) (default (ff_ecc f) (fa_ecc a)) (default (ff_att f) (fa_att a))))
          | None =>
            match fa_att a, fa_ecc a with
            | None, _ => Err SystemExit
            | _, None => Err SystemExit
            | Some att, Some ecc => Ok (ff_base a None (ecc / c) ecc att)
            end
          end) (fun f => bind (geometry_description f) finish).
