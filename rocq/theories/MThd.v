(** Model of the thermo-hydrodynamic bearing, ross/fluid_flow/cylindrical.py (class THDCylindrical). Numbers are exact reals.
    Not modelled, and taken from the library record [thdlib]: the temperature field (its result, the viscosity of the last pass over a pad, is [tl_visc]),
    the starved pressure field (:566-1058), Lund's method (:2011-2874), the minimiser of scipy and the curve fit of the viscosity. *)
From Coq Require Import Reals String List Arith Bool.
From Verif Require Import PyBase MatBase MDynamics MBearing.
Import ListNotations.
Open Scope R_scope.

Inductive thd_geometry := Circular | Lobe | Elliptical.
Inductive thd_method := ByPerturbation | ByLund.
Inductive thd_operation := Flooded | Starvation.
Inductive thd_sommerfeld := Sommerfeld1 | Sommerfeld2.
(** groove_factor: one number, or a list, array or tuple *)
Inductive thd_groove := GNumber (x : R) | GList (l : list R).

(** The parameters after check_units, :145-173, and [reference_viscosity] (:257), which comes from a curve fit.
    A geometry, method, operating_type or sommerfeld_type outside the documented options (UnboundLocalError) is not modelled. *)
Record thd := mkThd {
  th_len : R; th_rj : R; th_cr : R; th_nc : nat; th_na : nat; th_npad : nat; th_arc : R; th_preload : R; th_geom : thd_geometry;
  th_tref : R; th_wx : R; th_wy : R; th_groove : thd_groove; th_node : nat; th_somm : thd_sommerfeld; th_method : thd_method; th_oper : thd_operation; th_mu : R }.
(** where the journal centre is and how it moves: self.X, self.Y, self.Xpt, self.Ypt, and the speed of the rotor *)
Record thd_state := mkSt { st_w : R; st_x : R; st_y : R; st_xpt : R; st_ypt : R }.

Record thdlib := mkThdlib {
  tl_la : linalg;
  (** scipy.optimize.minimize: the point it returns and the last point at which it called the function *)
  tl_min : (R * R -> res R) -> R * R -> res ((R * R) * (R * R));
  tl_visc : thd -> thd_state -> nat -> mat;
  tl_starved : thd -> thd_state -> nat -> res mat;
  tl_lund : thd -> thd_state -> R * R -> res (list R * list R) }.

(** betha_s and dtheta, :201-205; dY, dZ, :210-211; dz, dy, :228-229 *)
Definition thd_beta (t : thd) : R := th_arc t * PI / 180.
Definition thd_dtheta (t : thd) : R := thd_beta t / INR (th_nc t).
Definition thd_dY (t : thd) : R := 1 / INR (th_nc t).
Definition thd_dZ (t : thd) : R := 1 / INR (th_na t).

(** pad_ct: list(range(0, 360, int(360 / n_pad))), :1116 *)
Definition thd_pad_ct (n_pad : nat) : res (list nat) :=
  match n_pad with
  | O => Err ZeroDivision
  | _ => let step := (360 / n_pad)%nat in
         match step with O => Err ValueError | _ => Ok (map (fun k => (k * step)%nat) (seq 0 ((360 - 1) / step + 1))) end
  end.
(** thetaI and thetaF of the pad that starts at [c] degrees, :1118-1124 *)
Definition thd_thetaI (t : thd) (c : nat) : R := (INR c + 180 / INR (th_npad t) - th_arc t / 2) * PI / 180.
Definition thd_thetaF (t : thd) (c : nat) : R := (INR c + 180 / INR (th_npad t) + th_arc t / 2) * PI / 180.

(** the film thickness divided by the clearance at the angle [g], :316-380 (hP, he and hw are the same formula at three angles), also :1373-1395.
    theta_pivot has two entries, :259-260. *)
Definition thd_film (t : thd) (s : thd_state) (n_p : nat) (g : R) : res R :=
  match th_geom t with
  | Circular => Ok (1 - st_x s * cos g - st_y s * sin g)
  | Lobe =>
      match nth_error [90 * PI / 180; 270 * PI / 180] n_p with
      | Some piv => Ok (1 / (1 - th_preload t) - st_x s * cos g - st_y s * sin g - th_preload t / (1 - th_preload t) * cos (g - piv))
      | None => Err IndexError
      end
  | Elliptical => Ok (1 - st_x s * cos g - st_y s * sin g + th_preload t / (1 - th_preload t) * (cos g) ^ 2)
  end.

(** MU_e, MU_w, MU_s, MU_n, :385-456, for at least two cells in each direction (with fewer, mu[ki + 1] or mu[ki, kj + 1] is out of range) *)
Definition thd_mus (na nc : nat) (mu : mat) (i j : nat) : R * R * R * R :=
  let own := mu i j in
  let e := / 2 * (mu i j + mu i (j + 1)%nat) in let w := / 2 * (mu i j + mu i (j - 1)%nat) in
  let s := / 2 * (mu i j + mu (i - 1)%nat j) in let n := / 2 * (mu i j + mu (i + 1)%nat j) in
  let j0 := Nat.eqb j 0 in let jl := Nat.eqb j (nc - 1) in let i0 := Nat.eqb i 0 in let il := Nat.eqb i (na - 1) in
  if j0 && i0 then (e, own, own, n)
  else if j0 && negb i0 && negb il then (e, own, s, n)
  else if j0 && il then (e, own, s, own)
  else if i0 && negb j0 && negb jl then (e, w, own, n)
  else if negb j0 && negb jl && negb i0 && negb il then (e, w, s, n)
  else if il && negb j0 && negb jl then (e, w, s, own)
  else if i0 && jl then (own, w, own, n)
  else if jl && negb i0 && negb il then (own, w, s, n)
  else (own, w, s, own).

(** Mat_coef[k - 1, ...] = ..., :471-529: one row is written; [row] is what the matrix held there before *)
Definition put (b : nat) (x : R) (row : vec) : vec := fun c => if Nat.eqb c b then x else row c.
Definition thd_row (na nc : nat) (ce cw cn cs : R) (i j : nat) (row : vec) : vec :=
  let cp := - (ce + cw + cn + cs) in
  let a := (i * nc + j)%nat in
  let j0 := Nat.eqb j 0 in let jl := Nat.eqb j (nc - 1) in let i0 := Nat.eqb i 0 in let il := Nat.eqb i (na - 1) in
  let E := put (a + 1) ce in let W := put (a - 1) cw in let S := put (a - nc) cs in let N := put (a + nc) cn in
  if i0 && j0 then N (E (put a (cp - cs - cw) row))
  else if j0 && negb i0 && negb il then N (S (E (put a (cp - cw) row)))
  else if j0 && il then S (E (put a (cp - cn - cw) row))
  else if i0 && negb j0 && negb jl then N (W (E (put a (cp - cs) row)))
  else if negb i0 && negb il && negb j0 && negb jl then E (N (S (W (put a cp row))))
  else if il && negb j0 && negb jl then S (W (E (put a (cp - cn) row)))
  else if i0 && jl then N (W (put a (cp - ce - cs) row))
  else if jl && negb i0 && negb il then N (S (W (put a (cp - ce) row)))
  else S (W (put a (cp - ce - cn) row)).

(** CE, CW, CN, CS and B, :458-468, of the cell (i, j) of a pad, from the film thickness [h] as a function of the angle; [g] is the angle of the middle of the cell *)
Definition thd_cell (t : thd) (s : thd_state) (h : R -> R) (g : R) (mu : mat) (i j : nat) : R * R * R * R * R :=
  let '(mue, muw, mus, mun) := thd_mus (th_na t) (th_nc t) mu i j in
  let hP := h g in let he := h (g + / 2 * thd_dtheta t) in let hw := h (g - / 2 * thd_dtheta t) in
  let dY := thd_dY t in let dZ := thd_dZ t in
  ((dZ * he ^ 3) / (12 * mue * dY * thd_beta t ^ 2), (dZ * hw ^ 3) / (12 * muw * dY * thd_beta t ^ 2),
   (dY * th_rj t ^ 2 * hP ^ 3) / (12 * mun * dZ * th_len t ^ 2), (dY * th_rj t ^ 2 * hP ^ 3) / (12 * mus * dZ * th_len t ^ 2),
   dZ / (2 * thd_beta t) * (he - hw) - (st_xpt s * cos g + st_ypt s * sin g) * dY * dZ).
(** the angle of the middle of the j-th cell: np.arange(thetaI + dtheta / 2, thetaF, dtheta), which has th_nc entries in exact arithmetic *)
Definition thd_angle (t : thd) (c : nat) (j : nat) : R := thd_thetaI t c + thd_dtheta t / 2 + INR j * thd_dtheta t.
(** the matrix and the right-hand side after the two loops, :310-533; [prev] is the matrix left behind by the pass before (Mat_coef is allocated once for all pads) *)
Definition thd_system (t : thd) (s : thd_state) (h : R -> R) (c : nat) (mu : mat) (prev : mat) : mat * vec :=
  let nc := th_nc t in
  let cell a := thd_cell t s h (thd_angle t c (a mod nc)) mu (a / nc) (a mod nc) in
  (fun a => let '(ce, cw, cn, cs, _) := cell a in thd_row (th_na t) nc ce cw cn cs (a / nc) (a mod nc) (prev a),
   fun a => let '(_, _, _, _, b) := cell a in b).
(** _flooded, :286-558, for the pad [n_p] that starts at [c] degrees: the pressure, in Pascal, of cell (i, j) *)
Definition thd_flooded (la : linalg) (t : thd) (s : thd_state) (n_p c : nat) (mu prev : mat) : res mat :=
  bind (thd_film t s n_p 0) (fun _ =>
  let h g := match thd_film t s n_p g with Ok v => v | Err _ => 0 end in
  if (Nat.ltb (th_na t) 2 || Nat.ltb (th_nc t) 2)%bool then Err IndexError else
  let '(M, b) := thd_system t s h c mu prev in
  bind (la_solve la (th_na t * th_nc t) M (fun a _ => b a)) (fun p =>
  Ok (fun i j => let v := p (i * th_nc t + j)%nat 0%nat in
    (if Rlt_dec v 0 then 0 else v) * th_mu t * st_w s * th_rj t ^ 2 / th_cr t ^ 2))).

(** self.fat_mixt[n_p], :1716: indexing an array without dimensions, or past the end, raises *)
Definition thd_factor (g : thd_groove) (n_p : nat) : res R :=
  match g with
  | GNumber _ => Err IndexError
  | GList l => match nth_error l n_p with Some x => Ok x | None => Err IndexError end
  end.
(** one pass over a pad: the pressure, and T_mist needs the groove factor of the pad *)
Definition thd_pad (lib : thdlib) (t : thd) (s : thd_state) (n_p c : nat) : res mat :=
  match th_oper t with
  | Flooded => bind (thd_flooded (tl_la lib) t s n_p c (tl_visc lib t s n_p) mzero) (fun p => bind (thd_factor (th_groove t) n_p) (fun _ => Ok p))
  | Starvation => tl_starved lib t s n_p
  end.

(** np.trapz(y, x) *)
Fixpoint trapz (ys xs : list R) : R :=
  match ys, xs with
  | y0 :: ((y1 :: _) as ys'), x0 :: ((x1 :: _) as xs') => (x1 - x0) * (y0 + y1) / 2 + trapz ys' xs'
  | _, _ => 0
  end.
(** np.linspace(t1 + dtheta / 2, t2 - dtheta / 2, elements_circumferential), :1126-1133 *)
Definition thd_ytheta (t : thd) (c : nat) : list R :=
  map (fun j => (thd_thetaI t c + thd_dtheta t / 2) + INR j * (((thd_thetaF t c - thd_dtheta t / 2) - (thd_thetaI t c + thd_dtheta t / 2)) / INR (th_nc t - 1))) (seq 0 (th_nc t)).
(** :1773-1806 from the pressure of every pad: Fhx and Fhy *)
Definition thd_resultant (t : thd) (starts : list nat) (ps : list mat) : R * R :=
  let ang := concat (map (thd_ytheta t) starts) in
  let row i := concat (map (fun p : mat => map (p i) (seq 0 (th_nc t))) ps) in
  let zs := map (fun i => th_len t * ((INR i + / 2) * thd_dZ t)) (seq 0 (th_na t)) in
  let f (d : R -> R) := - trapz (map (fun i => trapz (map (fun '(p, a) => p * d a) (combine (row i) ang)) (map (fun a => th_rj t * a) ang)) (seq 0 (th_na t))) zs in
  (f cos, f sin).

(** _forces after the position has been set, :1103-1806. The loop over the temperature of the mixture starts only if T_mist[0] - T_conv >= 0.5,
    that is 0.2 reference_temperature >= 0.5; without a pass self.Pdim does not exist. Then PPlot * auxF needs as many angles as pressures. *)
Definition thd_forces (lib : thdlib) (t : thd) (s : thd_state) : res (R * R) :=
  bind (thd_pad_ct (th_npad t)) (fun starts =>
  if Rlt_dec (th_tref t - 8 / 10 * th_tref t) (1 / 2) then Err AttributeError else
  bind (mapM (fun n_p => thd_pad lib t s n_p (nth n_p starts 0%nat)) (seq 0 (th_npad t))) (fun ps =>
  if Nat.eqb (th_nc t * length starts) (th_nc t * th_npad t) then Ok (thd_resultant t starts ps) else Err ValueError)).
(** _forces(initial_guess, None, None, None), :1085-1102 *)
Definition thd_forces_at (lib : thdlib) (t : thd) (w : R) (pos : R * R) : res (R * R) :=
  thd_forces lib t (mkSt w (fst pos * th_cr t * cos (snd pos) / th_cr t) (fst pos * th_cr t * sin (snd pos) / th_cr t) 0 0).
(** _forces(x, y, xpt, ypt), :1104-1108 *)
Definition thd_forces_xy (lib : thdlib) (t : thd) (w x y vx vy : R) : res (R * R) :=
  thd_forces lib t (mkSt w (x / th_cr t) (y / th_cr t) (vx / (th_cr t * w)) (vy / (th_cr t * w))).

(** _score, :2876-2904 *)
Definition thd_score (lib : thdlib) (t : thd) (w : R) (pos : R * R) : res R :=
  bind (thd_forces_at lib t w pos) (fun '(fx, fy) => Ok (sqrt ((th_wx t + fx) ^ 2 + (th_wy t + fy) ^ 2))).

(** sommerfeld, :2906-2945; a division by zero gives inf or nan, here None *)
Definition fdiv (a b : R) : option R := if Req_EM_T b 0 then None else Some (a / b).
Definition thd_load (t : thd) : R := sqrt (th_wx t ^ 2 + th_wy t ^ 2).
Definition thd_S (t : thd) (w fx fy : R) : option R :=
  match th_somm t with
  | Sommerfeld1 => fdiv (th_mu t * th_rj t ^ 3 * th_len t * w) (PI * th_cr t ^ 2 * thd_load t)
  | Sommerfeld2 => fdiv 1 (2 * (th_len t / (2 * th_rj t)) ^ 2 * sqrt (fx ^ 2 + fy ^ 2))
  end.
Definition omul (a b : option R) : option R := match a, b with Some x, Some y => Some (x * y) | _, _ => None end.
Definition oscale (a : R) (b : option R) : option R := match b with Some y => Some (a * y) | None => None end.

(** epix, epiy, epixpt, epiypt, :1929-1935 *)
Definition thd_steps (t : thd) (w : R) (eq : R * R) : R * R * R * R :=
  let va := w * th_rj t in
  (Rabs (1 / 1000 * th_cr t * cos (snd eq)), Rabs (1 / 1000 * th_cr t * sin (snd eq)),
   1 / 1000000 * Rabs (va * sin (snd eq)), 1 / 1000000 * Rabs (va * cos (snd eq))).
(** _pertubation_method, :1909-2009, over the function [force] x y xpt ypt *)
Definition thd_perturbation (force : R -> R -> R -> R -> res (R * R)) (t : thd) (w : R) (eq : R * R) : res (list (option R) * list (option R)) :=
  let xeq := fst eq * th_cr t * cos (snd eq) in let yeq := fst eq * th_cr t * sin (snd eq) in
  let '(ex, ey, vx, vy) := thd_steps t w eq in
  bind (force (xeq + ex) yeq 0 0) (fun g1 => bind (force (xeq - ex) yeq 0 0) (fun g2 =>
  bind (force xeq (yeq + ey) 0 0) (fun g3 => bind (force xeq (yeq - ey) 0 0) (fun g4 =>
  bind (force xeq yeq vx 0) (fun g5 => bind (force xeq yeq (- vx) 0) (fun g6 =>
  bind (force xeq yeq 0 vy) (fun g7 => bind (force xeq yeq 0 (- vy)) (fun g8 =>
  let cr := th_cr t in let S a b := oscale (-1) (thd_S t w a b) in
  let kk S d e := oscale (thd_load t / cr) (omul S (fdiv d (e / cr))) in
  let cc S d e := oscale (thd_load t / (cr * w)) (omul S (fdiv d (e / cr / w))) in
  Ok ([kk (S (fst g1) (snd g2)) (fst g1 - fst g2) ex; kk (S (fst g3) (snd g4)) (fst g3 - fst g4) ey;
       kk (S (snd g1) (snd g2)) (snd g1 - snd g2) ex; kk (S (snd g3) (snd g4)) (snd g3 - snd g4) ey],
      [cc (S (fst g5) (snd g6)) (fst g5 - fst g6) vx; cc (S (fst g7) (snd g8)) (fst g7 - fst g8) vy;
       cc (S (fst g5) (snd g6)) (snd g5 - snd g6) vx; cc (S (fst g7) (snd g8)) (snd g7 - snd g8) vy]))))))))).

(** coefficients, :1867-1907, once the equilibrium is known: ((kxx, kxy, kyx, kyy), (cxx, cxy, cyx, cyy)) *)
Definition thd_coefficients (lib : thdlib) (t : thd) (w : R) (eq : R * R) : res (list (option R) * list (option R)) :=
  match th_method t with
  | ByPerturbation => thd_perturbation (thd_forces_xy lib t w) t w eq
  | ByLund => bind (tl_lund lib t (mkSt w (fst eq * cos (snd eq)) (fst eq * sin (snd eq)) 0 0) eq) (fun '(k, c) => Ok (map Some k, map Some c))
  end.
(** run, :1808-1832: the equilibrium; self.initial_guess is left at the last point at which the score was evaluated (:1086) *)
Definition thd_run (lib : thdlib) (t : thd) (w : R) (guess : R * R) : res ((R * R) * (R * R)) := tl_min lib (thd_score lib t w) guess.
(** the loop over the speeds, :276-297 *)
Fixpoint thd_speeds (lib : thdlib) (t : thd) (guess : R * R) (ws : list R) : res (list (list (option R) * list (option R))) :=
  match ws with
  | [] => Ok []
  | w :: ws => bind (thd_run lib t w guess) (fun '(eq, last) => bind (thd_coefficients lib t w eq) (fun kc => bind (thd_speeds lib t last ws) (fun r => Ok (kc :: r))))
  end.

(** speed: a number or a sequence *)
Inductive thd_speed := SpNumber (w : R) | SpList (l : list R).
(** a column of the table of coefficients; coefficients that are inf or nan are not modelled further *)
Definition finite (l : list (option R)) : option (list R) := fold_right (fun o acc => match o, acc with Some x, Some l => Some (x :: l) | _, _ => None end) (Some []) l.
Definition column (k : nat) (rows : list (list R)) : coefarg := CArr (map (fun r => nth k r 0) rows).
(** THDCylindrical.__init__, :144-299. [rows]: for every speed kxx, kxy, kyx, kyy, cxx, cxy, cyx, cyy.
    The last line is super().__init__(node, kxx, cxx, kyy, kxy, kyx, cyy, cxy, cyx, speed), and the parameters of BearingElement.__init__ are
    n, kxx, cxx, mxx, kyy, kxy, kyx, cyy, cxy, cyx, myy, ... (bearing_seal_element.py:120-140). *)
Definition thd_super (node : nat) (rows : list (list R)) (speed : list R) : res bearing :=
  bearing_init (mkBArgs node (column 0 rows) (column 4 rows) (Some (column 3 rows)) (Some (column 1 rows)) (column 2 rows) (column 7 rows)
    (Some (column 5 rows)) (column 6 rows) (CArr speed) None (CScal 0) (CScal 0) None None None 1 "#355d7a").
(** None: some coefficient is inf or nan *)
Definition thd_init (lib : thdlib) (t : thd) (guess : R * R) (oil_flow : option R) (speed : thd_speed) : res (option (list (list R) * bearing)) :=
  if (Nat.eqb (th_nc t) 0 || Nat.eqb (th_na t) 0)%bool then Err ZeroDivision else
  match oil_flow with
  | None => Err TypeError
  | Some _ =>
      match speed with
      | SpNumber _ => Err IndexError
      | SpList ws =>
          bind (thd_speeds lib t guess ws) (fun l =>
          match fold_right (fun kc acc => match finite (fst kc ++ snd kc), acc with Some r, Some rs => Some (r :: rs) | _, _ => None end) (Some []) l with
          | None => Ok None
          | Some rows => bind (thd_super (th_node t) rows ws) (fun b => Ok (Some (rows, b)))
          end)
      end
  end.

(** ** The temperature of the oil that enters the pads *)
(** python indexing l[n - 1] of an array with [len] entries *)
Definition prev_idx (len n : nat) : nat := match n with O => (len - 1)%nat | S k => k end.
(** T_mist[n_p - 1] = ..., :1714-1718, flooded: [tend] and [fac] are T_end and fat_mixt *)
Definition mix_flooded (len : nat) (tref : R) (fac tend tmist : vec) (n_p : nat) : vec :=
  fun k => if Nat.eqb k (prev_idx len n_p) then fac n_p * tref + (1 - fac n_p) * tend n_p else tmist k.
(** for every pad in turn *)
Definition mix_flooded_all (len : nat) (tref : R) (fac tend tmist : vec) : vec := fold_left (fun tm n => mix_flooded len tref fac tend tm n) (seq 0 len) tmist.
(** geometry_factor, T_mist and theta_vol_groove, :1745-1771, starvation *)
Definition geometry_factor (len : nat) (qe qs : vec) (n : nat) : R := (qe n + qs (prev_idx len n)) / (sumn len qe + sumn len qs).
Definition mix_starved (len : nat) (tref oil : R) (qe qs tend : vec) (n : nat) : R :=
  (qs (prev_idx len n) * tend (prev_idx len n) + tref * geometry_factor len qe qs n * oil) / (geometry_factor len qe qs n * oil + qs (prev_idx len n)).
Definition groove_filling (len : nat) (oil : R) (qe qs : vec) (n : nat) : R :=
  let v := 8 / 10 * (geometry_factor len qe qs n * oil + qs (prev_idx len n)) / qe n in if Rlt_dec 1 v then 1 else v.
