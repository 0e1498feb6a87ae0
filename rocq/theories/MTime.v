(** Time integration: Newmark's method, Rotor.integrate_system, the Runge-Kutta integrators of the fault module. *)
From Coq Require Import Reals String List Arith Bool ZArith.
From Verif Require Import PyBase MatBase MBearing MRotor MDynamics.
Import ListNotations.
Open Scope list_scope.
Open Scope R_scope.

(** ** ross/utils.py:629-751, newmark
    The time array is taken to have a floating point dtype (yout gets the dtype of t, so an integer time array would
    truncate the results). Progress messages are left out; they have no effect on the result. *)
Record nstate := mkN { n_y : vec; n_v : vec; n_a : vec }.
Definition vadd (x y : vec) : vec := fun i => x i + y i.
Definition vscale (c : R) (x : vec) : vec := fun i => c * x i.
Definition vzero : vec := fun _ => 0.
(** la.norm of a vector of length n *)
Definition norm (n : nat) (x : vec) : R := sqrt (dot n x x).
(** the system at one step: M, C, K, RHS *)
Definition sysm := (mat * mat * mat * vec)%type.
Record nopts := mkOpts { o_gamma : R; o_beta : R; o_tol : R }.
(** lines 686-688: the defaults *)
Definition default_opts : nopts := mkOpts (1 / 2) (1 / 4) (1 / 10 ^ 6).
(** line 715 and 733: res = RHS - (K y + C ydot) - M y2dot *)
Definition residual (n : nat) (S : sysm) (s : nstate) : vec := let '(M, C, K, F) := S in
  fun i => F i - (mulv n K (n_y s) i + mulv n C (n_v s) i) - mulv n M (n_a s) i.
(** lines 711-713: the state before the first iteration *)
Definition predictor (o : nopts) (dt : R) (s0 : nstate) : nstate :=
  mkN (fun i => n_y s0 i + n_v s0 i * dt + n_a s0 i * (1 / 2 - o_beta o) * dt ^ 2)
      (fun i => n_v s0 i + n_a s0 i * (1 - o_gamma o) * dt) vzero.
(** lines 725-731: one Newton-Raphson correction *)
Definition correct (o : nopts) (dt : R) (d : vec) (s : nstate) : nstate :=
  mkN (fun i => n_y s i + d i * o_beta o * dt ^ 2) (fun i => n_v s i + d i * o_gamma o * dt) (vadd (n_a s) d).
Definition iteration_matrix (o : nopts) (dt : R) (S : sysm) : mat := let '(M, C, K, _) := S in
  fun i j => M i j + C i j * o_gamma o * dt + K i j * o_beta o * dt ^ 2.
(** lines 718-733: [fuel] is the number of corrections still allowed *)
Fixpoint newton (la : linalg) (n : nat) (o : nopts) (dt : R) (S : sysm) (fuel : nat) (s : nstate) : res nstate :=
  if Rlt_dec (norm n (residual n S s)) (o_tol o) then Ok s else
  match fuel with
  | O => Err WarningExn
  | Datatypes.S k => bind (la_solve la n (iteration_matrix o dt S) (fun i _ => residual n S s i))
      (fun X => newton la n o dt S k (correct o dt (fun i => X i 0%nat) s))
  end.
Definition max_iter : nat := Z.to_nat 100000.
(** lines 701-741: [func step dt state]; the result lists the states after every step *)
Fixpoint newmark_loop (la : linalg) (n : nat) (o : nopts) (func : nat -> R -> nstate -> res sysm)
    (step : nat) (tprev : R) (ts : list R) (s0 : nstate) : res (list nstate) :=
  match ts with
  | [] => Ok []
  | t :: ts => let dt := t - tprev in
      bind (func step dt s0) (fun S =>
      bind (newton la n o dt S max_iter (predictor o dt s0)) (fun s =>
      bind (newmark_loop la n o func (Datatypes.S step) t ts s) (fun l => Ok (s :: l))))
  end.
(** the whole run, with velocities and accelerations; yout is [map n_y] of it. t[-1] (line 689) needs a nonempty t. *)
Definition at_rest : nstate := mkN vzero vzero vzero.
Definition newmark_states (la : linalg) (n : nat) (o : nopts) (func : nat -> R -> nstate -> res sysm) (t : list R) : res (list nstate) :=
  match t with
  | [] => Err IndexError
  | t0 :: ts => bind (newmark_loop la n o func 1 t0 ts at_rest) (fun l => Ok (at_rest :: l))
  end.
Definition newmark (la : linalg) (n : nat) (o : nopts) func (t : list R) : res (list vec) :=
  bind (newmark_states la n o func t) (fun l => Ok (map n_y l)).

(** ** Rotor.integrate_system, ross/rotor_assembly.py:2022-2180, direct method, without M, C, K, G, Ksdt overrides *)
Inductive speed_arg := SNum (s : R) | SArr (l : list R).
(** line 2082: len(set(speed)) > 1 *)
Definition varies (l : list R) : bool := existsb (fun x => if Req_EM_T x (hd 0 l) then false else true) l.
(** np.gradient(f, t), second order in the interior, one-sided at the ends *)
Definition gradient (f t : list R) (k : nat) : R :=
  let F i := nth i f 0 in let T i := nth i t 0 in
  match k with
  | O => (F 1%nat - F 0%nat) / (T 1%nat - T 0%nat)
  | S j => if Nat.eqb (S k) (length f) then (F k - F j) / (T k - T j)
           else let hs := T k - T j in let hd := T (S k) - T k in
                (hs ^ 2 * F (S k) + (hd ^ 2 - hs ^ 2) * F k - hd ^ 2 * F j) / (hs * hd * (hd + hs))
  end.
(** line 2127: bearings with a frequency vector *)
Definition has_table (e : elem) : bool := match e with EBrg _ b => match b_frequency (brg_base b) with Some _ => true | None => false end | _ => false end.
Definition var_brgs (r : rotor) : list elem := filter has_table (r_brg r).
(** assemble_C_K_matrices, ross/utils.py:754-812, for bearings at a speed. Where elm.C(speed) raises, elm.C() is tried,
    which raises TypeError for every bearing; the model keeps the first exception. *)
Definition assemble_C_K spl (r : rotor) (els : list elem) (C0 K0 : mat) (speed : R) : res (mat * mat) :=
  bind (assemble (r_ndof r) (r_dofs r) (el_C spl speed) els C0) (fun C =>
  bind (assemble (r_ndof r) (r_dofs r) (el_K spl speed) els K0) (fun K => Ok (C, K))).
(** F[step, :] of an array with [nrow] rows, plus the optional add_to_RHS; lines 2105-2121 *)
Definition forces_at (F : nat -> vec) (nrow : nat) (extra : option (nat -> R -> nstate -> vec)) (step : nat) (dt : R) (s : nstate) : res vec :=
  if (step <? nrow)%nat then Ok (match extra with None => F step | Some g => vadd (F step) (g step dt s) end) else Err IndexError.
(** the system function of lines 2123-2172 *)
Definition rotor_system spl (r : rotor) (speed : speed_arg) (F : nat -> vec) (nrow : nat) (t : list R) (extra : option (nat -> R -> nstate -> vec))
    : res (nat -> R -> nstate -> res sysm) :=
  bind (rotor_M spl r None) (fun M =>
  bind (rotor_G spl r) (fun G =>
  bind (rotor_Ksdt r) (fun K2 =>
  let ref := match speed with SNum s => s | SArr l => suml l / INR (length l) end in
  match speed with
  | SArr l =>
      if varies l then
        if negb (Nat.eqb (length l) (length t)) then Err ValueError (* np.gradient *) else
        match var_brgs r with
        | [] => (* option 2 *)
            bind (rotor_C spl r ref []) (fun C1 =>
            bind (rotor_K spl r ref []) (fun K1 =>
            Ok (fun step dt s => bind (forces_at F nrow extra step dt s) (fun f =>
              Ok (M, madd C1 (mscale (nth step l 0) G), madd K1 (mscale (gradient l t step) K2), f)))))
        | vb => (* option 1 *)
            bind (rotor_C spl r ref (map el_tag vb)) (fun C0 =>
            bind (rotor_K spl r ref (map el_tag vb)) (fun K0 =>
            Ok (fun step dt s =>
              bind (assemble_C_K spl r vb C0 K0 (nth step l 0)) (fun CK =>
              bind (forces_at F nrow extra step dt s) (fun f =>
              Ok (M, madd (fst CK) (mscale (nth step l 0) G), madd (snd CK) (mscale (gradient l t step) K2), f))))))
        end
      else (* option 3 *)
        bind (rotor_C spl r ref []) (fun C1 =>
        bind (rotor_K spl r ref []) (fun K1 =>
        Ok (fun step dt s => bind (forces_at F nrow extra step dt s) (fun f => Ok (M, madd C1 (mscale ref G), K1, f)))))
  | SNum _ =>
        bind (rotor_C spl r ref []) (fun C1 =>
        bind (rotor_K spl r ref []) (fun K1 =>
        Ok (fun step dt s => bind (forces_at F nrow extra step dt s) (fun f => Ok (M, madd C1 (mscale ref G), K1, f)))))
  end))).
Definition integrate_system (la : linalg) spl (r : rotor) (o : nopts) (speed : speed_arg) (F : nat -> vec) (nrow : nat) (t : list R)
    (extra : option (nat -> R -> nstate -> vec)) : res (list vec) :=
  bind (rotor_system spl r speed F nrow t extra) (fun func => newmark la (r_ndof r) o func t).

(** ** ross/faults/integrate_solver.py: func x y i *)
(** int(x): truncation towards zero *)
Definition trunc (x : R) : Z := if Rle_dec 0 x then Int_part x else (- Int_part (- x))%Z.
Definition rk4_step (f : R -> vec -> nat -> vec) (h x : R) (y : vec) (i : nat) : vec :=
  let k1 := vscale h (f x y i) in
  let k2 := vscale h (f (x + 1 / 2 * h) (vadd y (vscale (1 / 2) k1)) i) in
  let k3 := vscale h (f (x + 1 / 2 * h) (vadd y (vscale (1 / 2) k2)) i) in
  let k4 := vscale h (f (x + h) (vadd y k3) i) in
  fun j => y j + (1 / 6) * (k1 j + 2 * k2 j + 2 * k3 j + k4 j).
Definition rk45_step (f : R -> vec -> nat -> vec) (h x : R) (y : vec) (i : nat) : vec :=
  let k1 := f x y i in
  let k2 := f (x + h / 5) (fun j => y j + k1 j * (h / 5)) i in
  let k3 := f (x + 3 * h / 10) (fun j => y j + k1 j * (3 * h / 40) + k2 j * (9 * h / 40)) i in
  let k4 := f (x + 3 * h / 5) (fun j => y j + k1 j * (3 * h / 10) - k2 j * (9 * h / 10) + k3 j * (6 * h / 5)) i in
  let k5 := f (x + h) (fun j => y j - k1 j * (11 * h / 54) + k2 j * (5 * h / 2) - k3 j * (70 * h / 27) + k4 j * (35 * h / 27)) i in
  let k6 := f (x + 7 * h / 8) (fun j => y j + k1 j * (1631 * h / 55296) + k2 j * (175 * h / 512) + k3 j * (575 * h / 13824)
              + k4 j * (44275 * h / 110592) + k5 j * (253 * h / 4096)) i in
  fun j => y j + h * (37 * k1 j / 378 + 250 * k3 j / 621 + 125 * k4 j / 594 + 512 * k6 j / 1771).
(** the loop of lines 62-81 / 95-139: k more steps, the next one has number i; the columns appended and the new x0 *)
Fixpoint rk_loop (step : R -> vec -> nat -> vec) (h : R) (k i : nat) (x : R) (y : vec) : list vec * R :=
  match k with
  | O => ([], x)
  | S k => let y' := step x y i in let '(l, x') := rk_loop step h k (S i) (x + h) y' in (y' :: l, x')
  end.
(** rk4 and rk45, lines 50-139: the columns of the result and the value left in self.x0.
    [size] is the length of y0; the result array has 24 rows (a y0 of length 1 is broadcast). *)
Definition integrate (step : R -> vec -> nat -> vec) (x0 : R) (y0 : vec) (size : nat) (x h : R) : res (list vec * R) :=
  if Req_EM_T h 0 then Err ZeroDivision else
  let n := trunc ((x - x0) / h) in
  if (n + 1 <? 0)%Z then Err ValueError else
  if (n + 1 =? 0)%Z then Err IndexError else
  if negb (Nat.eqb size 24) then Err ValueError else
  let '(l, x') := rk_loop step h (Z.to_nat n) 1 x0 y0 in Ok (y0 :: l, x').
Definition rk4 (f : R -> vec -> nat -> vec) x0 y0 size x h := integrate (rk4_step f h) x0 y0 size x h.
Definition rk45 (f : R -> vec -> nat -> vec) x0 y0 size x h := integrate (rk45_step f h) x0 y0 size x h.

(** np.arange(a, b, d): ceil((b - a) / d) entries a + k d *)
Definition ceil (x : R) : Z := (- Int_part (- x))%Z.
Definition arange (a b d : R) : list R := map (fun k => a + INR k * d) (seq 0 (Z.to_nat (ceil ((b - a) / d)))).
(** t_eval of the fault analyses: ross/faults/rubbing.py:176, crack.py:271, misalignment.py:217 and :690 *)
Definition t_eval (tI tF dt : R) : list R := arange tI (tF + dt) dt.
