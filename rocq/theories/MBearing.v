(** Model of ross/bearing_seal_element.py: BearingElement, SealElement, BallBearingElement,
    RollerBearingElement, MagneticBearingElement, BearingElement6DoF. *)
From Coq Require Import Reals String List Bool Arith.
From Verif Require Import PyBase PyDict MatBase.
Import ListNotations.
Open Scope list_scope.
Open Scope R_scope.

(** A coefficient argument: a Python number or a sequence. *)
Inductive coefarg := CScal (c : R) | CArr (l : list R).

(** What [_process_coefficient] leaves in [self.<coef>_interpolated]. The numerics of scipy's
    UnivariateSpline are not modelled: [ISpline] is evaluated by the parameter [spl] below. *)
Inductive interp := IConst (c : R) | ILagr (xs ys : list R) | ISpline (xs ys : list R) | INone.

Fixpoint nondecreasing (l : list R) : bool :=
  match l with
  | x :: ((y :: _) as r) => (if Rle_dec x y then true else false) && nondecreasing r
  | _ => true
  end.
Fixpoint mem_R (x : R) (l : list R) : bool :=
  match l with [] => false | y :: r => (if Req_EM_T x y then true else false) || mem_R x r end.
Fixpoint distinct (l : list R) : bool :=
  match l with [] => true | x :: r => negb (mem_R x r) && distinct r end.

(** scipy.interpolate.UnivariateSpline(x, y) with default k=3, s=None accepts: equal lengths, more than k
    points, x not decreasing. *)
Definition spline_accepts (xs ys : list R) : bool :=
  Nat.eqb (length xs) (length ys) && Nat.leb 4 (length xs) && nondecreasing xs.
(** scipy.interpolate.interp1d(x, y, kind=len(x)-1) for 2 or 3 points: equal lengths, and no repeated
    abscissa for the quadratic. *)
Definition interp1d_accepts (xs ys : list R) : bool :=
  Nat.eqb (length xs) (length ys) && (Nat.eqb (length xs) 2 || distinct xs).

(** BearingElement._process_coefficient, ross/bearing_seal_element.py:210-251.
    Simplification: the frequency argument is None or a sequence (a bare number is not modelled). *)
Definition process_coefficient (freq : option (list R)) (coef : coefarg) : res (list R * interp) :=
  let l := match coef with
           | CScal c => match freq with Some f => repeat c (length f) | None => [c] end
           | CArr l => l
           end in
  if Nat.ltb 1 (length l) then
    match freq with
    | None => Err ValueError
    | Some f =>
        if spline_accepts f l then Ok (l, ISpline f l)
        else if Nat.eqb (length f) 2 || Nat.eqb (length f) 3 then
          if interp1d_accepts f l then Ok (l, ILagr f l) else Err ValueError
        else Ok (l, INone)
    end
  else match l with
       | c :: _ => Ok (l, IConst c)
       | [] => Err IndexError
       end.

(** interp1d with kind 1 on 2 points and kind 2 on 3 points, with extrapolation: the polynomial
    through the points. *)
Fixpoint others_prod (w x : R) (xs : list R) (i k : nat) : R :=
  match xs with
  | [] => 1
  | y :: r => (if Nat.eqb i k then 1 else (w - y) / (x - y)) * others_prod w x r i (S k)
  end.
Fixpoint lagr_from (w : R) (all xs ys : list R) (i : nat) : R :=
  match xs, ys with
  | x :: xs, y :: ys => y * others_prod w x all i 0 + lagr_from w all xs ys (S i)
  | _, _ => 0
  end.
Definition lagrange (xs ys : list R) (w : R) : R := lagr_from w xs xs ys 0.

(** Evaluation of [self.<coef>_interpolated(frequency)]; calling None raises TypeError. *)
Definition eval_interp (spl : list R -> list R -> R -> R) (i : interp) (w : R) : res R :=
  match i with
  | IConst c => Ok c
  | ILagr xs ys => Ok (lagrange xs ys w)
  | ISpline xs ys => Ok (spl xs ys w)
  | INone => Err TypeError
  end.

(** The twelve coefficients in the order of [args], ross/bearing_seal_element.py:146-159. *)
Inductive cname := kxx | kyy | kxy | kyx | cxx | cyy | cxy | cyx | mxx | myy | mxy | myx.
Definition cnames : list cname := [kxx; kyy; kxy; kyx; cxx; cyy; cxy; cyx; mxx; myy; mxy; myx].

(** Constructor arguments, ross/bearing_seal_element.py:120-140. *)
Record bargs := mkBArgs {
  ba_n : nat; ba_kxx : coefarg; ba_cxx : coefarg; ba_mxx : option coefarg;
  ba_kyy : option coefarg; ba_kxy : coefarg; ba_kyx : coefarg;
  ba_cyy : option coefarg; ba_cxy : coefarg; ba_cyx : coefarg;
  ba_myy : option coefarg; ba_mxy : coefarg; ba_myx : coefarg;
  ba_frequency : option (list R); ba_tag : option string; ba_n_link : option nat;
  ba_scale_factor : R; ba_color : string }.

(** The resolved argument of each coefficient, ross/bearing_seal_element.py:161-177. *)
Definition resolve (a : bargs) (c : cname) : coefarg :=
  match c with
  | kxx => ba_kxx a | kyy => default (ba_kxx a) (ba_kyy a) | kxy => ba_kxy a | kyx => ba_kyx a
  | cxx => ba_cxx a | cyy => default (ba_cxx a) (ba_cyy a) | cxy => ba_cxy a | cyx => ba_cyx a
  | mxx => default (CScal 0) (ba_mxx a)
  | myy => match ba_myy a with Some m => m | None => default (CScal 0) (ba_mxx a) end
  | mxy => ba_mxy a | myx => ba_myx a
  end.

(** A constructed bearing; [b_coef] holds [self.<coef>] and [self.<coef>_interpolated]. *)
Record bearing := mkBearing {
  b_n : nat; b_n_link : option nat; b_tag : option string; b_color : string; b_scale_factor : R;
  b_frequency : option (list R); b_coef : cname -> list R * interp }.

(** process every coefficient in order, stopping at the first exception (lines 183-187) *)
Fixpoint process_all (freq : option (list R)) (arg : cname -> coefarg) (l : list cname)
    : res (list (list R * interp)) :=
  match l with
  | [] => Ok []
  | c :: l => bind (process_coefficient freq (arg c)) (fun p => bind (process_all freq arg l) (fun r => Ok (p :: r)))
  end.
Definition cindex (c : cname) : nat :=
  match c with kxx => 0 | kyy => 1 | kxy => 2 | kyx => 3 | cxx => 4 | cyy => 5 | cxy => 6 | cyx => 7
  | mxx => 8 | myy => 9 | mxy => 10 | myx => 11 end.

(** The length check, ross/bearing_seal_element.py:189-201; [lens] is [coefficients_len]. *)
Definition length_check (freq : option (list R)) (lens : list nat) : bool :=
  match freq with
  | Some f => match lens with [] => true | l :: _ => forallb (Nat.eqb l) (lens ++ [length f]) end
  | None => forallb (Nat.eqb 1) lens
  end.

(** BearingElement.__init__, ross/bearing_seal_element.py:119-208. *)
Definition bearing_init (a : bargs) : res bearing :=
  bind (process_all (ba_frequency a) (resolve a) cnames) (fun ps =>
  if length_check (ba_frequency a) (map (fun p => length (fst p)) ps) then
    Ok (mkBearing (ba_n a) (ba_n_link a) (ba_tag a) (ba_color a) (ba_scale_factor a) (ba_frequency a)
          (fun c => nth (cindex c) ps ([], INone)))
  else Err ValueError).

Definition eval_coef spl (b : bearing) (c : cname) (w : R) : res R := eval_interp spl (snd (b_coef b c)) w.

(** np.vstack((np.hstack([M, -M]), np.hstack([-M, M]))) for an n x n block *)
Definition linked (n : nat) (M : mat) : mat := fun i j =>
  if Nat.ltb i n then (if Nat.ltb j n then M i j else - M i (j - n)%nat)
  else (if Nat.ltb j n then - M (i - n)%nat j else M (i - n)%nat (j - n)%nat).

Definition block2 spl (b : bearing) (w : R) (xx xy yx yy : cname) : res mat :=
  bind (eval_coef spl b xx w) (fun vxx => bind (eval_coef spl b yy w) (fun vyy =>
  bind (eval_coef spl b xy w) (fun vxy => bind (eval_coef spl b yx w) (fun vyx =>
  let M := lmat [[vxx; vxy]; [vyx; vyy]] in
  Ok (match b_n_link b with Some _ => linked 2 M | None => M end))))).

(** BearingElement.M, K, C: ross/bearing_seal_element.py:515-546, :549-586, :588-624; G is zero (:626). *)
Definition bearing_M spl b w : res mat := block2 spl b w mxx mxy myx myy.
Definition bearing_K spl b w : res mat := block2 spl b w kxx kxy kyx kyy.
Definition bearing_C spl b w : res mat := block2 spl b w cxx cxy cyx cyy.
(** number of degrees of freedom touched: one node, or two with n_link *)
Definition bearing_size (b : bearing) : nat := match b_n_link b with Some _ => 4 | None => 2 end.

(** Saved data of a bearing, ross/bearing_seal_element.py:444-487, and the arguments [load] rebuilds
    from it (ross/element.py:85, :91-95). TOML drops None entries, so they come back as the defaults of the
    constructor, which are None for frequency, tag and n_link. Coefficients are saved as lists. *)
Definition bearing_saved (b : bearing) : bargs :=
  let c x := CArr (fst (b_coef b x)) in
  mkBArgs (b_n b) (c kxx) (c cxx) (Some (c mxx)) (Some (c kyy)) (c kxy) (c kyx) (Some (c cyy)) (c cxy) (c cyx)
    (Some (c myy)) (c mxy) (c myx) (b_frequency b) (b_tag b) (b_n_link b) (b_scale_factor b) (b_color b).
Definition bearing_reload (b : bearing) : res bearing := bearing_init (bearing_saved b).

(** SealElement.__init__, ross/bearing_seal_element.py:1115-1161. *)
Record seal := mkSeal { sl_bearing : bearing; sl_leakage : option R }.
Definition seal_init (a : bargs) (leakage : option R) : res seal :=
  let a' := mkBArgs (ba_n a) (ba_kxx a) (ba_cxx a) (ba_mxx a) (ba_kyy a) (ba_kxy a) (ba_kyx a) (ba_cyy a)
      (ba_cxy a) (ba_cyx a) (ba_myy a) (ba_mxy a) (ba_myx a) (ba_frequency a) (ba_tag a) (ba_n_link a)
      (ba_scale_factor a / 2) (ba_color a) in
  bind (bearing_init a') (fun b => Ok (mkSeal b leakage)).
(** save then load of a seal: the stored scale factor is the halved attribute *)
Definition seal_reload (s : seal) : res seal := seal_init (bearing_saved (sl_bearing s)) (sl_leakage s).

(** BearingElement6DoF.__init__, ross/bearing_seal_element.py:1795-1881. The list used by the final
    check is recomputed from the empty dictionary [coefficients] at :1868, so only the length of
    the frequency enters it. kzz/czz/mzz given as None are not modelled. *)
Record bearing6 := mkBearing6 { b6 : bearing; b6_kzz : list R * interp; b6_czz : list R * interp; b6_mzz : list R * interp }.
Definition bearing6_init (a : bargs) (kzz czz mzz : coefarg) : res bearing6 :=
  bind (bearing_init a) (fun b =>
  bind (process_coefficient (ba_frequency a) kzz) (fun pk =>
  bind (process_coefficient (ba_frequency a) czz) (fun pc =>
  bind (process_coefficient (ba_frequency a) mzz) (fun pm =>
  let lens := match ba_frequency a with Some f => [length f] | None => [] end in
  if length_check (ba_frequency a) lens then Ok (mkBearing6 b pk pc pm) else Err ValueError)))).

Definition block3 spl (b : bearing6) (w : R) (xx xy yx yy : cname) (zz : interp) : res mat :=
  bind (eval_coef spl (b6 b) xx w) (fun vxx => bind (eval_coef spl (b6 b) yy w) (fun vyy =>
  bind (eval_coef spl (b6 b) xy w) (fun vxy => bind (eval_coef spl (b6 b) yx w) (fun vyx =>
  bind (eval_interp spl zz w) (fun vzz =>
  let M := lmat [[vxx; vxy; 0]; [vyx; vyy; 0]; [0; 0; vzz]] in
  Ok (match b_n_link (b6 b) with Some _ => linked 3 M | None => M end)))))).
(** BearingElement6DoF.M, K, C, ross/bearing_seal_element.py:2008-2040, :2042-2078, :2080-2116. *)
Definition bearing6_M spl b w : res mat := block3 spl b w mxx mxy myx myy (snd (b6_mzz b)).
Definition bearing6_K spl b w : res mat := block3 spl b w kxx kxy kyx kyy (snd (b6_kzz b)).
Definition bearing6_C spl b w : res mat := block3 spl b w cxx cxy cyx cyy (snd (b6_czz b)).

(** Ball and roller bearings: stiffnesses, ross/bearing_seal_element.py:1237-1257 and :1354-1368.
    The dictionary values at 8, 12, 16 are those of the quadratic through the same points, which
    interp1d evaluates elsewhere. *)
Definition ball_ratio (nb : nat) : R :=
  match nb with 8%nat => 46/100 | 12%nat => 64/100 | 16%nat => 73/100
  | _ => lagrange [8; 12; 16] [46/100; 64/100; 73/100] (INR nb) end.
Definition roller_ratio (nr : nat) : R :=
  match nr with 8%nat => 49/100 | 12%nat => 66/100 | 16%nat => 74/100
  | _ => lagrange [8; 12; 16] [49/100; 66/100; 74/100] (INR nr) end.
Definition ball_kyy (nb : nat) (d fs alpha : R) : R :=
  13000000 * Rpower (INR nb) (2/3) * Rpower d (1/3) * Rpower fs (1/3) * Rpower (cos alpha) (5/3).
Definition ball_kxx nb d fs alpha : R := ball_ratio nb * ball_kyy nb d fs alpha.
Definition roller_kyy (nr : nat) (l fs alpha : R) : R :=
  1000000000 * Rpower (INR nr) (9/10) * Rpower l (8/10) * Rpower fs (1/10) * Rpower (cos alpha) (19/10).
Definition roller_kxx nr l fs alpha : R := roller_ratio nr * roller_kyy nr l fs alpha.
(** default damping, :1259-1262 and :1370-1373 *)
Definition rolling_c (given : option R) (k : R) : R := default (125/10000000 * k) given.

(** BallBearingElement.__init__, ross/bearing_seal_element.py:1225-1278. *)
Definition ball_init (n nb : nat) (d fs alpha : R) (c_xx c_yy : option R) (tag : option string) (n_link : option nat) (scale : R) : res bearing :=
  let kx := ball_kxx nb d fs alpha in let ky := ball_kyy nb d fs alpha in
  bearing_init (mkBArgs n (CScal kx) (CScal (rolling_c c_xx kx)) None (Some (CScal ky)) (CScal 0) (CScal 0)
    (Some (CScal (rolling_c c_yy ky))) (CScal 0) (CScal 0) None (CScal 0) (CScal 0) None tag n_link scale "#77ACA2").
(** RollerBearingElement.__init__, ross/bearing_seal_element.py:1342-1389. *)
Definition roller_init (n nr : nat) (l fs alpha : R) (c_xx c_yy : option R) (tag : option string) (n_link : option nat) (scale : R) : res bearing :=
  let kx := roller_kxx nr l fs alpha in let ky := roller_kyy nr l fs alpha in
  bearing_init (mkBArgs n (CScal kx) (CScal (rolling_c c_xx kx)) None (Some (CScal ky)) (CScal 0) (CScal 0)
    (Some (CScal (rolling_c c_yy ky))) (CScal 0) (CScal 0) None (CScal 0) (CScal 0) None tag n_link scale "#77ACA2").

(** MagneticBearingElement.__init__, ross/bearing_seal_element.py:1458-1564, with parameters that
    are numbers or lists: broadcasting of lists of equal length is modelled by index, a number
    being constant. The test [type(x) == float or int] is always true, so no length is checked. *)
Inductive magarg := MScal (x : R) | MList (l : list R).
Definition mag_len (p : magarg) : option nat := match p with MScal _ => None | MList l => Some (length l) end.
Definition mag_at (p : magarg) (i : nat) : R := match p with MScal x => x | MList l => nth i l 0 end.
Record magargs := mkMag { g0 : magarg; i0 : magarg; ag : magarg; nw : magarg; malpha : magarg;
  kp_pid : magarg; kd_pid : magarg; k_amp : magarg; k_sense : magarg }.
Definition mag_ks (a : magargs) (i : nat) : R :=
  - 4 * mag_at (i0 a) i ^ 2 * cos (mag_at (malpha a) i) * 4 * PI * (1/10000000) * mag_at (nw a) i ^ 2 * mag_at (ag a) i
  / (4 * mag_at (g0 a) i ^ 3).
Definition mag_ki (a : magargs) (i : nat) : R :=
  4 * mag_at (i0 a) i * cos (mag_at (malpha a) i) * 4 * PI * (1/10000000) * mag_at (nw a) i ^ 2 * mag_at (ag a) i
  / (4 * mag_at (g0 a) i ^ 2).
Definition mag_k (a : magargs) (i : nat) : R :=
  let ki := mag_ki a i in
  ki * mag_at (k_amp a) i * mag_at (k_sense a) i *
    (mag_at (kp_pid a) i + mag_ks a i / (ki * mag_at (k_amp a) i * mag_at (k_sense a) i)).
Definition mag_c (a : magargs) (i : nat) : R :=
  mag_ki a i * mag_at (k_amp a) i * mag_at (kd_pid a) i * mag_at (k_sense a) i.
Definition mag_params (a : magargs) : list magarg :=
  [g0 a; i0 a; ag a; nw a; malpha a; kp_pid a; kd_pid a; k_amp a; k_sense a].
(** common length of the broadcast: None if all are numbers; Err if two lists differ in length (no
    broadcasting of one-element lists is modelled) *)
Fixpoint mag_broadcast (l : list magarg) (acc : option nat) : res (option nat) :=
  match l with
  | [] => Ok acc
  | p :: l => match mag_len p, acc with
              | None, _ => mag_broadcast l acc
              | Some n, None => mag_broadcast l (Some n)
              | Some n, Some m => if Nat.eqb n m then mag_broadcast l acc else Err ValueError
              end
  end.
(** the resulting (kxx, kyy, cxx, cyy); simplification: k and c are taken to have the same shape. *)
Definition mag_coefs (a : magargs) : res (R * R * R * R) :=
  bind (mag_broadcast (mag_params a) None) (fun n =>
  match n with
  | None => Ok (mag_k a 0, mag_k a 0, mag_c a 0, mag_c a 0)
  | Some n => if Nat.ltb n 2 then Err IndexError else Ok (mag_k a 0, mag_k a 1, mag_c a 0, mag_c a 1)
  end).

(** BearingElement.save on a class: constructor parameters looked up in the instance dictionary
    (ross/bearing_seal_element.py:452-470); a missing one raises KeyError. *)
Definition coef_attrs : list string :=
  ["kxx"; "kyy"; "kxy"; "kyx"; "cxx"; "cyy"; "cxy"; "cyx"; "mxx"; "myy"; "mxy"; "myx"]%string.
(** attributes set by BearingElement.__init__ (:143, :185, :203-208); the interpolants are left out *)
Definition base_attrs : list string :=
  (coef_attrs ++ ["frequency"; "n"; "n_link"; "tag"; "color"; "scale_factor"; "dof_global_index"]%string)%list.
Inductive bclass := BBearing | BSeal | BBall | BRoller | BFluid | BMagnetic | BCylindrical | B6DoF.
(** constructor signatures: :120-140, :1115-1137, :1225-1237, :1342-1354, :972-990, :1458-1474, :1629-1639, :1795-1818 *)
Definition bclass_params (c : bclass) : list string :=
  match c with
  | BBearing => ["n"; "kxx"; "cxx"; "mxx"; "kyy"; "kxy"; "kyx"; "cyy"; "cxy"; "cyx"; "myy"; "mxy"; "myx"; "frequency"; "tag"; "n_link"; "scale_factor"; "color"; "kwargs"]
  | BSeal => ["n"; "kxx"; "cxx"; "mxx"; "kyy"; "kxy"; "kyx"; "cyy"; "cxy"; "cyx"; "myy"; "mxy"; "myx"; "frequency"; "seal_leakage"; "tag"; "n_link"; "scale_factor"; "color"; "kwargs"]
  | BBall => ["n"; "n_balls"; "d_balls"; "fs"; "alpha"; "cxx"; "cyy"; "tag"; "n_link"; "scale_factor"]
  | BRoller => ["n"; "n_rollers"; "l_rollers"; "fs"; "alpha"; "cxx"; "cyy"; "tag"; "n_link"; "scale_factor"]
  | BFluid => ["n"; "nz"; "ntheta"; "length"; "omega"; "p_in"; "p_out"; "radius_rotor"; "radius_stator"; "visc"; "rho"; "eccentricity"; "load"; "tag"; "n_link"; "scale_factor"; "color"]
  | BMagnetic => ["n"; "g0"; "i0"; "ag"; "nw"; "alpha"; "kp_pid"; "kd_pid"; "k_amp"; "k_sense"; "tag"; "n_link"; "scale_factor"; "kwargs"]
  | BCylindrical => ["n"; "speed"; "weight"; "bearing_length"; "journal_diameter"; "radial_clearance"; "oil_viscosity"; "kwargs"]
  | B6DoF => ["n"; "kxx"; "cxx"; "mxx"; "kyy"; "cyy"; "myy"; "kxy"; "kyx"; "kzz"; "cxy"; "cyx"; "czz"; "mxy"; "myx"; "mzz"; "frequency"; "tag"; "n_link"; "scale_factor"; "color"]
  end%string.
(** attributes each subclass adds to [base_attrs]: :1161, none, none, none, :1475-1483, :1644-1705, :1864 *)
Definition bclass_attrs (c : bclass) : list string :=
  (match c with
  | BSeal => ["seal_leakage"]
  | BMagnetic => ["g0"; "i0"; "ag"; "nw"; "alpha"; "kp_pid"; "kd_pid"; "k_amp"; "k_sense"]
  | BCylindrical => ["speed"; "weight"; "bearing_length"; "journal_diameter"; "radial_clearance"; "oil_viscosity"; "modified_sommerfeld"; "sommerfeld"; "roots"; "root"; "eccentricity"; "attitude_angle"]
  | B6DoF => ["kzz"; "czz"; "mzz"]
  | _ => []
  end%string ++ base_attrs)%list.
Fixpoint str_mem (s : string) (l : list string) : bool :=
  match l with [] => false | x :: r => String.eqb s x || str_mem s r end.
(** the keys collected by save(), or KeyError *)
Fixpoint save_keys (attrs args : list string) : res (list string) :=
  match args with
  | [] => Ok []
  | a :: args =>
      if String.eqb a "kwargs" then save_keys attrs args
      else if str_mem a attrs then bind (save_keys attrs args) (fun r => Ok (a :: r)) else Err KeyError
  end.
Definition bclass_save (c : bclass) : res (list string) :=
  save_keys (bclass_attrs c) (bclass_params c ++ coef_attrs).
