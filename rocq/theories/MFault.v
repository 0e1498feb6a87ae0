(** The fault analyses: unbalance forces, modal equation of motion, rubbing, coupling misalignment, crack. *)
From Coq Require Import Reals List Arith Bool ZArith.
From Verif Require Import PyBase MatBase MMaterial MShaft MRotor MDynamics MTime.
Import ListNotations.
Open Scope list_scope.
Open Scope R_scope.

(** ** The shaft angle, ross/faults/rubbing.py:137-144 and :180-187; the same text in crack.py:233-239 and :275-282,
    misalignment.py:173-179 and :220-227, :623-629 and :693-700.
    speedI and speedF are both set to speed by every constructor. tI = tF gives 0/0 and is excluded where it matters. *)
Definition lambdat : R := 1 / 100000.
Definition sA (speedI speedF tI tF : R) : R :=
  (speedI * exp (- lambdat * tF) - speedF * exp (- lambdat * tI)) / (exp (- lambdat * tF) - exp (- lambdat * tI)).
Definition sB (speedI speedF tI tF : R) : R := (speedF - speedI) / (exp (- lambdat * tF) - exp (- lambdat * tI)).
Definition angular_position (a b t : R) : R := a * t - b / lambdat * exp (- lambdat * t) + b / lambdat.
Definition Omega (a b t : R) : R := a + b * exp (- lambdat * t).
Definition AccelV (a b t : R) : R := - lambdat * b * exp (- lambdat * t).
(** rubbing.py:196-214: the unbalance force of one disk at node n with magnitude m and phase p, at the shaft angle th, the
    speed om and the acceleration ac; the loop adds the two components in rows 6 n and 6 n + 1. *)
Definition unb_xy (m p th om ac : R) : R * R :=
  let teta := th + p + PI / 2 in
  (m * ac * cos teta - m * om ^ 2 * sin teta, - m * ac * sin teta - m * om ^ 2 * cos teta).
Definition FFunb (l : list (nat * (R * R))) (a b t : R) : vec := fun k =>
  suml (map (fun d => let f := unb_xy (fst (snd d)) (snd (snd d)) (angular_position a b t) (Omega a b t) (AccelV a b t) in
    (if Nat.eqb k (6 * fst d) then fst f else 0) + (if Nat.eqb k (6 * fst d + 1) then snd f else 0)) l).
(** the disks with their unbalances: the constructor needs as many phases as magnitudes (rubbing.py:104-107), [run] as many
    disks (rubbing.py:121-122). Both raise a plain Exception, written RuntimeErr here. *)
Definition unbalances (r : rotor) (mags phases : list R) : res (list (nat * (R * R))) :=
  if negb (Nat.eqb (length mags) (length phases)) then Err RuntimeErr else
  if negb (Nat.eqb (length (r_disk r)) (length mags)) then Err RuntimeErr else
  Ok (combine (map el_n (r_disk r)) (combine mags phases)).

(** ** Modal reduction, rubbing.py:155-173 and :218; the same in crack.py and misalignment.py.
    scipy.linalg.eigh and numpy.linalg.pinv are library functions; their contracts are stated where they are used. *)
Record eiglib := mkEig {
  eig_h : nat -> mat -> mat -> res (vec * mat);
  eig_pinv : nat -> mat -> mat }.
Definition proj (n : nat) (V A : mat) : mat := mulm n (mulm n (mtrans V) A) V.
Record fsys := mkF { f_n : nat; f_V : mat; f_M : mat; f_C : mat; f_G : mat; f_K : mat; f_Ks : mat }.
Definition fault_system (lib : eiglib) spl (r : rotor) (speed : R) : res fsys :=
  bind (rotor_K spl r speed []) (fun K =>
  bind (rotor_C spl r speed []) (fun D =>
  bind (rotor_G spl r) (fun G =>
  bind (rotor_M spl r (Some speed)) (fun M =>
  bind (rotor_Ksdt r) (fun Ks =>
  bind (eig_h lib (r_ndof r) K M) (fun wV => Ok (mkF (r_ndof r) (snd wV) M D G K Ks))))))).
(** _equation_of_movement, rubbing.py:239-281, crack.py:334-383, misalignment.py:281-318: 12 modes; [f] is the physical force
    vector (fault and unbalance), [om] and [ac] the speed and the acceleration of the step. The product with inv_Mmodal is
    from the right, as in the code. The unbalance and the fault forces are projected separately in the code and added. *)
Definition modal_accel (lib : eiglib) (s : fsys) (om ac : R) (f1 f2 q v : vec) : vec :=
  let P := proj (f_n s) (f_V s) in
  let iM := eig_pinv lib 12 (P (f_M s)) in
  fun j => sumn 12 (fun i => (mulv (f_n s) (mtrans (f_V s)) f1 i + mulv (f_n s) (mtrans (f_V s)) f2 i
    - mulv 12 (madd (P (f_C s)) (mscale om (P (f_G s)))) v i
    - mulv 12 (madd (P (f_K s)) (mscale ac (P (f_Ks s)))) q i) * iM i j).
Definition lower (Y : vec) : vec := fun i => Y (i + 12)%nat.
(** [force i x v]: the fault force at step i for the physical displacements and velocities *)
Definition eom (lib : eiglib) (s : fsys) (a b : R) (ts : list R) (unb : list (nat * (R * R))) (force : nat -> vec -> vec -> vec)
    (_ : R) (Y : vec) (i : nat) : vec :=
  let t := nth i ts 0 in
  let q := Y in let v := lower Y in
  let acc := modal_accel lib s (Omega a b t) (AccelV a b t)
    (force i (mulv 12 (f_V s) q) (mulv 12 (f_V s) v)) (FFunb unb a b t) q v in
  fun k => if (k <? 12)%nat then v k else acc (k - 12)%nat.

(** ** Rubbing, ross/faults/rubbing.py:283-432 *)
(** np.arctan2 *)
Definition atan2 (y x : R) : R :=
  if Rlt_dec 0 x then atan (y / x)
  else if Rlt_dec x 0 then (if Rle_dec 0 y then atan (y / x) + PI else atan (y / x) - PI)
  else if Rlt_dec 0 y then PI / 2 else if Rlt_dec y 0 then - PI / 2 else 0.
Record rub_args := mkRub { rb_delta : R; rb_k : R; rb_c : R; rb_mu : R; rb_pos : nat; rb_torque : bool }.
Definition two (ii : nat) (a b : R) : vec := fun k => if Nat.eqb k ii then a else if Nat.eqb k (ii + 1) then b else 0.
(** _rub with its four force functions: the vectors F_k, F_c, F_f. [None]: an entry is 0/0, a nan in the code, which happens in
    contact when the velocity of the node is zero (_damping_force) or when the radius is zero (_stiffness_force). *)
Definition rub (a : rub_args) (radius : R) (x v : vec) (ang : R) : option (vec * vec * vec) :=
  let ii := (6 * rb_pos a)%nat in
  let px := x ii in let py := x (ii + 1)%nat in let vx := v ii in let vy := v (ii + 1)%nat in
  let rd := sqrt (px ^ 2 + py ^ 2) in
  let rv := sqrt (vx ^ 2 + vy ^ 2) in
  let phi := atan2 py px in
  if Rle_dec (rb_delta a) rd then
    if Req_EM_T rd 0 then None else if Req_EM_T rv 0 then None else
    let sf y := - rb_k a * (rd - rb_delta a) * y / Rabs rd in
    let df y := - rb_c a * rv * y / Rabs rv in
    let tf k c := rb_mu a * Rabs (k + c) in
    let Fk := two ii (sf px) (sf py) in
    let Fc := two ii (df vx) (df vy) in
    let Vt := - vy * sin phi + vx * cos phi in
    let tq f g := if rb_torque a then radius * (sqrt (f ^ 2 + g ^ 2) * px / Rabs rd) else 0 in
    let fx := tf (Fk ii) (Fc ii) in let fy := tf (Fk (ii + 1)%nat) (Fc (ii + 1)%nat) in
    let Ff := if Rlt_dec 0 (Vt + ang * radius) then (fun k => if Nat.eqb k (ii + 5) then tq (- fx) fy else two ii (- fx) fy k)
              else if Rlt_dec (Vt + ang * radius) 0 then (fun k => if Nat.eqb k (ii + 5) then tq fx (- fy) else two ii fx (- fy) k)
              else vzero in
    Some (Fk, Fc, Ff)
  else Some (vzero, vzero, vzero).
(** _combine_forces: FFrub *)
Definition rub_force (a : rub_args) (radius : R) (x v : vec) (ang : R) : option vec :=
  match rub a radius x v ang with Some (Fk, Fc, Ff) => Some (fun i => Fk i + Fc i + Ff i) | None => None end.

(** ** Coupling misalignment, ross/faults/misalignment.py *)
Record flex_args := mkFlex { fx_kd : R; fx_ks : R; fx_ex : R; fx_ey : R; fx_ang : R; fx_TD : R; fx_TL : R; fx_n1 : nat }.
(** lines 320-431. An offset of zero along X is a division by zero (line 334). [fib] is np.arctan(eCOUPy / eCOUPx). *)
Definition flex_fib (a : flex_args) : R := atan (fx_ey a / fx_ex a).
Definition flex_e (a : flex_args) : R := sqrt (fx_ex a ^ 2 + fx_ey a ^ 2).
Definition arm1 (a : flex_args) (rad th : R) : R :=
  sqrt (rad ^ 2 + fx_ex a ^ 2 + fx_ey a ^ 2 + 2 * rad * flex_e a * sin (flex_fib a + th)) - rad.
Definition arm2 (a : flex_args) (rad th : R) : R :=
  sqrt (rad ^ 2 + fx_ex a ^ 2 + fx_ey a ^ 2 + 2 * rad * flex_e a * cos (PI / 6 + flex_fib a + th)) - rad.
Definition arm3 (a : flex_args) (rad th : R) : R :=
  rad - sqrt (rad ^ 2 + fx_ex a ^ 2 + fx_ey a ^ 2 - 2 * rad * flex_e a * sin (PI / 3 + flex_fib a + th)).
Definition mi_y (a : flex_args) (rad th : R) : R :=
  arm1 a rad th * cos th + arm2 a rad th * cos (2 * PI / 3 + th) + arm3 a rad th * cos (4 * PI / 3 + th).
Definition mi_x (a : flex_args) (rad th : R) : R :=
  arm1 a rad th * sin th + arm2 a rad th * sin (2 * PI / 3 + th) + arm3 a rad th * sin (4 * PI / 3 + th).
(** the six assignments at the end of _parallel and _angular; n2 = n1 + 1 *)
Definition on_coupling (n1 : nat) (fx fy td tl : R) : vec := fun k =>
  if Nat.eqb k (5 + 6 * (n1 + 1)) then tl else if Nat.eqb k (1 + 6 * (n1 + 1)) then - fy else if Nat.eqb k (0 + 6 * (n1 + 1)) then - fx
  else if Nat.eqb k (5 + 6 * n1) then td else if Nat.eqb k (1 + 6 * n1) then fy else if Nat.eqb k (0 + 6 * n1) then fx else 0.
Definition flex_parallel (a : flex_args) (rad th : R) : res vec :=
  if Req_EM_T (fx_ex a) 0 then Err ZeroDivision else
  Ok (on_coupling (fx_n1 a) (fx_kd a * mi_x a rad th) (fx_kd a * mi_y a rad th) (fx_TD a) (fx_TL a)).
(** lines 162-164 and 433-491 *)
Definition Cte (a : flex_args) (rad : R) : R := fx_ks a * rad * sqrt (2 - 2 * cos (fx_ang a)).
Definition ang_arm (a : flex_args) (rad th : R) : R := Rabs (Cte a rad * sin th * sin (fx_ang a)).
Definition Fay (a : flex_args) (rad th : R) : R :=
  ang_arm a rad th * sin (th + PI) + ang_arm a rad (th + 2 * PI / 3) * sin (th + PI + 2 * PI / 3)
  + ang_arm a rad (th + 4 * PI / 3) * sin (th + PI + 4 * PI / 3).
Definition Fax (a : flex_args) (rad th : R) : R :=
  ang_arm a rad th * cos (th + PI) + ang_arm a rad (th + 2 * PI / 3) * cos (th + PI + 2 * PI / 3)
  + ang_arm a rad (th + 4 * PI / 3) * cos (th + PI + 4 * PI / 3).
Definition flex_angular (a : flex_args) (rad th : R) : res vec :=
  Ok (on_coupling (fx_n1 a) (Fax a rad th) (Fay a rad th) (fx_TD a) (fx_TL a)).
(** lines 493-505 *)
Definition flex_combined (a : flex_args) (rad th : R) : res vec :=
  bind (flex_parallel a rad th) (fun p => bind (flex_angular a rad th) (fun q => Ok (vadd p q))).
(** lines 127-134: the choice of the force by mis_type *)
Inductive mis_type := MisParallel | MisAngular | MisCombined.
Definition flex_force (t : mis_type) : flex_args -> R -> R -> res vec :=
  match t with MisParallel => flex_parallel | MisAngular => flex_angular | MisCombined => flex_combined end.
(** MisalignmentFlex.run, lines 141-279: the columns of self.response *)
Definition flex_run (lib : eiglib) spl (r : rotor) (t : mis_type) (a : flex_args) (tI tF dt speed : R) (mags phases : list R) : res (list vec) :=
  bind (unbalances r mags phases) (fun unb =>
  match nth_error (r_elements r) (fx_n1 a) with
  | None => Err IndexError
  | Some (EShaft _ _ _ s) =>
    let rad := s_odl s / 2 in
    let A := sA speed speed tI tF in let B := sB speed speed tI tF in
    bind (fault_system lib spl r speed) (fun S =>
    let ts := t_eval tI tF dt in
    bind (MDynamics.mapM (fun u => flex_force t a rad (angular_position A B u)) ts) (fun forces =>
    bind (rk45 (eom lib S A B ts unb (fun i _ _ => nth i forces vzero)) tI vzero 24 tF dt) (fun x =>
    Ok (map (mulv 12 (f_V S)) (fst x)))))
  | Some _ => Err AttributeError
  end).

(** MisalignmentRigid, lines 666-682: the coupling stiffness from the diagonal of K (kx1, kx2: rows 6 n1 and 6 n2; kt1, kt2: rows
    5 + 6 n1 and 5 + 6 n2), and _parallel, lines 808-867, for the positions x and the angle fir; betam = 0. *)
Record rigid_args := mkRigid { rg_e : R; rg_TD : R; rg_TL : R; rg_n1 : nat }.
Definition kCOUP (kx1 kx2 : R) : R := kx1 * kx2 / (kx1 + kx2).
Definition aux_t (kt1 kt2 : R) : R := 1 / (kt1 + kt2).
Definition aux_I (kt1 kt2 : R) : R := kt1 / (kt1 + kt2).
Definition aux_F (kt1 kt2 : R) : R := kt2 / (kt1 + kt2).
Definition rigid_row (a : rigid_args) (k0 auxI auxF fir : R) : vec := lvec
  [k0 * auxI * rg_e a * sin (0 + fir); - k0 * auxI * rg_e a * cos (0 + fir); 0; 0; 0; 0;
   k0 * auxF * rg_e a * sin (0 + fir); - k0 * auxF * rg_e a * cos (0 + fir); 0; 0; 0; 0].
Definition rigid_const (a : rigid_args) (k0 fir : R) : vec := lvec
  [- k0 * rg_e a * cos (0 + fir) + k0 * rg_e a; - k0 * rg_e a * sin (0 + fir); 0; 0; 0; rg_TD a - rg_TL a;
   k0 * rg_e a * cos (0 + fir) - k0 * rg_e a; k0 * rg_e a * sin (0 + fir); 0; 0; 0; - (rg_TD a - rg_TL a)].
Definition rigid_parallel (a : rigid_args) (k0 auxI auxF : R) (x : vec) (fir : R) : vec := fun k =>
  let d := (k - 6 * rg_n1 a)%nat in
  if ((6 * rg_n1 a <=? k) && (d <? 12))%nat then
    (if Nat.eqb d 5 then dot 12 (rigid_row a k0 auxI auxF fir) (fun j => x (6 * rg_n1 a + j)%nat)
     else if Nat.eqb d 11 then dot 12 (fun j => - rigid_row a k0 auxI auxF fir j) (fun j => x (6 * rg_n1 a + j)%nat) else 0)
    + rigid_const a k0 fir d
  else 0.
(** lines 774-786: the new value of self.angANG, which starts at - pi / 180 (line 664) *)
Definition rigid_angle (a : rigid_args) (k0 auxt auxI auxF pos : R) (x : vec) (old : R) : R :=
  let i1 := (6 * rg_n1 a)%nat in let i2 := (6 * (rg_n1 a + 1))%nat in
  auxI * pos + auxF * pos + k0 * auxt * rg_e a *
    (- x i1 * sin old + x i2 * sin old + x (1 + i1)%nat * cos old - x (1 + i2)%nat * cos old).

(** ** Crack, ross/faults/crack.py *)
(** tools/data/PAPADOPOULOS.csv: the depth in hundredths of the radius and c44, c45, c55 multiplied by 10^21, from the decimal
    text of the file. The other seven columns are not read. *)
Definition papadopoulos : list (Z * Z * Z * Z) := ([
  (1, 137749000000000, 4243970000000000, 95731600000000000);
  (2, 1553900000000000, 33714200000000000, 536096000000000000);
  (3, 6404919999999999, 113001000000000000, 1462640000000000000);
  (4, 17482900000000000, 266034000000000000, 2973100000000000000);
  (5, 38076700000000000, 516121000000000000, 5143580000000000000);
  (6, 71895100000000000, 885984000000000000, 8036300000000000000);
  (7, 123017000000000000, 1397790000000000000, 11703600000000000000);
  (8, 195854000000000000, 2073210000000000000, 16190200000000000000);
  (9, 295129000000000000, 2933400000000000000, 21535000000000000000);
  (10, 425851000000000000, 3999110000000000000, 27772200000000000000);
  (11, 593300000000000000, 5290660000000000000, 34931900000000000000);
  (12, 803022000000000000, 6828010000000000000, 43041000000000000000);
  (13, 1060810000000000000, 8630760000000000000, 52123900000000000000);
  (14, 1372720000000000000, 10718200000000000000, 62202600000000000000);
  (15, 1745020000000000000, 13109400000000000000, 73297100000000000000);
  (16, 2184250000000000000, 15823200000000000000, 85426000000000000000);
  (17, 2697190000000000000, 18878100000000000000, 98606500000000000000);
  (18, 3290830000000000000, 22292600000000000000, 112855000000000000000);
  (19, 3972450000000000000, 26085000000000000000, 128186000000000000000);
  (20, 4749540000000000000, 30273400000000000000, 144614000000000000000);
  (21, 5629880000000000000, 34876000000000000000, 162154000000000000000);
  (22, 6621490000000000000, 39910900000000000000, 180819000000000000000);
  (23, 7732660000000000000, 45396300000000000000, 200622000000000000000);
  (24, 8971970000000000000, 51350200000000000000, 221576000000000000000);
  (25, 10348300000000000000, 57790900000000000000, 243694000000000000000);
  (26, 11870800000000000000, 64736700000000000000, 266990000000000000000);
  (27, 13548900000000000000, 72206200000000000000, 291476000000000000000);
  (28, 15392500000000000000, 80218000000000000000, 317167000000000000000);
  (29, 17411600000000000000, 88791100000000000000, 344075000000000000000);
  (30, 19617000000000000000, 97944500000000000000, 372215000000000000000);
  (31, 22019300000000000000, 107698000000000000000, 401601000000000000000);
  (32, 24630000000000000000, 118071000000000000000, 432249000000000000000);
  (33, 27460700000000000000, 129084000000000000000, 464174000000000000000);
  (34, 30523600000000000000, 140758000000000000000, 497393000000000000000);
  (35, 33831300000000000000, 153114000000000000000, 531922000000000000000);
  (36, 37397000000000000000, 166173000000000000000, 567780000000000000000);
  (37, 41234300000000000000, 179958000000000000000, 604984000000000000000);
  (38, 45357500000000000000, 194491000000000000000, 643555000000000000000);
  (39, 49781400000000000000, 209797000000000000000, 683513000000000000000);
  (40, 54521300000000000000, 225899000000000000000, 724880000000000000000);
  (41, 59593400000000000000, 242823000000000000000, 767676000000000000000);
  (42, 65014400000000000000, 260594000000000000000, 811928000000000000000);
  (43, 70802000000000000000, 279239000000000000000, 857658000000000000000);
  (44, 76974400000000000000, 298786000000000000000, 904893000000000000000);
  (45, 83550800000000000000, 319263000000000000000, 953661000000000000000);
  (46, 90551300000000000000, 340701000000000000000, 1003990000000000000000);
  (47, 97996900000000000000, 363130000000000000000, 1055910000000000000000);
  (48, 105910000000000000000, 386582000000000000000, 1109450000000000000000);
  (49, 114313000000000000000, 411092000000000000000, 1164650000000000000000);
  (50, 123230000000000000000, 436694000000000000000, 1221530000000000000000);
  (51, 132687000000000000000, 463423000000000000000, 1280150000000000000000);
  (52, 142711000000000000000, 491319000000000000000, 1340520000000000000000);
  (53, 153330000000000000000, 520421000000000000000, 1402700000000000000000);
  (54, 164573000000000000000, 550769000000000000000, 1466730000000000000000);
  (55, 176472000000000000000, 582407000000000000000, 1532640000000000000000);
  (56, 189059000000000000000, 615380000000000000000, 1600490000000000000000);
  (57, 202368000000000000000, 649735000000000000000, 1670320000000000000000);
  (58, 216438000000000000000, 685521000000000000000, 1742180000000000000000);
  (59, 231305000000000000000, 722790000000000000000, 1816120000000000000000);
  (60, 247011000000000000000, 761595000000000000000, 1892200000000000000000);
  (61, 263599000000000000000, 801994000000000000000, 1970480000000000000000);
  (62, 281114000000000000000, 844046000000000000000, 2051010000000000000000);
  (63, 299604000000000000000, 887812000000000000000, 2133860000000000000000);
  (64, 319121000000000000000, 933358000000000000000, 2219100000000000000000);
  (65, 339718000000000000000, 980753000000000000000, 2306780000000000000000);
  (66, 361453000000000000000, 1030070000000000000000, 2396990000000000000000);
  (67, 384386000000000000000, 1081380000000000000000, 2489790000000000000000);
  (68, 408582000000000000000, 1134770000000000000000, 2585270000000000000000);
  (69, 434110000000000000000, 1190310000000000000000, 2683500000000000000000);
  (70, 461042000000000000000, 1248100000000000000000, 2784580000000000000000);
  (71, 489457000000000000000, 1308240000000000000000, 2888590000000000000000);
  (72, 519437000000000000000, 1370800000000000000000, 2995620000000000000000);
  (73, 551070000000000000000, 1435910000000000000000, 3105770000000000000000);
  (74, 584450000000000000000, 1503670000000000000000, 3219160000000000000000);
  (75, 619678000000000000000, 1574180000000000000000, 3335870000000000000000);
  (76, 656861000000000000000, 1647580000000000000000, 3456030000000000000000);
  (77, 696113000000000000000, 1723990000000000000000, 3579750000000000000000);
  (78, 737559000000000000000, 1803550000000000000000, 3707150000000000000000);
  (79, 781329000000000000000, 1886390000000000000000, 3838380000000000000000);
  (80, 827564000000000000000, 1972660000000000000000, 3973550000000000000000);
  (81, 876418000000000000000, 2062540000000000000000, 4112810000000000000000);
  (82, 928053000000000000000, 2156170000000000000000, 4256320000000000000000);
  (83, 982644000000000000000, 2253760000000000000000, 4404230000000000000000);
  (84, 1040380000000000000000, 2355470000000000000000, 4556690000000000000000);
  (85, 1101470000000000000000, 2461520000000000000000, 4713900000000000000000);
  (86, 1166140000000000000000, 2572120000000000000000, 4876020000000000000000);
  (87, 1234620000000000000000, 2687500000000000000000, 5043240000000000000000);
  (88, 1307170000000000000000, 2807900000000000000000, 5215780000000000000000);
  (89, 1384080000000000000000, 2933580000000000000000, 5393840000000000000000);
  (90, 1465650000000000000000, 3064810000000000000000, 5577640000000000000000);
  (91, 1552240000000000000000, 3201900000000000000000, 5767420000000000000000);
  (92, 1644200000000000000000, 3345160000000000000000, 5963420000000000000000);
  (93, 1741940000000000000000, 3494920000000000000000, 6165920000000000000000);
  (94, 1845910000000000000000, 3651560000000000000000, 6375170000000000000000);
  (95, 1956610000000000000000, 3815460000000000000000, 6591490000000000000000);
  (96, 2073860000000000000000, 3987040000000000000000, 6815160000000000000000);
  (97, 2200500000000000000000, 4166760000000000000000, 7046540000000000000000);
  (98, 2335000000000000000000, 4355120000000000000000, 7285950000000000000000);
  (99, 2478910000000000000000, 4552650000000000000000, 7533770000000000000000);
  (100, 2633180000000000000000, 4759930000000000000000, 7790390000000000000000)])%Z.
Definition row_depth (x : Z * Z * Z * Z) : R := IZR (fst (fst (fst x))) / 100.
(** _get_coefs, lines 503-521, for the three coefficients at once: the row used, then the value *)
Definition coef_row (depth_ratio : R) : res (Z * Z * Z * Z) :=
  match find (fun x => if Rle_dec (depth_ratio * 2) (row_depth x) then true else false) papadopoulos with
  | Some x => Ok x | None => Err IndexError end.
Definition coef (z : Z) (nu E radius : R) : R := IZR z / 10 ^ 21 * (1 - nu ^ 2) / (E * radius ^ 3).
Record crack_coefs := mkCC { cc44 : R; cc45 : R; cc55 : R }.
Definition get_coefs (depth_ratio nu E radius : R) : res crack_coefs :=
  bind (coef_row depth_ratio) (fun x => let '(_, z44, z45, z55) := x in Ok (mkCC (coef z44 nu E radius) (coef z45 nu E radius) (coef z55 nu E radius))).
(** lines 155-203: the compliance of the uncracked element *)
Definition ck_S (s : shaft) : R := PI * (((s_odr s / 2) ^ 2 + (s_odl s / 2) ^ 2) / 2 - ((s_idr s / 2) ^ 2 + (s_idl s / 2) ^ 2) / 2).
Definition ck_I (s : shaft) : R := PI / 4 * (((s_odr s / 2) ^ 4 + (s_odl s / 2) ^ 4) / 2 - ((s_idr s / 2) ^ 4 + (s_idl s / 2) ^ 4) / 2).
Definition ck_kappa (nu : R) : R := 6 * (1 + nu) ^ 2 / (7 + 12 * nu + 4 * nu ^ 2).
Definition ck_A (s : shaft) : R :=
  12 * mE (s_material s) * ck_I s / (mG_s (s_material s) * ck_kappa (mPoisson (s_material s)) * ck_S s * s_L s ^ 2).
Definition ck_Co (s : shaft) : mat :=
  let L := s_L s in let EI := mE (s_material s) * ck_I s in
  let a := L ^ 3 * (1 + ck_A s / 4) / (3 * EI) in let b := L ^ 2 / (2 * EI) in let c := L / EI in
  lmat [[a; 0; 0; - b]; [0; a; b; 0]; [0; b; c; 0]; [- b; 0; 0; c]].
(** lines 205-214 *)
Definition ck_Cc (s : shaft) (depth_ratio : R) (cc : crack_coefs) : mat :=
  if Req_EM_T depth_ratio 0 then ck_Co s else
  madd (ck_Co s) (lmat [[0; 0; 0; 0]; [0; 0; 0; 0]; [0; 0; cc55 cc; cc45 cc]; [0; 0; cc45 cc; cc44 cc]]).
(** lines 216-221 *)
Record cracked := mkCracked { cr_L : R; cr_KK : mat; cr_Kele : mat; cr_ko : R; cr_kcx : R; cr_kcz : R }.
Definition crack_setup (lib : eiglib) (s : shaft) (depth_ratio : R) : res cracked :=
  if Rle_dec depth_ratio (1 / 2) then (* __init__, lines 96-106 *)
    bind (get_coefs depth_ratio (mPoisson (s_material s)) (mE (s_material s)) (s_odl s / 2)) (fun cc =>
    let Kele := eig_pinv lib 4 (ck_Co s) in
    let kc := eig_pinv lib 4 (ck_Cc s depth_ratio cc) in
    Ok (mkCracked (s_L s) (shaft6_K s) Kele (Kele 0%nat 0%nat) (kc 0%nat 0%nat) (kc 1%nat 1%nat)))
  else Err ValueError.
(** T_matrix, lines 357-362, and T_matrix.T aux T_matrix *)
Definition T_matrix (th : R) : mat := lmat [[cos th; sin th]; [- sin th; cos th]].
Definition turned (kee knn th : R) : mat := mulm 2 (mulm 2 (mtrans (T_matrix th)) (lmat [[kee; 0]; [0; knn]])) (T_matrix th).
(** _gasch, lines 444-476 *)
Definition cosine_sum (th : R) : R := sumn 18 (fun i => (-1) ^ i * cos ((2 * INR i + 1) * th) / (2 * INR i + 1)).
Definition gasch (c : cracked) (th : R) : mat :=
  let kme := (cr_ko c + cr_kcx c) / 2 in let kmn := (cr_ko c + cr_kcz c) / 2 in
  let kde := (cr_ko c - cr_kcx c) / 2 in let kdn := (cr_ko c - cr_kcz c) / 2 in
  turned (kme + 4 / PI * kde * cosine_sum th) (kmn + 4 / PI * kdn * cosine_sum th) th.
(** _mayes, lines 478-501 *)
Definition mayes (c : cracked) (th : R) : mat :=
  turned (1 / 2 * (cr_ko c + cr_kcx c) + 1 / 2 * (cr_ko c - cr_kcx c) * cos th)
         (1 / 2 * (cr_ko c + cr_kcz c) + 1 / 2 * (cr_ko c - cr_kcz c) * cos th) th.
(** _crack, lines 385-442: Koxy, Koyz, KK_crack and the force on the dofs of the element *)
Definition Toxy (L : R) : mat := lmat [[-1; 0]; [L; -1]; [1; 0]; [0; 1]].
Definition Toyz (L : R) : mat := lmat [[-1; 0]; [- L; -1]; [1; 0]; [0; 1]].
Definition Koxy (c : cracked) (K : mat) : mat :=
  let kxy := lmat [[K 0%nat 0%nat; cr_Kele c 0%nat 3%nat]; [cr_Kele c 3%nat 0%nat; cr_Kele c 3%nat 3%nat]] in
  mulm 2 (mulm 2 (Toxy (cr_L c)) kxy) (mtrans (Toxy (cr_L c))).
Definition Koyz (c : cracked) (K : mat) : mat :=
  let kyz := lmat [[K 1%nat 1%nat; cr_Kele c 1%nat 2%nat]; [cr_Kele c 2%nat 1%nat; cr_Kele c 2%nat 2%nat]] in
  mulm 2 (mulm 2 (Toyz (cr_L c)) kyz) (mtrans (Toyz (cr_L c))).
Definition KK_crack (c : cracked) (K : mat) : mat :=
  let x := Koxy c K in let y := Koyz c K in
  let x i j := x i%nat j%nat in let y i j := y i%nat j%nat in
  lmat [
   [x 0%nat 0%nat; 0; 0; 0; x 0%nat 1%nat; 0; x 0%nat 2%nat; 0; 0; 0; x 0%nat 3%nat; 0];
   [0; y 0%nat 0%nat; 0; y 0%nat 1%nat; 0; 0; 0; y 0%nat 2%nat; 0; y 0%nat 3%nat; 0; 0];
   [0; 0; 0; 0; 0; 0; 0; 0; 0; 0; 0; 0];
   [0; y 1%nat 0%nat; 0; y 1%nat 1%nat; 0; 0; 0; y 1%nat 2%nat; 0; y 1%nat 3%nat; 0; 0];
   [x 1%nat 0%nat; 0; 0; 0; x 1%nat 1%nat; 0; x 1%nat 2%nat; 0; 0; 0; x 1%nat 3%nat; 0];
   [0; 0; 0; 0; 0; 0; 0; 0; 0; 0; 0; 0];
   [x 2%nat 0%nat; 0; 0; 0; x 2%nat 1%nat; 0; x 2%nat 2%nat; 0; 0; 0; x 2%nat 3%nat; 0];
   [0; y 2%nat 0%nat; 0; y 2%nat 1%nat; 0; 0; 0; y 2%nat 2%nat; 0; y 2%nat 3%nat; 0; 0];
   [0; 0; 0; 0; 0; 0; 0; 0; 0; 0; 0; 0];
   [0; y 3%nat 0%nat; 0; y 3%nat 1%nat; 0; 0; 0; y 3%nat 2%nat; 0; y 3%nat 3%nat; 0; 0];
   [x 3%nat 0%nat; 0; 0; 0; x 3%nat 1%nat; 0; x 3%nat 2%nat; 0; 0; 0; x 3%nat 3%nat; 0];
   [0; 0; 0; 0; 0; 0; 0; 0; 0; 0; 0; 0]].
Definition crack_force (c : cracked) (n_crack : nat) (K : mat) (x : vec) : vec := fun k =>
  let d := (k - 6 * n_crack)%nat in
  if ((6 * n_crack <=? k) && (d <? 12))%nat
  then mulv 12 (msub (cr_KK c) (KK_crack c K)) (fun j => x (6 * n_crack + j)%nat) d else 0.
(** crack_type: the breathing law, lines 107-112 *)
Inductive crack_type := Mayes | Gasch.
Definition crack_model (t : crack_type) : cracked -> R -> mat := match t with Mayes => mayes | Gasch => gasch end.
(** Crack.run, lines 122-332: the columns of self.response. [n_crack] both selects rotor.elements[n_crack] and the dofs. *)
Definition crack_run (lib : eiglib) spl (r : rotor) (t : crack_type) (depth_ratio : R) (n_crack : nat) (tI tF dt speed : R) (mags phases : list R)
    : res (list vec) :=
  bind (unbalances r mags phases) (fun unb =>
  match nth_error (r_elements r) n_crack with
  | None => Err IndexError
  | Some (EShaft _ _ _ s) =>
    bind (crack_setup lib s depth_ratio) (fun c =>
    let A := sA speed speed tI tF in let B := sB speed speed tI tF in
    bind (fault_system lib spl r speed) (fun S =>
    let ts := t_eval tI tF dt in
    bind (rk45 (eom lib S A B ts unb (fun i x _ => crack_force c n_crack (crack_model t c (angular_position A B (nth i ts 0))) x)) tI vzero 24 tF dt) (fun x =>
    Ok (map (mulv 12 (f_V S)) (fst x)))))
  | Some _ => Err AttributeError
  end).
