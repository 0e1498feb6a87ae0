(** Model of BearingFluidFlow.__init__, ross/bearing_seal_element.py:972-1027: a bearing whose coefficients come from the fluid film, one FluidFlow
    object for every speed. No proofs here. *)
From Coq Require Import Reals String List.
From Verif Require Import PyBase MatBase MDynamics MBearing MFluid.
Import ListNotations.
Open Scope R_scope.

(** The parameters handed on to FluidFlow, :975-986. [rho] only serves results and is left out, as in MFluid. *)
Record filmargs := mkFilmArgs { fb_nz : nat; fb_nt : nat; fb_length : R; fb_pin : R; fb_pout : R; fb_rr : R; fb_rs : R; fb_mu : R;
  fb_ecc : option R; fb_load : option R }.
(** flow.FluidFlow(nz, ntheta, length, w, p_in, p_out, radius_rotor, radius_stator, visc, rho, eccentricity=eccentricity, load=load), :994-1008;
    the other parameters have the defaults of fluid_flow.py:229-238 *)
Definition film_flow (p : filmargs) (w : R) : ffargs :=
  mkFfArgs (fb_nz p) (fb_nt p) (fb_length p) w (fb_pin p) (fb_pout p) (fb_rr p) (fb_rs p) (fb_mu p) None (fb_ecc p) (fb_load p) None true None
    "cylindrical" (2 / 5) 0 None.
(** one turn of the loop, :993-1009: K[:, i] and C[:, i] *)
Definition film_column (fl : fluidlib) (p : filmargs) (w : R) : res (list R * list R) := bind (ff_init fl (film_flow p w)) (stiffness_damping fl).
(** K[k] or C[k]: entry k of every column *)
Definition film_row (k : nat) (cols : list (list R)) : coefarg := CArr (map (fun c => nth k c 0) cols).
(** BearingFluidFlow.__init__, :972-1027 *)
Definition fluid_bearing (fl : fluidlib) (n : nat) (p : filmargs) (omega : list R) (tag : option string) (n_link : option nat) (scale_factor : R) (color : string) : res bearing :=
  bind (mapM (film_column fl p) omega) (fun kc =>
  let K := map fst kc in let C := map snd kc in
  bearing_init (mkBArgs n (film_row 0 K) (film_row 0 C) None (Some (film_row 3 K)) (film_row 1 K) (film_row 2 K) (Some (film_row 3 C)) (film_row 1 C) (film_row 2 C)
    None (CScal 0) (CScal 0) (Some omega) tag n_link scale_factor color)).
