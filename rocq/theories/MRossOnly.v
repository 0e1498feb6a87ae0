(** Model of Rotor.to_ross_only, ross/rotor_assembly.py:3552-3604: a rotor whose bearings come from other programs (subclasses of
    BearingElement and SealElement) is rebuilt with plain BearingElement and SealElement objects. No proofs here. *)
From Coq Require Import Reals String List.
From Verif Require Import PyBase MatBase MMaterial MShaft MDisk MBearing MRotor MDynamics MSave.
Import ListNotations.
Open Scope list_scope.
Open Scope R_scope.

(** The keyword arguments read from one bearing, ross/rotor_assembly.py:3559-3574 and :3578-3592. The other parameters keep the defaults of the
    constructor: mxx = myy = None, mxy = myx = 0, scale_factor = 1 (ross/bearing_seal_element.py:119-140, :1115-1137). *)
Definition ross_args (b : bearing) : bargs :=
  let c x := CArr (fst (b_coef b x)) in
  mkBArgs (b_n b) (c kxx) (c cxx) None (Some (c kyy)) (c kxy) (c kyx) (Some (c cyy)) (c cxy) (c cyx) None (CScal 0) (CScal 0)
    (b_frequency b) (b_tag b) (b_n_link b) 1 (b_color b).
(** One turn of the loop, ross/rotor_assembly.py:3556-3593. *)
Definition ross_brg (o : obrg) : res obrg :=
  match o with
  | OSeal s => bind (seal_init (ross_args (sl_bearing s)) (sl_leakage s)) (fun s' => Ok (OSeal s'))
  | o => bind (bearing_init (ross_args (brg_of o))) (fun b => Ok (OBearing b))
  end.
(** Rotor.to_ross_only, ross/rotor_assembly.py:3552-3604 *)
Definition to_ross_only (r : robj) : res robj :=
  bind (mapM ross_brg (ro_br r)) (fun br =>
  robj_init (ro_sh r) (ro_dk r) br (ro_pm r) (ro_min r) (ro_max r) (ro_rated r) (Some (ro_tag r))).
