(** What orbits, mode shapes and probe readings mean (specification vocabulary, independent of the code). *)
From Coq Require Import Reals List Arith.
From Coquelicot Require Import Complex.
From Verif Require Import MatBase.
Import ListNotations.
Open Scope R_scope.

(** ** Motion of a node. A complex amplitude A stands for the motion Re (A e^(i c)), where c = w t. *)
Definition motion (A : C) (c : R) : R := fst A * cos c - snd A * sin c.
(** distance from the centre of the orbit *)
Definition radius (ru rv : C) (c : R) : R := sqrt (motion ru c ^ 2 + motion rv c ^ 2).
(** The direction of travel around the centre: the sign of x dy - y dx (twice the area swept). Forward is the
    direction from x to y, the direction of rotation of a rotor with positive speed. *)
Definition turns_forward (ru rv : C) : Prop :=
  forall c dx dy, derivable_pt_lim (motion ru) c dx -> derivable_pt_lim (motion rv) c dy ->
    0 < motion ru c * dy - motion rv c * dx.
Definition turns_backward (ru rv : C) : Prop :=
  forall c dx dy, derivable_pt_lim (motion ru) c dx -> derivable_pt_lim (motion rv) c dy ->
    motion ru c * dy - motion rv c * dx < 0.
(** the node moves on a straight line through the centre (or does not move) *)
Definition on_a_line (ru rv : C) : Prop :=
  exists a b, (a <> 0 \/ b <> 0) /\ forall c, a * motion ru c + b * motion rv c = 0.
(** the orbit is a circle *)
Definition circular (ru rv : C) : Prop := exists r, 0 < r /\ forall c, radius ru rv c = r.

(** ** Probes: what a probe at angle t sees is the displacement along its axis; as the motion is harmonic this is an
    amplitude and a phase. *)
Definition seen (t : R) (ru rv : C) (c : R) : R := motion ru c * cos t + motion rv c * sin t.
Definition reads (t : R) (ru rv : C) (amplitude phase : R) : Prop :=
  0 <= amplitude /\ forall c, seen t ru rv c = amplitude * cos (c + phase).

(** ** The deflection between two nodes *)
(** cubic polynomials and their derivatives *)
Definition cubic (a b c d z : R) : R := a + b * z + c * z ^ 2 + d * z ^ 3.
Definition cubic' (b c d z : R) : R := b + 2 * c * z + 3 * d * z ^ 2.
Definition cubic'' (c d z : R) : R := 2 * c + 6 * d * z.

(** ** Polylines *)
Definition on_segment (p a b : R * R) : Prop :=
  exists t, 0 <= t <= 1 /\ fst p = fst a + t * (fst b - fst a) /\ snd p = snd a + t * (snd b - snd a).
Definition consecutive (a b : R * R) (c : list (R * R)) : Prop := exists l1 l2, c = (l1 ++ a :: b :: l2)%list.
Definition on_polyline (p : R * R) (c : list (R * R)) : Prop := exists a b, consecutive a b c /\ on_segment p a b.
Definition parallel (a b a' b' : R * R) : Prop :=
  (fst b - fst a) * (snd b' - snd a') = (snd b - snd a) * (fst b' - fst a').
