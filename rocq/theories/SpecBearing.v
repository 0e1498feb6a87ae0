(** Specification vocabulary for bearings. *)
From Coq Require Import Reals List.
From Verif Require Import PyBase MatBase MBearing.
Import ListNotations.
Open Scope R_scope.

Fixpoint increasing (l : list R) : Prop :=
  match l with x :: ((y :: _) as r) => x < y /\ increasing r | _ => True end.

(** sum over the table of (f x_i - y_i)^2 *)
Fixpoint residual (f : R -> R) (xs ys : list R) : R :=
  match xs, ys with x :: xs, y :: ys => (f x - y) ^ 2 + residual f xs ys | _, _ => 0 end.
Definition cubic (a b c d : R) (x : R) : R := a + b * x + c * x ^ 2 + d * x ^ 3.
(** [cubic a b c d] is a least-squares cubic of the table *)
Definition lsq_cubic (a b c d : R) (xs ys : list R) : Prop :=
  forall a' b' c' d', residual (cubic a b c d) xs ys <= residual (cubic a' b' c' d') xs ys.

(** The documented contract of UnivariateSpline(x, y) with its default smoothing factor s = len(x):
    the residual does not exceed s (up to the tolerance of FITPACK, 0.1%), and when the
    least-squares cubic polynomial already satisfies this, that polynomial is returned. *)
Definition smoothing_spline (spl : list R -> list R -> R -> R) : Prop :=
  (forall xs ys, increasing xs -> (4 <= length xs)%nat -> length xs = length ys ->
     residual (spl xs ys) xs ys <= INR (length xs) * (1 + 1 / 1000)) /\
  (forall xs ys a b c d, increasing xs -> (4 <= length xs)%nat -> length xs = length ys ->
     lsq_cubic a b c d xs ys -> residual (cubic a b c d) xs ys <= INR (length xs) ->
     forall w, spl xs ys w = cubic a b c d w).

(** the values the user supplied for a coefficient at the i-th tabulated frequency *)
Definition supplied (c : coefarg) (i : nat) : option R :=
  match c with CScal x => Some x | CArr l => nth_error l i end.
Definition arg_length_ok (freq : option (list R)) (c : coefarg) : Prop :=
  match c, freq with
  | CScal _, _ => True
  | CArr l, Some f => length l = length f
  | CArr l, None => length l = 1%nat
  end.
