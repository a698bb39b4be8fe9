(** Vocabulary for C50-C52, C57, C62: difference equations, power, limits. *)
From Coq Require Import Reals String.
From Verif Require Import Py M_channel.
Import List.
Open Scope R_scope.

Fixpoint sum_upto (f : nat -> R) (n : nat) : R := match n with O => 0 | S n => sum_upto f n + f n end.
(** a[0] (y[n] - z[n]) = b[0] x[n] + ... + b[n] x[0] - a[1] y[n-1] - ... - a[n] y[0]: the filter with coefficients [b], [a],
    started with contribution [z] of its memory (entries beyond the end of a list are zero). *)
Definition difference_equation (b a z x y : list R) : Prop :=
  length y = length x /\ forall n, (n < length x)%nat ->
    nth 0 a 0 * (nth n y 0 - nth n z 0) =
    sum_upto (fun k => nth k b 0 * nth (n - k) x 0) (S n) - sum_upto (fun k => nth (S k) a 0 * nth (n - S k) y 0) n.
(** alpha u + beta v, for lists of the same length. *)
Definition combine_lists (alpha : R) (u : list R) (beta : R) (v : list R) : list R :=
  map (fun k => alpha * nth k u 0 + beta * nth k v 0) (seq 0 (length u)).
(** Mean square and population variance. *)
Definition mean_of (f : R -> R) (l : list R) : R := sum_upto (fun k => f (nth k l 0)) (length l) / INR (length l).
Definition mean_square (l : list R) : R := mean_of (fun x => x * x) l.
Definition pop_variance (l : list R) : R := mean_of (fun x => (x - mean_of (fun y => y) l) * (x - mean_of (fun y => y) l)) l.
(** The value of [f] tends to [l] at [t0], [f t0] itself disregarded. *)
Definition tends_to (f : R -> R) (t0 l : R) : Prop :=
  forall eps, 0 < eps -> exists delta, 0 < delta /\ forall t, t <> t0 -> Rabs (t - t0) < delta -> Rabs (f t - l) < eps.
(** The pulses for which C50 is claimed. *)
Definition nyquist (pulse : string) (beta : R) : Prop := pulse = "sinc"%string \/ (pulse = "rcos"%string /\ beta <> 0).
(** Filter coefficients which make sense, with a memory of [m] entries. *)
Definition usable (b : list R) (a : coef) (m : nat) : Prop :=
  b <> [] /\ coef_list a <> [] /\ nth 0 (coef_list a) 0 <> 0 /\ m = (Nat.max (length (coef_list a)) (length b) - 1)%nat.
