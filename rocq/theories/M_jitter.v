(** Model of pulse_shape with random jitter (CommDspy/channel/pulse_shaping.py:42-56) over the real numbers, and of the part of
    scipy.interpolate.interp1d it uses: cubic splines through equidistant samples. *)
From Coq Require Import Reals String.
From Verif Require Import Py M_channel.
Import List.
Open Scope R_scope.

(** interp1d(t, y, kind='cubic', fill_value='extrapolate') for t = 0, h, 2h, ...: the cubic spline through the samples without
    knots at the second and the second to last sample, continued beyond the ends.  scipy solves for B-spline coefficients;
    here the second derivatives at the samples (times h^2) are found by elimination, which is the same function
    (C73_spline). *)
Definition second_difference (y : list R) (i : nat) : R := nth (i - 1) y 0 - 2 * nth i y 0 + nth (i + 1) y 0.
Fixpoint elim_q (i : nat) : R := match i with O => 0 | S i => / (4 - elim_q i) end.
Fixpoint elim_p (y : list R) (i : nat) : R :=
  match i with O => second_difference y 1 | S i => (6 * second_difference y (i + 2) - elim_p y i) * elim_q (S i) end.
(** The moment [k] samples before the second to last one. *)
Fixpoint moment_back (y : list R) (k : nat) : R :=
  match k with
  | O => second_difference y (length y - 2)
  | S k => elim_p y (length y - 4 - k) - elim_q (length y - 4 - k) * moment_back y k
  end.
Definition moment (y : list R) (i : nat) : R :=
  let inner := fun i => moment_back y (length y - 2 - i) in
  if (i =? 0)%nat then 2 * inner 1%nat - inner 2%nat
  else if (i =? length y - 1)%nat then 2 * inner (length y - 2)%nat - inner (length y - 3)%nat
  else inner i.
Definition spline_piece (y : list R) (i : nat) (u : R) : R :=
  (1 - u) * nth i y 0 + u * nth (i + 1) y 0 + ((1 - u) ^ 3 - (1 - u)) / 6 * moment y i + (u ^ 3 - u) / 6 * moment y (i + 1).
Definition cubic_interp (h : R) (y : list R) (x : R) : R :=
  let i := Z.to_nat (Z.min (Z.of_nat (length y) - 2) (Int_part (x / h))) in
  spline_piece y i (x / h - INR i).

(** Lines 6-56.  [normal j] is the standard normal draw for symbol [j] (line 46).  interp1d refuses fewer than four samples. *)
Definition pulse_shape_rj (signal : list R) (osr span : Z) (pulse : string) (beta rj_sigma : R) (normal : nat -> R) (zi : option (list R))
    : res (list R * list R) :=
  r <- pulse_shape signal osr span pulse beta zi ;;
  let '(sig_conv, zo) := r in
  if close0 rj_sigma then Ok (sig_conv, zo) else
  if (length sig_conv <? 4)%nat then Raise ValueError else
  let t_rj := map (fun k => INR k / IZR osr + normal (k / Z.to_nat osr)%nat * rj_sigma) (seq 0 (length sig_conv)) in
  Ok (map (cubic_interp (/ IZR osr) sig_conv) t_rj, zo).
