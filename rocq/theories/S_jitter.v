(** Vocabulary for C73: cubic splines through equidistant samples. *)
From Coq Require Import Reals.
From Verif Require Import Py.
Import List.
Open Scope R_scope.

(** a + b v + c v^2 + d v^3 and its first two derivatives. *)
Record cubic := mk_cubic { ca : R ; cb : R ; cc : R ; cd : R }.
Definition value (p : cubic) (v : R) : R := ca p + cb p * v + cc p * v ^ 2 + cd p * v ^ 3.
Definition slope (p : cubic) (v : R) : R := cb p + 2 * cc p * v + 3 * cd p * v ^ 2.
Definition bend (p : cubic) (v : R) : R := 2 * cc p + 6 * cd p * v.
(** [f] is the cubic spline through the samples [y] at 0, h, 2h, ... without knots at the second and the second to last sample:
    between neighbouring samples it is a cubic polynomial; the first and last of them continue beyond the ends; at the samples
    the first two derivatives of neighbouring pieces agree; at the second and second to last sample the third one too. *)
Definition is_spline (h : R) (y : list R) (f : R -> R) : Prop :=
  let n := length y in
  (forall k, (k < n)%nat -> f (INR k * h) = nth k y 0) /\
  exists p : nat -> cubic,
    (forall i x, (i + 1 < n)%nat -> (i = 0%nat \/ INR i * h <= x) -> ((i + 2 = n)%nat \/ x <= INR (i + 1) * h) -> f x = value (p i) (x - INR i * h)) /\
    (forall i, (i + 2 < n)%nat -> slope (p i) h = slope (p (i + 1)%nat) 0 /\ bend (p i) h = bend (p (i + 1)%nat) 0) /\
    cd (p 0%nat) = cd (p 1%nat) /\ cd (p (n - 3)%nat) = cd (p (n - 2)%nat).
