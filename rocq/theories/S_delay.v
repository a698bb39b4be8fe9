(** Vocabulary for C48-C49: polynomials and interpolation. *)
From Coq Require Import Reals.
From Verif Require Import Py M_delay.
Open Scope R_scope.

(** The polynomial with coefficients [p] (constant term first): degree at most [length p - 1]. *)
Fixpoint peval (p : list R) (x : R) : R := match p with [] => 0 | c :: p => c + x * peval p x end.
(** Samples of a polynomial at 0, 1, ..., n-1. *)
Definition poly_samples (p : list R) (n : nat) : list (option R) := map (fun k => Some (peval p (INR k))) (seq 0 n).
Definition sum_R (l : list R) : R := fold_right Rplus 0 l.
(** Unit impulse of length [n] at position [k]. *)
Definition impulse (n k : nat) : list (option R) := map (fun i => Some (if (i =? k)%nat then 1 else 0)) (seq 0 n).
(** Sum of numbers, and the weighted sum of the samples [r], [r+1], ... with the weights [c]. *)
Definition nsum (l : list num) : num := fold_right nadd (Some 0) l.
Definition row_value (c s : list num) (r : nat) : num := nsum (map (fun i => nmul (nth i c (Some 0)) (nth (r + i) s (Some 0))) (seq 0 (length c))).
(** Interpolation with the kernel [p] from the samples [a], ..., [a + n - 1], at time [t]. *)
Definition kernel_sum (p : R -> R) (s : list R) (a n : nat) (t : R) : R := sum_R (map (fun k => nth k s 0 * p (t - INR k)) (seq a n)).
(** The raised cosine away from its removable singularities. *)
Definition raised_cosine (beta t : R) : R := sinc t * cos (PI * beta * t) / (1 - (2 * beta * t) ^ 2).
