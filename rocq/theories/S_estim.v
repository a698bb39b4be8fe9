(** Vocabulary for C54, C55, C63: least squares and equaliser errors. *)
From Verif Require Import Py PyQ.
Open Scope Qc_scope.

(** Entry [i] of a vector, zero beyond the end; entry of a matrix; sum over 0 .. n-1. *)
Definition at_ (u : list Qc) (i : nat) : Qc := nth i u 0.
Definition entry (a : list (list Qc)) (i j : nat) : Qc := at_ (nth i a []) j.
Definition sum_below (n : nat) (f : nat -> Qc) : Qc := fold_right Qcplus 0 (map f (seq 0 n)).
Definition sq (x : Qc) : Qc := x * x.
(** Sum of the squared residuals of a x = b, squared norm. *)
Definition cost (n : nat) (a : list (list Qc)) (b x : list Qc) : Qc :=
  sum_below (length b) (fun i => sq (sum_below n (fun j => entry a i j * at_ x j) - at_ b i)).
Definition norm2 (n : nat) (x : list Qc) : Qc := sum_below n (fun j => sq (at_ x j)).
Definition least_squares_solution (n : nat) (a : list (list Qc)) (b x : list Qc) : Prop :=
  length x = n /\ forall y, length y = n -> cost n a b x <= cost n a b y.
(** A matrix of [m] rows and [n] columns; its columns are linearly independent. *)
Definition matrix (m n : nat) (a : list (list Qc)) : Prop := length a = m /\ Forall (fun row => length row = n) a.
Definition independent (n : nat) (a : list (list Qc)) : Prop :=
  forall x, length x = n -> (forall i, (i < length a)%nat -> sum_below n (fun j => entry a i j * at_ x j) = 0) -> x = repeat 0 n.
(** Ridge objectives: without and with a constant [c]. *)
Definition ridge_cost (n : nat) (a : list (list Qc)) (b : list Qc) (lambda : Qc) (x : list Qc) : Qc := cost n a b x + lambda * norm2 n x.
Definition affine_cost (n : nat) (a : list (list Qc)) (b x : list Qc) (c : Qc) : Qc :=
  sum_below (length b) (fun i => sq (sum_below n (fun j => entry a i j * at_ x j) + c - at_ b i)).
(** Error of the equaliser with feed forward taps [f] and feedback taps [d] at time [n]: the feed forward part is applied
    to s[n .. n+len(f)-1] (latest sample first), the feedback part to the references before [n]. *)
Definition eq_error (s r f d : list Qc) (n : nat) : Qc :=
  sum_below (length f) (fun k => at_ f k * at_ s (n + length f - 1 - k)) - sum_below (length d) (fun k => at_ d k * at_ r (n - 1 - k)) - at_ r n.
(** Sum of its squares over the times first .. first+count-1. *)
Definition eq_cost (s r f d : list Qc) (first count : nat) : Qc := sum_below count (fun i => sq (eq_error s r f d (first + i))).
(** Sum of absolute values, and the objective which sklearn.linear_model.Lasso documents (with an intercept [c]). *)
Definition norm1 (n : nat) (x : list Qc) : Qc := sum_below n (fun j => Qcabs (at_ x j)).
Definition lasso_objective (n : nat) (a : list (list Qc)) (b : list Qc) (alpha : Qc) (x : list Qc) (c : Qc) : Qc :=
  affine_cost n a b x c / (ofZ 2 * ofZ (Z.of_nat (length b))) + alpha * norm1 n x.
(** Power of the output of the equaliser, times the number of samples. *)
Definition eq_output2 (s r f d : list Qc) (first count : nat) : Qc := sum_below count (fun i => sq (eq_error s r f d (first + i) + at_ r (first + i))).
(** Captures of a periodic pattern of [P] symbols: average of sample [n] over the whole periods, mean and variance over one
    period, the symbol [n] of the pattern started at [s], and the output of the channel [h] with [pre] precursors. *)
Definition average (P : nat) (sig : list Qc) (n : nat) : Qc :=
  sum_below (length sig / P) (fun k => at_ sig (k * P + n)) / ofZ (Z.of_nat (length sig / P)).
Definition mean_over (P : nat) (m : nat -> Qc) : Qc := sum_below P m / ofZ (Z.of_nat P).
Definition variance (P : nat) (m : nat -> Qc) : Qc := mean_over P (fun n => sq (m n - mean_over P m)).
Definition symbol_at (P : nat) (pc : list Qc) (s n : nat) : Qc := at_ pc ((s + n) mod P).
Definition received (P : nat) (p : nat -> Qc) (h : list Qc) (pre n : nat) : Qc :=
  sum_below (length h) (fun k => at_ h k * p (n + pre + P - k)%nat).
(** Equaliser cost with a constant offset [c]. *)
Definition eq_cost_offset (s r f d : list Qc) (c : Qc) (first count : nat) : Qc := sum_below count (fun i => sq (eq_error s r f d (first + i) + c)).
