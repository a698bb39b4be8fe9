(** Vocabulary for C72: gradient descent for the lasso. *)
From Verif Require Import Py PyQ S_estim.
Open Scope Qc_scope.

(** ||b - Ax||^2 / (2n) + lambda ||x||_1, with [n] the number of columns. *)
Definition lasso_cost (n : nat) (a : list (list Qc)) (b : list Qc) (lambda : Qc) (x : list Qc) : Qc :=
  cost n a b x / (ofZ 2 * ofZ (Z.of_nat n)) + lambda * norm1 n x.
(** Sign of a weight, 0 for the weights from -5e-5 to 5e-5. *)
Definition margin : Qc := Q2Qc (1 # 20000).
Definition coarse_sign (w s : Qc) : Prop := (margin < w /\ s = 1) \/ (w < - margin /\ s = - (1)) \/ (- margin <= w /\ w <= margin /\ s = 0).
(** Correlation of column [j] with the residual of [x]. *)
Definition correlation (n : nat) (a : list (list Qc)) (b x : list Qc) (j : nat) : Qc :=
  sum_below (length b) (fun i => entry a i j * (at_ b i - sum_below n (fun k => entry a i k * at_ x k))).
(** [y] follows [x] in the descent with step [mu]. *)
Definition descent_step (n : nat) (a : list (list Qc)) (b : list Qc) (lambda mu : Qc) (x y : list Qc) : Prop :=
  length y = n /\ forall j, (j < n)%nat -> exists s, coarse_sign (at_ x j) s /\
    at_ y j = at_ x j - mu * (lambda * s - correlation n a b x j / ofZ (Z.of_nat n)).
Definition close (n : nat) (tol : Qc) (x y : list Qc) : Prop := forall j, (j < n)%nat -> Qcabs (at_ x j - at_ y j) < tol.
(** Distance in the sum norm; sum of all squared entries of the matrix. *)
Definition dist1 (n : nat) (x y : list Qc) : Qc := sum_below n (fun j => Qcabs (at_ x j - at_ y j)).
Definition frobenius2 (n : nat) (a : list (list Qc)) : Qc := sum_below (length a) (fun i => sum_below n (fun j => sq (entry a i j))).
