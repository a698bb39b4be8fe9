(** Model of ols_manual and lasso_regression_manual (CommDspy/misc/least_squares.py:66-133) over exact rationals. *)
From Verif Require Import Py PyQ M_symbol M_estim.
Open Scope Z_scope.

(** np.linalg.pinv(A) of a matrix with [n] columns: column [k] is the solution of smallest norm for the unit vector [k].
    Singular values below 1e-15 of the largest one are not cut off here. *)
Definition unit_vec (m k : nat) : list Qc := map (fun i => if (i =? k)%nat then 1%Qc else 0%Qc) (seq 0 m).
Definition min_norm (n : nat) (a : list (list Qc)) (b : list Qc) : list Qc := comb n a (project n a (project (length a) (transpose n a) b)).
Definition pinv (n : nat) (a : list (list Qc)) : list (list Qc) := transpose n (map (fun k => min_norm n a (unit_vec (length a) k)) (seq 0 (length a))).
(** Lines 66-75. *)
Definition ols_manual (n : nat) (a : list (list Qc)) (b : list Qc) : res (list Qc * Qc) :=
  if negb (length a =? length b)%nat then Raise ValueError else
  let x_hat := matvec (pinv n a) b in
  Ok (x_hat, ssr a x_hat b).

(** [np.sign(np.around(w, decimals=4))]: np.around multiplies by 10^4, rounds half to even and divides. *)
Definition around4 (w : Qc) : Qc := (ofZ (round_half_even (this (w * ofZ 10000)%Qc)) / ofZ 10000)%Qc.
Definition sign (w : Qc) : Qc := if Qcltb 0%Qc w then 1%Qc else if Qcltb w 0%Qc then (- (1))%Qc else 0%Qc.
(** Line 112, for a matrix with [n] columns. *)
Definition lasso_gradient (n : nat) (a : list (list Qc)) (b : list Qc) (reg_lambda : Qc) (omega : list Qc) : list Qc :=
  map2 Qcplus (map (fun v => ((- (1)) / ofZ (Z.of_nat n) * v)%Qc) (matvec (transpose n a) (map2 Qcminus b (matvec a omega))))
              (map (fun w => (reg_lambda * sign (around4 w))%Qc) omega).
(** Line 116. *)
Definition lasso_update (n : nat) (a : list (list Qc)) (b : list Qc) (reg_lambda mu : Qc) (omega : list Qc) : list Qc :=
  map2 (fun w g => (w - mu * g)%Qc) omega (lasso_gradient n a b reg_lambda omega).
(** Line 121. *)
Definition settled (tol : Qc) (omega last : list Qc) : bool := forallb (fun d => Qcltb d tol) (map Qcabs (map2 Qcminus omega last)).
(** Lines 108-122: the columns of omega_mat written by at most [k] more steps from [omega]. *)
Fixpoint lasso_steps (n : nat) (a : list (list Qc)) (b : list Qc) (reg_lambda mu tol : Qc) (k : nat) (omega : list Qc) : list (list Qc) :=
  match k with
  | O => []
  | S k => let next := lasso_update n a b reg_lambda mu omega in
           next :: if settled tol next omega then [] else lasso_steps n a b reg_lambda mu tol k next
  end.
(** [b - A w] broadcasts a single value over all rows. *)
Definition broadcast1 (m : nat) (b : list Qc) : res (list Qc) :=
  if (length b =? m)%nat then Ok b else if (length b =? 1)%nat then Ok (repeat (vec_at b 0) m) else Raise ValueError.
(** Lines 88-133 with return_path=True: (omega, ssr, reached_tol, path).  [omega0] is the vector drawn by np.random.rand in
    line 101.  With max_steps=1 the loop variable [step] is never bound. *)
Definition lasso_regression_manual (omega0 : list Qc) (n : nat) (a : list (list Qc)) (b : list Qc) (reg_lambda mu tol : Qc) (max_steps : Z)
    : res (list Qc * Qc * bool * list (list Qc)) :=
  if max_steps <? 0 then Raise ValueError else
  if max_steps =? 0 then Raise IndexError else
  if max_steps =? 1 then Raise UnboundLocalError else
  if (n =? 0)%nat then Raise ZeroDivisionError else
  b <- broadcast1 (length a) b ;;
  let path := omega0 :: lasso_steps n a b reg_lambda mu tol (Z.to_nat max_steps - 1) omega0 in
  let omega := last path [] in
  let step := (Z.of_nat (length path) - 1)%Z in
  Ok (omega, ssr a omega b, negb (step =? max_steps - 1), path).
(** Default arguments: mu=1e-3, tol=1e-8, max_steps=10000. *)
Definition default_mu : Qc := Q2Qc (1 # 1000).
Definition default_tol : Qc := Q2Qc (1 # 100000000).
