(** Model of CommDspy/rx/least_mean_squares.py:71-168, soft_ddlms_grad, over the real numbers (no rounding). *)
From Coq Require Import Reals.
From Verif Require Import Py M_lms.
Open Scope R_scope.

Definition sumR (l : list R) : R := fold_right Rplus 0 l.
(** [np.mean]; [None] stands for nan (empty array). *)
Definition np_meanR (l : list R) : option R := match l with [] => None | _ => Some (sumR l / INR (length l)) end.
(** Line 155, one sample and one level. *)
Definition temp1 (sigma x mu : R) : R := exp (-1 * (x - mu) ^ 2 / (2 * sigma ^ 2)).
(** Line 156. *)
Definition temp2 (sigma x mu : R) : R := (x - mu) / sigma ^ 2 * temp1 sigma x mu.
(** Line 157; [p] is line 148. *)
Definition soft_f (p : R) (levels : list R) (sigma x : R) : R := p / sqrt (2 * PI * sigma ^ 2) * sumR (map (temp1 sigma x) levels).
(** Line 158. *)
Definition soft_e (p : R) (levels : list R) (sigma x : R) : R := 1 / soft_f p levels sigma x * sumR (map (temp2 sigma x) levels).
(** Lines 71-168.  The reference is given (the default, the output of the slicer, is modelled in M_slicer); it is
    not checked against the length of the output.  [sigma = 0] divides by zero and is not modelled. *)
Definition soft_ddlms_grad (input_vec output_vec levels : list R) (sigma : R) (ffe_tap_idx dfe_tap_idx : list Z)
    (reference_vec : list R) : res (lms_result (option R) (list (option R))) :=
  if (length levels =? 0)%nat then Raise ZeroDivisionError else
  let p := 1 / INR (length levels) in
  let f := map (soft_f p levels sigma) output_vec in
  let e_n := map (soft_e p levels sigma) output_vec in
  (* line 160: the outer np.mean is the mean of a scalar *)
  let loss := option_map (fun m => -1 * m) (np_meanR (map ln f)) in
  g <- compute_derivatives Rmult np_meanR (fun m => 0.5 * m) (fun m => -0.5 * m) input_vec reference_vec ffe_tap_idx dfe_tap_idx e_n ;;
  Ok (return_function loss (fst g) (snd g) (length ffe_tap_idx) (length dfe_tap_idx)).
