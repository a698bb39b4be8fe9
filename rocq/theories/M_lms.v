(** Model of CommDspy/rx/least_mean_squares.py (ddlms_grad) and CommDspy/rx/clock_data_recovery.py. *)
From Verif Require Import Py PyQ M_slicer M_filter.
Open Scope Z_scope.

(** [np.mean] of an array; [None] stands for nan (empty array). *)
Definition np_mean (l : list Qc) : option Qc := match l with [] => None | _ => Some (meanQ l) end.
(** CommDspy/rx/least_mean_squares.py:170-197, _compute_derivatives, for samples of any type (exact rationals or
    reals): [mul] is the product, [mean] is np.mean ([None] for nan), [half] and [minus_half] multiply by +-0.5. *)
Section Derivatives.
  Context {A : Type} (mul : A -> A -> A) (mean : list A -> option A) (half minus_half : A -> A).
  Definition np_mul (u v : list A) : res (list A) := if (length u =? length v)%nat then Ok (map2 mul u v) else Raise ValueError.
  (** Lines 186-190: one FFE tap [ii]. *)
  Definition grad_ffe_tap (n : nat) (input_vec e_n : list A) (ii : Z) : res (option A) :=
    let start_idx := Z.max 0 ii in
    let stop_idx := Z.min (Z.of_nat n) (Z.of_nat n + ii) in
    mask_vec <- arange start_idx stop_idx 1 ;;
    e <- np_take e_n mask_vec ;;
    x <- np_take input_vec (map (fun m => m - ii) mask_vec) ;;
    p <- np_mul e x ;;
    Ok (option_map half (mean p)).
  (** Lines 194-196: one DFE tap [jj]. *)
  Definition grad_dfe_tap (n : nat) (reference_vec e_n : list A) (jj : Z) : res (option A) :=
    mask_vec <- arange jj (Z.of_nat n) 1 ;;
    e <- np_take e_n mask_vec ;;
    x <- np_take reference_vec (map (fun m => m - jj) mask_vec) ;;
    p <- np_mul e x ;;
    Ok (option_map minus_half (mean p)).
  Definition compute_derivatives (input_vec reference_vec : list A) (ffe_tap_idx dfe_tap_idx : list Z) (e_n : list A)
      : res (list (option A) * list (option A)) :=
    let n := length input_vec in
    grad_ffe <- map_res (grad_ffe_tap n input_vec e_n) ffe_tap_idx ;;
    grad_dfe <- map_res (grad_dfe_tap n reference_vec e_n) dfe_tap_idx ;;
    Ok (grad_ffe, grad_dfe).
End Derivatives.
(** Lines 199-212, _return_function: the shape of the returned value. *)
Inductive lms_result (L G : Type) :=
| OnlyLoss (loss : L) | LossDfe (loss : L) (grad_dfe : G) | LossFfe (loss : L) (grad_ffe : G) | LossBoth (loss : L) (grad_ffe grad_dfe : G).
Arguments OnlyLoss {L G}. Arguments LossDfe {L G}. Arguments LossFfe {L G}. Arguments LossBoth {L G}.
Definition return_function {L G} (loss : L) (grad_ffe grad_dfe : G) (ffe_size dfe_size : nat) : lms_result L G :=
  if (ffe_size =? 0)%nat && (dfe_size =? 0)%nat then OnlyLoss loss
  else if (ffe_size =? 0)%nat then LossDfe loss grad_dfe
  else if (dfe_size =? 0)%nat then LossFfe loss grad_ffe
  else LossBoth loss grad_ffe grad_dfe.
(** CommDspy/rx/least_mean_squares.py:4-68.  [None] for the loss stands for nan (empty output). *)
Definition half : Qc := Q2Qc (1 # 2).
Definition ddlms_grad (input_vec output_vec : list Qc) (levels : option (list Qc)) (ffe_tap_idx dfe_tap_idx : list Z)
    (reference_vec : option (list Qc)) : res (lms_result (option Qc) (list (option Qc))) :=
  ref <- match reference_vec with
         | None => r <- slicer (Arr (vec output_vec)) levels ;; Ok (data r)
         | Some r => if negb (length r =? length output_vec)%nat then Raise ValueError else Ok r
         end ;;
  e_n <- np_sub output_vec ref ;;
  let mse := np_mean (map (fun e => e * e)%Qc e_n) in
  g <- compute_derivatives Qcmult np_mean (fun m => half * m)%Qc (fun m => - half * m)%Qc input_vec ref ffe_tap_idx dfe_tap_idx e_n ;;
  Ok (return_function mse (fst g) (snd g) (length ffe_tap_idx) (length dfe_tap_idx)).

(** CommDspy/rx/clock_data_recovery.py:4-32.  For one-sample inputs 0/0 = nan is cast to an integer; that value
    ([None]) is not modelled. *)
Definition np_sign (x : Qc) : Z := if Qcltb 0%Qc x then 1 else if Qcltb x 0%Qc then -1 else 0.
Definition mueller_muller_step (signal_chunk reference_signal : list Qc) (pre_weight post_weight tol : Qc) : res (option Z) :=
  let reference_pre := tl reference_signal in
  let reference_post := slice_to reference_signal (-1) in
  a <- np_dot reference_pre (slice_to signal_chunk (-1)) ;;
  b <- np_dot reference_post (tl signal_chunk) ;;
  if (length reference_signal =? 1)%nat then Ok None else
  let m := ofZ (Z.of_nat (length reference_signal) - 1) in
  let pre_coef := (a / m)%Qc in
  let post_coef := (b / m)%Qc in
  let step := (post_coef * post_weight - pre_coef * pre_weight)%Qc in
  if Qcltb (Qcabs step) tol then Ok (Some 0) else Ok (Some (np_sign step)).
