(** Model of the adaptation loops of test/test_equalization_estimation.py (equalization_lms_ffe_test, equalization_lms_dfe_test, algo 'hard').
    Simplifications: the capture and the reference are aligned and start together after silence, so the lock of lines 86-88 and 142-144 and
    the cut of the first len(equ_dut) samples are left out; the taps of the feed forward equaliser are those without precursors. *)
From Verif Require Import Py PyQ M_slicer M_filter M_lms.
Open Scope Z_scope.

(** The first value of what ffe_dfe returns. *)
Definition output_of (r : ffe_dfe_result) : list Qc :=
  match r with OutSignal y => y | OutFfe y _ => y | OutDfe y _ => y | OutBoth y _ _ => y end.
(** Lines 96 and 155, [equ_dut -= grad * learning_rate]; [None] if some entry is nan. *)
Fixpoint moved (lr : Qc) (taps : list Qc) (grad : list (option Qc)) : option (list Qc) :=
  match taps, grad with
  | b :: taps, Some g :: grad => option_map (cons (b - g * lr)%Qc) (moved lr taps grad)
  | [], [] => Some []
  | _, _ => None
  end.
Definition with_loss (loss : option Qc) (taps : option (list Qc)) : option (Qc * list Qc) :=
  match loss, taps with Some l, Some t => Some (l, t) | _, _ => None end.
(** Lines 82-96, one pass: the loss before and the taps after it.  [reference_vec] as in the call; None lets ddlms_grad take its own decisions. *)
Definition lms_ffe_pass (input : list Qc) (levels : option (list Qc)) (reference_vec : option (list Qc)) (lr : Qc) (equ_dut : list Qc) : res (option (Qc * list Qc)) :=
  r <- ffe_dfe input equ_dut None levels 1 0 None None ;;
  g <- ddlms_grad input (output_of r) levels (map Z.of_nat (seq 0 (length equ_dut))) [] reference_vec ;;
  Ok (match g with LossFfe loss grad_ffe => with_loss loss (moved lr equ_dut grad_ffe) | _ => None end).
(** Lines 138-155. *)
Definition lms_dfe_pass (input : list Qc) (levels : option (list Qc)) (reference_vec : option (list Qc)) (lr : Qc) (equ_dut : list Qc) : res (option (Qc * list Qc)) :=
  r <- ffe_dfe input [ofZ 1] (Some equ_dut) levels 1 0 None None ;;
  g <- ddlms_grad input (output_of r) levels [] (map Z.of_nat (seq 1 (length equ_dut))) reference_vec ;;
  Ok (match g with LossDfe loss grad_dfe => with_loss loss (moved lr equ_dut grad_dfe) | _ => None end).
(** Lines 77-99 and 133-158: at most [n] passes, until the last loss is at most [floor] (1e-6) or changes by less than [tol] (2e-9, 5e-9).
    The taps at the end and whether the loop stopped before its last pass was used up. *)
Record lms_end := mk_lms { le_taps : list Qc ; le_stopped : bool }.
Fixpoint lms_loop (pass : list Qc -> res (option (Qc * list Qc))) (floor tol : Qc) (n : nat) (last : Qc) (equ_dut : list Qc) : res (option lms_end) :=
  if negb (Qcltb floor last) then Ok (Some (mk_lms equ_dut true)) else
  match n with
  | O => Ok (Some (mk_lms equ_dut false))
  | S n =>
    r <- pass equ_dut ;;
    match r with
    | None => Ok None
    | Some (loss, equ_dut) => if Qcltb (Qcabs (loss - last)) tol then Ok (Some (mk_lms equ_dut true)) else lms_loop pass floor tol n loss equ_dut
    end
  end.
