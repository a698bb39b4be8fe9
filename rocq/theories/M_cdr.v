(** Model of the clock recovery of test/test_cdr.py: the loop which moves the sampling phase by the Mueller-Muller detector, with a locked PRBS as reference.
    The test itself only draws the pattern and the channel at random; quantize, pulse_shape and the search of line 18-35 are modelled elsewhere. *)
From Verif Require Import Py PyQ M_aux M_lms M_estim M_lock.
Open Scope Z_scope.

(** test_cdr.py:42-45, one pass at [phase]; [cols] is adc_out_mat.T.  np.ceil(len / prbs_len) is a quotient of doubles in the code, exact here.
    [None] is the cast of nan which [mueller_muller_step] gives for one symbol. *)
Definition cdr_pass (cols : list (list Qc)) (ref_pattern : list Qc) (prbs_len : nat) (phase : Z) : res (option Z) :=
  single_phase_signal <- np_get cols phase ;;
  lk <- lock_pattern_to_signal (firstn prbs_len ref_pattern) single_phase_signal ;;
  let pattern_aligned_rep := firstn (length single_phase_signal) (tile ((length ref_pattern + prbs_len - 1) / prbs_len) (fst lk)) in
  mueller_muller_step single_phase_signal pattern_aligned_rep (ofZ 1) (ofZ 1) (ofZ 1 / ofZ 1000)%Qc.
(** Where the loop ends, and whether it left by break. *)
Record cdr_end := mk_end { ce_phase : Z ; ce_break : bool }.
(** test_cdr.py:41-48, with [n] passes left. *)
Fixpoint cdr_loop (pass : Z -> res (option Z)) (osr : Z) (n : nat) (phase : Z) : res (option cdr_end) :=
  match n with
  | O => Ok (Some (mk_end phase false))
  | S n =>
    s <- pass phase ;;
    match s with
    | None => Ok None
    | Some step_dir =>
      let phase := (phase + step_dir) mod osr in
      if step_dir =? 0 then Ok (Some (mk_end phase true)) else cdr_loop pass osr n phase
    end
  end.
(** test_cdr.py:18 and 39-49. *)
Definition mueller_muller_run (adc_out : list Qc) (osr : Z) (ref_pattern : list Qc) (prbs_len : nat) : res (option cdr_end) :=
  adc_out_mat <- buffer (ofZ 0) Qceqb adc_out osr 0 0 false ;;
  cdr_loop (cdr_pass (transpose (Z.to_nat osr) adc_out_mat) ref_pattern prbs_len) osr (Z.to_nat osr) (osr / 2).
