(** Model of CommDspy/rx/lock_pattern.py and CommDspy/rx/checker.py. *)
From Verif Require Import Py PyQ M_aux M_prbs.
Open Scope Z_scope.

(** [scipy.signal.correlate(a, v, mode='valid')] for 1-D arrays with len(a) >= len(v): entry k is
    sum_l a[k+l] v[l]; empty if either is empty.  (scipy may use an FFT; for integers it rounds the result, which
    is exact at these magnitudes; for floats its rounding errors are not modelled.) *)
Definition correlate_valid (a v : list Z) : list Z :=
  if (length a =? 0)%nat || (length v =? 0)%nat then []
  else map (fun k => dotZ (firstn (length v) (skipn k a)) v) (seq 0 (length a - length v + 1)).
Definition correlate_validQ (a v : list Qc) : list Qc :=
  if (length a =? 0)%nat || (length v =? 0)%nat then []
  else map (fun k => dotQ (firstn (length v) (skipn k a)) v) (seq 0 (length a - length v + 1)).

(** CommDspy/rx/lock_pattern.py:4-23: (aligned pattern, correlation). *)
Definition lock_pattern_to_signal_binary (pattern signal : list Z) : res (list Z * list Z) :=
  let pattern_len := length pattern in
  let data_len := length signal in
  let pattern_rep := tile 2 pattern in
  let pattern_nrz := map (fun x => x * 2 - 1) pattern_rep in
  let signal_nrz := map (fun x => x * 2 - 1) (firstn (Nat.min pattern_len data_len) signal) in
  let xcorr := correlate_valid pattern_nrz signal_nrz in
  start_idx <- argmax xcorr ;;
  Ok (firstn pattern_len (skipn start_idx pattern_rep), xcorr).
(** CommDspy/rx/lock_pattern.py:25-44. *)
Definition lock_pattern_to_signal (pattern signal : list Qc) : res (list Qc * list Qc) :=
  let pattern_len := length pattern in
  let data_len := length signal in
  let pattern_rep := tile 2 pattern in
  let signal_part := firstn (Nat.min pattern_len data_len) signal in
  let xcorr := correlate_validQ pattern_rep signal_part in
  start_idx <- argmaxQ xcorr ;;
  Ok (firstn pattern_len (skipn start_idx pattern_rep), xcorr).

(** [data != ref] elementwise, as 0/1 flags.  Arrays of different lengths do not compare elementwise: current
    numpy raises ValueError (older versions return a single True); length-1 broadcasting is not modelled. *)
Definition not_equal (u v : list Z) : res (list bool) :=
  if (length u =? length v)%nat then Ok (map2 (fun a b => negb (a =? b)) u v) else Raise ValueError.
Definition count_true (l : list bool) : Z := Z.of_nat (count_occ Bool.bool_dec l true).

(** CommDspy/rx/checker.py:6-51: (lost_lock, correct_bit_count, error_bit).  The [poly_coeff[0] == -1] branch
    (unknown type) is unreachable for PrbsEnum members. *)
Definition prbs_checker (t : prbs_type) (data_in : list Z) (init_lock : bool) (loss_th : Z) (prbs_seq : option (list Z)) : res (bool * Z * list bool) :=
  let init_seed := repeat 1 (prbs_value t) in
  let prbs_len := 2 ^ Z.of_nat (length init_seed) - 1 in
  seq0 <- match prbs_seq with
          | None => r <- prbs_generator (get_polynomial t) init_seed prbs_len ;; Ok (fst r)
          | Some s => Ok s
          end ;;
  seq1 <- (if negb init_lock then r <- lock_pattern_to_signal_binary seq0 data_in ;; Ok (fst r) else Ok seq0) ;;
  let prbs_rep := - ((- Z.of_nat (length data_in)) / (2 ^ Z.of_nat (length init_seed) - 1)) in
  let seq2 := firstn (length data_in) (tile (Z.to_nat prbs_rep) seq1) in
  error_bit <- not_equal data_in seq2 ;;
  let correct_bit_count := Z.of_nat (length data_in) - count_true error_bit in
  let lost_lock := loss_th <=? count_true error_bit in
  Ok (lost_lock, correct_bit_count, error_bit).

(** CommDspy/rx/checker.py:72-84, one turn of the loop with the seed window at [seed_start]. *)
Definition econ_try (t : prbs_type) (data_in : list Z) (loss_th : Z) (seed_start : nat) : res (bool * Z * list bool) :=
  let n := prbs_value t in
  let seed := firstn n (skipn seed_start data_in) in
  r <- prbs_generator (get_polynomial t) (rev seed) (Z.of_nat (length data_in) - Z.of_nat seed_start - Z.of_nat n) ;;
  error_bit <- not_equal (skipn seed_start data_in) (firstn n (skipn seed_start data_in) ++ fst r) ;;
  let correct_bit_count := Z.of_nat (length data_in) - count_true error_bit in
  let loss_lock := loss_th <=? count_true error_bit in
  Ok (loss_lock, correct_bit_count, error_bit).
(** The loop with its break (lines 69-85); [k] turns remain. *)
Fixpoint econ_loop (t : prbs_type) (data_in : list Z) (loss_th : Z) (k seed_start : nat) : res (bool * Z * list bool) :=
  r <- econ_try t data_in loss_th seed_start ;;
  match k with
  | O => Ok r
  | S k' => if negb (fst (fst r)) then Ok r else econ_loop t data_in loss_th k' (S seed_start)
  end.
(** CommDspy/rx/checker.py:53-86 (exported as prbs_checker_econ). *)
Definition prbs_checker_econ (t : prbs_type) (data_in : list Z) (loss_th : Z) : res (bool * Z * list bool) :=
  econ_loop t data_in loss_th (prbs_value t - 1) 0.
