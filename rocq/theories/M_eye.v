(** Model of CommDspy/eye_diagram.py over the real numbers (no rounding).  A sample is [Some x], or [None] for a value
    which is not a finite number. *)
From Coq Require Import Reals String.
From Verif Require Import Py M_delay.
Open Scope R_scope.

(** numpy.histogram(a, bins, range): index of the bin of a sample.  Samples outside of the range (and nan) are not
    kept; the others go to the truncated value of (x - first) * bins / (last - first), and the right-most edge goes to
    the last bin. *)
Definition hist_bin (first last : R) (bins : nat) (x : num) : option nat :=
  match x with
  | None => None
  | Some v =>
      if Rle_dec first v then if Rle_dec v last then
        let i := Z.to_nat (Int_part ((v - first) * (INR bins / (last - first)))) in
        Some (if (i =? bins)%nat then (bins - 1)%nat else i)
      else None else None
  end.
Definition in_hist (first last : R) (bins k : nat) (x : num) : bool :=
  match hist_bin first last bins x with Some j => (j =? k)%nat | None => false end.
(** numpy.histogram with an integer number of bins: ValueError without bins and for a decreasing range; an empty range is
    widened by 1/2 on both sides. *)
Definition histogram (a : list num) (bins : nat) (first last : R) : res (list nat) :=
  if (bins =? 0)%nat then Raise ValueError else
  if Rlt_dec last first then Raise ValueError else
  let '(lo, hi) := if Req_EM_T first last then (first - 1 / 2, last + 1 / 2) else (first, last) in
  Ok (map (fun k => length (filter (in_hist lo hi bins k) a)) (seq 0 bins)).
(** numpy.linspace(a, b, n). *)
Definition linspace (a b : R) (n : nat) : list R := map (fun k => a + INR k * ((b - a) / INR (n - 1))) (seq 0 n).
Definition log10 (x : R) : R := ln x / ln 10.

(** Lines 4-42, for non-negative osr_in, osr_diag and quantization.  The result is the matrix (list of rows) and the
    amplitude axis. *)
Definition eye_diagram (signal : list num) (osr_in osr_diag : nat) (fs_value : R) (quantization : nat) (logscale : bool)
    : res (list (list R) * list R) :=
  sig_upsampled <- (if (osr_in <? osr_diag)%nat then
                      if (osr_in =? 0)%nat then Raise ZeroDivisionError else
                      r <- digital_oversample signal (osr_diag / osr_in) osr_in "sinc" 0 ;;
                      (let '(s, x2, x1) := r in Ok s)
                    else Ok signal) ;;
  sig_mat <- reshape_rows osr_diag sig_upsampled ;;
  cols <- map_res (fun ii => histogram (map (fun row => nth ii row None) sig_mat) quantization (-1 * fs_value) fs_value) (seq 0 osr_diag) ;;
  let eye_d := map (fun k => map (fun col : list nat => INR (nth k col 0%nat)) cols) (seq 0 quantization) in
  let both := map (fun row => row ++ row)%list eye_d in
  let out := if logscale then map (map (fun v => log10 (v + 1 / 10))) both else both in
  Ok (out, linspace (-1 * fs_value) fs_value quantization).
