(** Vocabulary for C87: receivers which search the sampling phase. *)
From Verif Require Import Py PyQ M_aux M_estim M_estimfs S_chanest S_estimfs.
From Coq Require Import Reals.
Open Scope R_scope.

Definition sample (u : list R) (i : nat) : R := nth i u 0.
Definition total (n : nat) (f : nat -> R) : R := fold_right Rplus 0 (map f (seq 0 n)).
(** Number of symbols in a stream with [osr] samples per symbol (the last one may be incomplete), and the samples at phase [p]; samples which are
    missing count as zero. *)
Definition symbols (osr : nat) (x : list R) : nat := ((length x + osr - 1) / osr)%nat.
Definition at_phase (osr p : nat) (x : list R) : list R := map (fun n => sample x (n * osr + p)) (seq 0 (symbols osr x)).
(** Output [n] of the filter with taps [f] (zero before the first sample). *)
Definition filtered (f s : list R) (n : nat) : R := total (length f) (fun k => if (k <=? n)%nat then sample f k * sample s (n - k) else 0).
(** The coded PRBS (no flags), in levels or with mean power one. *)
Definition reference_levels (t : prbs_type) (c : constellation) (full_scale : bool) (pc : list R) : Prop :=
  exists q, reference_pattern t c false false false false q /\ pc = map (fun v => real v / (if full_scale then level_rms c else 1)) q.
(** The first rotation of the pattern which correlates best with the start of the capture. *)
Definition correlation (pc s : list R) (m start : nat) : R := total m (fun i => sample pc ((start + i) mod length pc) * sample s i).
Definition aligned_at (pc s : list R) (start : nat) : Prop :=
  let m := Nat.min (length pc) (length s) in (start < length pc)%nat /\
  (forall j, correlation pc s m j <= correlation pc s m start) /\ (forall j, (j < start)%nat -> correlation pc s m j < correlation pc s m start).
(** Symbol [n] of a pattern of period [P] started at [start]. *)
Definition pattern_symbol (P : nat) (pc : list R) (start n : nat) : R := sample pc ((start + n) mod P).
(** Sample [n] averaged over the whole periods of [P] symbols. *)
Definition averaged (P : nat) (s : list R) (n : nat) : R := total (length s / P) (fun k => sample s (k * P + n)) / INR (length s / P).
(** What an equaliser (feed forward taps [f], feedback taps [d] fed with the right symbols [r]) makes of samples [m], and how far it is from the symbol. *)
Definition equalised (m r : nat -> R) (f d : list R) (n : nat) : R :=
  total (length f) (fun k => sample f k * m (n + length f - 1 - k)%nat) - total (length d) (fun k => sample d k * r (n - 1 - k)%nat).
Definition squared_error (m r : nat -> R) (f d : list R) (first count : nat) : R := total count (fun i => (equalised m r f d (first + i) - r (first + i)%nat) * (equalised m r f d (first + i) - r (first + i)%nat)).
Definition output_power (m r : nat -> R) (f d : list R) (first count : nat) : R := total count (fun i => equalised m r f d (first + i) * equalised m r f d (first + i)).
(** The normalised error: none when the output is silent. *)
Definition normalised_error (m r : nat -> R) (f d : list R) (first count : nat) (v : R) : Prop :=
  output_power m r f d first count <> 0 /\ v = squared_error m r f d first count / output_power m r f d first count.
(** Taps of given numbers with the least squared error. *)
Definition best_taps (m r : nat -> R) (w b : nat) (first count : nat) (f d : list R) : Prop := length f = w /\ length d = b /\
  forall f' d', length f' = w -> length d' = b -> squared_error m r f d first count <= squared_error m r f' d' first count.
(** Taps of an equaliser with [post] and [pre] taps around the main one and [b] feedback taps, fitted to [s] (the samples at one phase): best for the average over
    the periods on the symbols from number [b] on, as many as a period has without the length of the equaliser, where the reference is the pattern aligned with [s]; and their error. *)
Definition fitted_on (P post pre b : nat) (Q : (nat -> R) -> (nat -> R) -> nat -> Prop) (pc s : list R) (start : nat) : Prop :=
  Q (averaged P s) (fun n => pattern_symbol P pc start (n + Nat.max post b)) (P - (Nat.max post b + pre + 1))%nat.
Definition best_fit (P post pre b : nat) (pc s : list R) (start : nat) (f d : list R) : Prop :=
  aligned_at pc s start /\ fitted_on P post pre b (fun m r count => best_taps m r (post + pre + 1) b b count f d) pc s start.
Definition fit_error (P post pre b : nat) (pc s : list R) (start : nat) (f d : list R) (v : R) : Prop :=
  fitted_on P post pre b (fun m r count => normalised_error m r f d b count v) pc s start.
Definition fit_silent (P post pre b : nat) (pc s : list R) (start : nat) (f d : list R) : Prop :=
  fitted_on P post pre b (fun m r count => output_power m r f d b count = 0) pc s start.
(** The nearest level. *)
Definition decided (levels : list R) (x v : R) : Prop := In v levels /\ forall l, In l levels -> Rabs (x - v) <= Rabs (x - l).
