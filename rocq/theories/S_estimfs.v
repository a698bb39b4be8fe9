(** Vocabulary for C86: results of the estimation functions as real numbers, and scaled. *)
From Verif Require Import Py PyQ M_aux M_estim M_estimfs.
From Coq Require Import Reals Qreals.
Open Scope R_scope.

(** A rational sample as a real number. *)
Definition real (x : Qc) : R := Q2R (this x).
Definition on_ok {A B} (f : A -> B) (r : res A) : res B := match r with Ok x => Ok (f x) | Raise e => Raise e end.
Definition real_taps (t : taps) : tapsR := match t with Taps l => TapsR (map real l) | NoTaps => NoTapsR | NotFinite => NotFiniteR end.
Definition real_estimate (e : estimate) : estimateR := mk_estR (real_taps (e_ffe e)) (real_taps (e_dfe e)) (real (e_gain e)) (map real (e_err e)) (option_map real (e_mse e)).
Definition times (k : R) (l : list R) : list R := map (fun v => k * v) l.
Definition times_taps (k : R) (t : tapsR) : tapsR := match t with TapsR l => TapsR (times k l) | t => t end.
(** Root of the mean square of the levels -1, 1 and 0, 1 and -1, 0, 1 and -3, -1, 1, 3. *)
Definition level_rms (c : constellation) : R := match c with NRZ => 1 | OOK => sqrt (1 / 2) | PAM3 => sqrt (2 / 3) | PAM4 => sqrt 5 end.
(** What an equaliser estimate becomes when the reference is multiplied by [k]: the feed forward taps and the gain are multiplied by
    [k], the feedback taps stay; the taps of a normalised estimate are divided by the gain. *)
Definition rescaled (k : R) (normalized : bool) (e : estimateR) : estimateR :=
  mk_estR (if normalized then r_ffe e else times_taps k (r_ffe e)) (if normalized then times_taps (/ k) (r_dfe e) else r_dfe e)
    (if normalized then k * r_gain e else r_gain e) (times (k * k) (r_err e)) (r_mse e).
(** A regression solver returns one coefficient per column. *)
Definition sized (lasso : list (list R) -> list R -> R -> list R) : Prop := forall A b al n, A <> [] -> Forall (fun row => length row = n) A -> length (lasso A b al) = n.
(** The exception, if any. *)
Definition raises {A} (r : res A) : option exn := match r with Ok _ => None | Raise x => Some x end.
