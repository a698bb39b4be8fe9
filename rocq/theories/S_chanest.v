(** Vocabulary for C54, C55: the PRBS reference pattern and the alignment with a capture. *)
From Verif Require Import Py PyQ M_aux M_symbol S_prbs S_symbol S_lock S_estim.
Open Scope Z_scope.

Definition period (t : prbs_type) : nat := (2 ^ prbs_value t - 1)%nat.
Definition bits_per (c : constellation) : nat := match c with PAM4 => 2 | _ => 1 end%nat.
Definition level_of (c : constellation) (v : Z) : Z := match c with NRZ => 2 * v - 1 | OOK => v | PAM3 => v - 1 | PAM4 => 2 * v - 3 end.
Definition gray_of (v : Z) : Z := Z.lxor v (v / 2).
(** Two periods of the PRBS bits after an all ones register, grouped to symbols (flags: bit order and polarity of the bits), Gray coded, as
    levels, negated. *)
Definition reference_pattern (t : prbs_type) (c : constellation) (order inv gray neg : bool) (pc : list Qc) : Prop :=
  exists bs, length bs = (2 * period t)%nat /\ tap_recurrence (standard_taps t) (repeat 1 (prbs_value t)) bs /\ length pc = (length bs / bits_per c)%nat /\
  forall j, (j < length pc)%nat ->
    let v := symbol_value (bits_per c) (mk_flags order false false inv) bs j in
    at_ pc j = ofZ ((if neg then -1 else 1) * level_of c (if gray then gray_of v else v)).
(** The first rotation of the pattern which correlates best with the start of the capture. *)
Definition locks (pc signal : list Qc) (s : nat) : Prop :=
  let m := Nat.min (length pc) (length signal) in (s < length pc)%nat /\
  (forall s', (corr_samples pc signal m s' <= corr_samples pc signal m s)%Qc) /\ (forall s', (s' < s)%nat -> (corr_samples pc signal m s' < corr_samples pc signal m s)%Qc).
(** Squared error between the averaged capture [m] and [v] times the channel [h] applied to the pattern [p], over a period. *)
Definition channel_cost (P : nat) (p m : nat -> Qc) (v : Qc) (h : list Qc) (pre : nat) : Qc :=
  sum_below P (fun n => sq (m n - v * received P p h pre n))%Qc.
