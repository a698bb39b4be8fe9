(** Vocabulary for C89: a PRBS sent for ever, received through any channel, and the timing detector. *)
From Verif Require Import Py PyQ M_aux M_symbol S_symbol S_lms.
Open Scope Z_scope.

(** The bit at any position, before or after, of the sequence that repeats [period]. *)
Definition bit_at (period : list Z) (i : Z) : Z := nth (Z.to_nat (i mod Z.of_nat (length period))) period 0.
(** The bits of symbol [i] when [k] bits make a symbol. *)
Definition bits_of (period : list Z) (k : nat) (i : Z) : list Z := map (fun l => bit_at period (Z.of_nat k * i + Z.of_nat l)) (seq 0 k).
(** The level on the line at symbol [i]. *)
Definition line (period : list Z) (k : nat) (f : flags) (c : constellation) (i : Z) : Z :=
  nth (Z.to_nat (symbol_value k f (bits_of period k i) 0)) (get_levels c) 0.
(** [k] bits select one of the levels. *)
Definition carries (k : nat) (c : constellation) : Prop := k = 1%nat /\ (c = NRZ \/ c = OOK) \/ k = 2%nat /\ c = PAM4.
(** Mean square of the levels about their mean. *)
Definition variance (c : constellation) : Qc := match c with NRZ => 1 | OOK => Q2Qc (1 # 4) | PAM3 => Q2Qc (2 # 3) | PAM4 => ofZ 5 end%Qc.

(** [N] samples, one per symbol, from symbol [a] on, of the levels [x] behind a channel with taps [h], of which [main] come
    before the main cursor is reached. *)
Definition received (h : list Qc) (main : Z) (x : Z -> Z) (a : Z) (N : nat) : list Qc :=
  map (fun n => sumQ (map (fun j => signal h j * ofZ (x (a + n + main - j)%Z))%Qc (instants (length h)))) (instants N).
(** The levels themselves, times [g]. *)
Definition reference (g : Qc) (x : Z -> Z) (a : Z) (N : nat) : list Qc := map (fun n => (g * ofZ (x (a + n)%Z))%Qc) (instants N).
(** The direction in which a difference [d] drives the phase. *)
Definition direction (tol d : Qc) (k : Z) : Prop :=
  (Qcabs d < tol)%Qc /\ k = 0 \/ (tol <= Qcabs d)%Qc /\ (0 < d)%Qc /\ k = 1 \/ (tol <= Qcabs d)%Qc /\ (d < 0)%Qc /\ k = -1 \/ (tol <= Qcabs d)%Qc /\ d = 0%Qc /\ k = 0.
Definition magnitude (h : list Qc) : Qc := sumQ (map Qcabs h).
(** The largest level. *)
Definition top (c : constellation) : Z := match c with PAM4 => 3 | _ => 1 end.

(** Tap [cur] is the largest, and no other is larger in absolute value. *)
Definition largest (h : list Qc) (cur : Z) : Prop := 0 <= cur < Z.of_nat (length h) /\ (0 < signal h cur)%Qc /\
  forall j, 0 <= j < Z.of_nat (length h) -> j <> cur -> (signal h j < signal h cur)%Qc /\ (Qcabs (signal h j) <= signal h cur)%Qc.
(** What the taps beside [cur] add up to in the detector over [m] periods of [2^n - 1] symbols, and how much [q] symbols more can add at most. *)
Definition drift (n : nat) (c : constellation) (m : nat) (h : list Qc) (cur : Z) : Qc :=
  (ofZ (Z.of_nat m) * variance c * ofZ (2 ^ Z.of_nat n)%Z * (signal h (cur + 1) - signal h (cur - 1)))%Qc.
Definition blur (c : constellation) (q : nat) (h : list Qc) : Qc := (ofZ (2 * Z.of_nat q * (top c * top c))%Z * magnitude h)%Qc.
(** The step a chunk of [m P + q + 1] symbols must give ([M = m P + q] products), with [tol] and reference gain [g]. *)
Definition forward n c m q (M : nat) g tol h cur : Prop := (tol * ofZ (Z.of_nat M) <= g * (drift n c m h cur - blur c q h))%Qc.
Definition backward n c m q (M : nat) g tol h cur : Prop := (g * (drift n c m h cur + blur c q h) <= - (tol * ofZ (Z.of_nat M)))%Qc.
Definition still n c m q (M : nat) g tol h cur : Prop := (g * (Qcabs (drift n c m h cur) + blur c q h) < tol * ofZ (Z.of_nat M))%Qc.
(** The samples at phase [p] of a stream with [osr] samples per symbol; those which are missing in the last symbol are 0. *)
Definition sampled (osr p : nat) (x : list Qc) : list Qc := map (fun n => nth (n * osr + p) x 0%Qc) (seq 0 ((length x + osr - 1) / osr)).
