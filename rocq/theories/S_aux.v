(** Specification vocabulary for the helper functions (independent of the models). *)
From Verif Require Import Py.

(** Binary value of a bit row, most significant bit first (Horner). *)
Definition val_msb (row : list Z) : Z := fold_left (fun acc b => 2 * acc + b) row 0.
(** Hamming distance of two rows of equal length. *)
Definition hdist (u v : list Z) : nat :=
  length (filter (fun i => negb (nth i u 0 =? nth i v 0)) (seq 0 (length u))).
(** Two integers whose binary expansions differ in exactly one position. *)
Definition one_bit_apart (a b : Z) : Prop :=
  exists j, 0 <= j /\ forall n, 0 <= n -> (Z.testbit a n <> Z.testbit b n <-> n = j).
(** Sample [i] of the signal preceded by [delay] zeros and followed by zeros. *)
Definition delayed {A} (zero : A) (delay : nat) (signal : list A) (i : nat) : A :=
  if (i <? delay)%nat then zero else nth (i - delay) signal zero.
(** Ceiling of a quotient, 0 for negative numerators. *)
Definition ceil_div (a b : Z) : nat := Z.to_nat ((a + b - 1) / b).
(** Entry (i, c) of the sliding windows of a signal; past the end the window runs backwards over the
    samples before the last one. *)
Definition window_entry {A} (zero : A) (s : list A) (i c : nat) : A :=
  if (i + c <? length s)%nat then nth (i + c) s zero
  else nth (length s - 1 - (i + c - length s + 1)) s zero.
