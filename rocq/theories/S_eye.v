(** Vocabulary for C56: counting, amplitude intervals and sampling phases. *)
From Coq Require Import Reals.
From Verif Require Import Py M_delay.
Open Scope R_scope.

(** Exactly [n] members of the list satisfy [P]. *)
Inductive counts {A} (P : A -> Prop) : list A -> nat -> Prop :=
| counts_nil : counts P [] 0
| counts_in a l n : P a -> counts P l n -> counts P (a :: l) (S n)
| counts_out a l n : ~ P a -> counts P l n -> counts P (a :: l) n.
(** Edge [k] of [q] equal intervals of [-fs, fs]; interval [k] is closed on the left and open on the right, the last one
    is closed on both sides. *)
Definition edge (fs : R) (q k : nat) : R := - fs + 2 * fs * (INR k / INR q).
Definition in_interval (fs : R) (q k : nat) (x : option R) : Prop :=
  exists v, x = Some v /\ edge fs q k <= v /\ (v < edge fs q (S k) \/ (S k = q /\ v = fs)).
Definition in_range (fs : R) (x : option R) : Prop := exists v, x = Some v /\ - fs <= v <= fs.
(** Positions of a signal of length [n] at phase [c] of a period of [osr] samples. *)
Definition at_phase (n osr c : nat) : list nat := filter (fun i => i mod osr =? c)%nat (seq 0 n).
Definition entry (m : list (list R)) (k c : nat) : R := nth c (nth k m []) 0.
Definition column_sum (m : list (list R)) (c : nat) : R := fold_right Rplus 0 (map (fun row => nth c row 0) m).
(** The sinc interpolation of the samples x, t/u sample periods after sample [order/2 + r]. *)
Definition sinc_interpolation (x : list R) (order u t r : nat) : R :=
  fold_right Rplus 0 (map (fun i => sinc (INR i - INR (order / 2) - INR t / INR u) * nth (r + i) x 0) (seq 0 (S order))).
