(** Specification of C76: the equaliser equation in real numbers, for signals, taps, memories and decisions that are doubles. *)
From Coq Require Import ZArith Reals.
From Flocq Require Import Core BinarySingleNaN.
From Verif Require Import Py M_f64 S_f64 S_filter.
Import List.
Open Scope R_scope.

Definition total (l : list R) : R := fold_right Rplus 0 l.
(** Sample [k] of a signal preceded by a memory (most recent sample first) and by zeros before that. *)
Definition sample (mem x : list f64) (k : Z) : R :=
  if (k <? 0)%Z then val (level mem (Z.to_nat (- k - 1))) else val (level x (Z.to_nat k)).
(** The terms ffe[i] * x[n - i] of the FFE. *)
Definition cursors (ffe mx x : list f64) (n : nat) : list R :=
  map (fun i => val (level ffe i) * sample mx x (Z.of_nat n - Z.of_nat i)) (seq 0 (length ffe)).
(** The decisions in the DFE memory before sample n, most recent first, when the decisions are [sout]. *)
Definition fed_back (osr phase : Z) (md sout : list f64) (n : nat) : list f64 :=
  map (level sout) (sampling_instants osr phase n) ++ md.
(** The terms dfe[j] * decision[j] of the DFE. *)
Definition echoes (dfe : list f64) (osr phase : Z) (md sout : list f64) (n : nat) : list R :=
  map (fun j => val (level dfe j) * val (level (fed_back osr phase md sout n) j)) (seq 0 (length dfe)).
(** The exact slicer input, and the sum of the magnitudes of its terms. *)
Definition exact_input (ffe dfe mx md : list f64) (osr phase : Z) (x sout : list f64) (n : nat) : R :=
  total (cursors ffe mx x n) - total (echoes dfe osr phase md sout n).
Definition weight (ffe dfe mx md : list f64) (osr phase : Z) (x sout : list f64) (n : nat) : R :=
  total (map Rabs (cursors ffe mx x n)) + total (map Rabs (echoes dfe osr phase md sout n)).
(** How far rounding can move a sum of [taps] products of total magnitude [w]. *)
Definition rounding (taps : nat) (w : R) : R := INR (taps + 1) * two (-52) * w + INR taps * two (-1072).
(** Level [i] is nearest to [r] by a margin that errors up to [e] cannot reverse. *)
Definition clear (levels : list f64) (r e : R) (i : nat) : Prop :=
  (i < length levels)%nat /\
  forall j, (j < length levels)%nat -> j <> i ->
    (1 + two (-52)) * (Rabs (r - val (level levels i)) + e) + e < Rabs (r - val (level levels j)).
Definition finite (x : f64) : Prop := is_finite x = true.
