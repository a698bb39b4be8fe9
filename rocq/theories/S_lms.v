(** Vocabulary for C45-C47: taps, squared error and its exact derivative, inter-symbol interference. *)
From Verif Require Import Py PyQ.
Open Scope Z_scope.

(** The value of a finite signal at time [k], zero outside its support. *)
Definition signal (l : list Qc) (k : Z) : Qc := if (0 <=? k) && (k <? Z.of_nat (length l)) then nth (Z.to_nat k) l 0%Qc else 0%Qc.
(** The instants [0 <= m < n] at which the tap of index [i] has data: [0 <= m - i < n]. *)
Definition overlap (n : nat) (i : Z) : list Z := filter (fun m => (0 <=? m - i) && (m - i <? Z.of_nat n)) (map Z.of_nat (seq 0 n)).
Definition instants (n : nat) : list Z := map Z.of_nat (seq 0 n).
(** The output of a set of taps at time [m]: sum of coefficient times delayed signal. *)
Definition taps_output (idx : list Z) (coef : list Qc) (y : list Qc) (m : Z) : Qc :=
  sumQ (map2 (fun i c => c * signal y (m - i))%Qc idx coef).
(** The equaliser of the docstring: FFE part minus DFE part. *)
Definition equalised (fi : list Z) (b : list Qc) (di : list Z) (a : list Qc) (y ref : list Qc) (m : Z) : Qc :=
  (taps_output fi b y m - taps_output di a ref m)%Qc.
(** Coefficient vector with [d] added to entry [p]. *)
Fixpoint bump (p : nat) (d : Qc) (c : list Qc) : list Qc :=
  match c, p with [], _ => [] | v :: c, O => (v + d)%Qc :: c | v :: c, S p => v :: bump p d c end.
(** Mean over the instants [M] of the squared difference between [f] and the reference. *)
Definition squared_error (M : list Z) (f : Z -> Qc) (ref : list Qc) : Qc :=
  meanQ (map (fun m => (f m - signal ref m) * (f m - signal ref m))%Qc M).
(** [g] is the derivative at zero of the quadratic function [f]. *)
Definition derivative_at_zero (f : Qc -> Qc) (g : Qc) : Prop := exists c, forall d, f d = (f 0 + g * d + c * (d * d))%Qc.

(** First precursor and first postcursor estimates. *)
Definition precursor (s r : list Qc) : Qc := (sumQ (map (fun n => signal r (n + 1) * signal s n)%Qc (instants (length r - 1))) / ofZ (Z.of_nat (length r) - 1))%Qc.
Definition postcursor (s r : list Qc) : Qc := (sumQ (map (fun n => signal r n * signal s (n + 1))%Qc (instants (length r - 1))) / ofZ (Z.of_nat (length r) - 1))%Qc.
(** Symbols [r] sent through a channel with main cursor [h0], first postcursor [h1], first precursor [hm]. *)
Definition isi_signal (h0 h1 hm : Qc) (r : list Qc) : list Qc :=
  map (fun n => h0 * signal r n + h1 * signal r (n - 1) + hm * signal r (n + 1))%Qc (instants (length r)).
Definition energy (r : list Qc) : Qc := sumQ (map (fun n => signal r n * signal r n)%Qc (instants (length r - 1))).
Definition lag_two (r : list Qc) : Qc := sumQ (map (fun n => signal r n * signal r (n + 2))%Qc (instants (length r - 1))).
(** [g] reports a quarter of the derivative of the squared error of the family of outputs [F], in the tap of index
    [i]: over the instants where the tap has data, and (rescaled) over all instants.  [None] (nan) if there are none. *)
Definition is_gradient (n : nat) (i : Z) (F : Qc -> Z -> Qc) (ref : list Qc) (g : option Qc) : Prop :=
  match overlap n i with
  | [] => g = None
  | M => exists v, g = Some v /\
      derivative_at_zero (fun d => squared_error M (F d) ref) (ofZ 4 * v)%Qc /\
      derivative_at_zero (fun d => squared_error (instants n) (F d) ref) (ofZ 4 * v * ofZ (Z.of_nat (length M)) / ofZ (Z.of_nat n))%Qc
  end.
