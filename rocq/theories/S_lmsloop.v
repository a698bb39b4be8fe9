(** Vocabulary for C90: what adaptation should do, in terms of the mean squared error of the taps. *)
From Verif Require Import Py PyQ S_lms.
Open Scope Z_scope.

(** Mean squared error of feed forward taps [b] (indices 0, 1, ...) on the samples [y] against [r]. *)
Definition ffe_error (y r b : list Qc) : Qc := squared_error (instants (length r)) (taps_output (instants (length b)) b y) r.
(** The same for feedback taps [a] (indices 1, 2, ...) which are fed with [r]. *)
Definition dfe_error (y r a : list Qc) : Qc := squared_error (instants (length r)) (fun m => (signal y m - taps_output (map Z.succ (instants (length a))) a r m)%Qc) r.
Definition total_power (l : list Qc) : Qc := sumQ (map (fun v => v * v)%Qc l).
(** Squared distance of taps. *)
Definition apart (b w : list Qc) : Qc := sumQ (map2 (fun u v => (u - v) * (u - v))%Qc b w).
(** Taps after [N] passes, if every pass is [step]. *)
Inductive adapted (pass : list Qc -> res (option (Qc * list Qc))) : nat -> list Qc -> list Qc -> Prop :=
| adapted_0 b : adapted pass 0 b b
| adapted_S N b c d l : adapted pass N b c -> pass c = Ok (Some (l, d)) -> adapted pass (S N) b d.
(** Different levels are at least [d] apart, and all of [r] are levels. *)
Definition spaced (levels r : list Qc) (d : Qc) : Prop := (forall u v, In u levels -> In v levels -> u <> v -> (d <= Qcabs (u - v))%Qc) /\ Forall (fun v => In v levels) r.
(** [N] passes give one result, with no larger error than at the start, and for all taps [w] of the same number the error above that of [w] is at most
    twice the squared distance at the start over [N] times the step size. *)
Definition descends (pass : list Qc -> res (option (Qc * list Qc))) (error : list Qc -> Qc) (lr : Qc) (N : nat) (b : list Qc) : Prop :=
  exists c, adapted pass N b c /\ (forall c', adapted pass N b c' -> c' = c) /\ length c = length b /\ (error c <= error b)%Qc /\
    forall w, length w = length b -> (ofZ (Z.of_nat N) * lr * (error c - error w) <= ofZ 2 * apart b w)%Qc.
(** The stopping rule for the losses [l 0] (before the first pass), [l 1], ...: the last one is at most the floor or differs from the one before by less than the tolerance. *)
Definition halts (floor tol : Qc) (l : nat -> Qc) (M : nat) : Prop := (l M <= floor)%Qc \/ exists k, M = S k /\ (Qcabs (l (S k) - l k) < tol)%Qc.
