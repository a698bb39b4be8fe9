(** Vocabulary for C91: what it takes to learn taps. *)
From Verif Require Import Py PyQ S_lms S_lmsloop.
Open Scope Z_scope.

(** The samples [y] excite [K] taps with strength [lam]: filtered by any taps, their mean power is at least [lam] times the squared length of the taps. *)
Definition excites (y : list Qc) (idx : list Z) (lam : Qc) : Prop :=
  forall v, length v = length idx -> (lam * total_power v <= meanQ (map (fun m => (taps_output idx v y m * taps_output idx v y m)%Qc) (instants (length y))))%Qc.
(** [y] filtered by [b] is [r]. *)
Definition equalises (b y r : list Qc) : Prop := forall m, In m (instants (length r)) -> taps_output (instants (length b)) b y m = signal r m.
(** [y] is [r] with the postcursors [h]. *)
Definition postcursors (h r y : list Qc) : Prop := forall m, In m (instants (length r)) -> signal y m = (signal r m + taps_output (map Z.succ (instants (length h))) h r m)%Qc.
