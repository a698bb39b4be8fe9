(** Specifications for the slicer and the quantiser. *)
From Verif Require Import Py PyQ.
From Coq Require Import Qround.
Open Scope Z_scope.

(** [v] is the level nearest to [x]; of equally near ones the level listed first. *)
Definition nearest_level (levels : list Qc) (x v : Qc) : Prop :=
  exists k, (k < length levels)%nat /\ nth k levels 0%Qc = v /\
    (forall l, In l levels -> (Qcabs (x - v) <= Qcabs (x - l))%Qc) /\
    (forall j, (j < k)%nat -> (Qcabs (x - v) < Qcabs (x - nth j levels 0))%Qc).

(** Range of a fixed point format in units of the least significant bit. *)
Definition q_low (tb : nat) (signed symmetric : bool) : Z :=
  if signed then (if symmetric then 1 - 2 ^ (Z.of_nat tb - 1) else - 2 ^ (Z.of_nat tb - 1)) else 0.
Definition q_high (tb : nat) (signed : bool) : Z := if signed then 2 ^ (Z.of_nat tb - 1) - 1 else 2 ^ Z.of_nat tb - 1.
(** Nearest integer, ties downwards, saturated to [lo, hi]. *)
Definition saturate (lo hi k : Z) : Z := Z.max lo (Z.min hi k).
Definition round_down_ties (x : Qc) : Z := Qceiling (this x - (1 # 2)).
