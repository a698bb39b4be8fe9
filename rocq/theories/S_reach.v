(** Vocabulary for the statements on how far wrong line symbols and wrong decisions reach.  The number of positions in
    which two sequences differ is [hdist] (S_aux.v), the b-th block of n symbols is [block n b] (S_linear.v). *)
From Verif Require Import Py PyQ S_aux S_linear M_filter.
Open Scope Z_scope.

(** The rotation of the received symbol against the sent one, zero before the beginning. *)
Definition slip (m : Z) (y r : list Z) (i : nat) : Z := (nth i r 0 - nth i y 0) mod m.
Definition slip_before (m : Z) (y r : list Z) (i : nat) : Z := if (i =? 0)%nat then 0 else slip m y r (i - 1).
(** Every received symbol is the sent one or a neighbour of it. *)
Definition neighbours (y r : list Z) : Prop := length r = length y /\ forall i, Z.abs (nth i r 0 - nth i y 0) <= 1.
(** The number of wrong bits in the i-th cell of two line bits. *)
Definition hits (y r : list Z) (i : nat) : nat := hdist (block 2 i y) (block 2 i r).
(** The slicer input that a call of ffe_dfe hands out. *)
Definition slicer_input (o : res ffe_dfe_result) (s : list Qc) : Prop :=
  match o with
  | Ok (OutSignal v) | Ok (OutFfe v _) | Ok (OutDfe v _) | Ok (OutBoth v _ _) => v = s
  | Raise _ => False
  end.
(** Two signals that are the same from sample [p] on. *)
Definition same_from (p : nat) (x x' : list Qc) : Prop := length x' = length x /\ forall n, (p <= n)%nat -> nth n x' 0%Qc = nth n x 0%Qc.
(** Sequences of the three symbols 0, 1, 2. *)
Definition ternary (r : list Z) : Prop := Forall (fun v => v = 0 \/ v = 1 \/ v = 2) r.
(** The sequence c, -c, c, -c, ... of [n] values. *)
Definition alternating (c : Qc) (n : nat) : list Qc := map (fun i => if Nat.even i then c else (- c)%Qc) (seq 0 n).
