(** Specifications for the recursive filters and the decision feedback equaliser. *)
From Verif Require Import Py PyQ S_rx.
Open Scope Z_scope.

(** Sample [k] of a signal preceded by a memory (most recent sample first) and by zeros before that. *)
Definition at_time (mem l : list Qc) (k : Z) : Qc :=
  if k <? 0 then nth (Z.to_nat (- k - 1)) mem 0%Qc else nth (Z.to_nat k) l 0%Qc.
(** Sum over the taps [i >= first] of [c_i * l(n - i)]. *)
Definition tap_sum (c mem l : list Qc) (first n : nat) : Qc :=
  sumQ (map (fun i => nth i c 0 * at_time mem l (Z.of_nat n - Z.of_nat i))%Qc (seq first (length c - first))).
(** a[0] y[n] = sum_i b[i] x[n-i] - sum_(j>=1) a[j] v[n-j] + drive[n]; [v] is the fed back signal ([y] itself for a
    linear filter), [drive] the contribution of an initial state. *)
Definition difference_equation (b a mx mv drive x v y : list Qc) : Prop :=
  length y = length x /\ forall n, (n < length x)%nat ->
    (nth 0 a 0 * nth n y 0 = tap_sum b mx x 0 n - tap_sum a mv v 1 n + nth n drive 0)%Qc.
(** The last [m] entries of a list. *)
Definition lastn {A} (m : nat) (l : list A) : list A := skipn (length l - m) l.
(** Decisions: the nearest level for every sample. *)
Definition decisions (levels sin sout : list Qc) : Prop :=
  length sout = length sin /\ forall n, (n < length sin)%nat -> nearest_level levels (nth n sin 0%Qc) (nth n sout 0%Qc).
(** Sampling instants (= phase modulo osr) whose decision, available osr//2 samples later, is known before sample
    [n]; most recent first. *)
Definition sampling_instants (osr phase : Z) (n : nat) : list nat :=
  rev (filter (fun s => Z.of_nat s mod osr =? phase mod osr) (seq 0 (n - Z.to_nat (osr / 2)))).
Definition dfe_contents (osr phase : Z) (mem sout : list Qc) (n : nat) : list Qc :=
  map (fun s => nth s sout 0%Qc) (sampling_instants osr phase n) ++ mem.
(** slicer_in[n] = sum ffe[i] x[n-i] - sum dfe[j] d[j], d the most recent decisions at sampling instants. *)
Definition equaliser_equation (ffe dfe mx md levels : list Qc) (osr phase : Z) (x sin sout : list Qc) : Prop :=
  length sin = length x /\ decisions levels sin sout /\ forall n, (n < length x)%nat ->
    nth n sin 0%Qc = (tap_sum ffe mx x 0 n - sumQ (map (fun j => nth j dfe 0 * nth j (dfe_contents osr phase md sout n) 0) (seq 0 (length dfe))))%Qc.
(** [z] is [y] rounded towards zero to an integer. *)
Definition toward_zero (y : Qc) (z : Z) : Prop :=
  ((ofZ 0 <= y /\ ofZ z <= y /\ y < ofZ (z + 1)) \/ (y < ofZ 0 /\ y <= ofZ z /\ ofZ (z - 1) < y))%Qc.
(** The same list with every number rounded towards zero. *)
Definition truncated (l l' : list Qc) : Prop := exists zs, l' = map ofZ zs /\ Forall2 toward_zero l zs.
