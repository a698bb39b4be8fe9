(** Specification vocabulary for block codes. *)
From Verif Require Import Py B_list S_aux.
From Coq Require Import QArith.
Open Scope Z_scope.

(** Block [b] of length [n] of a bit stream, zero-padded. *)
Definition block (n b : nat) (x : list Z) : list Z := map (fun i => nth (b * n + i) x 0) (seq 0 n).
(** Codeword of the data word [u] for the k x n generator stored row-major in [G]: bit j is the parity of
    the data bits whose row has a one in column j. *)
Definition codeword (k n : nat) (G : list Z) (u : list Z) : list Z :=
  map (fun j => (sumZ (map (fun i => nth i u 0 * nth (i * n + j) G 0) (seq 0 k))) mod 2) (seq 0 n).
(** Bitwise exclusive or. *)
Definition xor_bits (u v : list Z) : list Z := map2 (fun a b => (a + b) mod 2) u v.
(** [w] is a data word of [k] bits whose codeword (by [enc]) is nearest to [r], and the numerically
    smallest such word. *)
Definition nearest_word (enc : list Z -> list Z) (k : nat) (r w : list Z) : Prop :=
  length w = k /\ bits w /\
  (forall u, length u = k -> bits u -> (hdist (enc w) r <= hdist (enc u) r)%nat) /\
  (forall u, length u = k -> bits u -> val_msb u < val_msb w -> (hdist (enc w) r < hdist (enc u) r)%nat).
(** Number of [k]-bit data words whose codeword is at distance [d] of [r] ([words k] lists all words). *)
Fixpoint words (k : nat) : list (list Z) :=
  match k with O => [[]] | S k' => map (cons 0) (words k') ++ map (cons 1) (words k') end.
Definition count_at (enc : list Z -> list Z) (k : nat) (r : list Z) (d : nat) : nat :=
  length (filter (fun u => (hdist (enc u) r =? d)%nat) (words k)).
(** The error probability reported for a block [r] decoded to [w]: 0 if the codeword was received exactly,
    otherwise one over the number of words whose codeword is as near. *)
Definition perr (enc : list Z -> list Z) (k : nat) (r w : list Z) : Q :=
  if (hdist (enc w) r =? 0)%nat then 0%Q else (1 # Pos.of_nat (count_at enc k r (hdist (enc w) r)))%Q.
