(** Specification of the bit-to-symbol conversion, written position by position. *)
From Verif Require Import Py M_symbol.

Definition flip (c : bool) (b : Z) : Z := if c then 1 - b else b.
(** The bit with weight 2^i of symbol [j]: left-most bit least significant unless the bit order is
    inverted; the most/least significant bit and the whole symbol are flipped by their flags.  The
    most/least significant flags do not apply to one-bit symbols. *)
Definition symbol_bit (k : nat) (f : flags) (bits : list Z) (j i : nat) : Z :=
  let pos := if bit_order_inv f then (k - 1 - i)%nat else i in
  let b := nth (j * k + pos) bits 0 in
  let b := flip ((inv_msb f) && (1 <? k)%nat && (i =? k - 1)%nat) b in
  let b := flip ((inv_lsb f) && (1 <? k)%nat && (i =? 0)%nat) b in
  flip (pn_inv f) b.
Definition symbol_value (k : nat) (f : flags) (bits : list Z) (j : nat) : Z :=
  fold_right Z.add 0 (map (fun i => 2 ^ Z.of_nat i * symbol_bit k f bits j i) (seq 0 k)).
