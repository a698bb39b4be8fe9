(** Specification vocabulary for the PRBS properties (independent of the model's loop). *)
From Verif Require Import Py.

(** Bit sent [j+1] positions before position [i] of the stream [out], the register contents [seed]
    standing for the bits before the start (seed[0] is the most recent one). *)
Definition history (seed out : list Z) (i j : nat) : Z :=
  if (j <? i)%nat then nth (i - 1 - j) out 0 else nth (j - i) seed 0.

(** [out] is generated by the linear recurrence with coefficients [poly] from [seed]. *)
Definition recurrence (poly seed out : list Z) : Prop :=
  forall i, (i < length out)%nat ->
    nth i out 0 = sumZ (map (fun j => nth j poly 0 * history seed out i j) (seq 0 (length poly))) mod 2.

(** The register (most recent bit first) after the stream [out] has been sent. *)
Definition register_after (seed out sd : list Z) : Prop :=
  length sd = length seed /\ forall j, (j < length seed)%nat -> nth j sd 0 = history seed out (length out) j.

(** Number of ones in a stream; NRZ (0 -> 1, 1 -> -1) correlation of a stream with its rotation. *)
Definition ones_count (l : list Z) : nat := count_occ Z.eq_dec l 1.
Definition nrz (b : Z) : Z := 1 - 2 * b.
Definition autocorr (l : list Z) (k : nat) : Z :=
  sumZ (map (fun i => nrz (nth i l 0) * nrz (nth ((i + k) mod length l) l 0)) (seq 0 (length l))).

(** The standard (ITU-T O.150 / IEEE 802.3) generator polynomials: bit [i] is the xor of the bits sent
    [tap] positions earlier, e.g. PRBS7 = x^7 + x^6 + 1. *)
From Verif Require Import M_aux.
Definition standard_taps (t : prbs_type) : list nat :=
  match t with
  | PRBS7 => [7; 6] | PRBS9 => [9; 5] | PRBS11 => [11; 9]
  | PRBS13 => [13; 12; 2; 1] | PRBS15 => [15; 14] | PRBS31 => [31; 28]
  end%nat.
Definition tap_recurrence (taps : list nat) (seed out : list Z) : Prop :=
  forall i, (i < length out)%nat ->
    nth i out 0 = sumZ (map (fun tap => history seed out i (tap - 1)) taps) mod 2.
