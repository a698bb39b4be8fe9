(** Vocabulary for the statements on the documented error checking script: what the receiver gets and what it should report. *)
From Coq Require Import ZArith Reals.
From Flocq Require Import Core BinarySingleNaN.
From Verif Require Import Py M_aux M_prbs M_symbol M_f64 S_f64 M_genie.
Import List.
Open Scope Z_scope.

(** k bits select one of the levels of the constellation. *)
Definition bits_select (k : nat) (c : constellation) : Prop := Z.of_nat (length (get_levels c)) = 2 ^ Z.of_nat k.
(** A seed of the generator. *)
Definition prbs_seed (t : prbs_type) (seed : list Z) : Prop :=
  length seed = prbs_value t /\ Forall (fun b => b = 0 \/ b = 1) seed /\ seed <> repeat 0 (prbs_value t).
(** The sample [r] is nearer to the sent level [x] than to every other level, by more than the rounding of the slicer. *)
Definition nearest_sent (lv : list f64) (x r : f64) : Prop :=
  fine r /\ forall l, In l lv -> l <> x -> ((1 + two (-52)) * distance r x < distance r l)%R.
(** The sample is within half the level distance of the sent level, with a margin for rounding. *)
Definition within_half (lv : list f64) (x r : f64) : Prop :=
  is_finite r = true /\ (Rabs (val r - val x) <= (1 - two (-50)) * ((val (level lv 1) - val (level lv 0)) / 2))%R.
(** symbol2bin handles a single symbol only without rearrangement of its bits. *)
Definition convertible (k n : nat) (f : flags) : Prop :=
  k = 1%nat \/ n <> 1%nat \/ (inv_msb f = false /\ inv_lsb f = false /\ bit_order_inv f = false).
(** The positions in which two bit sequences differ. *)
Definition wrong_at (sent got : list Z) : list bool := map (fun i => negb (nth i got 0 =? nth i sent 0)) (seq 0 (length sent)).
(** Level numbers of the constellation, and the levels they stand for. *)
Definition in_range (c : constellation) (l : list Z) : Prop := Forall (fun i => 0 <= i < Z.of_nat (length (get_levels c))) l.
Definition levels_of (lv : list f64) (q : list Z) : list f64 := map (fun i => level lv (Z.to_nat i)) q.
(** The binary-reflected Gray code of a number. *)
Definition reflected (i : Z) : Z := Z.lxor i (i / 2).
(** Root mean square of the levels. *)
Definition rms (lv : list Z) : R := sqrt (fold_right Rplus 0%R (map (fun z => IZR z * IZR z)%R lv) / INR (length lv)).
(** No rearrangement of the bits of a symbol. *)
Definition noflags := mk_flags false false false false.
