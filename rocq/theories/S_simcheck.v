(** Vocabulary for the statements about the bit error counter of the example link. *)
From Verif Require Import Py B_list M_aux M_prbs S_prbs M_simcheck.
From Coq Require Import QArith.
Open Scope Z_scope.

(** A start value of the PRBS register other than all zeros. *)
Definition live_seed (t : prbs_type) (s : list Z) : Prop :=
  length s = prbs_value t /\ bits s /\ s <> repeat 0 (prbs_value t).
(** [ref] is the PRBS of type [t] started from [s], as long as [data]. *)
Definition prbs_from (t : prbs_type) (s ref : list Z) (n : nat) : Prop :=
  exists sd, prbs_generator (get_polynomial t) s (Z.of_nat n) = Ok (ref, sd).
(** Number of positions among the first [n] where two streams differ. *)
Definition differences (u v : list Z) (n : nat) : nat :=
  length (filter (fun i => negb (nth i u 0 =? nth i v 0)) (seq 0 n)).
(** A counter object that was built from settings with a live seed (whatever it has counted since). *)
Definition counts_for (t : prbs_type) (ck : checker) : Prop :=
  ck_type ck = t /\ exists s, live_seed t s /\ prbs_from t s (ck_vec ck) (2 ^ prbs_value t - 1).

(** Number of bits in all chunks, and the sum of (reported rate) x (chunk length) over the calls that returned. *)
Fixpoint total_bits (chunks : list (list Z)) : Z :=
  match chunks with [] => 0 | c :: l => Z.of_nat (length c) + total_bits l end.
Fixpoint weighted_rates (rs : list (res Q)) (chunks : list (list Z)) : Q :=
  match rs, chunks with
  | r :: rs', c :: l => Qplus (match r with Ok q => q * inject_Z (Z.of_nat (length c)) | Raise _ => 0 end)%Q (weighted_rates rs' l)
  | _, _ => 0%Q
  end.
