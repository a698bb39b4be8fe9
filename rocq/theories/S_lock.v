(** Specifications for pattern locking and PRBS checking. *)
From Verif Require Import Py PyQ M_aux M_prbs S_prbs.
Open Scope Z_scope.

(** Cyclic rotation of a pattern by [s]. *)
Definition rotated {A} (d : A) (s : nat) (p : list A) : list A :=
  map (fun i => nth ((s + i) mod length p) p d) (seq 0 (length p)).
(** Correlation of the first [m] symbols of rotation [s] with the signal: antipodal for bits, plain for samples. *)
Definition corr_bits (p sig : list Z) (m s : nat) : Z :=
  sumZ (map (fun i => (2 * nth ((s + i) mod length p) p 0 - 1) * (2 * nth i sig 0 - 1)) (seq 0 m)).
Definition corr_samples (p sig : list Qc) (m s : nat) : Qc :=
  sumQ (map (fun i => nth ((s + i) mod length p) p 0%Qc * nth i sig 0%Qc)%Qc (seq 0 m)).
(** Errors injected into a bit stream, and where two streams differ. *)
Definition flipped (clean : list Z) (err : list bool) : list Z := map2 (fun b e => if e : bool then 1 - b else b) clean err.
Definition n_errors (err : list bool) : nat := count_occ Bool.bool_dec err true.
(** [e] marks where the data from position [j] on differ from the PRBS continuation of their own first n bits. *)
Definition prediction_errors (t : prbs_type) (data : list Z) (j : nat) (e : list bool) : Prop :=
  exists ref, length ref = (length data - j)%nat /\ length e = (length data - j)%nat /\
    firstn (prbs_value t) ref = firstn (prbs_value t) (skipn j data) /\
    recurrence (get_polynomial t) (rev (firstn (prbs_value t) ref)) (skipn (prbs_value t) ref) /\
    forall i, (i < length e)%nat -> nth i e false = negb (nth (j + i) data 0 =? nth i ref 0).
