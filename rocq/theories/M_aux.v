(** Model of CommDspy/auxiliary.py (integer part), CommDspy/constants.py and the array guard in
    CommDspy/misc/help_functions.py. *)
From Verif Require Import Py.

(** CommDspy/constants.py:4-10 (PrbsEnum) *)
Inductive prbs_type := PRBS7 | PRBS9 | PRBS11 | PRBS13 | PRBS15 | PRBS31.
(** The enumeration value, CommDspy/constants.py:5-10 *)
Definition prbs_value (t : prbs_type) : nat :=
  match t with PRBS7 => 7 | PRBS9 => 9 | PRBS11 => 11 | PRBS13 => 13 | PRBS15 => 15 | PRBS31 => 31 end.
(** CommDspy/constants.py:12-17 (ConstellationEnum) *)
Inductive constellation := NRZ | OOK | PAM3 | PAM4.

(** Setting [a[[i,j,..]] = 1] on a zero vector of length [n] (auxiliary.py:11-23). *)
Definition ones_at (n : nat) (idx : list nat) : list Z :=
  map (fun i => if existsb (Nat.eqb i) idx then 1 else 0) (seq 0 n).
(** CommDspy/auxiliary.py:6-27.  The [else] branch (unknown type) is unreachable for PrbsEnum. *)
Definition get_polynomial (t : prbs_type) : list Z :=
  match t with
  | PRBS7  => ones_at 7 [5; 6]
  | PRBS9  => ones_at 9 [4; 8]
  | PRBS11 => ones_at 11 [8; 10]
  | PRBS13 => ones_at 13 [0; 1; 11; 12]
  | PRBS15 => ones_at 15 [13; 14]
  | PRBS31 => ones_at 31 [27; 30]
  end%nat.

(** CommDspy/auxiliary.py:29-49 with full_scale=False.  The full_scale=True division by the RMS is
    modelled over the reals in M_levels.v. *)
Definition get_levels (c : constellation) : list Z :=
  match c with
  | NRZ => [-1; 1]
  | OOK => [0; 1]
  | PAM3 => [-1; 0; 1]
  | PAM4 => [-3; -1; 1; 3]
  end.

(** [int(np.ceil(np.log2(level_num)))], auxiliary.py:56 (exact logarithm instead of double; equal for
    every level count below 2^48 or so). *)
Definition ceil_log2 (m : nat) : nat := Nat.log2_up m.
(** Loop body of get_gray_level_vec, auxiliary.py:58-60: reflect the rows and prefix a column of
    0s then 1s.  [lv] is the list of rows, most significant bit first. *)
Definition gray_reflect (lv : list (list Z)) (ii : nat) : list (list Z) :=
  let st := lv ++ rev lv in
  map2 (fun b r => b :: r) (repeat 0 (2 ^ ii) ++ repeat 1 (2 ^ ii)) st.
(** CommDspy/auxiliary.py:51-61.  Rows are dotted with [1 << ii] for ii = width-1 .. 0.
    [level_num = 0] makes numpy raise OverflowError on int(-inf); not modelled (theorems assume
    [level_num >= 1]). *)
Definition bits_weights (k : nat) : list Z := map (fun i => Z.shiftl 1 (Z.of_nat i)) (rev (seq 0 k)).
Definition get_gray_level_vec (m : nat) : list Z :=
  let lv := fold_left gray_reflect (seq 1 (ceil_log2 m - 1)) [[0]; [1]] in
  firstn m (map (fun r => dotZ r (bits_weights (length r))) lv).

(** [linalg.hankel(c, r)] : H[i,j] = c[i+j] if i+j < len(c), else r[i+j-len(c)+1]  (scipy). *)
Definition hankel {A} (d : A) (c r : list A) : list (list A) :=
  map (fun i => map (fun j => if (i + j <? length c)%nat then nth (i + j) c d
                              else nth (i + j - length c + 1) r d) (seq 0 (length r)))
      (seq 0 (length c)).

(** CommDspy/auxiliary.py:77-120.  Parameters are python ints ([Z]); [length > 0] is assumed by all
    theorems.  [signal[0]] (line 112, dtype lookup) raises IndexError on an empty signal.
    The [clip] test (line 117) is numpy's [row in matrix], i.e. "some entry of the matrix equals the
    entry of [row] in the same column". *)
Section Buffer.
  Context {A : Type} (zero : A) (eqb : A -> A -> bool).
  Definition np_zeros (n : Z) : list A := repeat zero (Z.to_nat n).
  Definition row_in (row : list A) (m : list (list A)) : bool :=
    existsb (fun r => existsb (fun p => eqb (fst p) (snd p)) (combine row r)) m.
  Definition buffer (signal : list A) (len overlap delay : Z) (clip : bool) : res (list (list A)) :=
    let full_len := delay + Z.of_nat (length signal) + len in
    let stride := len - overlap in
    let signal_full := (if 0 <? delay then np_zeros delay ++ signal ++ np_zeros len
                        else signal ++ np_zeros len) in
    let hankel_mat := hankel zero signal_full (slice_to (rev signal_full) len) in
    rows <- arange 0 full_len stride ;;
    match signal with
    | [] => Raise IndexError
    | _ =>
      matrix <- np_take hankel_mat rows ;;
      rem_rng <- arange (full_len - len - Z.max overlap 0) full_len 1 ;;
      let rows_to_remove :=
        length (filter (fun v => existsb (Z.eqb v) rows) rem_rng) in
      let matrix := if (0 <? rows_to_remove)%nat
                    then slice_to matrix (-1 * Z.of_nat rows_to_remove) else matrix in
      if clip then
        last_row <- np_get matrix (-1) ;;
        if row_in last_row (slice_to (hankel zero signal (slice_to (rev signal) len)) (-1))
        then Ok matrix else Ok (slice_to matrix (-1))
      else Ok matrix
    end.

  (** CommDspy/auxiliary.py:122-130.  [np.tile(zero_vec,[rate-1,1])] raises ValueError for rate < 1
      ([rate = 0] asks for -1 repetitions). *)
  Definition transpose_rows (rows : list (list A)) (n : nat) : list (list A) :=
    map (fun i => map (fun r => nth i r zero) rows) (seq 0 n).
  Definition upsample (signal : list A) (rate : Z) : res (list A) :=
    if rate <? 1 then Raise ValueError
    else let zero_mat := repeat (repeat zero (length signal)) (Z.to_nat (rate - 1)) in
         Ok (concat (transpose_rows (signal :: zero_mat) (length signal))).

  (** CommDspy/auxiliary.py:132-138 ([hold_idx < 0] raises ValueError in np.tile). *)
  Definition zoh (signal : list A) (hold : Z) : res (list A) :=
    if hold <? 0 then Raise ValueError
    else Ok (concat (map (fun x => repeat x (Z.to_nat hold)) signal)).
End Buffer.

(** [(x & (1 << j)) > 0] as 0/1 *)
Definition bit_test (x : Z) (j : nat) : Z :=
  if 0 <? Z.land x (Z.shiftl 1 (Z.of_nat j)) then 1 else 0.
(** One row: bits k-1 .. 0. *)
Definition bits_msb (k : nat) (x : Z) : list Z := map (bit_test x) (rev (seq 0 k)).
(** CommDspy/auxiliary.py:140-146 *)
Definition get_bin_perm (k : nat) : list (list Z) :=
  map (fun i => bits_msb k (Z.of_nat i)) (seq 0 (2 ^ k)).

(** CommDspy/auxiliary.py:148-158, one block against the codebook.  [hamming_row cb blk] is the
    column of the distance table that belongs to [blk]. *)
Definition hdistZ (u v : list Z) : Z := sumZ (map2 (fun a b => Z.abs (a - b)) u v).
Definition hamming_col (codebook : list (list Z)) (blk : list Z) : list Z :=
  map (fun c => hdistZ c blk) codebook.
(** Returns the table (one column per block) and the index of the first nearest codeword. *)
Definition hamming (blocks codebook : list (list Z)) : res (list (list Z) * list nat) :=
  let table := map (hamming_col codebook) blocks in
  idx <- map_res argmin table ;;
  Ok (table, idx).

(** CommDspy/auxiliary.py:160-162, on one row (last axis). *)
Definition bin2uint (row : list Z) : Z := dotZ row (bits_weights (length row)).
(** CommDspy/auxiliary.py:164-169, one entry (the squeeze is undone by the final reshape). *)
Definition uint2bin (k : nat) (x : Z) : list Z := bits_msb k x.

(** CommDspy/misc/help_functions.py:3-10.  [np.unique] is only used through its length and
    membership, so the order is irrelevant. *)
Definition memZ (x : Z) (l : list Z) : bool := existsb (Z.eqb x) l.
Definition np_unique (l : list Z) : list Z := nodup Z.eq_dec l.
Definition check_binary (pattern : list Z) : res unit :=
  let data_in := np_unique pattern in
  if (length data_in =? 1)%nat && (negb (memZ 0 data_in) && negb (memZ 1 data_in))
  then Raise ValueError
  else if (length data_in =? 2)%nat && (negb (memZ 0 data_in) && negb (memZ 1 data_in))
  then Raise ValueError
  else if (2 <? length data_in)%nat then Raise ValueError
  else Ok tt.
