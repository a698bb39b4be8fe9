(** Model of CommDspy/tx/bin2symbol.py, CommDspy/rx/symbol2bin.py, CommDspy/tx/mapping.py and
    CommDspy/rx/demapping.py. *)
From Verif Require Import Py M_aux.
From Coq Require Import QArith Qround.
Open Scope Z_scope.

(** The four flags shared by bin2symbol and symbol2bin. *)
Record flags := mk_flags { bit_order_inv : bool; inv_msb : bool; inv_lsb : bool; pn_inv : bool }.

(** [int(np.log2(n))] for n >= 1 (exact logarithm; np.log2 is exact on powers of two).  Symbol counts
    n <= 0 are not modelled. *)
Definition log2_floor (n : Z) : nat := Z.to_nat (Z.log2 n).
(** [np.isclose(np.log2(n), int(np.log2(n)))], tx/bin2symbol.py:29, with numpy's default tolerances
    rtol = 1e-5 and atol = 1e-8: log2(n) - k <= 1e-8 + 1e-5 k with k = int(log2 n), multiplied by 1e8
    and exponentiated (exact reals instead of doubles).  The first test is only a shortcut. *)
Definition isclose_log2 (n : Z) : bool :=
  let k := Z.log2 n in
  if n =? 2 ^ k then true
  else n ^ 100000000 <=? 2 ^ (100000000 * k + 1 + 1000 * k).
(** [int(len(bin_vec) % np.log2(n))], tx/bin2symbol.py:25: the remainder of a float modulus.  For
    n = 2^k it is [len mod k]; otherwise it is floor(len - q log2 n) with q the largest integer such that
    n^q <= 2^len. *)
Definition float_trim (len : nat) (n : Z) : nat :=
  if n =? 2 ^ Z.log2 n then len mod Z.to_nat (Z.log2 n)
  else let q := length (filter (fun q => n ^ Z.of_nat q <=? 2 ^ Z.of_nat len) (seq 1 len)) in
       (len - Z.to_nat (Z.log2_up (n ^ Z.of_nat q)))%nat.

(** [row[-1] = 1 - row[-1]] and [row[0] = 1 - row[0]] on one row. *)
Definition inv_last (row : list Z) : list Z :=
  match row with [] => [] | _ => removelast row ++ [1 - last row 0] end.
Definition inv_first (row : list Z) : list Z :=
  match row with [] => [] | b :: r => (1 - b) :: r end.
Definition inv_all (row : list Z) : list Z := map (fun b => 1 - b) row.
Definition when (b : bool) (f : list Z -> list Z) (x : list Z) : list Z := if b then f x else x.

(** CommDspy/tx/bin2symbol.py:36-44 on one row. *)
Definition enc_row (f : flags) (row : list Z) : Z :=
  let r := when (bit_order_inv f) (@rev Z) row in
  let r := when (inv_msb f) inv_last r in
  let r := when (inv_lsb f) inv_first r in
  let r := when (pn_inv f) inv_all r in
  dotZ r (map (fun i => 2 ^ Z.of_nat i) (seq 0 (length r))).

(** CommDspy/tx/bin2symbol.py:4-49 (input already flattened, line 23; ints, so astype is the identity).
    n = 1 makes line 25 compute int(nan), a ValueError. *)
Definition bin2symbol (bin_vec : list Z) (n : Z) (f : flags) : res (list Z) :=
  if n <=? 1 then Raise ValueError
  else if (2 <? n) && isclose_log2 n then
    let trim := float_trim (length bin_vec) n in
    let trimmed := if (0 <? trim)%nat then slice_to bin_vec (-1 * Z.of_nat trim) else bin_vec in
    rows <- reshape_rows (log2_floor n) trimmed ;;
    Ok (map (enc_row f) rows)
  else if n =? 2 then Ok (when (pn_inv f) inv_all bin_vec)
  else Raise ValueError.

(** CommDspy/rx/symbol2bin.py:3-41 (line numbers of the file; input already flattened).  [np.squeeze]
    (line 28) turns the 1 x k matrix of a single symbol into a 1-D array, on which [a[:, -1]] raises
    IndexError and [np.fliplr] raises ValueError. *)
Definition symbol2bin (symbols : list Z) (n : Z) (f : flags) : res (list Z) :=
  let k := log2_floor n in
  let rows := map (fun s => map (bit_test s) (seq 0 k)) symbols in
  let one_d := (length symbols =? 1)%nat in
  let rows := if pn_inv f then map inv_all rows else rows in
  if (1 <? k)%nat then
    rows <- (if inv_msb f then if one_d then Raise IndexError else Ok (map inv_last rows) else Ok rows) ;;
    rows <- (if inv_lsb f then if one_d then Raise IndexError else Ok (map inv_first rows) else Ok rows) ;;
    rows <- (if bit_order_inv f then if one_d then Raise ValueError else Ok (map (@rev Z) rows) else Ok rows) ;;
    Ok (concat rows)
  else Ok (concat rows).

(** CommDspy/tx/mapping.py:3-28 over an arbitrary type of level values.  [neg] is multiplication by -1,
    [default] is get_levels(constellation, full_scale); custom levels are assumed to be a numpy array.
    The result has the shape of the index array. *)
Definition mapping {A} (neg : A -> A) (default : list A) (levels : option (list A)) (pn : bool)
    (signal : nda Z) : res (nda A) :=
  lv <- match levels with
        | None => Ok default
        | Some l => if (length l =? length default)%nat then Ok l else Raise ValueError
        end ;;
  let lv := if pn then map neg lv else lv in
  d <- np_take lv (data signal) ;;
  Ok (mk_nda (shape signal) d).

(** [np.round] followed by [astype(int)] on an exact rational: nearest integer, ties to even. *)
Definition round_half_even (q : Q) : Z :=
  let f := Qfloor q in
  let r := 2 * (Qnum q - f * Zpos (Qden q)) in
  match r ?= Zpos (Qden q) with
  | Lt => f
  | Gt => f + 1
  | Eq => if Z.even f then f else f + 1
  end.

(** CommDspy/rx/demapping.py:4-34: the result, and the content of the caller's array after the call
    ([signal *= -1] in line 27 works in place).  [to_idx] is the expression of line 31 (before indexing)
    for the sample type at hand and [nlev] the number of levels. *)
Definition demapping_with {A} (neg : A -> A) (to_idx : A -> Z) (nlev : nat) (pn : bool) (signal : nda A)
    : res (nda Z) * nda A :=
  let signal := if pn then mk_nda (shape signal) (map neg (data signal)) else signal in
  let idx := map to_idx (data signal) in
  (d <- np_take (map Z.of_nat (seq 0 nlev)) idx ;; reshape d (shape signal), signal).
(** CommDspy/rx/demapping.py:31 with full_scale=False and exact rational samples:
    round((x - min(levels)) / (levels[1] - levels[0])). *)
Definition demap_idx (lv : list Z) (x : Q) : Z :=
  let mn := fold_right Z.min (hd 0 lv) lv in
  let step := nth 1 lv 0 - nth 0 lv 0 in
  round_half_even (Qdiv (Qminus x (inject_Z mn)) (inject_Z step)).
(** CommDspy/rx/demapping.py:4-34 with full_scale=False on exact rational samples. *)
Definition demapping (c : constellation) (pn : bool) (signal : nda Q) : res (nda Z) * nda Q :=
  demapping_with Qopp (demap_idx (get_levels c)) (length (get_levels c)) pn signal.
