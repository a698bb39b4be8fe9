(** Model of CommDspy/rx/slicer.py and CommDspy/rx/quantiztion.py. *)
From Verif Require Import Py PyQ.
From Coq Require Import String.
Import List.
Open Scope Z_scope.

(** The first argument is a numpy array, or a (rectangular, possibly nested) python list / scalar, which has
    no [shape] attribute. *)
Inductive array_like := Arr (a : nda Qc) | Plain (a : nda Qc).
Definition contents (s : array_like) : nda Qc := match s with Arr a => a | Plain a => a end.

(** CommDspy/rx/slicer.py:12-23: the pair (y, x).  Unpacking a shape of length other than 2 raises ValueError,
    then [shape[0]] is read; a 0-d array has none.  For an object without [shape] the fallback on line 19 reads
    [slicer_in_mat.shape] again and raises AttributeError. *)
Definition slicer_dims (s : array_like) : res (nat * nat) :=
  match shape (contents s) with
  | [y; x] => Ok (y, x)
  | sh => match s with
          | Plain _ => Raise AttributeError
          | Arr _ => match sh with [] => Raise IndexError | x :: _ => Ok (0%nat, x) end
          end
  end.
(** Line 30 and 34 for one sample: index of the nearest level. *)
Definition slice_index (levels : list Qc) (x : Qc) : res nat :=
  argminQ (map (fun l => Qcabs (x - l)%Qc) levels).
(** CommDspy/rx/slicer.py:3-37.  [np.argmin(axis=1)] raises ValueError when there are no levels, also for an
    empty signal.  [levels] must be a numpy array (or None): indexing a list with an array is not modelled. *)
Definition slicer (s : array_like) (levels : option (list Qc)) : res (nda Qc) :=
  d <- slicer_dims s ;;
  let '(y, x) := d in
  let levels := match levels with None => map ofZ [-3; -1; 1; 3] | Some l => l end in
  if (length levels =? 0)%nat then Raise ValueError else
  points <- map_res (slice_index levels) (data (contents s)) ;;
  points <- (if (0 <? y)%nat then reshape points [y; x] else Ok (vec points)) ;;
  out <- np_take levels (map Z.of_nat (data points)) ;;
  Ok (mk_nda (shape points) out).

(** CommDspy/rx/quantiztion.py:35-44: the integer levels, for an integer [total_bits >= 0].  With total_bits = 0,
    2**(total_bits-1) is the float 0.5: the in-place subtraction on line 40 raises TypeError and on line 42
    there is nothing to subtract from. *)
Definition quant_ints (total_bits : nat) (ty : string) : res (list Z) :=
  levels <- arange 0 (2 ^ Z.of_nat total_bits) 1 ;;
  if (ty =? "s")%string then
    if (total_bits =? 0)%nat then Raise TypeError
    else Ok (map (fun l => l - 2 ^ (Z.of_nat total_bits - 1)) levels)
  else if (ty =? "ss")%string then Ok (map (fun l => l - 2 ^ (Z.of_nat total_bits - 1)) (tl levels))
  else if negb (ty =? "u")%string then Raise ValueError
  else Ok levels.
(** CommDspy/rx/quantiztion.py:35-47: the level vector. *)
Definition quant_levels (total_bits : nat) (frac_bits : Z) (ty : string) : res (list Qc) :=
  levels <- quant_ints total_bits ty ;;
  Ok (if 0 <? frac_bits then map (fun l => (ofZ l / ofZ (2 ^ frac_bits))%Qc) levels else map ofZ levels).
(** CommDspy/rx/quantiztion.py:4-51. *)
Definition quantize (s : array_like) (total_bits : nat) (frac_bits : Z) (ty : string) : res (nda Qc) :=
  levels <- quant_levels total_bits frac_bits ty ;;
  slicer s (Some levels).
(** Line 4: the default arguments. *)
Definition quantize_default (s : array_like) (total_bits : nat) : res (nda Qc) := quantize s total_bits 0 "unsigned"%string.
