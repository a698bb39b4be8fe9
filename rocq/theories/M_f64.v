(** Model of CommDspy/rx/slicer.py, the quantizer built on it (rx/quantiztion.py) and CommDspy/rx/demapping.py in IEEE-754
    double precision: finite doubles, infinities and nan with every operation rounded to nearest even.  The doubles are those
    of the Flocq library.  Shapes and refusals are modelled in M_slicer.v and M_symbol.v; here signals are vectors. *)
From Coq Require Import ZArith Reals String.
From Flocq Require Import Core BinarySingleNaN.
From Verif Require Import Py M_aux M_symbol M_slicer.
Import List.
Open Scope Z_scope.

Definition f64 : Type := binary_float 53 1024.
#[export] Instance prec64 : Prec_gt_0 53 := eq_refl.
#[export] Instance emax64 : Prec_lt_emax 53 1024 := eq_refl.
Definition sub64 (x y : f64) : f64 := Bminus mode_NE x y.
Definition div64 (x y : f64) : f64 := Bdiv mode_NE x y.
Definition abs64 (x : f64) : f64 := Babs x.
(** The double nearest to m * 2^e (an integer, or an integer scaled by a power of two). *)
Definition of_int (m e : Z) : f64 := binary_normalize 53 1024 prec64 emax64 mode_NE m e false.

(** A double as a real number (infinities and nan give 0). *)
Definition val (x : f64) : R := B2R x.

(** np.argmin: index of the first minimum; a nan counts as smaller than everything. *)
Definition less64 (x best : f64) : bool := negb (is_nan best) && (is_nan x || Bltb x best).
Fixpoint argmin64_from (best : f64) (bi i : nat) (l : list f64) : nat :=
  match l with [] => bi | x :: l => if less64 x best then argmin64_from x i (S i) l else argmin64_from best bi (S i) l end.
Definition argmin64 (l : list f64) : res nat := match l with [] => Raise ValueError | d :: ds => Ok (argmin64_from d 0 1 ds) end.
(** slicer.py:29-36. *)
Definition slice_index64 (levels : list f64) (x : f64) : res nat := argmin64 (map (fun l => abs64 (sub64 x l)) levels).
Definition slicer64 (levels xs : list f64) : res (list f64) :=
  if (length levels =? 0)%nat then Raise ValueError else
  map_res (fun x => i <- slice_index64 levels x ;; Ok (nth i levels x)) xs.
(** quantiztion.py:4-51: the integer levels become doubles, divided by 2^frac_bits when that is positive.  (For frac_bits > 63
    numpy cannot divide in place by the integer 2**frac_bits; not modelled.) *)
Definition quant_level64 (frac_bits l : Z) : f64 := if 0 <? frac_bits then div64 (of_int l 0) (of_int (2 ^ frac_bits) 0) else of_int l 0.
Definition quantize64 (total_bits : nat) (frac_bits : Z) (ty : string) (xs : list f64) : res (list f64) :=
  levels <- quant_ints total_bits ty ;;
  slicer64 (map (quant_level64 frac_bits) levels) xs.

(** demapping.py:31 with full_scale=False: round((x - min(levels)) / (levels[1] - levels[0])); np.round is exact, ties to even.
    An infinite or nan quotient (astype(int) of it is undefined) gives 0 here. *)
Definition demap_index64 (lv : list Z) (x : f64) : Z :=
  let mn := fold_right Z.min (hd 0 lv) lv in
  let step := nth 1 lv 0 - nth 0 lv 0 in
  ZnearestE (val (div64 (sub64 x (of_int mn 0)) (of_int step 0))).
(** demapping.py:4-34 on doubles. *)
Definition demapping64 (c : constellation) (pn : bool) (signal : nda f64) : res (nda Z) * nda f64 :=
  demapping_with (fun x : f64 => Bopp x) (demap_index64 (get_levels c)) (length (get_levels c)) pn signal.
