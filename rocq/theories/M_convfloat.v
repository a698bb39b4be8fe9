(** The feedback recursion of coding_conv in IEEE double precision (stdlib SpecFloat, round to nearest even),
    for a code with one input and one output: CommDspy/tx/coding.py:309-322. *)
From Verif Require Import Py M_levels.
From Coq Require Import Floats.SpecFloat.

(** scipy.signal.lfilter, inner loop of the direct form II transposed filter (a[0] = 1): the delay line
    z_i := z_(i+1) + x b_(i+1) - y a_(i+1), the last one without z. *)
Fixpoint df2t_f64 (z b a : list spec_float) (x y : spec_float) : list spec_float :=
  match z, b, a with
  | _ :: ((z1 :: _) as z'), b1 :: b', a1 :: a' => fsub (fadd z1 (fmul x b1)) (fmul y a1) :: df2t_f64 z' b' a' x y
  | [_], b1 :: _, a1 :: _ => [fsub (fmul x b1) (fmul y a1)]
  | _, _, _ => []
  end.
Fixpoint lfilter_f64 (b a z x : list spec_float) : list spec_float :=
  match x with
  | [] => []
  | v :: x' => let y := fadd (hd (fofZ 0) z) (fmul (hd (fofZ 0) b) v) in
               y :: lfilter_f64 b a (df2t_f64 z (tl b) (tl a) v y) x'
  end.
(** [(out % 2).astype(int)] on a double: the remainder is exact; the conversion truncates.
    (Infinities and nan do not convert to a bit; -1 here.) *)
Definition f64_bit (v : spec_float) : Z :=
  match v with
  | S754_zero _ => 0
  | S754_finite s m e =>
    let n := if s then Z.neg m else Z.pos m in
    (match e with Zneg p => n / 2 ^ Z.pos p | _ => n * 2 ^ e end) mod 2
  | _ => -1
  end.
(** coding_conv for G = {0: [row]}, feedback = {0: fb}, use_feedback = [[1]], rows of the same length > 1:
    out_vals[0] = 0.0 + lfilter(row, fb, pattern). *)
Definition coding_conv1_f64 (row fb pattern : list Z) : list Z :=
  map (fun y => f64_bit (fadd (fofZ 0) y))
    (lfilter_f64 (map fofZ row) (map fofZ fb) (repeat (fofZ 0) (length row - 1)) (map fofZ pattern)).
