(** Full-scale levels (CommDspy/auxiliary.py:29-49, full_scale=True) over the reals and in IEEE binary64,
    and demapping with full_scale=True (CommDspy/rx/demapping.py). *)
From Verif Require Import Py M_aux M_symbol.
From Coq Require Import Reals QArith SpecFloat.
Open Scope Z_scope.

(** [np.mean(levels ** 2)] as a real number. *)
Definition mean_sq_R (l : list R) : R := (fold_right Rplus 0 (map (fun x => x * x) l) / INR (length l))%R.
(** CommDspy/auxiliary.py:46-47. *)
Definition get_levels_fs (c : constellation) : list R :=
  let lv := map IZR (get_levels c) in
  map (fun x => (x / sqrt (mean_sq_R lv))%R) lv.
(** [np.round(x).astype(int)] on an exact real: nearest integer, ties to even. *)
Definition round_R (x : R) : Z :=
  let f := Int_part x in
  let d := (x - IZR f)%R in
  if Rlt_dec d (1 / 2) then f
  else if Rlt_dec (1 / 2) d then f + 1
  else if Z.even f then f else f + 1.
(** CommDspy/rx/demapping.py:31 over the reals. *)
Definition demap_idx_R (lv : list R) (x : R) : Z :=
  let mn := fold_right Rmin (hd 0%R lv) lv in
  round_R ((x - mn) / (nth 1 lv 0 - nth 0 lv 0))%R.
(** CommDspy/rx/demapping.py:4-34 with full_scale=True, exact reals. *)
Definition demapping_fs (c : constellation) (pn : bool) (signal : nda R) : res (nda Z) * nda R :=
  demapping_with Ropp (demap_idx_R (get_levels_fs c)) (length (get_levels_fs c)) pn signal.

(** IEEE-754 binary64 arithmetic (round to nearest even) of the Coq standard library. *)
Definition fofZ (z : Z) : spec_float := binary_normalize 53 1024 z 0 false.
Definition fadd := SFadd 53 1024.
Definition fsub := SFsub 53 1024.
Definition fmul := SFmul 53 1024.
Definition fdiv := SFdiv 53 1024.
Definition fsqrt := SFsqrt 53 1024.
Definition fmin (x y : spec_float) : spec_float := if SFltb x y then x else y.
(** CommDspy/auxiliary.py:46-47 in binary64: integer squares, float mean, sqrt, division. *)
Definition get_levels_f64 (c : constellation) : list spec_float :=
  let lv := get_levels c in
  let m := fdiv (fold_left fadd (map (fun z => fofZ (z * z)) lv) (fofZ 0)) (fofZ (Z.of_nat (length lv))) in
  map (fun z => fdiv (fofZ z) (fsqrt m)) lv.
(** Exact value of a finite double as a rational (infinities and nan, which do not occur, give 0). *)
Definition f64_to_Q (x : spec_float) : Q :=
  match x with
  | S754_finite s m e =>
      let v := if s then Zneg m else Zpos m in
      if 0 <=? e then inject_Z (v * 2 ^ e) else (v # Z.to_pos (2 ^ (- e)))%Q
  | _ => 0%Q
  end.
(** CommDspy/rx/demapping.py:31 in binary64. *)
Definition demap_idx_f64 (lv : list spec_float) (x : spec_float) : Z :=
  let mn := fold_right fmin (hd (fofZ 0) lv) lv in
  round_half_even (f64_to_Q (fdiv (fsub x mn) (fsub (nth 1 lv (fofZ 0)) (nth 0 lv (fofZ 0))))).
(** CommDspy/rx/demapping.py:4-34 with full_scale=True in binary64 ([-1 * x] is an exact sign flip). *)
Definition demapping_f64 (c : constellation) (pn : bool) (signal : nda spec_float) : res (nda Z) * nda spec_float :=
  demapping_with SFopp (demap_idx_f64 (get_levels_f64 c)) (length (get_levels_f64 c)) pn signal.
