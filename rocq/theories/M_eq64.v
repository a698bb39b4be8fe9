(** Model of CommDspy/rx/ffe_dfe_model.py with a DFE (lines 57-69 and 83-110) in IEEE-754 double precision.  The order in which
    [ndarray.dot] adds its products (and whether it fuses multiplications with additions) is decided inside numpy and its BLAS,
    may change with the length and the alignment of the arrays, and is left open: every call of dot may use another order.
    Without a DFE scipy.signal.convolve may choose an FFT; that path is not modelled in doubles. *)
From Coq Require Import ZArith Permutation.
From Flocq Require Import Core BinarySingleNaN.
From Verif Require Import Py M_aux M_slicer M_f64.
Import List.
Open Scope Z_scope.

Definition zero64 : f64 := B754_zero false.
Definition add64 (x y : f64) : f64 := Bplus mode_NE x y.
Definition mul64 (x y : f64) : f64 := Bmult mode_NE x y.
Definition fma64 (x y z : f64) : f64 := Bfma mode_NE x y z.
(** The values that a dot product with these factors may have: the products, rounded, are added in any order and with any
    grouping; a product may be added without being rounded first (fused multiply-add); adding zeros is allowed. *)
Inductive dot_value : list (f64 * f64) -> f64 -> Prop :=
| dot_none s : dot_value [] (B754_zero s)
| dot_product x y : dot_value [(x, y)] (mul64 x y)
| dot_sum l l1 l2 a b : Permutation l (l1 ++ l2) -> dot_value l1 a -> dot_value l2 b -> dot_value l (add64 a b)
| dot_fused l l1 x y a : Permutation l ((x, y) :: l1) -> dot_value l1 a -> dot_value l (fma64 x y a).
(** [dot k u v] is the result of the k-th dot product of the call, of u and v. *)
Definition any_order (dot : nat -> list f64 -> list f64 -> f64) : Prop :=
  forall k u v, length u = length v -> dot_value (combine u v) (dot k u v).

Section Equaliser.
  Variable dot : nat -> list f64 -> list f64 -> f64.
  Definition np_dot64 (k : nat) (u v : list f64) : res f64 :=
    if (length u =? length v)%nat then Ok (dot k u v) else Raise ValueError.
  (** ffe_dfe_model.py:95: the slicer on one value. *)
  Definition slice_one64 (levels : list f64) (x : f64) : res f64 := s <- slicer64 levels [x] ;; np_get s 0.
  (** Lines 87-106.  As in M_filter.v: [sin] and [sout] are the values stored so far, the rest is zero. *)
  Fixpoint dfe_loop64 (ffe_taps dfe_taps levels : list f64) (osr phase : Z) (n : nat)
      (rows : list (list f64)) (ii : nat) (sin sout mem : list f64) : res (list f64 * list f64) :=
    match rows with
    | [] => Ok (sin, mem)
    | row :: rows' =>
      ffe <- np_dot64 (2 * ii) row (rev ffe_taps) ;;
      dfe <- np_dot64 (2 * ii + 1) mem dfe_taps ;;
      if (n <=? ii)%nat then Raise IndexError else
      let x := sub64 ffe dfe in
      d <- slice_one64 levels x ;;
      let sin := sin ++ [x] in
      let sout := sout ++ [d] in
      if osr =? 0 then Raise ZeroDivisionError else
      mem <- (if Z.of_nat ii mod osr =? (phase + osr / 2) mod osr then
                let idx := Z.of_nat ii - osr / 2 in
                if 0 <=? idx then
                  v <- np_get (sout ++ repeat zero64 (n - length sout)) idx ;;
                  Ok (if (1 <? length dfe_taps)%nat then v :: slice_to mem (-1) else v :: [])
                else Ok mem
              else Ok mem) ;;
      dfe_loop64 ffe_taps dfe_taps levels osr phase n rows' (S ii) sin sout mem
    end.
  (** The whole call; [levels = None] of the code is the vector -3, -1, 1, 3.  Returned: slicer_in, the last row of the buffer
      (not returned by the code for a single FFE tap) and the DFE memory. *)
  Definition ffe_dfe64 (input_signal ffe_taps dfe_taps levels : list f64) (osr phase : Z) (zi_ffe zi_dfe : option (list f64)) :
      res (list f64 * option (list f64) * list f64) :=
    let ffe_len := length ffe_taps in
    mem <- match zi_dfe with
           | None => Ok (repeat zero64 (length dfe_taps))
           | Some z => if (length z =? length dfe_taps)%nat then Ok z else Raise TypeError
           end ;;
    zi <- match zi_ffe with
          | None => if (ffe_len =? 0)%nat then Raise ValueError else Ok (repeat zero64 (ffe_len - 1))
          | Some z => if (length z =? ffe_len)%nat then Ok (tl z) else Raise TypeError
          end ;;
    rows <- buffer zero64 (fun x y => Beqb x y) (zi ++ input_signal) (Z.of_nat ffe_len) (Z.of_nat ffe_len - 1) 0 false ;;
    r <- dfe_loop64 ffe_taps dfe_taps levels osr phase (length input_signal) rows 0 [] [] mem ;;
    let '(slicer_in, mem) := r in
    if (ffe_len =? 1)%nat then Ok (slicer_in, None, mem)
    else last <- np_get rows (-1) ;; Ok (slicer_in, Some last, mem).
End Equaliser.
