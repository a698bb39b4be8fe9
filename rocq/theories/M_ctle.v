(** Model of CommDspy/rx/ctle_model.py and of the parts of numpy and scipy.signal it uses, over the real numbers.
    Polynomials are coefficient lists, constant term first. *)
From Coq Require Import Reals.
From Verif Require Import Py M_soft M_channel.
Import List.
Open Scope R_scope.

(** numpy.polynomial.polynomial.polyfromroots: the product of (x - root); the order of the factors does not matter. *)
Definition times_linear (r : R) (p : list R) : list R := map (fun k => nth k (0 :: p) 0 - r * nth k p 0) (seq 0 (S (length p))).
Definition fromroots (roots : list R) : list R := fold_right times_linear [1] roots.
(** [-1 * np.sign(f) * f]. *)
Definition np_signR (x : R) : R := if Rlt_dec x 0 then -1 else if Req_EM_T x 0 then 0 else 1.
Definition stable_root (f : R) : R := -1 * np_signR f * f.
(** [coef / coef[0]]; [None] stands for inf and nan entries. *)
Definition unit_dc (p : list R) : option (list R) := if Req_EM_T (nth 0 p 0) 0 then None else Some (map (fun c => c / nth 0 p 0) p).
(** scipy.special.comb. *)
Fixpoint choose (n k : nat) : R := match k, n with O, _ => 1 | S _, O => 0 | S k', S n' => choose n' k' + choose n' k end.
(** scipy.signal.bilinear: coefficient [j] (of z^-j) for the polynomial [p], degree raised to [m]; [p] is b[::-1]. *)
Definition bilinear_coef (p : list R) (m : nat) (fs : R) (j : nat) : R :=
  sumR (map (fun i => sumR (map (fun k => sumR (map (fun l =>
    if (k + l =? j)%nat then choose i k * choose (m - i) l * nth i p 0 * (2 * fs) ^ i * (-1) ^ k else 0)
    (seq 0 (m - i + 1)))) (seq 0 (i + 1)))) (seq 0 (length p))).
(** scipy.signal.normalize: leading zeros of the denominator are dropped, both are divided by the leading denominator
    coefficient, then leading numerator coefficients of size at most 1e-14 are dropped (one is kept). *)
Fixpoint trim_zeros (l : list R) : list R := match l with [] => [] | c :: l' => if Req_EM_T c 0 then trim_zeros l' else l end.
Fixpoint trim_small (l : list R) : list R := match l with
  | c :: ((_ :: _) as l') => if Rle_dec (Rabs c) (/ 10 ^ 14) then trim_small l' else l
  | _ => l end.
Definition normalize (num den : list R) : option (list R * list R) :=
  match trim_zeros den with
  | [] => None
  | (d :: _) as den => Some (trim_small (map (fun c => c / d) num), map (fun c => c / d) den)
  end.
Definition bilinear (b a : list R) (fs : R) : option (list R * list R) :=
  let m := Nat.max (length b - 1) (length a - 1) in
  normalize (map (bilinear_coef (rev b) m fs) (seq 0 (m + 1))) (map (bilinear_coef (rev a) m fs) (seq 0 (m + 1))).
(** Lines 5-32.  Polynomial.fromroots raises ValueError on an empty list.  [None]: some frequency is zero, the result is
    not finite. *)
Definition polynomial_fromroots (roots : list R) : res (list R) :=
  match roots with [] => Raise ValueError | _ :: _ => Ok (fromroots roots) end.
Definition get_ctle_filter (zeros poles : list R) (dc_gain fs osr : R) : res (option (list R * list R)) :=
  numerator_con <- polynomial_fromroots (map stable_root zeros) ;;
  denominator_con <- polynomial_fromroots (map stable_root poles) ;;
  Ok match unit_dc numerator_con, unit_dc denominator_con with
     | Some n, Some d => bilinear (map (fun c => Rpower 10 (dc_gain / 20) * c) (rev n)) (rev d) (fs * osr)
     | _, _ => None
     end.
(** Lines 34-54.  Without memory lfilter starts from zero and returns only the output.  [None]: as above. *)
Inductive ctle_result := CtleOut (y : list R) | CtleBoth (y zf : list R).
Definition ctle (signal zeros poles : list R) (dc_gain fs osr : R) (zi : option (list R)) : res (option ctle_result) :=
  f <- get_ctle_filter zeros poles dc_gain fs osr ;;
  match f with
  | None => Ok None
  | Some (b, a) =>
      match zi with
      | None => r <- lfilter b a signal (repeat 0 (Nat.max (length a) (length b) - 1)) ;; Ok (Some (CtleOut (fst r)))
      | Some z => r <- lfilter b a signal z ;; Ok (Some (CtleBoth (fst r) (snd r)))
      end
  end.
