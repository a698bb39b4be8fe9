(** Model of CommDspy/digital_delay.py over the real numbers (no rounding).  A sample is [Some x], or [None] for a
    value which is not a finite number (the result of a division by zero and everything computed from it). *)
From Coq Require Import Reals String.
From Verif Require Import Py.
Open Scope R_scope.

Notation num := (option R).
Definition nadd (u v : num) : num := match u, v with Some a, Some b => Some (a + b) | _, _ => None end.
Definition nmul (u v : num) : num := match u, v with Some a, Some b => Some (a * b) | _, _ => None end.
Definition ndiv (a b : R) : num := if Req_EM_T b 0 then None else Some (a / b).
(** [np.sinc]. *)
Definition sinc (x : R) : R := if Req_EM_T x 0 then 1 else sin (PI * x) / (PI * x).
(** Wrap-around of 64 bit integer arrays. *)
Definition wrap64 (z : Z) : Z := ((z + 2 ^ 63) mod 2 ^ 64 - 2 ^ 63)%Z.
Definition prodR (l : list R) : R := fold_right Rmult 1 l.
Definition prodZ (l : list Z) : Z := fold_right Z.mul 1%Z l.
(** Entries of row [k] selected by the boolean mask of line 49 (all but the diagonal). *)
Definition drop_at {A} (k : nat) (l : list A) : list A := firstn k l ++ skipn (S k) l.

(** Lines 147-154, for a non-negative order. *)
Definition get_indices (n : nat) (forward : bool) : list Z :=
  let h := (Z.of_nat n / 2)%Z in
  let interval a b := map (fun k => (a + Z.of_nat k)%Z) (seq 0 (Z.to_nat (b - a))) in
  if (Z.of_nat n mod 2 =? 0)%Z then interval (- h)%Z (h + 1)%Z
  else if forward then interval (- h)%Z (h + 2)%Z
  else interval (- h - 1)%Z (h + 1)%Z.
(** Lines 4-53.  With a single index (n = 0) the reshape to [-1, 0] raises ValueError.  The denominators are products
    of an integer array, so they wrap around; products of [np.int64] equal the wrapped exact product. *)
Definition dig_delay_lagrange_coeffs (n : nat) (alpha : R) (forward : bool) : res (list num) :=
  let ii_vec := get_indices n forward in
  if (length ii_vec =? 1)%nat then Raise ValueError else
  let nom_mat := repeat (map (fun i => alpha - IZR i) ii_vec) (length ii_vec) in
  let den_mat_T := map (fun xi => map (fun xj => (xi - xj)%Z) ii_vec) ii_vec in
  let rows := seq 0 (length ii_vec) in
  let nom_vec := map2 (fun k row => prodR (drop_at k row)) rows nom_mat in
  let den_vec := map2 (fun k row => wrap64 (prodZ (drop_at k row))) rows den_mat_T in
  Ok (map2 (fun a b => ndiv a (IZR b)) nom_vec den_vec).
(** Lines 55-74. *)
Definition dig_delay_sinc_coeffs (n : nat) (alpha : R) (forward : bool) : list num :=
  map (fun i => Some (sinc (IZR i - alpha))) (get_indices n forward).
(** Lines 76-84. *)
Definition dig_delay_rcos_coeffs (n : nat) (alpha : R) (forward : bool) (beta : R) : list num :=
  map (fun i => ndiv (sinc (IZR i - alpha) * cos (PI * beta * (IZR i - alpha))) (1 - (2 * beta * (IZR i - alpha)) ^ 2)) (get_indices n forward).
(** Lines 137-145. *)
Definition get_dd_coeffs (method : string) (n : nat) (alpha : R) (forward : bool) (beta : R) : res (list num) :=
  if (method =? "sinc")%string then Ok (dig_delay_sinc_coeffs n alpha forward)
  else if (method =? "lagrange")%string then dig_delay_lagrange_coeffs n alpha forward
  else if (method =? "rcos")%string then Ok (dig_delay_rcos_coeffs n alpha forward beta)
  else Raise AttributeError.
(** scipy.signal.lfilter(b, 1, x) without initial state: direct convolution, output [t] is the sum of b[k] x[t-k]. *)
Definition fir_at (b x : list num) (t : nat) : num :=
  fold_right nadd (Some 0) (map (fun k => nmul (nth k b (Some 0)) (nth (t - k) x (Some 0))) (seq 0 (Nat.min (S t) (length b)))).
Definition lfilter_fir (b x : list num) : res (list num) :=
  if (length x =? 0)%nat then Raise ValueError else Ok (map (fir_at b x) (seq 0 (length x))).
(** Lines 86-135, for a non-negative order and osr.  np.zeros raises ValueError when the signal is shorter than the
    order, and column 0 of a matrix without columns (osr = 0) raises IndexError.  Lines 118-121: with trim_post = 0
    the first assignment fails (or copies nothing into nothing) and the second one is used. *)
Definition digital_oversample (signal_vec : list num) (osr order : nat) (method : string) (beta : R)
    : res (list num * list R * list Z) :=
  let n := length signal_vec in
  let trim_pre := (order / 2)%nat in
  let trim_post := (order / 2 + order mod 2)%nat in
  let alphas := map (fun k => INR k / INR osr) (seq 1 (osr - 1)) in
  if (n <? trim_pre + trim_post)%nat then Raise ValueError else
  if (osr =? 0)%nat then Raise IndexError else
  let col0 := if (trim_post =? 0)%nat then skipn trim_pre signal_vec else skipn trim_pre (slice_to signal_vec (-1 * Z.of_nat trim_post)) in
  cols <- map_res (fun alpha =>
            fir_coeffs <- get_dd_coeffs method order alpha true beta ;;
            y <- lfilter_fir (rev fir_coeffs) signal_vec ;;
            Ok (skipn order y)) alphas ;;
  let rows := (n - trim_pre - trim_post)%nat in
  let temp := concat (map (fun r => map (fun col : list num => nth r col (Some 0)) (col0 :: cols)) (seq 0 rows)) in
  let x1 := map Z.of_nat (seq 0 (rows + 1)%nat) in
  let x2 := map (fun t => INR t / INR osr) (seq 0 (length temp)) in
  Ok (temp, x2, x1).
