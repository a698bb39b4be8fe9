(** Model of CommDspy/misc/least_squares.py, CommDspy/equalization_estimation.py and CommDspy/channel_estimation.py over exact
    rationals.  Matrices are lists of rows. *)
From Verif Require Import Py PyQ M_aux M_prbs M_symbol M_coding M_lock.
Open Scope Z_scope.

Definition vec_at (u : list Qc) (i : nat) : Qc := nth i u 0%Qc.
(** [A @ x], [A.T], dot product of two vectors of length [m], [u - t * v]. *)
Definition matvec (a : list (list Qc)) (x : list Qc) : list Qc := map (fun row => dotQ row x) a.
Definition transpose (n : nat) (a : list (list Qc)) : list (list Qc) := map (fun j => map (fun row => vec_at row j) a) (seq 0 n).
Definition dot (m : nat) (u v : list Qc) : Qc := sumQ (map (fun i => (vec_at u i * vec_at v i)%Qc) (seq 0 m)).
Definition axpy (m : nat) (u : list Qc) (t : Qc) (v : list Qc) : list Qc := map (fun i => (vec_at u i - t * vec_at v i)%Qc) (seq 0 m).
(** Sum of x_j times column j. *)
Fixpoint comb (m : nat) (cols : list (list Qc)) (x : list Qc) : list Qc :=
  match cols with
  | [] => repeat 0%Qc m
  | a :: cols => axpy m (comb m cols (tl x)) (- vec_at x 0)%Qc a
  end.
(** Coefficients of the orthogonal projection of [b] on the span of the columns (Gram-Schmidt); a column which depends on the
    later ones gets the coefficient 0. *)
Fixpoint project (m : nat) (cols : list (list Qc)) (b : list Qc) : list Qc :=
  match cols with
  | [] => []
  | a :: cols =>
      let ra := axpy m a 1%Qc (comb m cols (project m cols a)) in
      let t := if Qceqb (dot m ra ra) 0%Qc then 0%Qc else (dot m b ra / dot m ra ra)%Qc in
      t :: project m cols (axpy m b t a)
  end.
Fixpoint rank (m : nat) (cols : list (list Qc)) : nat :=
  match cols with
  | [] => 0%nat
  | a :: cols => let ra := axpy m a 1%Qc (comb m cols (project m cols a)) in
                 ((if Qceqb (dot m ra ra) 0%Qc then 0 else 1) + rank m cols)%nat
  end.
(** np.linalg.lstsq for a matrix with [n] columns: the solution of least squares with the smallest norm (the projection of a
    solution on the space of the rows), and the sum of squared residuals, empty unless the rank is [n] and there are more
    rows than columns.  ValueError (LinAlgError) when the right hand side has another length.  With rcond=-1 only exactly
    dependent columns count as dependent, as here; rounding is not modelled. *)
Definition ssr (a : list (list Qc)) (x b : list Qc) : Qc := sumQ (map (fun e => (e * e)%Qc) (map2 Qcminus (matvec a x) b)).
Definition lstsq (n : nat) (a : list (list Qc)) (b : list Qc) : res (list Qc * list Qc) :=
  if negb (length a =? length b)%nat then Raise ValueError else
  let m := length a in
  let cols := transpose n a in
  let x0 := project m cols b in
  let x := comb n a (project n a x0) in
  Ok (x, if (rank m cols =? n)%nat && (n <? m)%nat then (ssr a x b :: []) else []).
(** sklearn.linear_model.Ridge(alpha).fit(A, b).coef_ with its default intercept: the columns and the right hand side are
    centred, then (A'A + alpha I) w = A'b is solved.  [shrink a = a] is the version without intercept. *)
Definition mean_of_col (a : list (list Qc)) (j : nat) : Qc := meanQ (map (fun row => vec_at row j) a).
Definition centre_rows (n : nat) (a : list (list Qc)) : list (list Qc) := map (fun row => map (fun j => (vec_at row j - mean_of_col a j)%Qc) (seq 0 n)) a.
Definition centre (b : list Qc) : list Qc := map (fun v => (v - meanQ b)%Qc) b.
Definition gram (n m : nat) (a : list (list Qc)) (alpha : Qc) : list (list Qc) :=
  let cols := transpose n a in
  map (fun i => map (fun j => (dot m (nth i cols []) (nth j cols []) + (if (i =? j)%nat then alpha else 0))%Qc) (seq 0 n)) (seq 0 n).
Definition ridge_solve (n : nat) (a : list (list Qc)) (b : list Qc) (alpha : Qc) : list Qc :=
  let m := length a in
  project n (transpose n (gram n m a alpha)) (map (fun c => dot m c b) (transpose n a)).
Definition ridge_regression (n : nat) (a : list (list Qc)) (b : list Qc) (alpha : Qc) : res (list Qc * list Qc) :=
  if negb (length a =? length b)%nat || (length a =? 0)%nat then Raise ValueError else
  let x_hat := ridge_solve n (centre_rows n a) (centre b) alpha in
  Ok (x_hat, (ssr a x_hat b :: [])).
(** Lines 89-98: np.linalg.inv(A'A + lambda I) @ A' @ b. *)
Definition ridge_regression_manual (n : nat) (a : list (list Qc)) (b : list Qc) (alpha : Qc) : res (list Qc * list Qc) :=
  if negb (length a =? length b)%nat then Raise ValueError else
  let x_hat := ridge_solve n a b alpha in
  Ok (x_hat, (ssr a x_hat b :: [])).
(** least_squares.py:9-30.  [lasso a b alpha] is the coef_ of sklearn.linear_model.Lasso, any vector. *)
Inductive regul := RegNone | RegRidge | RegLasso | RegOther.
Definition least_squares (lasso : list (list Qc) -> list Qc -> Qc -> list Qc) (n : nat) (a : list (list Qc)) (b : list Qc)
    (regularization : regul) (reg_lambda : Qc) : res (list Qc * list Qc) :=
  match regularization with
  | RegNone => lstsq n a b
  | RegRidge => ridge_regression n a b reg_lambda
  | RegLasso => if negb (length a =? length b)%nat || (length a =? 0)%nat then Raise ValueError else
                let x_hat := lasso a b reg_lambda in Ok (x_hat, (ssr a x_hat b :: []))
  | RegOther => Raise ValueError
  end.

(** scipy.linalg.hankel(c, r): c is the first column, r the last row without its first entry. *)
Definition hankel (c r : list Qc) : list (list Qc) :=
  let vals := c ++ tl r in map (fun i => map (fun j => vec_at vals (i + j)) (seq 0 (length r))) (seq 0 (length c)).
(** np.concatenate((A, B), axis=1). *)
Definition hconcat (a b : list (list Qc)) : res (list (list Qc)) :=
  if (length a =? length b)%nat then Ok (map2 (@app Qc) a b) else Raise ValueError.
(** np.max. *)
Definition maxQ (l : list Qc) : res Qc := k <- argmaxQ l ;; Ok (vec_at l k).
(** auxiliary.py:63-68, power; [None] is nan. *)
Definition power (l : list Qc) : option Qc := match l with [] => None | _ => Some (meanQ (map (fun v => (v * v)%Qc) l)) end.
(** A returned tap vector: an array, None, or an array with inf/nan entries. *)
Inductive taps := Taps (l : list Qc) | NoTaps | NotFinite.
Definition div_taps (l : list Qc) (g : Qc) : taps := if Qceqb g 0%Qc then NotFinite else Taps (map (fun v => (v / g)%Qc) l).
(** The mse is 10*log10 of the quotient [e_mse]; [None] stands for nan and infinity. *)
Record estimate := mk_est { e_ffe : taps ; e_dfe : taps ; e_gain : Qc ; e_err : list Qc ; e_mse : option Qc }.
Definition mse_ratio (err out : list Qc) : option Qc :=
  match power err, power out with
  | Some e, Some o => if Qceqb o 0%Qc then None else Some (e / o)%Qc
  | _, _ => None
  end.
(** equalization_estimation.py:98-160.  Tap counts are assumed not negative. *)
Definition equalization_estimation (lasso : list (list Qc) -> list Qc -> Qc -> list Qc) (reference_signal signal : list Qc)
    (ffe_postcursor ffe_precursor dfe_taps : nat) (normalize : bool) (regularization : regul) (reg_lambda : Qc) : res estimate :=
  let postcursor_num := Nat.max ffe_postcursor dfe_taps in
  let chop_len := (postcursor_num + ffe_precursor + 1)%nat in
  let mat_row_num := Z.of_nat (length signal) - Z.of_nat chop_len in
  let signal_temp := skipn dfe_taps signal in
  let last_row := firstn (ffe_postcursor + ffe_precursor + 1) (rev signal_temp) in
  let ffe_mat := slice_to (hankel signal_temp last_row) mat_row_num in
  let dfe_row := firstn dfe_taps (rev reference_signal) in
  mat_ffe_dfe <- (if (0 <? dfe_taps)%nat then
                    hconcat ffe_mat (map (map Qcopp) (slice_to (hankel reference_signal dfe_row) mat_row_num))
                  else Ok ffe_mat) ;;
  let n := (length last_row + (if (0 <? dfe_taps)%nat then length dfe_row else 0))%nat in
  let skewed_ref := slice_from (slice_to reference_signal (Z.of_nat dfe_taps + mat_row_num)) (Z.of_nat dfe_taps) in
  ls_result <- match regularization with
               | RegNone => least_squares lasso n mat_ffe_dfe skewed_ref RegNone 0%Qc
               | r => if Qcltb 0%Qc reg_lambda then least_squares lasso n mat_ffe_dfe skewed_ref r reg_lambda
                      else least_squares lasso n mat_ffe_dfe skewed_ref RegNone 0%Qc
               end ;;
  let full_taps := rev (fst ls_result) in
  let ffe := skipn dfe_taps full_taps in
  dig_gain <- maxQ ffe ;;
  let dfe := if (0 <? dfe_taps)%nat then Some (rev (slice_from (fst ls_result) (-1 * Z.of_nat dfe_taps))) else None in
  let ls_err := snd ls_result in
  let sig_out := matvec mat_ffe_dfe (fst ls_result) in
  let err := map2 Qcminus sig_out skewed_ref in
  let mse := mse_ratio err sig_out in
  if normalize then
    match dfe with
    | None => Raise TypeError
    | Some d => Ok (mk_est (div_taps ffe dig_gain) (div_taps d dig_gain) dig_gain ls_err mse)
    end
  else Ok (mk_est (Taps ffe) (match dfe with Some d => Taps d | None => NoTaps end) 1%Qc ls_err mse).

(** Both *_prbs functions, the reference: two periods of the PRBS, to symbols, coded and mapped to the (not rescaled) levels. *)
Definition prbs_coded (t : prbs_type) (c : constellation) (bit_order_inv pn_inv_precoding gray pn_inv_post : bool) : res (list Qc) :=
  let init_seed := repeat 1 (prbs_value t) in
  let prbs_len := 2 ^ Z.of_nat (length init_seed) - 1 in
  r <- prbs_generator (get_polynomial t) init_seed (2 * prbs_len) ;;
  prbsq <- bin2symbol (fst r) (Z.of_nat (length (get_levels c))) (mk_flags bit_order_inv false false pn_inv_precoding) ;;
  coded <- (if gray then coding_gray c (vec prbsq) else Ok (vec prbsq)) ;;
  m <- mapping Z.opp (get_levels c) None pn_inv_post coded ;;
  Ok (map ofZ (data m)).
(** np.concatenate([np.arange(k, n), np.arange(0, k)]). *)
Definition shift_idx (k n : nat) : list Z := map Z.of_nat (seq k (n - k) ++ seq 0 k).
(** np.mean(np.reshape(signal[:n*reps], [-1, n]), axis=0), reps = floor(len(signal)/n) >= 1. *)
Definition average_periods (n : nat) (signal : list Qc) : list Qc :=
  let reps := (length signal / n)%nat in
  map (fun i => meanQ (map (fun k => vec_at signal (k * n + i)) (seq 0 reps))) (seq 0 n).
(** equalization_estimation.py:57-97.  prbs_full_scale=True: M_estimfs. *)
Definition equalization_estimation_prbs (lasso : list (list Qc) -> list Qc -> Qc -> list Qc) (t : prbs_type) (signal : list Qc) (c : constellation)
    (ffe_postcursor ffe_precursor dfe_taps : nat) (normalize : bool) (regularization : regul) (reg_lambda : Qc)
    (bit_order_inv pn_inv_precoding gray_coded pn_inv_postmapping : bool) : res estimate :=
  let prbs_len := Z.to_nat (2 ^ Z.of_nat (prbs_value t) - 1) in
  let postcursor_num := Nat.max ffe_postcursor dfe_taps in
  pc <- prbs_coded t c bit_order_inv pn_inv_precoding gray_coded pn_inv_postmapping ;;
  al <- lock_pattern_to_signal pc signal ;;
  shifted <- np_take (fst al) (shift_idx postcursor_num prbs_len) ;;
  if (length signal / prbs_len =? 0)%nat then
    equalization_estimation lasso (firstn (length signal) shifted) signal ffe_postcursor ffe_precursor dfe_taps normalize regularization reg_lambda
  else
    equalization_estimation lasso shifted (average_periods prbs_len signal) ffe_postcursor ffe_precursor dfe_taps normalize regularization reg_lambda.
(** np.var. *)
Definition varQ (l : list Qc) : Qc := meanQ (map (fun v => (v - meanQ l) * (v - meanQ l))%Qc l).
(** channel_estimation.py:44-89.  prbs_full_scale=True: M_estimfs.  [None]: the averaged signal has variance zero or the
    capture is shorter than one period, the right hand side is not finite. *)
Definition channel_estimation_prbs (t : prbs_type) (signal : list Qc) (c : constellation) (channel_postcursor channel_precursor : nat) (normalize : bool)
    (bit_order_inv pn_inv_precoding gray_coding pn_inv_postcoding : bool) : res (option (taps * list Qc)) :=
  let prbs_len := Z.to_nat (2 ^ Z.of_nat (prbs_value t) - 1) in
  pc <- prbs_coded t c bit_order_inv pn_inv_precoding gray_coding false ;;
  al <- lock_pattern_to_signal pc signal ;;
  let w := (channel_postcursor + channel_precursor + 1)%nat in
  let aligned := fst al ++ firstn w (fst al) in
  let mean := average_periods prbs_len signal in
  if (length signal / prbs_len =? 0)%nat || Qceqb (varQ mean) 0%Qc then Ok None else
  taken <- np_take mean (shift_idx channel_postcursor prbs_len) ;;
  let signal_shift := map (fun v => (v / varQ mean)%Qc) taken in
  let last_row := firstn w (rev aligned) in
  let partial_hankel := firstn prbs_len (hankel aligned last_row) in
  ls_result <- lstsq (length last_row) partial_hankel signal_shift ;;
  ch_est <- (if normalize then g <- maxQ (fst ls_result) ;; Ok (div_taps (rev (fst ls_result)) g) else Ok (Taps (rev (fst ls_result)))) ;;
  Ok (Some (ch_est, snd ls_result)).
