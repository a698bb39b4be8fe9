(** The estimation functions with both values of prbs_full_scale, over the reals: the full-scale levels are irrational.  The
    definitions follow those of [M_estim] and [M_lock] line by line, with real numbers in place of rationals. *)
From Verif Require Import Py M_aux M_prbs M_symbol M_coding M_levels M_estim.
From Coq Require Import Reals.
Open Scope Z_scope.

(** np.sum, np.dot, np.mean; [u[i]]; [A @ x]; [A.T]; dot product of two vectors of length [m]; [u - t * v]. *)
Definition sumR (l : list R) : R := fold_right Rplus 0%R l.
Definition dotR (u v : list R) : R := sumR (map2 Rmult u v).
Definition meanR (l : list R) : R := (sumR l / IZR (Z.of_nat (length l)))%R.
Definition vec_atR (u : list R) (i : nat) : R := nth i u 0%R.
Definition matvecR (a : list (list R)) (x : list R) : list R := map (fun row => dotR row x) a.
Definition transposeR (n : nat) (a : list (list R)) : list (list R) := map (fun j => map (fun row => vec_atR row j) a) (seq 0 n).
Definition dot_toR (m : nat) (u v : list R) : R := sumR (map (fun i => (vec_atR u i * vec_atR v i)%R) (seq 0 m)).
Definition axpyR (m : nat) (u : list R) (t : R) (v : list R) : list R := map (fun i => (vec_atR u i - t * vec_atR v i)%R) (seq 0 m).
(** np.argmax, np.max: the first largest entry; ValueError when empty. *)
Fixpoint argmaxR_from (best : R) (bi i : nat) (l : list R) : nat :=
  match l with
  | [] => bi
  | x :: l' => if Rlt_dec best x then argmaxR_from x i (S i) l' else argmaxR_from best bi (S i) l'
  end.
Definition argmaxR (l : list R) : res nat := match l with [] => Raise ValueError | x :: l' => Ok (argmaxR_from x 0 1 l') end.
Definition maxR (l : list R) : res R := k <- argmaxR l ;; Ok (vec_atR l k).
(** np.linalg.lstsq, see [M_estim.lstsq]. *)
Fixpoint combR (m : nat) (cols : list (list R)) (x : list R) : list R :=
  match cols with
  | [] => repeat 0%R m
  | a :: cols => axpyR m (combR m cols (tl x)) (- vec_atR x 0)%R a
  end.
Fixpoint projectR (m : nat) (cols : list (list R)) (b : list R) : list R :=
  match cols with
  | [] => []
  | a :: cols =>
      let ra := axpyR m a 1%R (combR m cols (projectR m cols a)) in
      let t := if Req_EM_T (dot_toR m ra ra) 0%R then 0%R else (dot_toR m b ra / dot_toR m ra ra)%R in
      t :: projectR m cols (axpyR m b t a)
  end.
Fixpoint rankR (m : nat) (cols : list (list R)) : nat :=
  match cols with
  | [] => 0%nat
  | a :: cols => let ra := axpyR m a 1%R (combR m cols (projectR m cols a)) in
                 ((if Req_EM_T (dot_toR m ra ra) 0%R then 0 else 1) + rankR m cols)%nat
  end.
Definition ssrR (a : list (list R)) (x b : list R) : R := sumR (map (fun e => (e * e)%R) (map2 Rminus (matvecR a x) b)).
Definition lstsqR (n : nat) (a : list (list R)) (b : list R) : res (list R * list R) :=
  if negb (length a =? length b)%nat then Raise ValueError else
  let m := length a in
  let cols := transposeR n a in
  let x0 := projectR m cols b in
  let x := combR n a (projectR n a x0) in
  Ok (x, if (rankR m cols =? n)%nat && (n <? m)%nat then (ssrR a x b :: []) else []).
(** sklearn.linear_model.Ridge, see [M_estim.ridge_regression]. *)
Definition mean_of_colR (a : list (list R)) (j : nat) : R := meanR (map (fun row => vec_atR row j) a).
Definition centre_rowsR (n : nat) (a : list (list R)) : list (list R) := map (fun row => map (fun j => (vec_atR row j - mean_of_colR a j)%R) (seq 0 n)) a.
Definition centreR (b : list R) : list R := map (fun v => (v - meanR b)%R) b.
Definition gramR (n m : nat) (a : list (list R)) (alpha : R) : list (list R) :=
  let cols := transposeR n a in
  map (fun i => map (fun j => (dot_toR m (nth i cols []) (nth j cols []) + (if (i =? j)%nat then alpha else 0))%R) (seq 0 n)) (seq 0 n).
Definition ridge_solveR (n : nat) (a : list (list R)) (b : list R) (alpha : R) : list R :=
  let m := length a in
  projectR n (transposeR n (gramR n m a alpha)) (map (fun c => dot_toR m c b) (transposeR n a)).
Definition ridge_regressionR (n : nat) (a : list (list R)) (b : list R) (alpha : R) : res (list R * list R) :=
  if negb (length a =? length b)%nat || (length a =? 0)%nat then Raise ValueError else
  let x_hat := ridge_solveR n (centre_rowsR n a) (centreR b) alpha in
  Ok (x_hat, (ssrR a x_hat b :: [])).
(** least_squares.py:9-30; [lasso a b alpha] is any vector. *)
Definition least_squaresR (lasso : list (list R) -> list R -> R -> list R) (n : nat) (a : list (list R)) (b : list R)
    (regularization : regul) (reg_lambda : R) : res (list R * list R) :=
  match regularization with
  | RegNone => lstsqR n a b
  | RegRidge => ridge_regressionR n a b reg_lambda
  | RegLasso => if negb (length a =? length b)%nat || (length a =? 0)%nat then Raise ValueError else
                let x_hat := lasso a b reg_lambda in Ok (x_hat, (ssrR a x_hat b :: []))
  | RegOther => Raise ValueError
  end.
(** scipy.linalg.hankel, np.concatenate(axis=1), auxiliary.py:63-68 (power). *)
Definition hankelR (c r : list R) : list (list R) :=
  let vals := c ++ tl r in map (fun i => map (fun j => vec_atR vals (i + j)) (seq 0 (length r))) (seq 0 (length c)).
Definition hconcatR (a b : list (list R)) : res (list (list R)) :=
  if (length a =? length b)%nat then Ok (map2 (@app R) a b) else Raise ValueError.
Definition powerR (l : list R) : option R := match l with [] => None | _ => Some (meanR (map (fun v => (v * v)%R) l)) end.
Inductive tapsR := TapsR (l : list R) | NoTapsR | NotFiniteR.
Definition div_tapsR (l : list R) (g : R) : tapsR := if Req_EM_T g 0%R then NotFiniteR else TapsR (map (fun v => (v / g)%R) l).
Record estimateR := mk_estR { r_ffe : tapsR ; r_dfe : tapsR ; r_gain : R ; r_err : list R ; r_mse : option R }.
Definition mse_ratioR (err out : list R) : option R :=
  match powerR err, powerR out with
  | Some e, Some o => if Req_EM_T o 0%R then None else Some (e / o)%R
  | _, _ => None
  end.
(** equalization_estimation.py:98-160. *)
Definition equalization_estimation_R (lasso : list (list R) -> list R -> R -> list R) (reference_signal signal : list R)
    (ffe_postcursor ffe_precursor dfe_taps : nat) (normalize : bool) (regularization : regul) (reg_lambda : R) : res estimateR :=
  let postcursor_num := Nat.max ffe_postcursor dfe_taps in
  let chop_len := (postcursor_num + ffe_precursor + 1)%nat in
  let mat_row_num := Z.of_nat (length signal) - Z.of_nat chop_len in
  let signal_temp := skipn dfe_taps signal in
  let last_row := firstn (ffe_postcursor + ffe_precursor + 1) (rev signal_temp) in
  let ffe_mat := slice_to (hankelR signal_temp last_row) mat_row_num in
  let dfe_row := firstn dfe_taps (rev reference_signal) in
  mat_ffe_dfe <- (if (0 <? dfe_taps)%nat then
                    hconcatR ffe_mat (map (map Ropp) (slice_to (hankelR reference_signal dfe_row) mat_row_num))
                  else Ok ffe_mat) ;;
  let n := (length last_row + (if (0 <? dfe_taps)%nat then length dfe_row else 0))%nat in
  let skewed_ref := slice_from (slice_to reference_signal (Z.of_nat dfe_taps + mat_row_num)) (Z.of_nat dfe_taps) in
  ls_result <- match regularization with
               | RegNone => least_squaresR lasso n mat_ffe_dfe skewed_ref RegNone 0%R
               | r => if Rlt_dec 0%R reg_lambda then least_squaresR lasso n mat_ffe_dfe skewed_ref r reg_lambda
                      else least_squaresR lasso n mat_ffe_dfe skewed_ref RegNone 0%R
               end ;;
  let full_taps := rev (fst ls_result) in
  let ffe := skipn dfe_taps full_taps in
  dig_gain <- maxR ffe ;;
  let dfe := if (0 <? dfe_taps)%nat then Some (rev (slice_from (fst ls_result) (-1 * Z.of_nat dfe_taps))) else None in
  let ls_err := snd ls_result in
  let sig_out := matvecR mat_ffe_dfe (fst ls_result) in
  let err := map2 Rminus sig_out skewed_ref in
  let mse := mse_ratioR err sig_out in
  if normalize then
    match dfe with
    | None => Raise TypeError
    | Some d => Ok (mk_estR (div_tapsR ffe dig_gain) (div_tapsR d dig_gain) dig_gain ls_err mse)
    end
  else Ok (mk_estR (TapsR ffe) (match dfe with Some d => TapsR d | None => NoTapsR end) 1%R ls_err mse).

(** rx/lock_pattern.py:25-44, the aligned pattern and the correlation, see [M_lock.lock_pattern_to_signal]. *)
Definition correlate_validR (a v : list R) : list R :=
  if (length a =? 0)%nat || (length v =? 0)%nat then []
  else map (fun k => dotR (firstn (length v) (skipn k a)) v) (seq 0 (length a - length v + 1)).
Definition lock_pattern_to_signal_R (pattern signal : list R) : res (list R * list R) :=
  let pattern_len := length pattern in
  let data_len := length signal in
  let pattern_rep := tile 2 pattern in
  let signal_part := firstn (Nat.min pattern_len data_len) signal in
  let xcorr := correlate_validR pattern_rep signal_part in
  start_idx <- argmaxR xcorr ;;
  Ok (firstn pattern_len (skipn start_idx pattern_rep), xcorr).
(** auxiliary.py:29-49, get_levels with both values of full_scale. *)
Definition get_levels_R (c : constellation) (full_scale : bool) : list R := if full_scale then get_levels_fs c else map IZR (get_levels c).
(** The reference of both *_prbs functions (equalization_estimation.py:60-72, channel_estimation.py:49-60); the symbols are grouped with the number
    of levels, which does not depend on full_scale. *)
Definition prbs_coded_R (t : prbs_type) (c : constellation) (full_scale bit_order_inv pn_inv_precoding gray pn_inv_post : bool) : res (list R) :=
  let init_seed := repeat 1 (prbs_value t) in
  let prbs_len := 2 ^ Z.of_nat (length init_seed) - 1 in
  r <- prbs_generator (get_polynomial t) init_seed (2 * prbs_len) ;;
  prbsq <- bin2symbol (fst r) (Z.of_nat (length (get_levels_R c full_scale))) (mk_flags bit_order_inv false false pn_inv_precoding) ;;
  coded <- (if gray then coding_gray c (vec prbsq) else Ok (vec prbsq)) ;;
  m <- mapping Ropp (get_levels_R c full_scale) None pn_inv_post coded ;;
  Ok (data m).
Definition average_periodsR (n : nat) (signal : list R) : list R :=
  let reps := (length signal / n)%nat in
  map (fun i => meanR (map (fun k => vec_atR signal (k * n + i)) (seq 0 reps))) (seq 0 n).
(** equalization_estimation.py:57-97. *)
Definition equalization_estimation_prbs_R (lasso : list (list R) -> list R -> R -> list R) (t : prbs_type) (signal : list R) (c : constellation)
    (ffe_postcursor ffe_precursor dfe_taps : nat) (normalize : bool) (regularization : regul) (reg_lambda : R)
    (prbs_full_scale bit_order_inv pn_inv_precoding gray_coded pn_inv_postmapping : bool) : res estimateR :=
  let prbs_len := Z.to_nat (2 ^ Z.of_nat (prbs_value t) - 1) in
  let postcursor_num := Nat.max ffe_postcursor dfe_taps in
  pc <- prbs_coded_R t c prbs_full_scale bit_order_inv pn_inv_precoding gray_coded pn_inv_postmapping ;;
  al <- lock_pattern_to_signal_R pc signal ;;
  shifted <- np_take (fst al) (shift_idx postcursor_num prbs_len) ;;
  if (length signal / prbs_len =? 0)%nat then
    equalization_estimation_R lasso (firstn (length signal) shifted) signal ffe_postcursor ffe_precursor dfe_taps normalize regularization reg_lambda
  else
    equalization_estimation_R lasso shifted (average_periodsR prbs_len signal) ffe_postcursor ffe_precursor dfe_taps normalize regularization reg_lambda.
(** np.var. *)
Definition varR (l : list R) : R := meanR (map (fun v => (v - meanR l) * (v - meanR l))%R l).
(** channel_estimation.py:44-89. *)
Definition channel_estimation_prbs_R (t : prbs_type) (signal : list R) (c : constellation) (prbs_full_scale : bool) (channel_postcursor channel_precursor : nat) (normalize : bool)
    (bit_order_inv pn_inv_precoding gray_coding pn_inv_postcoding : bool) : res (option (tapsR * list R)) :=
  let prbs_len := Z.to_nat (2 ^ Z.of_nat (prbs_value t) - 1) in
  pc <- prbs_coded_R t c prbs_full_scale bit_order_inv pn_inv_precoding gray_coding false ;;
  al <- lock_pattern_to_signal_R pc signal ;;
  let w := (channel_postcursor + channel_precursor + 1)%nat in
  let aligned := fst al ++ firstn w (fst al) in
  let mean := average_periodsR prbs_len signal in
  if (length signal / prbs_len =? 0)%nat || (if Req_EM_T (varR mean) 0%R then true else false) then Ok None else
  taken <- np_take mean (shift_idx channel_postcursor prbs_len) ;;
  let signal_shift := map (fun v => (v / varR mean)%R) taken in
  let last_row := firstn w (rev aligned) in
  let partial_hankel := firstn prbs_len (hankelR aligned last_row) in
  ls_result <- lstsqR (length last_row) partial_hankel signal_shift ;;
  ch_est <- (if normalize then g <- maxR (fst ls_result) ;; Ok (div_tapsR (rev (fst ls_result)) g) else Ok (TapsR (rev (fst ls_result)))) ;;
  Ok (Some (ch_est, snd ls_result)).
