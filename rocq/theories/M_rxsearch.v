(** Model of the receivers which search the sampling phase, in test/example_scripts/example_runs.py (rx_example, rx_example2) and README.md:
    the part behind the CTLE and the ADC, over the reals.  The three copies of the search are one definition with the settings as parameters. *)
From Verif Require Import Py M_aux M_prbs M_estim M_estimfs.
From Coq Require Import Reals.
Open Scope Z_scope.

Definition Reqb (x y : R) : bool := if Req_EM_T x y then true else false.
(** scipy.signal.lfilter(b, 1, x) (exact arithmetic, zero initial state). *)
Definition firR (b x : list R) : list R :=
  map (fun n => sumR (map (fun i => if (i <=? n)%nat then (vec_atR b i * vec_atR x (n - i))%R else 0%R) (seq 0 (length b)))) (seq 0 (length x)).
(** np.array.T of a matrix with [n] columns. *)
Definition columnsR (n : Z) (mat : list (list R)) : list (list R) := map (fun i => map (fun row => vec_atR row i) mat) (seq 0 (Z.to_nat n)).
(** What the loop keeps; [None] is float('inf'). *)
Record found := mk_found { fd_ffe : tapsR ; fd_dfe : tapsR ; fd_err : option R ; fd_phase : Z }.
(** [cand[-1] < err].  The mse is 10 log10 of the ratio [r_mse], which is increasing (-inf at 0); [None] there stands for nan or inf, which are never below. *)
Definition below (mse err : option R) : bool :=
  match mse, err with
  | None, _ => false
  | Some _, None => true
  | Some x, Some y => if Rlt_dec x y then true else false
  end.
(** example_runs.py:175-193 and 283-305, README.md:315-337: one pass of the loop, and the loop. *)
Definition consider (ii : nat) (cand : estimateR) (best : found) : found :=
  if below (r_mse cand) (fd_err best) then mk_found (r_ffe cand) (r_dfe cand) (r_mse cand) (Z.of_nat ii) else best.
Fixpoint search_loop (estimate : list R -> res estimateR) (cols : list (list R)) (ii : nat) (best : found) : res found :=
  match cols with
  | [] => Ok best
  | sampled_phase_data :: cols => cand <- estimate sampled_phase_data ;; search_loop estimate cols (S ii) (consider ii cand best)
  end.
Record settings := mk_set { st_prbs : prbs_type ; st_const : constellation ; st_full_scale : bool ; st_osr : Z ; st_post : nat ; st_pre : nat ; st_dfe : nat }.
Definition st_ffe_len (st : settings) : nat := (st_post st + st_pre st + 1)%nat.
(** The call of equalization_estimation_prbs: normalize=False, default regularisation, all flags False. *)
Definition st_estimate (lasso : list (list R) -> list R -> R -> list R) (st : settings) (s : list R) : res estimateR :=
  equalization_estimation_prbs_R lasso (st_prbs st) s (st_const st) (st_post st) (st_pre st) (st_dfe st) false RegNone 0%R (st_full_scale st) false false false false.
Definition phase_search (lasso : list (list R) -> list R -> R -> list R) (st : settings) (x : list R) : res (list (list R) * found) :=
  mat <- buffer 0%R Reqb x (st_osr st) 0 0 false ;;
  best <- search_loop (st_estimate lasso st) (columnsR (st_osr st) mat) 0
            (mk_found (TapsR (repeat 0%R (st_ffe_len st))) (TapsR (repeat 0%R (st_dfe st))) None (-1)) ;;
  Ok (columnsR (st_osr st) mat, best).
(** The taps as an array (normalize=False never divides; without feedback taps rx_dfe becomes None and is not read). *)
Definition tap_list (t : tapsR) : list R := match t with TapsR l => l | _ => [] end.
(** rx_example, example_runs.py:172-215 (settings with dfe_taps = 0); the eye diagrams are left out, as is rx_ffe_out_ui, which is not used. *)
Definition rx_example (lasso : list (list R) -> list R -> R -> list R) (st : settings) (ctle_out : list R) : res (list R) :=
  r <- phase_search lasso st ctle_out ;;
  let '(_, best) := r in
  rx_ffe_ups <- upsample 0%R (tap_list (fd_ffe best)) (st_osr st) ;;
  let rx_ffe_out := skipn (st_ffe_len st * Z.to_nat (st_osr st)) (firR rx_ffe_ups ctle_out) in
  rx_ffe_out_mat <- buffer 0%R Reqb rx_ffe_out (st_osr st) 0 0 false ;;
  map_res (fun row => np_get row (fd_phase best)) rx_ffe_out_mat.

(** slicer.py:28-36 on one value: the first nearest level. *)
Fixpoint argminR_from (best : R) (bi i : nat) (l : list R) : nat :=
  match l with
  | [] => bi
  | x :: l' => if Rlt_dec x best then argminR_from x i (S i) l' else argminR_from best bi (S i) l'
  end.
Definition slice_oneR (levels : list R) (x : R) : res R :=
  match map (fun l => Rabs (x - l)) levels with
  | [] => Raise ValueError
  | d :: ds => Ok (vec_atR levels (argminR_from d 0 1 ds))
  end.
Definition np_dotR (u v : list R) : res R := if (length u =? length v)%nat then Ok (dotR u v) else Raise ValueError.
(** ffe_dfe_model.py:83-106 with osr = 1 and phase = 0: the loop over the rows of the buffer; the value decided at [ii] is fed back at once. *)
Fixpoint ffe_dfe_loopR (ffe_taps dfe_taps levels : list R) (rows : list (list R)) (mem : list R) : res (list R) :=
  match rows with
  | [] => Ok []
  | row :: rows =>
    ffe <- np_dotR row (rev ffe_taps) ;;
    dfe <- np_dotR mem dfe_taps ;;
    let x := (ffe - dfe)%R in
    d <- slice_oneR levels x ;;
    rest <- ffe_dfe_loopR ffe_taps dfe_taps levels rows (if (1 <? length dfe_taps)%nat then d :: slice_to mem (-1) else d :: []) ;;
    Ok (x :: rest)
  end.
(** ffe_dfe_model.py:57-110, slicer_in, for dfe_taps given, osr = 1, phase = 0, no initial memory. *)
Definition ffe_dfe_R (input_signal ffe_taps dfe_taps levels : list R) : res (list R) :=
  if (length ffe_taps =? 0)%nat then Raise ValueError else
  rows <- buffer 0%R Reqb (repeat 0%R (length ffe_taps - 1) ++ input_signal) (Z.of_nat (length ffe_taps)) (Z.of_nat (length ffe_taps) - 1) 0 false ;;
  ffe_dfe_loopR ffe_taps dfe_taps levels rows (repeat 0%R (length dfe_taps)).
(** rx_example2, example_runs.py:282-338 (dfe_taps > 0), from the ADC on.  The oversampled equaliser (lines 309-312) runs on ctle_out and only feeds
    the eye diagram; it is left out. *)
Definition rx_example2 (lasso : list (list R) -> list R -> R -> list R) (st : settings) (adc_out : list R) : res (list R) :=
  r <- phase_search lasso st adc_out ;;
  let '(cols, best) := r in
  col <- np_get cols (fd_phase best) ;;
  y <- ffe_dfe_R col (tap_list (fd_ffe best)) (tap_list (fd_dfe best)) (get_levels_R (st_const st) (st_full_scale st)) ;;
  Ok (skipn (length (tap_list (fd_ffe best))) y).
