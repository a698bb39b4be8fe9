(** Model of the receiver of the example link after the CTLE: MappingData, AdcData, FfeDfeData
    (example_simulation/simulation_parts/data_objects.py:48-56, 81-132), Adc, FfeDfe and Receiver
    (simulation_parts/receiver.py:23-83, 155-265), the convergence control of FullLink (simulation_parts/full_link.py:
    24-29) and Simulation.perform_convergence (simulation_parts/simulation.py:29-48).
    The CTLE output chunks are inputs of the model (any sequence of them), so that transmitter, channel and CTLE are
    arbitrary.  Samples are exact rationals; levels are numpy arrays.  A nan (mean of an empty chunk, timing step of a
    one-sample chunk) ends the run as [Unmodelled].  In-place updates of arrays that the settings object shares with
    the receiver are modelled in M_share.v; records that are only plotted are not modelled. *)
From Coq Require Import String.
From Verif Require Import Py PyQ M_aux M_symbol M_slicer M_filter M_lms M_estim M_sim.
Import List.
Open Scope Z_scope.

(** data_objects.py:48-52, 55-56: levels given; np.max of an empty array raises ValueError.  All-zero levels (nan) are
    not modelled. *)
Record mapping_data := mk_md { md_constel : constellation ; md_levels : list Qc ; md_amp : Qc ; md_rx_factor : Qc }.
Definition max_abs (l : list Qc) : Qc := fold_right (fun x m => if Qcleb m (Qcabs x) then Qcabs x else m) (ofZ 0) l.
Definition mapping_data_init (c : constellation) (levels : list Qc) (amp rx_factor : Qc) : outcome mapping_data :=
  match levels with
  | [] => Done (Raise ValueError)
  | _ => if Qceqb (max_abs levels) (ofZ 0) then Unmodelled
         else Done (Ok (mk_md c (map (fun l => l / max_abs levels * amp / ofZ 2)%Qc levels) amp rx_factor))
  end.

(** data_objects.py:53-54: without levels the standard ones are taken as they are; the amplitude is stored only. *)
Definition mapping_data_default (c : constellation) (amp rx_factor : Qc) : mapping_data := mk_md c (map ofZ (get_levels c)) amp rx_factor.

(** data_objects.py:81-88 and receiver.py:23-30 *)
Record adc_state := mk_adc { a_total : nat ; a_frac : Z ; a_type : string ; a_osr : Z ; a_rate : Z ; a_phase : Z }.
Definition adc_init (total : nat) (frac : Z) (ty : string) (osr rate : Z) (phase : option Z) : adc_state :=
  mk_adc total frac ty osr rate (match phase with None => osr / 2 | Some p => p end).
(** 2**k as a number *)
Definition pow2 (k : Z) : Qc := if 0 <=? k then ofZ (2 ^ k) else (ofZ 1 / ofZ (2 ^ (- k)))%Qc.
(** receiver.py:32-35 *)
Definition adc_call (a : adc_state) (signal_chunk : list Qc) : res (list Qc) :=
  if a_rate a =? 0 then Raise ZeroDivisionError else
  idx <- arange (a_phase a) (Z.of_nat (length signal_chunk)) (a_osr a / a_rate a) ;;
  sampled <- np_take signal_chunk idx ;;
  out <- quantize (Arr (vec sampled)) (a_total a) 0 (a_type a) ;;
  Ok (map (fun v => v / pow2 (a_frac a))%Qc (data out)).

(** data_objects.py:90-132 and receiver.py:37-49 *)
Record eq_state := mk_eq {
  e_pre : nat ; e_post : nat ; e_dfe : nat ; e_levels : option (list Qc) ;
  e_ffe_vec : list Qc ; e_dfe_vec : list Qc ; e_zi_ffe : list Qc ; e_zi_dfe : list Qc }.
Definition unit_tap (pre post : nat) : list Qc := repeat (ofZ 0) pre ++ ofZ 1 :: repeat (ofZ 0) post.
(** A vector given by the caller must have [n] entries; [d] is used when there is none. *)
Definition checked (given : option (list Qc)) (n : nat) (d : list Qc) : res (list Qc) :=
  match given with None => Ok d | Some v => if (length v =? n)%nat then Ok v else Raise ValueError end.
Definition eq_init (pre post dfe : nat) (ffe_vec dfe_vec levels zi_ffe zi_dfe : option (list Qc)) : res eq_state :=
  f <- checked ffe_vec (pre + post + 1) (unit_tap pre post) ;;
  d <- checked dfe_vec dfe (repeat (ofZ 0) dfe) ;;
  if (0 <? length d)%nat && match levels with None => true | _ => false end then Raise ValueError else
  zf <- checked zi_ffe (pre + post + 1) (repeat (ofZ 0) (pre + post + 1)) ;;
  zd <- checked zi_dfe dfe (repeat (ofZ 0) dfe) ;;
  Ok (mk_eq pre post dfe levels f d zf zd).
(** receiver.py:51-61 *)
Definition set_ffe (e : eq_state) (v : list Qc) : res eq_state :=
  if (length v =? length (e_ffe_vec e))%nat then Ok (mk_eq (e_pre e) (e_post e) (e_dfe e) (e_levels e) v (e_dfe_vec e) (e_zi_ffe e) (e_zi_dfe e))
  else Raise ValueError.
Definition set_dfe (e : eq_state) (v : list Qc) : res eq_state :=
  if (length v =? e_dfe e)%nat then Ok (mk_eq (e_pre e) (e_post e) (e_dfe e) (e_levels e) (e_ffe_vec e) v (e_zi_ffe e) (e_zi_dfe e))
  else Raise ValueError.
Definition with_memory (e : eq_state) (zf zd : list Qc) : eq_state :=
  mk_eq (e_pre e) (e_post e) (e_dfe e) (e_levels e) (e_ffe_vec e) (e_dfe_vec e) zf zd.
(** receiver.py:63-83.  ffe_dfe returns a tuple of another size only if the number of unpacked names does not fit:
    ValueError. *)
Definition eq_call (e : eq_state) (chunk : list Qc) : res (list Qc * eq_state) :=
  let dfe_vec := if (e_dfe e =? 0)%nat then None else Some (e_dfe_vec e) in
  if (length (e_ffe_vec e) =? 1)%nat && (e_dfe e =? 0)%nat then
    r <- ffe_dfe chunk (e_ffe_vec e) dfe_vec (e_levels e) 1 0 None None ;;
    match r with OutSignal s => Ok (s, e) | _ => Raise ValueError end
  else if (length (e_ffe_vec e) =? 1)%nat then
    r <- ffe_dfe chunk (e_ffe_vec e) dfe_vec (e_levels e) 1 0 None (Some (e_zi_dfe e)) ;;
    match r with OutDfe s zd => Ok (s, with_memory e (e_zi_ffe e) zd) | _ => Raise ValueError end
  else if (e_dfe e =? 0)%nat then
    r <- ffe_dfe chunk (e_ffe_vec e) dfe_vec (e_levels e) 1 0 (Some (e_zi_ffe e)) None ;;
    match r with OutFfe s zf => Ok (s, with_memory e zf (e_zi_dfe e)) | _ => Raise ValueError end
  else
    r <- ffe_dfe chunk (e_ffe_vec e) dfe_vec (e_levels e) 1 0 (Some (e_zi_ffe e)) (Some (e_zi_dfe e)) ;;
    match r with OutBoth s zf zd => Ok (s, with_memory e zf zd) | _ => Raise ValueError end.

(** receiver.py:155-193: what the control loop reads or writes. *)
Record receiver := mk_rx {
  rx_adc : adc_state ; rx_eq : eq_state ; rx_gain : Qc ; rx_constel : constellation ; rx_levels : list Qc ; rx_cd : coding_data ;
  rx_adc_out : list Qc ; rx_adc_last : list Qc ; rx_slicer_in : list Qc ; rx_slicer_out : list Qc ;
  rx_mse : option Qc ;
  rx_converge : bool ; rx_conv_lms : bool ; rx_conv_cdr : bool ; rx_done : bool ;
  rx_lr : Qc ; rx_phase : Z ; rx_max_phase : Z }.
Definition rx_level_vec (m : mapping_data) : list Qc := map (fun l => l * ofZ 2 / md_amp m * md_rx_factor m)%Qc (md_levels m).
Definition receiver_init (osr : Z) (a : adc_state) (e : eq_state) (m : mapping_data) (cd : coding_data) (lr gain : Qc) : receiver :=
  mk_rx a e gain (md_constel m) (rx_level_vec m) cd [ofZ 0] [ofZ 0] [ofZ 0] [ofZ 0] (Some (ofZ 1000)) false false false false lr (a_phase a) osr.
(** receiver.py:195-199, from the CTLE output on *)
Definition input_stage (r : receiver) (ctle_out : list Qc) : res receiver :=
  out <- adc_call (rx_adc r) ctle_out ;;
  Ok (mk_rx (rx_adc r) (rx_eq r) (rx_gain r) (rx_constel r) (rx_levels r) (rx_cd r) out (rx_adc_out r) (rx_slicer_in r) (rx_slicer_out r)
     (rx_mse r) (rx_converge r) (rx_conv_lms r) (rx_conv_cdr r) (rx_done r) (rx_lr r) (rx_phase r) (rx_max_phase r)).
(** receiver.py:207-211 *)
Definition adc_vec (r : receiver) : list Qc :=
  let delay := Z.of_nat (e_pre (rx_eq r)) in
  if 0 <? delay then slice_from (rx_adc_last r) (-1 * delay) ++ slice_to (rx_adc_out r) (-1 * delay) else rx_adc_out r.
(** The function called on line 239: loss and the two gradients. *)
Definition lms_fun := list Qc -> list Qc -> list Qc -> list Z -> list Z -> res (option Qc * list Qc * list Qc).
(** The names found in CommDspy.rx: those imported by CommDspy/rx/__init__.py:1-12 and the modules of the package. *)
Definition rx_names : list string :=
  ["slicer"; "demapping"; "decoding_gray"; "decoding_differential"; "decoding_manchester"; "decoding_bipolar"; "decoding_mlt3";
   "decoding_differential_manchester"; "decoding_linear"; "decoding_conv_ml"; "decoding_conv_viterbi"; "symbol2bin";
   "lock_pattern_to_signal_binary"; "lock_pattern_to_signal"; "prbs_checker"; "prbs_checker_econ"; "get_ctle_filter"; "ctle";
   "ffe_dfe"; "quantize"; "ddlms_grad"; "soft_ddlms_grad"; "mueller_muller_step";
   "decoding"; "lock_pattern"; "checker"; "ctle_model"; "ffe_dfe_model"; "quantiztion"; "least_mean_squares"; "clock_data_recovery"]%string.
(** The attribute [name] of CommDspy.rx, bound to [f] if it exists. *)
Definition rx_attr {A} (name : string) (f : A) : option A := if existsb (String.eqb name) rx_names then Some f else None.
(** receiver.py:201-252, the part before the control loop *)
Definition slice_stage (r : receiver) : res receiver :=
  o <- eq_call (rx_eq r) (rx_adc_out r) ;;
  let sin := map (fun v => rx_gain r * v)%Qc (fst o) in
  sout <- slicer (Arr (vec sin)) (Some (rx_levels r)) ;;
  Ok (mk_rx (rx_adc r) (snd o) (rx_gain r) (rx_constel r) (rx_levels r) (rx_cd r) (rx_adc_out r) (rx_adc_last r) sin (data sout)
     (rx_mse r) (rx_converge r) (rx_conv_lms r) (rx_conv_cdr r) (rx_done r) (rx_lr r) (rx_phase r) (rx_max_phase r)).
(** Lines 215-216 *)
Definition gain_stage (r : receiver) : outcome receiver :=
  match power (rx_levels r), power (rx_slicer_in r) with
  | Some pl, Some ps =>
    Done (Ok (mk_rx (rx_adc r) (rx_eq r) (rx_gain r + ofZ 100 * rx_lr r * (pl - ps))%Qc (rx_constel r) (rx_levels r) (rx_cd r) (rx_adc_out r) (rx_adc_last r)
       (rx_slicer_in r) (rx_slicer_out r) (rx_mse r) (rx_converge r) (rx_conv_lms r) (rx_conv_cdr r) (rx_done r) (rx_lr r) (rx_phase r) (rx_max_phase r)))
  | _, _ => Unmodelled
  end.
(** Lines 222-234; the default osr 0 makes the modulo raise ZeroDivisionError. *)
Definition cdr_stage (r : receiver) : outcome receiver :=
  if rx_conv_cdr r then
    obind (Done (mueller_muller_step (adc_vec r) (rx_slicer_out r) (ofZ 1) (ofZ 1) (ofZ 1 / ofZ 1000)%Qc)) (fun s =>
    match s with
    | None => Unmodelled
    | Some mm_step =>
      if rx_max_phase r =? 0 then Done (Raise ZeroDivisionError) else
      let ph := (rx_phase r + mm_step) mod rx_max_phase r in
      let a := rx_adc r in
      Done (Ok (mk_rx (mk_adc (a_total a) (a_frac a) (a_type a) (a_osr a) (a_rate a) ph) (rx_eq r) (rx_gain r) (rx_constel r) (rx_levels r) (rx_cd r)
         (rx_adc_out r) (rx_adc_last r) (rx_slicer_in r) (rx_slicer_out r) (rx_mse r) (rx_converge r) (rx_conv_lms r)
         (if mm_step =? 0 then false else rx_conv_cdr r) (rx_done r) (rx_lr r) ph (rx_max_phase r)))
    end)
  else Done (Ok r).
(** Lines 238-249.  The loss is stored before it is compared with the stored one; [abs(nan - nan) > th] is false too. *)
Definition mse_moved (mse last : option Qc) : bool :=
  match mse, last with Some a, Some b => Qcltb (ofZ 1 / ofZ 100)%Qc (Qcabs (a - b))%Qc | _, _ => false end.
Definition lms_stage (lms_grad : option lms_fun) (r : receiver) : res receiver :=
  if rx_conv_lms r then
    match lms_grad with
    | None => Raise AttributeError
    | Some f =>
      let e := rx_eq r in
      ffe_idx <- arange (-1 * Z.of_nat (e_pre e)) (Z.of_nat (e_post e) + 1) 1 ;;
      dfe_idx <- arange 1 (Z.of_nat (e_dfe e) + 1) 1 ;;
      g <- f (adc_vec r) (map (fun v => rx_gain r * v)%Qc (rx_slicer_in r)) (rx_levels r) ffe_idx dfe_idx ;;
      let '(mse, gf, gd) := g in
      fv <- np_add (e_ffe_vec e) (map (fun v => ofZ (-1) * rx_lr r * v)%Qc gf) ;;
      dv <- np_add (e_dfe_vec e) (map (fun v => ofZ (-1) * rx_lr r * v)%Qc gd) ;;
      let last := mse in
      Ok (mk_rx (rx_adc r) (mk_eq (e_pre e) (e_post e) (e_dfe e) (e_levels e) fv dv (e_zi_ffe e) (e_zi_dfe e)) (rx_gain r) (rx_constel r) (rx_levels r) (rx_cd r)
         (rx_adc_out r) (rx_adc_last r) (rx_slicer_in r) (rx_slicer_out r) last (rx_converge r)
         (if mse_moved mse last then false else rx_conv_lms r) (rx_conv_cdr r) (rx_done r) (rx_lr r) (rx_phase r) (rx_max_phase r))
    end
  else Ok r.
(** Lines 250-252 *)
Definition finish_stage (r : receiver) : receiver :=
  if negb (rx_conv_cdr r) && negb (rx_conv_lms r) then
    mk_rx (rx_adc r) (rx_eq r) (rx_gain r) (rx_constel r) (rx_levels r) (rx_cd r) (rx_adc_out r) (rx_adc_last r) (rx_slicer_in r) (rx_slicer_out r)
      (rx_mse r) false (rx_conv_lms r) (rx_conv_cdr r) true (rx_lr r) (rx_phase r) (rx_max_phase r)
  else r.
Definition digital_stage (lms_grad : option lms_fun) (r : receiver) : outcome receiver :=
  obind (Done (slice_stage r)) (fun r =>
  if rx_converge r then
    obind (gain_stage r) (fun r => obind (cdr_stage r) (fun r => obind (Done (lms_stage lms_grad r)) (fun r => Done (Ok (finish_stage r)))))
  else Done (Ok r)).
(** receiver.py:254-259 (pn_inv is False, the caller's array is left alone) *)
Definition extract_data (r : receiver) : outcome (list Q) :=
  obind (Done (fst (demapping (rx_constel r) false (mk_nda [length (rx_slicer_out r)] (map this (rx_slicer_out r)))))) (fun d => decoder (rx_cd r) (data d)).
(** receiver.py:261-265 *)
Definition receive (lms_grad : option lms_fun) (r : receiver) (ctle_out : list Qc) : outcome (receiver * list Q) :=
  obind (Done (input_stage r ctle_out)) (fun r => obind (digital_stage lms_grad r) (fun r => obind (extract_data r) (fun d => Done (Ok (r, d))))).
(** full_link.py:24-29 (the two lists are never read) *)
Definition start_convergence (r : receiver) : receiver :=
  mk_rx (rx_adc r) (rx_eq r) (rx_gain r) (rx_constel r) (rx_levels r) (rx_cd r) (rx_adc_out r) (rx_adc_last r) (rx_slicer_in r) (rx_slicer_out r)
    (rx_mse r) true true true (rx_done r) (rx_lr r) (rx_phase r) (rx_max_phase r).
(** simulation.py:34-48: at most [k] turns of the loop, turn [i] receiving the CTLE output [c i]. *)
Inductive run := Finished (r : receiver) | Running (r : receiver) | Failed (e : exn) | Outside.
Fixpoint converge_loop (lms_grad : option lms_fun) (k : nat) (c : nat -> list Qc) (i : nat) (r : receiver) : run :=
  if rx_done r then Finished r else
  match k with
  | O => Running r
  | S k' => match receive lms_grad r (c i) with
            | Done (Ok (r', _)) => converge_loop lms_grad k' c (S i) r'
            | Done (Raise e) => Failed e
            | Unmodelled => Outside
            end
  end.
(** simulation.py:29-48 *)
Definition perform_convergence (lms_grad : option lms_fun) (k : nat) (c : nat -> list Qc) (r : receiver) : run :=
  match receive lms_grad r (c 0%nat) with
  | Done (Ok (r', _)) => converge_loop lms_grad k c 1 (start_convergence r')
  | Done (Raise e) => Failed e
  | Unmodelled => Outside
  end.

(** transmitter.py:104-110: the mapped chunk of a pattern chunk (the pattern source is modelled in M_simcheck.v). *)
Definition transmit (cd : coding_data) (m : mapping_data) (pattern : list Z) : outcome (list Qc) :=
  obind (encoder cd pattern) (fun s =>
  Done (r <- mapping Qcopp (map ofZ (get_levels (md_constel m))) (Some (md_levels m)) false (vec s) ;; Ok (data r))).
