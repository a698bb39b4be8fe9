(** Model of the analog part of the example link and of the whole link: ChannelData and CtleData
    (example_simulation/simulation_parts/data_objects.py:58-79), Channel (simulation_parts/channel.py:4-54), Ctle and the
    input stage of Receiver (simulation_parts/receiver.py:4-21, 32-35, 195-199), Transmitter (simulation_parts/
    transmitter.py:92-113) and FullLink (simulation_parts/full_link.py:5-41).  Analog samples are real numbers, what the
    ADC hands on are rationals, like in M_rxloop.v.  Random jitter of the pulse shaping (pulse_rj_sigma) is zero here
    and modelled in M_chanjit.v.
    The draws of the random generator in call [i] are [normal i]. *)
From Coq Require Import Reals String Qreals.
From Verif Require Import Py PyQ M_aux M_symbol M_slicer M_prbs M_delay M_soft M_channel M_ctle M_sim M_simcheck M_rxloop.
Import List.
Open Scope R_scope.

(** data_objects.py:58-70, with the coefficients lists or arrays.  Line 64 tests [iir_coefs] but stores [fir_coefs]. *)
Record channel_data := mk_chd {
  chd_pulse : string ; chd_span : Z ; chd_rolloff : R ; chd_type : string ; chd_fir : list R ; chd_iir : option (list R) ;
  chd_osr : Z ; chd_snr : option R ; chd_pulse_zi : option (list R) ; chd_zi : option (list R) }.
Definition channel_data_init (pulse : string) (span : Z) (ty : string) (fir iir : option (list R)) (rolloff : R) (osr : Z) (snr : option R)
  (pulse_zi zi : option (list R)) : channel_data :=
  mk_chd pulse span rolloff ty (match fir with None => [1] | Some b => b end) (match iir with None => Some [1] | Some _ => fir end) osr snr pulse_zi zi.
(** channel.py:5-33; np.zeros of a negative length raises ValueError. *)
Record channel := mk_ch {
  ch_pulse : string ; ch_span : Z ; ch_rolloff : R ; ch_type : string ; ch_fir : list R ; ch_iir : option (list R) ;
  ch_osr : Z ; ch_snr : option R ; ch_pulse_zi : list R ; ch_zi : list R }.
Definition np_zerosR (n : Z) : res (list R) := if (n <? 0)%Z then Raise ValueError else Ok (repeat 0 (Z.to_nat n)).
Definition channel_init (d : channel_data) : res channel :=
  zi <- match chd_zi d with
        | None => np_zerosR (Z.of_nat (Nat.max (match chd_iir d with Some a => length a | None => 1%nat end) (length (chd_fir d))) - 1)
        | Some z => Ok z
        end ;;
  pz <- match chd_pulse_zi d with
        | None => np_zerosR (chd_span d * chd_osr d * 2 - 1)
        | Some z => Ok z
        end ;;
  Ok (mk_ch (chd_pulse d) (chd_span d) (chd_rolloff d) (chd_type d) (chd_fir d) (chd_iir d) (chd_osr d) (chd_snr d) pz zi).
Definition ch_with (c : channel) (pz zi : list R) : channel :=
  mk_ch (ch_pulse c) (ch_span c) (ch_rolloff c) (ch_type c) (ch_fir c) (ch_iir c) (ch_osr c) (ch_snr c) pz zi.
(** channel.py:35-54: the new object and what is returned; an unknown type falls off the end and returns None.  lfilter
    with the denominator None divides by None: TypeError.  [awgn] without an snr (None / 10) raises TypeError too. *)
Definition channel_call (c : channel) (signal_chunk : list R) (normal : nat -> R) : channel * res (option (list num)) :=
  match pulse_shape signal_chunk (ch_osr c) (ch_span c) (ch_pulse c) (ch_rolloff c) (Some (ch_pulse_zi c)) with
  | Raise e => (c, Raise e)
  | Ok (pulse_out, pz) =>
    let c := ch_with c pz (ch_zi c) in
    if (ch_type c =? "pulse")%string then (c, Ok (Some (map Some pulse_out)))
    else if (ch_type c =? "awgn")%string then
      (c, match ch_snr c with Some snr => Ok (Some (awgn pulse_out snr normal)) | None => Raise TypeError end)
    else if (ch_type c =? "isi_awgn")%string then
      match ch_iir c with
      | None => (c, Raise TypeError)
      | Some a =>
        match awgn_channel pulse_out (ch_fir c) (AList a) (ch_snr c) (Some (ch_zi c)) normal with
        | Ok (out, z) => (ch_with c pz z, Ok (Some out))
        | Raise e => (c, Raise e)
        end
      end
    else (c, Ok None)
  end.
(** A history of calls; it ends with the first exception. *)
Fixpoint channel_calls (c : channel) (chunks : list (list R)) (normal : nat -> nat -> R) : channel * res (list (option (list num))) :=
  match chunks with
  | [] => (c, Ok [])
  | x :: xs => match channel_call c x (normal 0%nat) with
               | (c1, Ok y) => match channel_calls c1 xs (fun i => normal (S i)) with (c2, Ok ys) => (c2, Ok (y :: ys)) | (c2, Raise e) => (c2, Raise e) end
               | (c1, Raise e) => (c1, Raise e)
               end
  end.

(** data_objects.py:72-79, receiver.py:4-14 *)
Record ctle_obj := mk_ctle { ct_zeros : list R ; ct_poles : list R ; ct_gain : R ; ct_fs : R ; ct_osr : Z ; ct_zi : list R }.
Definition ctle_init (zeros poles : list R) (gain fs : R) (osr : Z) (zi : option (list R)) : ctle_obj :=
  mk_ctle zeros poles gain fs osr (match zi with None => repeat 0 (Nat.max (length zeros) (length poles)) | Some z => z end).
(** receiver.py:16-21; [None]: the filter is not finite (a frequency is zero). *)
Definition ctle_call (c : ctle_obj) (x : list R) : res (option (ctle_obj * list R)) :=
  r <- ctle x (ct_zeros c) (ct_poles c) (ct_gain c) (ct_fs c) (IZR (ct_osr c)) (Some (ct_zi c)) ;;
  Ok match r with
     | Some (CtleBoth y z) => Some (mk_ctle (ct_zeros c) (ct_poles c) (ct_gain c) (ct_fs c) (ct_osr c) z, y)
     | _ => None
     end.

(** receiver.py:32-35 on real samples: the sample is compared with the levels exactly; np.argmin takes the first of the
    nearest levels. *)
Definition Qc2R (x : Qc) : R := Q2R (this x).
Fixpoint argminR_from (best : R) (bi i : nat) (l : list R) : nat :=
  match l with [] => bi | x :: l => if Rlt_dec x best then argminR_from x i (S i) l else argminR_from best bi (S i) l end.
Definition nearest_indexR (levels : list Qc) (x : R) : nat :=
  match map (fun l => Rabs (x - Qc2R l)) levels with [] => 0%nat | d :: ds => argminR_from d 0 1 ds end.
Definition adc_callR (a : adc_state) (signal_chunk : list R) : res (list Qc) :=
  if (a_rate a =? 0)%Z then Raise ZeroDivisionError else
  idx <- arange (a_phase a) (Z.of_nat (length signal_chunk)) (a_osr a / a_rate a) ;;
  sampled <- np_take signal_chunk idx ;;
  levels <- quant_levels (a_total a) 0 (a_type a) ;;
  if (length levels =? 0)%nat then Raise ValueError else
  Ok (map (fun x => nth (nearest_indexR levels x) levels (ofZ 0) / pow2 (a_frac a))%Qc sampled).

(** receiver.py:195-199: [r] with a new ADC output, the old one kept. *)
Definition with_adc_out (r : receiver) (out : list Qc) : receiver :=
  mk_rx (rx_adc r) (rx_eq r) (rx_gain r) (rx_constel r) (rx_levels r) (rx_cd r) out (rx_adc_out r) (rx_slicer_in r) (rx_slicer_out r)
     (rx_mse r) (rx_converge r) (rx_conv_lms r) (rx_conv_cdr r) (rx_done r) (rx_lr r) (rx_phase r) (rx_max_phase r).

(** full_link.py:5-16, transmitter.py:92-96 *)
Record full_link := mk_link { fl_gen : prbs_gen ; fl_cd : coding_data ; fl_md : mapping_data ; fl_ch : channel ; fl_ctle : ctle_obj ; fl_rx : receiver }.
Definition full_link_init (pd : prbs_data) (cd : coding_data) (md : mapping_data) (chd : channel_data) (ct : ctle_obj) (a : adc_state) (e : eq_state) : res full_link :=
  ch <- channel_init chd ;;
  Ok (mk_link (prbs_gen_init pd) cd md ch ct (receiver_init (ct_osr ct) a e md cd (ofZ 1 / ofZ 1024)%Qc (ofZ 1))).
(** All samples of a chunk, if none is nan. *)
Fixpoint all_numbers (l : list num) : option (list R) :=
  match l with [] => Some [] | Some x :: l => match all_numbers l with Some l => Some (x :: l) | None => None end | None :: _ => None end.
(** full_link.py:31-41 with transmitter.py:104-113 and receiver.py:261-265.  The bits sent are part of the result (they
    are kept in Tx.prbs_chunk).  A nan, a channel that returns None, and a CTLE with a zero frequency are not modelled.
    A call that raises ends the history: the objects it leaves behind are not part of the result. *)
Definition full_link_call (lms : option lms_fun) (l : full_link) (normal : nat -> R) : outcome (full_link * list Z * list Q) :=
  match prbs_gen_next (fl_gen l) with
  | (_, Raise e) => Done (Raise e)
  | (g, Ok bits) =>
    obind (transmit (fl_cd l) (fl_md l) bits) (fun tx =>
    match channel_call (fl_ch l) (map Qc2R tx) normal with
    | (_, Raise e) => Done (Raise e)
    | (_, Ok None) => Unmodelled
    | (ch, Ok (Some out)) =>
      match all_numbers out with
      | None => Unmodelled
      | Some x =>
        obind (Done (ctle_call (fl_ctle l) x)) (fun c =>
        match c with
        | None => Unmodelled
        | Some (ct, y) =>
          obind (Done (adc_callR (rx_adc (fl_rx l)) y)) (fun ad =>
          obind (digital_stage lms (with_adc_out (fl_rx l) ad)) (fun r =>
          obind (extract_data r) (fun d => Done (Ok (mk_link g (fl_cd l) (fl_md l) ch ct r, bits, d)))))
        end)
      end
    end)
  end.
(** [n] calls of the link: the bits sent and the bits received, chunk by chunk. *)
Fixpoint full_link_run (lms : option lms_fun) (n : nat) (l : full_link) (normal : nat -> nat -> R) : outcome (full_link * list (list Z) * list (list Q)) :=
  match n with
  | O => Done (Ok (l, [], []))
  | S n => obind (full_link_call lms l (normal 0%nat)) (fun p =>
           let '(l1, b, d) := p in
           obind (full_link_run lms n l1 (fun i => normal (S i))) (fun q => let '(l2, bs, ds) := q in Done (Ok (l2, b :: bs, d :: ds))))
  end.
