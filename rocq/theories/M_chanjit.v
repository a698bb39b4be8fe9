(** Model of the Channel object of the example with random jitter (example_simulation/simulation_parts/channel.py:17, 35-54 with
    pulse_rj_sigma of ChannelData, data_objects.py:70) and of the link with such a channel (full_link.py:31-41).  M_link.v has
    the same without jitter.  In call [i] the draws for the jitter are [jit i], those for the noise [normal i]. *)
From Coq Require Import Reals String.
From Verif Require Import Py PyQ M_sim M_simcheck M_rxloop M_channel M_jitter M_link.
Import List.
Open Scope R_scope.

(** channel.py:35-54; [sigma] is self.pulse_rj_sigma. *)
Definition channel_call_rj (sigma : R) (c : channel) (signal_chunk : list R) (jit normal : nat -> R) : channel * res (option (list (option R))) :=
  match pulse_shape_rj signal_chunk (ch_osr c) (ch_span c) (ch_pulse c) (ch_rolloff c) sigma jit (Some (ch_pulse_zi c)) with
  | Raise e => (c, Raise e)
  | Ok (pulse_out, pz) =>
    let c := ch_with c pz (ch_zi c) in
    if (ch_type c =? "pulse")%string then (c, Ok (Some (map Some pulse_out)))
    else if (ch_type c =? "awgn")%string then
      (c, match ch_snr c with Some snr => Ok (Some (awgn pulse_out snr normal)) | None => Raise TypeError end)
    else if (ch_type c =? "isi_awgn")%string then
      match ch_iir c with
      | None => (c, Raise TypeError)
      | Some a =>
        match awgn_channel pulse_out (ch_fir c) (AList a) (ch_snr c) (Some (ch_zi c)) normal with
        | Ok (out, z) => (ch_with c pz z, Ok (Some out))
        | Raise e => (c, Raise e)
        end
      end
    else (c, Ok None)
  end.
(** A history of calls; it ends with the first exception. *)
Fixpoint channel_calls_rj (sigma : R) (c : channel) (chunks : list (list R)) (jit normal : nat -> nat -> R) : channel * res (list (option (list (option R)))) :=
  match chunks with
  | [] => (c, Ok [])
  | x :: xs => match channel_call_rj sigma c x (jit 0%nat) (normal 0%nat) with
               | (c1, Ok y) => match channel_calls_rj sigma c1 xs (fun i => jit (S i)) (fun i => normal (S i)) with (c2, Ok ys) => (c2, Ok (y :: ys)) | (c2, Raise e) => (c2, Raise e) end
               | (c1, Raise e) => (c1, Raise e)
               end
  end.
(** full_link.py:31-41, see [full_link_call] in M_link.v. *)
Definition full_link_call_rj (sigma : R) (lms : option lms_fun) (l : full_link) (jit normal : nat -> R) : outcome (full_link * list Z * list Q) :=
  match prbs_gen_next (fl_gen l) with
  | (_, Raise e) => Done (Raise e)
  | (g, Ok bits) =>
    obind (transmit (fl_cd l) (fl_md l) bits) (fun tx =>
    match channel_call_rj sigma (fl_ch l) (map Qc2R tx) jit normal with
    | (_, Raise e) => Done (Raise e)
    | (_, Ok None) => Unmodelled
    | (ch, Ok (Some out)) =>
      match all_numbers out with
      | None => Unmodelled
      | Some x =>
        obind (Done (ctle_call (fl_ctle l) x)) (fun c =>
        match c with
        | None => Unmodelled
        | Some (ct, y) =>
          obind (Done (adc_callR (rx_adc (fl_rx l)) y)) (fun ad =>
          obind (digital_stage lms (with_adc_out (fl_rx l) ad)) (fun r =>
          obind (extract_data r) (fun d => Done (Ok (mk_link g (fl_cd l) (fl_md l) ch ct r, bits, d)))))
        end)
      end
    end)
  end.
Fixpoint full_link_run_rj (sigma : R) (lms : option lms_fun) (n : nat) (l : full_link) (jit normal : nat -> nat -> R) : outcome (full_link * list (list Z) * list (list Q)) :=
  match n with
  | O => Done (Ok (l, [], []))
  | S n => obind (full_link_call_rj sigma lms l (jit 0%nat) (normal 0%nat)) (fun p =>
           let '(l1, b, d) := p in
           obind (full_link_run_rj sigma lms n l1 (fun i => jit (S i)) (fun i => normal (S i))) (fun q => let '(l2, bs, ds) := q in Done (Ok (l2, b :: bs, d :: ds))))
  end.
