(** Vocabulary for the statements about the whole example link with inter-symbol interference. *)
From Coq Require Import Reals String QArith Qcanon.
From Verif Require Import Py PyQ B_list M_aux M_symbol M_sim M_simcheck M_rxloop S_rxparts S_channel S_ctle M_ctle M_link S_link S_full.
Import List.
Open Scope R_scope.

(** Settings of a link: those of [link_settings] with the coefficients of the FIR channel and the taps of the FFE and
    the DFE; [is_main]: the delay in symbols at which the equalised response has its main tap. *)
Record isi_settings := mk_is { is_base : link_settings ; is_fir : list R ; is_ffe : list Qc ; is_dfe : list Qc ; is_main : nat }.
Definition is_link (t : isi_settings) : res full_link :=
  let s := is_base t in
  full_link_init (prbs_data_init (ls_prbs s) (ls_symbols s * ls_bits s) (ls_seed s)) (ls_cd s) (ls_map s)
    (channel_data_init (ls_pulse s) (Z.of_nat (ls_span s)) (ls_type s) (Some (is_fir t)) None (ls_rolloff s) (Z.of_nat (ls_osr s)) (ls_snr s) None None)
    (ctle_init (ls_zeros s) (ls_poles s) (ls_dc s) (ls_fs s) (Z.of_nat (ls_osr s)) None) (ls_adc s) (ls_eq s).
(** Any pulse, any sampling phase, any FIR channel, any CTLE design, any taps; the DFE decides on the receiver's levels. *)
Definition good_isi (t : isi_settings) : Prop :=
  let s := is_base t in
  match ls_seed s with None => True | Some v => length v = prbs_value (ls_prbs s) /\ bits v end /\
  ls_amp s <> ofZ 0 /\ scale_fits (ls_constel s) (ls_rx_factor s) /\
  mapping_data_init (ls_constel s) (map ofZ (get_levels (ls_constel s))) (ls_amp s) (ls_rx_factor s) = Done (Ok (ls_map s)) /\
  (1 <= ls_span s)%nat /\ (ls_phase s < ls_osr s)%nat /\ usable_pulse (ls_pulse s) (ls_rolloff s) /\
  (ls_type s = "pulse" \/ ls_type s = "awgn" \/ ls_type s = "isi_awgn")%string /\ is_fir t <> [] /\
  design (ls_zeros s) (ls_poles s) (ls_dc s) (ls_fs s) (IZR (Z.of_nat (ls_osr s))) /\
  (1 <= ls_total s)%nat /\ (ls_format s = "u" \/ ls_format s = "s" \/ ls_format s = "ss")%string /\
  eq_init (ls_pre s) (ls_post s) (ls_dfe s) (Some (is_ffe t)) (Some (is_dfe t)) (Some (rx_level_vec (ls_map s))) None None = Ok (ls_eq s) /\
  (ls_dfe s = 0%nat -> (1 <= ls_pre s + ls_post s)%nat -> (ls_pre s + ls_post s + 1 <= ls_symbols s)%nat) /\
  uncoded (ls_cd s) (ls_constel s) (ls_bits s) (ls_symbols s).

(** [h k] is what the ADC samples [k] symbols after a single symbol of level one is sent through the channel without
    its noise and the CTLE. *)
Definition symbol_response (t : isi_settings) (l : full_link) (h : nat -> R) : Prop :=
  forall m, exists ch y ct v, channel_call (noise_free (fl_ch l)) (1 :: repeat 0 m) (fun _ => 0) = (ch, Ok (Some (map Some y))) /\
    ctle_call (fl_ctle l) y = Ok (Some (ct, v)) /\ forall k, (k <= m)%nat -> nth (ls_phase (is_base t) + k * ls_osr (is_base t)) v 0 = h k.
(** Superposition of the responses [h] to the symbols [x] at time [j]. *)
Definition superposed (h x : nat -> R) (j : nat) : R := sum_upto (fun k => h k * x (j - k)%nat) (S j).
(** In [n] calls of the link the noise changes what the ADC gets by at most [d]. *)
Definition adc_noise_at_most (d : R) (l : full_link) (n : nat) (normal : nat -> nat -> R) : Prop :=
  forall g bs txs, prbs_gen_run n (fl_gen l) = (g, Ok bs) -> Forall2 (fun b t => transmit (fl_cd l) (fl_md l) b = Done (Ok t)) bs txs ->
  exists c1 c2 ct1 ct2 cs clean ys yclean, channel_calls (fl_ch l) (map (map Qc2R) txs) normal = (c1, Ok (returned cs)) /\
    channel_calls (noise_free (fl_ch l)) (map (map Qc2R) txs) normal = (c2, Ok (returned clean)) /\
    ctle_calls (fl_ctle l) cs = Ok (Some (ct1, ys)) /\ ctle_calls (fl_ctle l) clean = Ok (Some (ct2, yclean)) /\ within d ys yclean.

(** The absolute values of the CTLE's response to a single one add up to at most [G]. *)
Definition ctle_gain_at_most (G : R) (l : full_link) : Prop :=
  forall m, exists ct v, ctle_call (fl_ctle l) (1 :: repeat 0 m) = Ok (Some (ct, v)) /\ sum_upto (fun k => Rabs (nth k v 0)) (S m) <= G.

(** Sizes of numbers of the receiver: one code of the ADC; a transmitted level over the receiver's level. *)
Definition adc_unit (t : isi_settings) : R := / Qc2R (pow2 (ls_frac (is_base t))).
Definition level_ratio (t : isi_settings) : R := Qc2R (ls_amp (is_base t)) / 2 / Qc2R (ls_rx_factor (is_base t)).
(** The response after the FFE, in units of the receiver's levels. *)
Definition equalised (t : isi_settings) (h : nat -> R) (n : nat) : R :=
  level_ratio t * adc_unit t * sum_upto (fun i => Qc2R (nth i (is_ffe t) 0%Qc) * (if (i <=? n)%nat then h (n - i)%nat else 0)) (length (is_ffe t)).
(** What it should be: nothing, one at the main tap, then what the DFE removes. *)
Definition wanted (t : isi_settings) (n : nat) : R := if (n <? is_main t)%nat then 0 else nth (n - is_main t) (1 :: map Qc2R (is_dfe t)) 0.
Definition residual (t : isi_settings) (h : nat -> R) (n : nat) : R := equalised t h n - wanted t n.
Definition tap_size (taps : list Qc) : R := sum_upto (fun i => Rabs (Qc2R (nth i taps 0%Qc))) (length taps).
(** The peak distortion criterion: the samples do not saturate the ADC, and all residual interference together, [extra],
    the noise [d] and half a code of quantisation through the FFE stay below half a level spacing. *)
Definition peak_open (t : isi_settings) (h : nat -> R) (d extra : R) : Prop :=
  let s := is_base t in
  0 <= d /\ exists H E, (forall L, sum_upto (fun k => Rabs (h k)) L <= H) /\ (forall L, sum_upto (fun n => Rabs (residual t h n)) L <= E) /\
  IZR (adc_low (ls_adc s)) - / 2 <= - (Rabs (Qc2R (ls_amp s)) / 2 * H + d) /\ Rabs (Qc2R (ls_amp s)) / 2 * H + d <= IZR (adc_high (ls_adc s)) + / 2 /\
  Qc2R (ls_rx_factor s) * E + extra + tap_size (is_ffe t) * (d + / 2) * adc_unit t < Qc2R (half_spacing (ls_constel s) (ls_rx_factor s)).
(** Wrong decisions at the start cannot do harm: there is no DFE, or the main tap is the first one, or the criterion
    holds with room for every decision in the DFE being wrong. *)
Definition self_starting (t : isi_settings) (h : nat -> R) (d : R) : Prop :=
  (ls_dfe (is_base t) = 0%nat /\ peak_open t h d 0) \/ (is_main t = 0%nat /\ peak_open t h d 0) \/
  peak_open t h d (2 * Qc2R (ls_rx_factor (is_base t)) * tap_size (is_dfe t)).
