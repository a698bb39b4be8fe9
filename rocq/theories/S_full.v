(** Vocabulary for the statements about the whole example link. *)
From Coq Require Import Reals String QArith Qcanon.
From Verif Require Import Py PyQ B_list M_aux M_symbol M_sim M_simcheck M_rxloop S_rxparts S_ctle M_ctle M_link S_link.
Import List.
Open Scope R_scope.

(** [z] is a nearest code of the ADC to the analog value [v]. *)
Definition nearest_code (a : adc_state) (v : R) (z : Z) : Prop :=
  (adc_low a <= z <= adc_high a)%Z /\ forall z', (adc_low a <= z' <= adc_high a)%Z -> Rabs (v - IZR z) <= Rabs (v - IZR z').
(** An open eye: every analog value that is within [tol] of [g] times a transmitted level is converted to a number that
    is closer than half a level spacing to the receiver's level of the same symbol. *)
Definition eye_open (a : adc_state) (m : mapping_data) (g tol : R) : Prop :=
  forall i v z, (i < length (get_levels (md_constel m)))%nat -> Rabs (v - g * Qc2R (nth i (md_levels m) (ofZ 0))) <= tol -> nearest_code a v z ->
  (Qcabs (ofZ z / pow2 (a_frac a) - nth i (rx_level_vec m) (ofZ 0)) < half_spacing (md_constel m) (md_rx_factor m))%Qc.
(** Pulses and sampling phases without inter-symbol interference, and the delay in symbols. *)
Definition clean_sampling (pulse : string) (beta : R) (o s ph D : nat) : Prop :=
  (pulse = "rect"%string /\ D = (s - if (o <=? ph + o / 2)%nat then 1 else 0)%nat) \/
  ((pulse = "sinc"%string \/ (pulse = "rcos"%string /\ beta <> 0)) /\ ph = 0%nat /\ D = s).
(** The settings use no code; symbols of [k] bits, all of them on the constellation; [n] symbols per chunk. *)
Definition uncoded (cd : coding_data) (c : constellation) (k n : nat) : Prop :=
  c_gray cd = false /\ c_diff cd = false /\ c_bin_diff cd = false /\ c_manchester cd = false /\ c_bipolar cd = false /\ c_mlt3 cd = false /\
  c_diff_manchester cd = false /\ c_linear cd = false /\ c_conv cd = false /\
  (1 <= k)%nat /\ (1 <= n)%nat /\ (bps cd == inject_Z (Z.of_nat k))%Q /\ length (get_levels c) = (2 ^ k)%nat /\
  (k = 1%nat \/ n <> 1%nat \/ (inv_msb (cflags cd) = false /\ inv_lsb (cflags cd) = false /\ bit_order_inv (cflags cd) = false)).
(** Two lists of chunks of equal sizes whose samples differ by at most [d]. *)
Definition within (d : R) (xs ys : list (list R)) : Prop :=
  Forall2 (fun x y => length x = length y /\ forall j, (j < length x)%nat -> Rabs (nth j x 0 - nth j y 0) <= d) xs ys.
(** What the channel [ch] does to the chunks [xs] differs by at most [d] from what it does without noise. *)
Definition noise_at_most (d : R) (ch : channel) (xs : list (list R)) (normal : nat -> nat -> R) : Prop :=
  exists c1 c2 cs clean, channel_calls ch xs normal = (c1, Ok (returned cs)) /\ channel_calls (noise_free ch) xs normal = (c2, Ok (returned clean)) /\ within d cs clean.
(** Settings of a link: PRBS source, mapping with the levels of the constellation, pulse shaping channel,
    CTLE whose zeros sit on its poles, ADC sampling once per symbol at a clean phase, equaliser in its initial state. *)
Record link_settings := mk_ls {
  ls_prbs : prbs_type ; ls_seed : option (list Z) ; ls_bits : nat (* per symbol *) ; ls_symbols : nat (* per chunk *) ;
  ls_cd : coding_data ; ls_constel : constellation ; ls_amp : Qc ; ls_rx_factor : Qc ; ls_map : mapping_data ;
  ls_pulse : string ; ls_rolloff : R ; ls_osr : nat ; ls_span : nat ; ls_type : string ; ls_snr : option R ;
  ls_zeros : list R ; ls_poles : list R ; ls_dc : R ; ls_fs : R ;
  ls_total : nat ; ls_frac : Z ; ls_format : string ; ls_phase : nat ;
  ls_pre : nat ; ls_post : nat ; ls_dfe : nat ; ls_levels : option (list Qc) ; ls_eq : eq_state }.
Definition ls_adc (s : link_settings) : adc_state := adc_init (ls_total s) (ls_frac s) (ls_format s) (Z.of_nat (ls_osr s)) 1 (Some (Z.of_nat (ls_phase s))).
(** The link with [nb] bits per chunk. *)
Definition ls_link_of (s : link_settings) (nb : nat) : res full_link :=
  full_link_init (prbs_data_init (ls_prbs s) nb (ls_seed s)) (ls_cd s) (ls_map s)
    (channel_data_init (ls_pulse s) (Z.of_nat (ls_span s)) (ls_type s) None None (ls_rolloff s) (Z.of_nat (ls_osr s)) (ls_snr s) None None)
    (ctle_init (ls_zeros s) (ls_poles s) (ls_dc s) (ls_fs s) (Z.of_nat (ls_osr s)) None) (ls_adc s) (ls_eq s).
Definition ls_link (s : link_settings) : res full_link := ls_link_of s (ls_symbols s * ls_bits s).
(** All settings but the codes.  [D]: delay of the pulse shaping in symbols; [d]: bound on the noise. *)
Definition good_path (s : link_settings) (D : nat) (d : R) : Prop :=
  match ls_seed s with None => True | Some v => length v = prbs_value (ls_prbs s) /\ bits v end /\
  ls_amp s <> ofZ 0 /\ scale_fits (ls_constel s) (ls_rx_factor s) /\
  mapping_data_init (ls_constel s) (map ofZ (get_levels (ls_constel s))) (ls_amp s) (ls_rx_factor s) = Done (Ok (ls_map s)) /\
  (1 <= ls_symbols s)%nat /\ (1 <= ls_span s)%nat /\ (ls_phase s < ls_osr s)%nat /\ clean_sampling (ls_pulse s) (ls_rolloff s) (ls_osr s) (ls_span s) (ls_phase s) D /\
  ls_zeros s <> [] /\ Forall (fun f => f <> 0) (ls_zeros s) /\ Permutation.Permutation (ls_zeros s) (ls_poles s) /\ 0 < ls_fs s /\ 1 / 10 ^ 14 < linear_gain (ls_dc s) /\
  (1 <= ls_total s)%nat /\ (ls_format s = "u" \/ ls_format s = "s" \/ ls_format s = "ss")%string /\
  eq_init (ls_pre s) (ls_post s) (ls_dfe s) None None (ls_levels s) None None = Ok (ls_eq s) /\ ls_levels s <> Some [] /\
  (ls_dfe s = 0%nat -> (1 <= ls_pre s + ls_post s)%nat -> (ls_pre s + ls_post s + 1 <= ls_symbols s)%nat) /\
  eye_open (ls_adc s) (ls_map s) (linear_gain (ls_dc s)) (linear_gain (ls_dc s) * d).
Definition good_settings (s : link_settings) (D : nat) (d : R) : Prop :=
  good_path s D d /\ uncoded (ls_cd s) (ls_constel s) (ls_bits s) (ls_symbols s).
(** The noise added in [n] calls of the link is at most [d]. *)
Definition link_noise_at_most (d : R) (l : full_link) (n : nat) (normal : nat -> nat -> R) : Prop :=
  forall g bs txs, prbs_gen_run n (fl_gen l) = (g, Ok bs) -> Forall2 (fun b t => transmit (fl_cd l) (fl_md l) b = Done (Ok t)) bs txs ->
  noise_at_most d (fl_ch l) (map (map Qc2R) txs) normal.
