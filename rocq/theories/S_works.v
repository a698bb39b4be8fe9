(** Vocabulary for the statements about links whose calls always return. *)
From Coq Require Import Reals String QArith.
From Verif Require Import Py PyQ B_list M_aux M_symbol M_linear M_conv S_conv M_sim S_sim S_coded M_simcheck M_rxloop S_rxparts M_link S_link M_linkst S_linkst.
Import List ListNotations.
Open Scope Z_scope.

(** The decoder returns for every chunk of [N] symbols of the constellation, whatever they are. *)
Definition hears (cd : coding_data) (c : constellation) (N : nat) : Prop :=
  forall s, length s = N -> Forall (fun v => 0 <= v < Z.of_nat (length (get_levels c))) s -> exists b, decoder cd s = Done (Ok b).
(** The demapping of the level by itself returns. *)
Definition readable (c : constellation) (lv : Qc) : Prop := exists v, fst (demapping c false (mk_nda [1%nat] [this lv])) = Ok v.
(** A channel with fitting memories that has what its type needs; noise needs chunks of at least two samples. *)
Definition channel_usable (c : channel) (o s N : nat) : Prop :=
  channel_sized c o s /\
  (ch_type c = "pulse" \/ (ch_type c = "awgn" /\ ch_snr c <> None /\ (2 <= N * o)%nat) \/ (ch_type c = "isi_awgn" /\ (ch_snr c = None \/ (2 <= N * o)%nat)))%string.
(** One sample per symbol, of a sampling phase inside the symbol. *)
Definition adc_usable (a : adc_state) (o : nat) : Prop := adc_good a /\ a_rate a = 1 /\ a_osr a = Z.of_nat o /\ a_phase a < Z.of_nat o.
Definition eq_usable (e : eq_state) (N : nat) : Prop := sized e /\ (e_dfe e = 0%nat -> (1 <= e_pre e + e_post e)%nat -> (e_pre e + e_post e + 1 <= N)%nat).
(** A link with consistent settings: [nb] bits and [N] symbols per chunk, [o] samples per symbol, [s] symbols span. *)
Definition consistent (z : link_st) (nb N o s : nat) : Prop :=
  (exists t, pg_poly (z_gen z) = get_polynomial t /\ length (pg_seed (z_gen z)) = prbs_value t) /\ bits (pg_seed (z_gen z)) /\ pg_chunk (z_gen z) = nb /\
  (1 <= N)%nat /\ carries (z_cd z) (md_constel (z_md z)) nb N /\ length (md_levels (z_md z)) = length (get_levels (md_constel (z_md z))) /\
  channel_usable (z_ch z) o s N /\ ctle_sized (z_ctle z) /\
  let r := rs_rx (z_rx z) in
  adc_usable (rx_adc r) o /\ eq_usable (rx_eq r) N /\ rx_levels r <> [] /\ Forall (readable (rx_constel r)) (rx_levels r) /\ hears (rx_cd r) (rx_constel r) N /\ rx_converge r = false.
(** The demapping makes the symbol [v] of one of the receiver's levels. *)
Definition reads (r : receiver) (v : Z) : Prop := exists lv, In lv (rx_levels r) /\ fst (demapping (rx_constel r) false (mk_nda [1%nat] [this lv])) = Ok (mk_nda [1%nat] [v]).
(** What a call leaves behind has the sizes of the settings, and the symbols handed to the decoder are those of the
    receiver's levels. *)
Definition filled (z : link_st) (nb N o : nat) : Prop :=
  let r := rs_rx (z_rx z) in
  length (z_prbs z) = nb /\ bits (z_prbs z) /\ length (z_enc z) = N /\ length (z_map z) = N /\ length (z_ch_out z) = (N * o)%nat /\ length (z_ctle_out z) = (N * o)%nat /\
  length (rx_adc_out r) = N /\ length (rx_slicer_in r) = N /\ length (rx_slicer_out r) = N /\ length (rs_dem (z_rx z)) = N /\
  Forall (reads r) (rs_dem (z_rx z)).
(** The receivers have the same levels and constellation. *)
Definition same_levels (z z' : link_st) : Prop := rx_levels (rs_rx (z_rx z')) = rx_levels (rs_rx (z_rx z)) /\ rx_constel (rs_rx (z_rx z')) = rx_constel (rs_rx (z_rx z)).
(** Everything a user may do but start the convergence. *)
Definition does_not_start (d : deed) : Prop := d <> DStart.
(** [k] line bits per symbol and a symbol for each value of [k] bits, with or without the codes on symbols; chunks of [N]
    symbols. *)
Definition symbol_stage (cd : coding_data) (c : constellation) (k N : nat) : Prop :=
  (1 <= k)%nat /\ (bps cd == inject_Z (Z.of_nat k))%Q /\ length (get_levels c) = (2 ^ k)%nat /\
  (k = 1%nat \/ N <> 1%nat \/ (inv_msb (cflags cd) = false /\ inv_lsb (cflags cd) = false /\ bit_order_inv (cflags cd) = false)) /\
  (c_gray cd = true \/ c_diff cd = true -> length (get_levels (constel cd)) = (2 ^ k)%nat).
(** Codes on bits whose decoder returns for all chunks of [L] bits: none, Manchester, differential Manchester, linear,
    differential, convolutional. *)
Definition binary_stage (cd : coding_data) (L : nat) : Prop :=
  (exists ln mb u, block_code cd ln mb /\ L = (u * ln)%nat) \/ (binary_codes cd = codes [0%nat] /\ (1 <= L)%nat) \/
  (binary_codes cd = codes [6%nat] /\ exists c, gmat cd = GDict c /\ code_shape c /\ trellis_shape c /\ check_valid_conv [] c = Ok tt /\ (n_out c <= chunk_size cd <= L)%nat).
(** Settings of a link: a seed of the right length, codes that carry [nb] bits in [N] symbols and hear every chunk,
    levels the demapping reads, a pulse and FIR channel, a CTLE design, an ADC sampling once per symbol, an equaliser. *)
Definition sound_settings (t : prbs_type) (seed : option (list Z)) (cd : coding_data) (md : mapping_data) (pulse ty : string) (fir : option (list R)) (rolloff : R) (snr : option R)
    (ct : ctle_obj) (a : adc_state) (e : eq_state) (nb N o s : nat) : Prop :=
  match seed with None => True | Some v => length v = prbs_value t /\ bits v end /\ (1 <= N)%nat /\ (1 <= o)%nat /\ (1 <= s)%nat /\
  carries cd (md_constel md) nb N /\ hears cd (md_constel md) N /\ length (md_levels md) = length (get_levels (md_constel md)) /\ Forall (readable (md_constel md)) (rx_level_vec md) /\
  usable_pulse pulse rolloff /\ fir <> Some [] /\
  (ty = "pulse" \/ (ty = "awgn" /\ snr <> None /\ (2 <= N * o)%nat) \/ (ty = "isi_awgn" /\ (snr = None \/ (2 <= N * o)%nat)))%string /\
  ctle_sized ct /\ adc_usable a o /\ eq_usable e N.
