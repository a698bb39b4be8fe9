(** C78: the whole example link with inter-symbol interference: the peak distortion criterion. *)
From Coq Require Import Reals Lra Lia String Permutation Qreals.
From Verif Require Import Py PyQ B_list B_qc M_aux M_symbol M_prbs S_prbs M_sim S_sim M_simcheck S_simcheck P_prbs_gen P_checker P_simcheck M_rxloop S_rxparts P_rxparts P_rxlink M_link P_fulldig.
From Verif Require Import M_delay M_channel S_channel P_channel P_pulse P_dft M_ctle S_ctle S_link P_link Prop_link S_full P_full S_peak P_peak P_peakdig P_peaklink P_peakbits.
From Coq Require Import QArith Qcanon.
Import List.
Open Scope R_scope.

(** *** C78: without noise, what the ADC samples is the superposition of the responses to the single symbols *)
Theorem C78_response : forall t, good_isi t -> exists l h, is_link t = Ok l /\ symbol_response t l h /\ (forall h', symbol_response t l h' -> forall k, h' k = h k) /\
  forall N xs normal, (1 <= N)%nat -> Forall (fun x => length x = N) xs ->
  exists c' cs ct' ys, channel_calls (noise_free (fl_ch l)) xs normal = (c', Ok (returned cs)) /\ ctle_calls (fl_ctle l) cs = Ok (Some (ct', ys)) /\ length ys = length xs /\
    Forall (fun y => length y = (N * ls_osr (is_base t))%nat) ys /\
    forall j, (j < length xs * N)%nat -> nth (ls_phase (is_base t) + j * ls_osr (is_base t)) (concat ys) 0 = superposed h (fun k => nth k (concat xs) 0) j.
Proof.
  intros t G. destruct (isi_ready t G) as (l & EL & _). destruct (isi_response t l G EL) as (h & SR). exists l, h. split; [exact EL|]. split; [exact SR|]. split; [|exact (response_history t l h G EL SR)].
  intros h' SR' k. destruct (SR k) as (c1 & y1 & ct1 & v1 & A1 & A2 & A3). destruct (SR' k) as (c2 & y2 & ct2 & v2 & B1 & B2 & B3). rewrite A1 in B1. apply (f_equal snd) in B1. cbn [snd] in B1. injection B1 as B1. apply map_some_inj in B1. subst y2.
  rewrite A2 in B2. injection B2 as _ B2. subst v2. rewrite <- A3, <- B3 by lia. reflexivity.
Qed.
Print Assumptions C78_response.
(** What is sent arrives after as many symbols as the main tap is late. *)
Theorem C78_link : forall lms t, good_isi t -> exists l, is_link t = Ok l /\ forall h d n normal, symbol_response t l h -> self_starting t h d -> adc_noise_at_most d l n normal ->
  let s := is_base t in let L := (ls_symbols s * ls_bits s)%nat in
  exists l' bs ds start, full_link_run lms n l normal = Done (Ok (l', bs, ds)) /\
    (exists g, prbs_gen_run n (prbs_gen_init (prbs_data_init (ls_prbs s) L (ls_seed s))) = (g, Ok bs)) /\
    length start = (is_main t * ls_bits s)%nat /\ bits start /\ length ds = n /\ Forall (fun x => length x = L) ds /\
    concat ds = map inject_Z (firstn (n * L) (start ++ concat bs)).
Proof.
  intros lms t G. destruct (isi_ready t G) as (l & EL & _). exists l. split; [exact EL|]. intros h d n normal SR SS NO s L.
  destruct (isi_delivers lms t l h d n normal G EL SR NO SS) as (l' & bs & ds & start & g & A1 & A2 & A3 & A4 & A5 & A6 & A7). exists l', bs, ds, start. repeat split; eauto.
Qed.
Print Assumptions C78_link.
(** The checker counts no error in any chunk that holds no start-up bits. *)
Theorem C78_error_free : forall lms t, good_isi t -> match ls_seed (is_base t) with Some v => v <> repeat 0%Z (prbs_value (ls_prbs (is_base t))) | None => True end ->
  exists l, is_link t = Ok l /\ forall h d n normal, symbol_response t l h -> self_starting t h d -> adc_noise_at_most d l n normal ->
  let s := is_base t in
  exists l' bs ds, full_link_run lms n l normal = Done (Ok (l', bs, ds)) /\ length ds = n /\
    forall c ck, (c < n)%nat -> (is_main t <= c * ls_symbols s)%nat -> counts_for (ls_prbs s) ck ->
    exists w, nth c ds [] = map inject_Z w /\ length w = (ls_symbols s * ls_bits s)%nat /\
      ck_errors (fst (check_ber ck w)) = ck_errors ck /\ ck_symbols (fst (check_ber ck w)) = (ck_symbols ck + Z.of_nat (length w))%Z /\ snd (check_ber ck w) = Ok (0 # Pos.of_nat (length w))%Q.
Proof.
  intros lms t G LS. destruct (isi_ready t G) as (l & EL & _). exists l. split; [exact EL|]. intros h d n normal SR SS NO s. set (L := (ls_symbols s * ls_bits s)%nat).
  destruct (isi_delivers lms t l h d n normal G EL SR NO SS) as (l' & bs & ds & start & g & A1 & A2 & A3 & A4 & A5 & A6 & A7). fold s in A2, A3, A6, A7. fold L in A2, A6, A7. exists l', bs, ds. split; [exact A1|]. split; [exact A5|].
  intros c ck Hc Hq CF. fold s in LS. set (sd := match ls_seed s with Some v => v | None => repeat 1%Z (prbs_value (ls_prbs s)) end).
  assert (SL : live_seed (ls_prbs s) sd). { destruct G as (SE & _). fold s in SE. unfold sd, live_seed. destruct (ls_seed s) as [v|]; [destruct SE; auto|]. apply ones_seed. }
  assert (EG : prbs_gen_init (prbs_data_init (ls_prbs s) L (ls_seed s)) = mk_pg (get_polynomial (ls_prbs s)) L sd).
  { unfold prbs_gen_init, prbs_data_init, sd. cbn [pd_poly pd_chunk pd_seed]. destruct (ls_seed s); [reflexivity|]. now rewrite ones_map. }
  rewrite EG in A2. assert (U : uncoded (ls_cd s) (ls_constel s) (ls_bits s) (ls_symbols s)) by apply G. assert (LP : (1 <= L)%nat) by (destruct U as (_ & _ & _ & _ & _ & _ & _ & _ & _ & H1 & H2 & _); unfold L; nia).
  destruct (received_chunk _ sd L n _ start bs ds g c SL A2 A3 A5 A6 A7 Hc) as (u & w & U1 & U2 & U3 & U4); [unfold L; nia|]. exists w. split; [exact U4|]. split; [exact U3|].
  rewrite <- U3 in U2. assert (Nw : w <> []) by (intros ->; cbn [length] in U3; lia). rewrite (check_clean _ ck u w CF U1 U2 Nw). cbn [fst snd ck_errors ck_symbols]. auto.
Qed.
Print Assumptions C78_error_free.
(** Without room for wrong decisions in the DFE: once as many symbols in a row as the DFE looks back at have been
    received rightly, every later bit is received rightly. *)
Theorem C78_locked : forall lms t, good_isi t -> exists l, is_link t = Ok l /\ forall h d n normal, symbol_response t l h -> peak_open t h d 0 -> adc_noise_at_most d l n normal ->
  let s := is_base t in let k := ls_bits s in let L := (ls_symbols s * k)%nat in let M := is_main t in
  exists l' bs ds, full_link_run lms n l normal = Done (Ok (l', bs, ds)) /\ (exists g, prbs_gen_run n (prbs_gen_init (prbs_data_init (ls_prbs s) L (ls_seed s))) = (g, Ok bs)) /\
    length ds = n /\ Forall (fun x => length x = L) ds /\
    forall q, (M + ls_dfe s <= q)%nat -> (forall i, ((q - ls_dfe s) * k <= i < q * k)%nat -> (i < n * L)%nat -> nth i (concat ds) 0%Q = inject_Z (nth (i - M * k) (concat bs) 0%Z)) ->
    forall i, (q * k <= i < n * L)%nat -> nth i (concat ds) 0%Q = inject_Z (nth (i - M * k) (concat bs) 0%Z).
Proof.
  intros lms t G. destruct (isi_ready t G) as (l & EL & _). exists l. split; [exact EL|]. intros h d n normal SR P NO s k L M.
  destruct (isi_locked lms t l h d n normal G EL SR NO P) as (l' & bs & ds & g & A1 & A2 & A3 & A4 & A5). exists l', bs, ds. repeat split; eauto.
Qed.
Print Assumptions C78_locked.
(** Noise at the ADC: none with the channel types that add none; otherwise the CTLE passes on at most the absolute sum of
    its response times the noise of the channel. *)
Theorem C78_noise : forall t l n normal, good_isi t -> is_link t = Ok l ->
  ((ls_type (is_base t) = "pulse" \/ (ls_type (is_base t) = "isi_awgn" /\ ls_snr (is_base t) = None))%string -> adc_noise_at_most 0 l n normal) /\
  (forall d g, 0 <= d -> link_noise_at_most d l n normal -> ctle_gain_at_most g l -> adc_noise_at_most (g * d) l n normal).
Proof. intros t l n normal G EL. split; [intros T; now apply (quiet t)|]. intros d g Hd LN CG. now apply (ctle_noise t). Qed.
Print Assumptions C78_noise.

(** NRZ with a rectangular pulse through an FIR channel and a CTLE that only passes on, received with an FFE of one tap. *)
Definition nrz_base (amp frac : Z) (dfe : Qc) : link_settings := mk_ls PRBS7 (Some [1; 0; 1; 0; 1; 0; 1]%Z) 1 3 (mk_cd NRZ 1 3 (mk_flags false false false false) false false false false false false false false false GNone)
  NRZ (ofZ (2 * amp)) (ofZ 1) (mk_md NRZ [ofZ (- amp); ofZ amp] (ofZ (2 * amp)) (ofZ 1)) "rect" 0.35 2 1 "isi_awgn" None [2; -3] [-3; 2] 0 1 8 frac "s" 1
  0 0 1 (Some (map ofZ [-1; 1]%Z)) (mk_eq 0 0 1 (Some (map ofZ [-1; 1]%Z)) [ofZ 1] [dfe] [ofZ 0] [ofZ 0]).
Definition nrz_link (amp frac : Z) (fir : list R) (dfe : Qc) (main : nat) : isi_settings := mk_is (nrz_base amp frac dfe) fir [ofZ 1] [dfe] main.
Lemma nrz_good amp frac fir dfe main : (0 < amp)%Z -> fir <> [] -> good_isi (nrz_link amp frac fir dfe main).
Proof.
  intros HA NF. assert (G0 : linear_gain 0 = 1) by (unfold linear_gain; replace (0 / 20) with 0 by field; apply Rpower_O; lra).
  assert (EL : forall x, (ofZ x / ofZ 1 * ofZ (2 * amp) / ofZ 2)%Qc = ofZ (x * amp)).
  { intros x. apply Qc_is_canon. unfold ofZ, Qcdiv, Qcinv, Qcmult. cbn [this Q2Qc]. rewrite !Qred_correct. unfold Qeq, Qmult, Qinv, inject_Z. cbn -[Z.mul]. lia. }
  assert (A0 : ofZ (2 * amp) <> ofZ 0).
  { intros X. apply (f_equal (fun q => Qnum (this q))) in X. cbn [ofZ this Q2Qc] in X. unfold ofZ in X. cbn [this Q2Qc] in X. rewrite !Qred_identity in X by (unfold inject_Z; cbn [Qnum Qden]; apply Z.gcd_1_r). cbn [inject_Z Qnum] in X. lia. }
  assert (MD : mapping_data_init NRZ (map ofZ (get_levels NRZ)) (ofZ (2 * amp)) (ofZ 1) = Done (Ok (mk_md NRZ [ofZ (- amp); ofZ amp] (ofZ (2 * amp)) (ofZ 1)))).
  { cbn [ls_constel ls_amp ls_rx_factor ls_map is_base nrz_link nrz_base]. unfold mapping_data_init. replace (Qceqb (max_abs (map ofZ (get_levels NRZ))) (ofZ 0)) with false by reflexivity. cbv iota beta. cbn [get_levels map]. replace (max_abs [ofZ (-1); ofZ 1]) with (ofZ 1) by (apply Qc_is_canon; reflexivity).
    rewrite !EL. replace (-1 * amp)%Z with (- amp)%Z by lia. replace (1 * amp)%Z with amp by lia. reflexivity. }
  unfold good_isi. split; [split; [reflexivity|repeat constructor; unfold isbit; lia]|]. split; [exact A0|]. split; [split; reflexivity|]. split; [exact MD|]. split; [cbn; lia|]. split; [cbn; lia|]. split; [left; reflexivity|]. split; [right; right; reflexivity|]. split; [exact NF|].
  split. { cbn [ls_zeros ls_poles ls_dc ls_fs ls_osr is_base nrz_link nrz_base]. apply matched_design; [discriminate|repeat constructor; lra|constructor|cbn; lra|rewrite G0; lra]. }
  split; [cbn; lia|]. split; [auto|]. split.
  { cbn [ls_pre ls_post ls_dfe is_ffe is_dfe ls_map ls_eq is_base nrz_link nrz_base]. replace (rx_level_vec _) with (map ofZ [-1; 1]%Z); [reflexivity|]. rewrite (proj1 (rx_levels_eq _ _ _ _ A0 MD)). cbn [get_levels map top_level]. repeat (f_equal; [apply Qc_is_canon; reflexivity|]). reflexivity. }
  split; [discriminate|]. repeat split; cbn; auto.
Qed.
Definition nrz_h (fir : list R) (k : nat) : R := nth (2 * k) fir 0 + (if (k =? 0)%nat then 0 else nth (2 * k - 1) fir 0).
Lemma nrz_response amp frac fir dfe main l : (0 < amp)%Z -> fir <> [] -> is_link (nrz_link amp frac fir dfe main) = Ok l -> symbol_response (nrz_link amp frac fir dfe main) l (nrz_h fir).
Proof.
  intros HA NF. assert (G0 : linear_gain 0 = 1) by (unfold linear_gain; replace (0 / 20) with 0 by field; apply Rpower_O; lra).
  intros EL m. destruct (isi_ready _ (nrz_good amp frac fir dfe main HA NF)) as (l0 & E0 & S & T & Sn & Z1 & Z2 & _ & _ & _ & Ect & _). rewrite EL in E0. injection E0 as <-. cbn [is_base nrz_link nrz_base ls_osr ls_span ls_type ls_snr ls_zeros ls_poles ls_dc ls_fs] in S, T, Sn, Z1, Ect.
  assert (EF : ch_fir (fl_ch l) = fir /\ ch_iir (fl_ch l) = Some [1] /\ ch_pulse (fl_ch l) = "rect"%string).
  { clear - EL. unfold is_link, full_link_init, channel_init, channel_data_init in EL. cbn [nrz_link is_base is_fir chd_zi chd_iir chd_fir chd_pulse_zi chd_span chd_osr chd_pulse chd_rolloff chd_type chd_snr] in EL. destruct (np_zerosR _) as [z1|]; [|discriminate EL]. cbn [bind] in EL. destruct (np_zerosR _) as [z2|]; [|discriminate EL]. cbn [bind] in EL. injection EL as <-. cbn. repeat split; reflexivity. }
  destruct EF as (EF & EI & EP). set (x := 1 :: repeat 0 m). assert (Lx : length x = Datatypes.S m) by (unfold x; cbn; now rewrite repeat_length).
  destruct (call_ok (noise_free (fl_ch l)) 2 1 x (fun _ => 0) (noise_free_sized _ _ _ S) (any_noise_free_linear _ ltac:(rewrite T; auto)) ltac:(discriminate)) as (q & y & pz & z & P & Lq & Ly & C & _ & R).
  cbn [noise_free ch_pulse ch_rolloff ch_pulse_zi ch_type ch_iir ch_fir ch_zi] in P, R. rewrite EP, Z1 in P. destruct (pulse_shape_spec x 2 1 "rect" (ch_rolloff (fl_ch l)) rect_at (repeat 0 3) ltac:(lia) ltac:(lia) (shape_rect _ _ eq_refl) ltac:(discriminate) eq_refl) as (q' & z' & P' & _ & _ & V & _).
  change (2 * (2 * 1) - 1)%nat with 3%nat in P. rewrite P in P'. injection P' as <- <-.
  assert (QV : forall n, (n < length x * 2)%nat -> nth n q 0 = (if (n =? 1)%nat then 1 else 0) + (if (n =? 2)%nat then 1 else 0)).
  { intros n Hn. rewrite V by exact Hn. rewrite nth_zeros, rect_sum by lia. change (2 * 1 - 2 / 2)%nat with 1%nat. destruct n as [|[|[|n]]]; [cbn; ring|cbn; ring|cbn; ring|]. cbn [Nat.ltb Nat.leb Nat.eqb Nat.sub].
    replace (Datatypes.S (Datatypes.S n) / 2)%nat with (Datatypes.S (n / 2)) by (change (Datatypes.S (Datatypes.S n)) with (2 + n)%nat; replace (2 + n)%nat with (n + 1 * 2)%nat by lia; rewrite Nat.div_add by lia; lia). unfold x. cbn [nth]. rewrite nth_zeros. ring. }
  destruct R as [(X & _)|(_ & a & Ea & F)]; [rewrite T in X; discriminate X|]. rewrite EI in Ea. injection Ea as <-. rewrite EF in F.
  assert (Nq : q <> []) by (intros ->; rewrite Lx in Lq; discriminate Lq).
  assert (LS : lf_shape fir [1] (length (ch_zi (fl_ch l)))). { destruct S as (_ & _ & _ & _ & _ & _ & a & Ea & Us). rewrite EI in Ea. injection Ea as <-. rewrite EF in Us. apply usable_lf. exact Us. }
  destruct (lfilter_spec fir [1] q (ch_zi (fl_ch l)) LS Nq) as (y' & zf & F' & _ & _ & FV & _). rewrite F in F'. injection F' as <- <-.
  exists (ch_with (noise_free (fl_ch l)) pz z), y, (fl_ctle l), (map (Rmult 1) y). split; [exact C|].
  assert (Ny : y <> []) by (intros ->; destruct q; [congruence|discriminate Ly]).
  split. { pose proof (C70_matched [2; -3] [-3; 2] 0 1 2 [y] ltac:(discriminate) ltac:(repeat constructor; lra) ltac:(constructor) ltac:(lra) ltac:(rewrite G0; lra) ltac:(repeat constructor; exact Ny)) as CM. cbv zeta in CM. change (Z.of_nat 2) with 2%Z in Ect. rewrite <- Ect, G0 in CM. cbn [ctle_calls map] in CM. destruct (ctle_call (fl_ctle l) y) as [[[c' v]|]|]; cbn [bind] in CM; try discriminate CM. injection CM as -> ->. reflexivity. }
  intros k Hk. cbn [is_base nrz_link nrz_base ls_phase ls_osr]. assert (HK : (1 + k * 2 < length q)%nat) by (rewrite Lq, Lx; lia). rewrite (map_nth_lt _ _ _ 0) by (rewrite Ly; exact HK). rewrite Rmult_1_l, FV by exact HK. cbn [nth].
  rewrite Z2, nth_zeros. assert (FB : conv_at (fb [1]) y (1 + k * 2) = 0).
  { unfold conv_at. rewrite sumR_upto. apply sum_upto_0. intros i _. unfold fb. cbn [tl]. destruct i as [|[|i]]; cbn [nth]; ring. }
  rewrite FB. unfold conv_at. rewrite sumR_upto. rewrite Lq, Lx in HK. set (n := (1 + k * 2)%nat) in *.
  rewrite (sum_upto_ext _ (fun i => nth i fir 0 * (if (n - i =? 1)%nat then 1 else 0) + nth i fir 0 * (if (n - i =? 2)%nat then 1 else 0))) by (intros i Hi; rewrite QV by (rewrite Lx; lia); ring).
  rewrite sum_upto_add. unfold nrz_h.
  rewrite (sum_upto_single (fun i => nth i fir 0 * (if (n - i =? 1)%nat then 1 else 0)) _ (2 * k)) by first [solve [unfold n; lia] | intros i Hi Ne; destruct (Nat.eqb_spec (n - i) 1) as [X|X]; [unfold n in X; lia|ring]].
  replace (n - 2 * k =? 1)%nat with true by (symmetry; apply Nat.eqb_eq; unfold n; lia).
  destruct (Nat.eqb_spec k 0) as [->|Kp].
  - rewrite sum_upto_0; [field|]. intros i Hi. destruct (Nat.eqb_spec (n - i) 2) as [X|X]; [unfold n in X; lia|ring].
  - rewrite (sum_upto_single (fun i => nth i fir 0 * (if (n - i =? 2)%nat then 1 else 0)) _ (2 * k - 1)) by first [solve [unfold n; lia] | intros i Hi Ne; destruct (Nat.eqb_spec (n - i) 2) as [X|X]; [unfold n in X; lia|ring]].
    replace (n - (2 * k - 1) =? 2)%nat with true by (symmetry; apply Nat.eqb_eq; unfold n; lia). field.
Qed.
(** An echo of half the size one symbol later, which the DFE removes; the ADC has 8 bits. *)
Definition ex78 : isi_settings := nrz_link 64 6 [1; 0; 1 / 2] (ofZ 1 / ofZ 2)%Qc 0.
Definition ex78_h : nat -> R := nrz_h [1; 0; 1 / 2].
Lemma ex78_peak : peak_open ex78 ex78_h 31 0.
Proof.
  assert (F1 : Qc2R (ofZ 1) = 1) by exact (Qc2R_ofZ 1). assert (HF : Qc2R (ofZ 1 / ofZ 2)%Qc = 1 / 2) by (rewrite Qc2R_div, !Qc2R_ofZ by discriminate; reflexivity).
  assert (UN : adc_unit ex78 = / 64) by (unfold adc_unit; cbn [is_base ex78 nrz_link nrz_base ls_frac]; change (pow2 6) with (ofZ 64); now rewrite Qc2R_ofZ).
  assert (RA : level_ratio ex78 = 64) by (unfold level_ratio; cbn [is_base ex78 nrz_link nrz_base ls_amp ls_rx_factor]; rewrite F1, Qc2R_ofZ; cbn; field).
  assert (H0 : ex78_h 0 = 1) by (unfold ex78_h, nrz_h; cbn; ring). assert (H1 : ex78_h 1 = 1 / 2) by (unfold ex78_h, nrz_h; cbn; ring).
  assert (H2 : forall n, ex78_h (2 + n) = 0). { intros n. unfold ex78_h, nrz_h. rewrite !nth_overflow by (cbn [length]; lia). cbn. ring. }
  split; [lra|]. exists (3 / 2), 0. split.
  { intros L. destruct L as [|[|L]]; [cbn; lra|cbn [sum_upto]; rewrite H0, Rabs_R1; lra|]. replace (S (S L)) with (2 + L)%nat by lia. rewrite sum_upto_split, (sum_upto_0 (fun i => Rabs (ex78_h (2 + i)))) by (intros; rewrite H2; apply Rabs_R0). cbn [sum_upto]. rewrite H0, H1, Rabs_R1, Rabs_right; lra. }
  split. { intros L. right. apply sum_upto_0. intros n _. unfold residual, equalised, wanted. rewrite UN, RA. cbn [is_ffe is_dfe is_main ex78 nrz_link length sum_upto nth map Nat.ltb Nat.leb Nat.sub]. rewrite F1, HF. rewrite Nat.sub_0_r. replace (_ - _) with 0; [apply Rabs_R0|]. destruct n as [|[|n]]; [rewrite H0|rewrite H1|pose proof (H2 n) as H2n; cbn [Nat.add] in H2n; rewrite H2n]; cbn; try field. destruct n; field. }
  cbn [is_base is_ffe ex78 nrz_link nrz_base ls_amp ls_constel ls_rx_factor]. change (adc_low (ls_adc _)) with (-128)%Z. change (adc_high (ls_adc _)) with 127%Z. change (half_spacing NRZ (ofZ 1)) with (ofZ 1). unfold tap_size. cbn [length sum_upto nth]. fold ex78. rewrite UN, !F1, (Qc2R_ofZ (2 * 64)), Rabs_R1. change (2 * 64)%Z with 128%Z. rewrite (Rabs_right 128) by lra. lra.
Qed.
Example C78_case : good_isi ex78 /\ exists l, is_link ex78 = Ok l /\ symbol_response ex78 l ex78_h /\ self_starting ex78 ex78_h 31 /\ ls_dfe (is_base ex78) = 1%nat /\ (forall n normal, adc_noise_at_most 0 l n normal) /\ self_starting ex78 ex78_h 0 /\ ctle_gain_at_most 1 l.
Proof.
  split; [exact (nrz_good 64 6 [1; 0; 1 / 2] (ofZ 1 / ofZ 2)%Qc 0 ltac:(lia) ltac:(discriminate))|]. destruct (isi_ready ex78 (nrz_good 64 6 [1; 0; 1 / 2] (ofZ 1 / ofZ 2)%Qc 0 ltac:(lia) ltac:(discriminate))) as (l & EL & _ & _ & _ & _ & _ & _ & _ & _ & Ect & _). exists l. split; [exact EL|]. split; [apply nrz_response; [lia|discriminate|exact EL]|]. split; [right; left; split; [reflexivity|exact ex78_peak]|]. split; [reflexivity|].
  split; [intros n normal; apply (quiet ex78); [exact (nrz_good 64 6 [1; 0; 1 / 2] (ofZ 1 / ofZ 2)%Qc 0 ltac:(lia) ltac:(discriminate))|exact EL|right; split; reflexivity]|]. split.
  - right. left. split; [reflexivity|]. destruct ex78_peak as (_ & H & E & P1 & P2 & P3 & P4 & P5). split; [lra|]. exists H, E. split; [exact P1|]. split; [exact P2|]. split; [lra|]. split; [lra|].
    assert (UN : adc_unit ex78 = / 64) by (unfold adc_unit; cbn [is_base ex78 nrz_link nrz_base ls_frac]; change (pow2 6) with (ofZ 64); now rewrite Qc2R_ofZ). assert (TS : tap_size (is_ffe ex78) = 1) by (unfold tap_size; cbn [is_ffe ex78 nrz_link length sum_upto nth]; rewrite (Qc2R_ofZ 1), Rabs_R1; ring). rewrite UN, TS in *. lra.
  - assert (G0 : linear_gain 0 = 1) by (unfold linear_gain; replace (0 / 20) with 0 by field; apply Rpower_O; lra). intros m. exists (fl_ctle l), (map (Rmult 1) (1 :: repeat 0 m)). cbn [is_base ex78 nrz_link nrz_base ls_zeros ls_poles ls_dc ls_fs ls_osr] in Ect. change (Z.of_nat 2) with 2%Z in Ect. split.
    + pose proof (C70_matched [2; -3] [-3; 2] 0 1 2 [1 :: repeat 0 m] ltac:(discriminate) ltac:(repeat constructor; lra) ltac:(constructor) ltac:(lra) ltac:(rewrite G0; lra) ltac:(repeat constructor; discriminate)) as CM. cbv zeta in CM. rewrite <- Ect, G0 in CM. cbn [ctle_calls map] in CM. destruct (ctle_call (fl_ctle l) _) as [[[c' v]|]|]; cbn [bind] in CM; try discriminate CM. injection CM as -> ->. reflexivity.
    + replace (S m) with (1 + m)%nat by lia. rewrite sum_upto_split. rewrite (sum_upto_0 (fun k => Rabs (nth (1 + k) _ 0))).
      * cbn. rewrite Rmult_1_l, Rabs_R1. lra.
      * intros i Hi. rewrite (map_nth_lt _ _ _ 0) by (cbn [length]; rewrite repeat_length; lia). cbn [Nat.add nth]. rewrite nth_zeros, Rmult_0_r. apply Rabs_R0.
Qed.
Definition bad78 : isi_settings := nrz_link 32 5 [0; 0; 1; 0; -2] (ofZ (-2)) 1.
Lemma code_exact a k : (adc_low a <= k <= adc_high a)%Z -> codeR a (IZR k) = k.
Proof.
  intros H. destruct (codeR_nearest a (IZR k) ltac:(lia)) as [_ N]. specialize (N k H). replace (IZR k - IZR k) with 0 in N by ring. rewrite Rabs_R0 in N.
  assert (Z0 : IZR k - IZR (codeR a (IZR k)) = 0) by (destruct (Req_dec (IZR k - IZR (codeR a (IZR k))) 0) as [|Ne]; auto; pose proof (Rabs_pos_lt _ Ne); lra). apply eq_IZR. lra.
Qed.
Lemma bad78_h n : nrz_h [0; 0; 1; 0; -2] n = match n with 1%nat => 1 | 2%nat => -2 | _ => 0 end.
Proof. unfold nrz_h. destruct n as [|[|[|n]]]; [cbn; ring|cbn; ring|cbn; ring|]. rewrite !nth_overflow by (cbn [length]; lia). cbn. ring. Qed.
Lemma bad78_peak : peak_open bad78 (nrz_h [0; 0; 1; 0; -2]) 0 0.
Proof.
  assert (F1 : Qc2R (ofZ 1) = 1) by exact (Qc2R_ofZ 1). assert (HF : Qc2R (ofZ (-2)) = -2) by exact (Qc2R_ofZ (-2)).
  assert (UN : adc_unit bad78 = / 32) by (unfold adc_unit; cbn [is_base bad78 nrz_link nrz_base ls_frac]; change (pow2 5) with (ofZ 32); now rewrite Qc2R_ofZ).
  assert (RA : level_ratio bad78 = 32) by (unfold level_ratio; cbn [is_base bad78 nrz_link nrz_base ls_amp ls_rx_factor]; rewrite F1, Qc2R_ofZ; cbn; field).
  split; [lra|]. exists 3, 0. split.
  { intros L. destruct L as [|[|[|L]]]; [| | |change (S (S (S L))) with (3 + L)%nat]; try (cbn [sum_upto]; rewrite ?bad78_h, ?Rabs_R0, ?Rabs_R1; lra).
    rewrite sum_upto_split, (sum_upto_0 (fun i => Rabs (nrz_h _ (3 + i)))) by (intros i _; rewrite bad78_h; cbn; apply Rabs_R0). cbn [sum_upto]. rewrite !bad78_h, Rabs_R0, Rabs_R1, Rabs_left; lra. }
  split. { intros L. right. apply sum_upto_0. intros n _. unfold residual, equalised, wanted. rewrite UN, RA. cbn [is_ffe is_dfe is_main bad78 nrz_link length sum_upto nth map Nat.leb]. rewrite F1, HF, bad78_h, Nat.sub_0_r. replace (_ - _) with 0; [apply Rabs_R0|]. destruct n as [|[|[|n]]]; cbn; try field. destruct n; field. }
  cbn [is_base is_ffe bad78 nrz_link nrz_base ls_amp ls_constel ls_rx_factor]. change (adc_low (ls_adc _)) with (-128)%Z. change (adc_high (ls_adc _)) with 127%Z. change (half_spacing NRZ (ofZ 1)) with (ofZ 1). unfold tap_size. cbn [length sum_upto nth]. fold bad78. rewrite UN, !F1, (Qc2R_ofZ (2 * 32)), Rabs_R1. change (2 * 32)%Z with 64%Z. rewrite (Rabs_right 64) by lra. lra.
Qed.
(** (Finding.)  The criterion alone is not enough for a DFE when the main tap is not the first one: the DFE starts on
    decisions about samples that hold no symbol yet.  Here no noise and no interference is left, six ones are sent,
    and all of them are received as zeros. *)
Theorem C78_start_refuted : good_isi bad78 /\ is_main bad78 = 1%nat /\ exists l h, is_link bad78 = Ok l /\ symbol_response bad78 l h /\ peak_open bad78 h 0 0 /\ forall lms normal, adc_noise_at_most 0 l 2 normal /\
  exists l' start, full_link_run lms 2 l normal = Done (Ok (l', [[1; 1; 1]; [1; 1; 1]]%Z, [map inject_Z [start; 0; 0]%Z; map inject_Z [0; 0; 0]%Z])).
Proof.
  assert (G : good_isi bad78) by (apply nrz_good; [lia|discriminate]). split; [exact G|]. split; [reflexivity|]. destruct (isi_ready bad78 G) as (l & EL & S & T & Sn & _ & _ & Ge & Ecd & Emd & Ect & Erx). exists l, (nrz_h [0; 0; 1; 0; -2]).
  assert (SR : symbol_response bad78 l (nrz_h [0; 0; 1; 0; -2])) by (apply nrz_response; [lia|discriminate|exact EL]). split; [exact EL|]. split; [exact SR|]. split; [exact bad78_peak|]. intros lms normal. split; [apply (quiet bad78); auto; right; split; reflexivity|].
  set (xs := map (map Qc2R) [[ofZ 32; ofZ 32; ofZ 32]; [ofZ 32; ofZ 32; ofZ 32]]).
  destruct (response_history bad78 l _ G EL SR 3 xs normal ltac:(lia) ltac:(repeat constructor)) as (c' & cs & ct' & ys & A1 & A2 & A3 & A4 & A5). cbn [is_base bad78 nrz_link nrz_base ls_osr ls_phase] in A4, A5.
  assert (A1' : channel_calls (fl_ch l) xs normal = (c', Ok (returned cs))).
  { rewrite <- A1. f_equal. unfold noise_free. rewrite T. cbn [is_base bad78 nrz_link nrz_base ls_type String.eqb Ascii.eqb Bool.eqb]. cbn [is_base bad78 nrz_link nrz_base ls_type ls_snr] in T, Sn. rewrite <- T, <- Sn. now destruct (fl_ch l). }
  destruct ys as [|y1 [|y2 [|y3 ys]]]; try discriminate A3. inversion A4 as [|? ? Y1 A4']; subst x l0. inversion A4' as [|? ? Y2 _]; subst x l0.
  assert (V : forall j, (j < 6)%nat -> nth (1 + j * 2) (y1 ++ y2) 0 = match j with 0%nat => 0 | 1%nat => IZR 32 | _ => IZR (-32) end).
  { intros j Hj. specialize (A5 j Hj). cbn [concat] in A5. rewrite app_nil_r in A5. rewrite A5. unfold superposed. assert (X32 : forall i, (i < 6)%nat -> nth i (concat xs) 0 = 32) by (intros i Hi; unfold xs; cbn [map concat app]; do 6 (destruct i as [|i]; [cbn [nth]; exact (Qc2R_ofZ 32)|]); lia).
    destruct j as [|[|j]]; [cbn [sum_upto]; rewrite bad78_h; ring|cbn [sum_upto]; rewrite !bad78_h, !X32 by lia; ring|].
    replace (Datatypes.S (Datatypes.S (Datatypes.S j))) with (3 + j)%nat by lia. rewrite sum_upto_split, (sum_upto_0 (fun k => _ (3 + k)%nat * _)) by (intros k Hk; rewrite bad78_h; cbn; ring). cbn [sum_upto]. rewrite !bad78_h, !X32 by lia. ring. }
  set (a := ls_adc (is_base bad78)) in *. assert (LO : adc_low a = (-128)%Z) by reflexivity. assert (HI : adc_high a = 127%Z) by reflexivity.
  assert (AG : adc_good a) by (unfold adc_good, a, ls_adc, adc_init; cbn; repeat split; auto; lia).
  set (w1 := map (fun z => (ofZ z / pow2 5)%Qc) [0; 32; -32]%Z). set (w2 := map (fun z => (ofZ z / pow2 5)%Qc) [-32; -32; -32]%Z).
  assert (D1 : adc_callR a y1 = Ok w1).
  { destruct (adc_callR_spec a 2 1 3 y1 AG eq_refl eq_refl eq_refl ltac:(lia) Y1) as [_ ->]. cbn [seq map]. pose proof (V 0%nat ltac:(lia)) as V0. pose proof (V 1%nat ltac:(lia)) as V1. pose proof (V 2%nat ltac:(lia)) as V2. rewrite app_nth1 in V0, V1, V2 by (rewrite Y1; cbn; lia). rewrite V0, V1, V2. change 0 with (IZR 0). rewrite !code_exact by (rewrite LO, HI; lia). reflexivity. }
  assert (D2 : adc_callR a y2 = Ok w2).
  { destruct (adc_callR_spec a 2 1 3 y2 AG eq_refl eq_refl eq_refl ltac:(lia) Y2) as [_ ->]. cbn [seq map]. pose proof (V 3%nat ltac:(lia)) as V0. pose proof (V 4%nat ltac:(lia)) as V1. pose proof (V 5%nat ltac:(lia)) as V2. rewrite app_nth2 in V0, V1, V2 by (rewrite Y1; cbn; lia). rewrite Y1 in V0, V1, V2. cbn [Nat.mul Nat.add Nat.sub] in V0, V1, V2. cbn [Nat.mul Nat.add]. rewrite V0, V1, V2. rewrite !code_exact by (rewrite LO, HI; lia). reflexivity. }
  assert (PR : exists g, prbs_gen_run 2 (fl_gen l) = (g, Ok [[1; 1; 1]; [1; 1; 1]]%Z)) by (rewrite Ge; eexists; vm_compute; reflexivity). destruct PR as (g & PR).
  set (dcs := fun v => Z.of_nat (decide (scaled_levels NRZ (ofZ 1)) (ofZ 1 * v)%Qc)).
  assert (EO : exists zs, eq_outs (ls_eq (is_base bad78)) [w1; w2] = Ok zs /\ map (map dcs) zs = [[0; 0; 0]; [0; 0; 0]]%Z).
  { destruct (eq_outs (ls_eq (is_base bad78)) [w1; w2]) as [zs|e] eqn:E.
    - exists zs. split; [reflexivity|]. assert (X : match eq_outs (ls_eq (is_base bad78)) [w1; w2] with Ok zs => map (map dcs) zs | Raise _ => [] end = [[0; 0; 0]; [0; 0; 0]]%Z) by (vm_compute; reflexivity). rewrite E in X. exact X.
    - exfalso. assert (X : match eq_outs (ls_eq (is_base bad78)) [w1; w2] with Ok _ => true | Raise _ => false end = true) by (vm_compute; reflexivity). rewrite E in X. discriminate X. }
  destruct EO as (zs & Z1 & Z2). assert (SF : scale_fits NRZ (ofZ 1)) by (split; reflexivity).
  assert (St : steady NRZ (ofZ 1) (ls_cd (is_base bad78)) (fl_rx l)). { rewrite Erx. unfold steady, receiver_init. cbn [rx_converge rx_levels rx_constel rx_cd]. split; [reflexivity|]. split; [|split; reflexivity]. destruct G as (_ & A0 & _ & MI & _). exact (proj1 (rx_levels_eq _ _ _ _ A0 MI)). }
  assert (Eeq : rx_eq (fl_rx l) = ls_eq (is_base bad78)) by now rewrite Erx. rewrite <- Eeq in Z1. destruct (digital_history lms NRZ (ofZ 1) (ls_cd (is_base bad78)) SF [w1; w2] (fl_rx l) zs St Z1) as (r' & DR & _). assert (Ega : rx_gain (fl_rx l) = ofZ 1) by now rewrite Erx. rewrite Ega in DR. fold dcs in DR. rewrite Z2 in DR.
  exists (mk_link g (fl_cd l) (fl_md l) c' ct' r'), 0%Z. rewrite <- run_plain. rewrite (run_stages lms 2 l (plain normal) [[1; 1; 1]; [1; 1; 1]]%Z [[ofZ 32; ofZ 32; ofZ 32]; [ofZ 32; ofZ 32; ofZ 32]] cs [y1; y2] [w1; w2] g c' ct').
  - rewrite DR. reflexivity.
  - exact PR.
  - rewrite Ecd, Emd. repeat constructor; reflexivity.
  - rewrite calls_plain. exact A1'.
  - exact A2.
  - rewrite Erx. constructor; [exact D1|]. constructor; [exact D2|constructor].
  - apply St.
Qed.
Print Assumptions C78_start_refuted.
