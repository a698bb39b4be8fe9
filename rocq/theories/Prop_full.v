(** C71: the whole example link, from the PRBS bits to the received bits. *)
From Coq Require Import Reals Lra Lia String Permutation.
From Verif Require Import Py PyQ B_list B_qc M_aux M_symbol M_prbs S_prbs M_sim S_sim M_simcheck S_simcheck P_prbs_gen P_checker P_simcheck M_rxloop S_rxparts P_rxparts P_rxlink M_link P_fulldig.
From Verif Require Import M_delay M_channel S_channel P_channel P_pulse M_ctle S_ctle S_link P_link S_full P_full.
From Coq Require Import QArith Qcanon.
Import List.
Open Scope R_scope.

(** *** C71: what is sent arrives, a fixed number of bits later *)
Theorem C71_link : forall lms s D d, good_settings s D d -> (ls_type s = "pulse" \/ ls_type s = "awgn")%string -> 0 <= d ->
  exists l, ls_link s = Ok l /\ forall n normal, (ls_type s = "awgn"%string -> link_noise_at_most d l n normal) ->
  let L := (ls_symbols s * ls_bits s)%nat in
  exists l' bs ds start, full_link_run lms n l normal = Done (Ok (l', bs, ds)) /\
    (exists g, prbs_gen_run n (prbs_gen_init (prbs_data_init (ls_prbs s) L (ls_seed s))) = (g, Ok bs)) /\
    length start = ((D + ls_pre s) * ls_bits s)%nat /\ bits start /\ length ds = n /\ Forall (fun x => length x = L) ds /\
    concat ds = map inject_Z (firstn (n * L) (start ++ concat bs)).
Proof.
  intros lms s D d G T Hd. destruct (link_ready s (ls_symbols s * ls_bits s) D d (proj1 G) T) as (l & E & _). exists l. split; [exact E|]. intros n normal NO L.
  destruct (link_delivers lms s D d n normal l G T Hd E NO) as (l' & bs & ds & start & g & A1 & A2 & A3 & A4 & A5 & A6 & A7). exists l', bs, ds, start. repeat split; eauto.
Qed.
Print Assumptions C71_link.
(** The checker counts no error in any chunk that holds no start-up bits. *)
Theorem C71_error_free : forall lms s D d, good_settings s D d -> (ls_type s = "pulse" \/ ls_type s = "awgn")%string -> 0 <= d ->
  match ls_seed s with Some v => v <> repeat 0%Z (prbs_value (ls_prbs s)) | None => True end ->
  exists l, ls_link s = Ok l /\ forall n normal, (ls_type s = "awgn"%string -> link_noise_at_most d l n normal) ->
  exists l' bs ds, full_link_run lms n l normal = Done (Ok (l', bs, ds)) /\ length ds = n /\
    forall c ck, (c < n)%nat -> (D + ls_pre s <= c * ls_symbols s)%nat -> counts_for (ls_prbs s) ck ->
    exists w, nth c ds [] = map inject_Z w /\ length w = (ls_symbols s * ls_bits s)%nat /\
      ck_errors (fst (check_ber ck w)) = ck_errors ck /\ ck_symbols (fst (check_ber ck w)) = (ck_symbols ck + Z.of_nat (length w))%Z /\ snd (check_ber ck w) = Ok (0 # Pos.of_nat (length w))%Q.
Proof.
  intros lms s D d G T Hd LS. destruct (link_ready s (ls_symbols s * ls_bits s) D d (proj1 G) T) as (l & E & _). exists l. split; [exact E|]. intros n normal NO. set (L := (ls_symbols s * ls_bits s)%nat).
  destruct (link_delivers lms s D d n normal l G T Hd E NO) as (l' & bs & ds & start & g & A1 & A2 & A3 & A4 & A5 & A6 & A7). fold L in A2, A6, A7. exists l', bs, ds. split; [exact A1|]. split; [exact A5|].
  intros c ck Hc Hq CF. set (sd := match ls_seed s with Some v => v | None => repeat 1%Z (prbs_value (ls_prbs s)) end).
  assert (SL : live_seed (ls_prbs s) sd). { destruct G as ((SE & _) & _). unfold sd, live_seed. destruct (ls_seed s) as [v|]; [destruct SE; auto|]. apply ones_seed. }
  assert (EG : prbs_gen_init (prbs_data_init (ls_prbs s) L (ls_seed s)) = mk_pg (get_polynomial (ls_prbs s)) L sd).
  { unfold prbs_gen_init, prbs_data_init, sd. cbn [pd_poly pd_chunk pd_seed]. destruct (ls_seed s); [reflexivity|]. now rewrite ones_map. }
  rewrite EG in A2. assert (LP : (1 <= L)%nat) by (destruct G as (_ & U); destruct U as (_ & _ & _ & _ & _ & _ & _ & _ & _ & H1 & H2 & _); unfold L; nia).
  destruct (received_chunk _ sd L n _ start bs ds g c SL A2 A3 A5 A6 A7 Hc) as (u & w & U1 & U2 & U3 & U4); [unfold L; nia|]. exists w. split; [exact U4|]. split; [exact U3|].
  rewrite <- U3 in U2. assert (Nw : w <> []) by (intros ->; cbn [length] in U3; lia). rewrite (check_clean _ ck u w CF U1 U2 Nw). cbn [fst snd ck_errors ck_symbols]. auto.
Qed.
Print Assumptions C71_error_free.
(** With the rectangular pulse and noise draws of at most [B] standard deviations the noise is at most
    sqrt(2 A^2 / 10^(snr/10)) B, where [A] bounds the transmitted levels. *)
Theorem C71_noise : forall s D d snr A B l n normal, good_settings s D d -> ls_type s = "awgn"%string -> ls_pulse s = "rect"%string -> ls_snr s = Some snr -> (2 <= ls_symbols s * ls_osr s)%nat ->
  ls_link s = Ok l -> 0 <= A -> 0 <= B -> Forall (fun v => Rabs (Qc2R v) <= A) (md_levels (ls_map s)) -> (forall i k, Rabs (normal i k) <= B) ->
  link_noise_at_most (sqrt (2 * (A * A) / Rpower 10 (snr / 10)) * B) l n normal.
Proof.
  intros s D d snr A B l n normal G T P Sn L2 E HA HB FL NB g bs txs R F2. destruct (link_ready s (ls_symbols s * ls_bits s) D d (proj1 G) (or_intror T)) as (l0 & E0 & S & T' & Z0 & Pu & Ro & Ge & Ecd & Emd & _). unfold ls_link in E. rewrite E in E0. injection E0 as <-.
  assert (SN : ch_snr (fl_ch l) = Some snr).
  { clear - E Sn. unfold ls_link_of, full_link_init, channel_init, channel_data_init in E. cbn [chd_zi chd_iir chd_fir chd_pulse_zi chd_span chd_osr chd_pulse chd_rolloff chd_type chd_snr length Nat.max] in E.
    destruct (np_zerosR _) as [z|]; [|discriminate E]. cbn [bind] in E. destruct (np_zerosR _) as [z'|]; [|discriminate E]. cbn [bind] in E. injection E as <-. exact Sn. }
  destruct G as ((SE & NA & SF & M & _) & U). apply (rect_noise (fl_ch l) (ls_osr s) (ls_span s) A B snr (ls_symbols s)); auto; try congruence.
  set (L := (ls_symbols s * ls_bits s)%nat) in *. set (sd := match ls_seed s with Some v => v | None => repeat 1%Z (prbs_value (ls_prbs s)) end).
  assert (EG : prbs_gen_init (prbs_data_init (ls_prbs s) L (ls_seed s)) = mk_pg (get_polynomial (ls_prbs s)) L sd).
  { unfold prbs_gen_init, prbs_data_init, sd. cbn [pd_poly pd_chunk pd_seed]. destruct (ls_seed s); [reflexivity|]. now rewrite ones_map. }
  assert (SDok : length sd = prbs_value (ls_prbs s) /\ bits sd). { unfold sd. destruct (ls_seed s); [exact SE|]. destruct (ones_seed (ls_prbs s)) as (X & Y & _). auto. }
  rewrite Ge, EG in R. destruct (gen_run (ls_prbs s) n (mk_pg (get_polynomial (ls_prbs s)) L sd) eq_refl (proj1 SDok) (proj2 SDok)) as (g' & bs' & R1 & R2 & R3 & _ & _ & R6). rewrite R in R1. injection R1 as <- <-. cbn [pg_chunk pg_seed] in *.
  assert (FB : Forall (fun b => bits b /\ length b = L) bs).
  { assert (BC : bits (concat bs)). { rewrite gen_char in R6 by apply SDok. injection R6 as <- _. apply outbits_bits. }
    apply Forall_forall. intros b Hb. split; [|rewrite Forall_forall in R3; exact (R3 b Hb)]. unfold bits in *. rewrite Forall_forall in *. intros v Hv. apply BC. apply in_concat. eauto. }
  destruct (encode_chunks (ls_cd s) (ls_constel s) L (ls_symbols s) (ls_map s) (ls_amp s) (ls_rx_factor s) (uncoded_carries _ _ _ _ U) NA M bs FB) as (ss & T1 & _ & _ & T4 & T5). rewrite Ecd, Emd in F2.
  assert (EX : txs = map (map (fun v => nth (Z.to_nat v) (md_levels (ls_map s)) 0%Qc)) ss).
  { clear - F2 T1. set (q := map _ ss) in *. clearbody q. revert q T1. induction F2 as [|b t bs txs Hb _ IH]; intros q T1; inversion T1; subst; auto. rewrite Hb in H1. injection H1 as <-. f_equal. auto. }
  subst txs. apply Forall_forall. intros x Hx. rewrite map_map in Hx. apply in_map_iff in Hx. destruct Hx as (v & <- & Hv). rewrite !map_length. rewrite Forall_forall in T4. split; [now apply T4|].
  apply Forall_forall. intros y Hy. rewrite map_map in Hy. apply in_map_iff in Hy. destruct Hy as (w & <- & Hw). rewrite Forall_forall in FL. apply FL. apply nth_In. destruct (rx_levels_eq _ _ _ _ NA M) as (_ & EM & _).
  rewrite EM, map_length. rewrite Forall_forall in T5. specialize (T5 w). assert (IN : In w (concat ss)) by (apply in_concat; eauto). specialize (T5 IN). lia.
Qed.
Print Assumptions C71_noise.
(** (Finding.)  The default sampling phase of the ADC, osr//2, reads the Nyquist pulses half a symbol away from their
    centre: for an even osr every sample of an alternating pattern is zero once the pulse window is full, whatever its
    amplitude and sign, so that no decision can recover it. *)
Theorem C71_default_phase_refuted : forall pulse beta h span x y zo j, nyquist pulse beta -> (1 <= h)%nat -> (1 <= span)%nat -> x <> [] -> (forall i, (S i < length x)%nat -> nth (S i) x 0 = - nth i x 0) ->
  let osr := Z.of_nat (2 * h) in
  pulse_shape x osr (Z.of_nat span) pulse beta (Some (repeat 0 (2 * ((2 * h) * span) - 1))) = Ok (y, zo) -> (2 * span - 1 <= j < length x)%nat ->
  forall total frac ty, nth (Z.to_nat (a_phase (adc_init total frac ty osr 1 None) + Z.of_nat j * osr)) y 0 = 0.
Proof.
  intros pulse beta h span x y zo j Ny Hh Hs Nx Al osr E Hj total frac ty. cbn [adc_init a_phase]. unfold osr. replace (Z.to_nat (Z.of_nat (2 * h) / 2 + Z.of_nat j * Z.of_nat (2 * h))) with (h + j * (2 * h))%nat.
  2:{ replace (Z.of_nat (2 * h)) with (Z.of_nat h * 2)%Z at 1 by lia. rewrite Z.div_mul by lia. lia. }
  assert (exists p, P_pulse.shape pulse beta p /\ forall t, p (- t) = p t) as (p & Sh & Ev). { destruct Ny as [->|[-> B]]; [exists sinc; split; [now apply shape_sinc|apply sinc_even]|exists (rcos_at beta); split; [now apply shape_rcos|apply rcos_even]]. }
  destruct (pulse_shape_spec x (2 * h) span pulse beta p (repeat 0 (2 * ((2 * h) * span) - 1)) ltac:(lia) Hs Sh Nx (repeat_length _ _)) as (y' & z' & E' & Ly & _ & V & _). unfold osr in E. rewrite E in E'. injection E' as <- <-.
  rewrite V by nia. rewrite nth_zeros, middle_cancels by auto. ring.
Qed.
Print Assumptions C71_default_phase_refuted.

(** PAM4 over a rectangular pulse with noise, three taps, 8 bit ADC; samples may be off by 31 codes. *)
Definition ex71 : link_settings := mk_ls PRBS7 None 2 3 (mk_cd PAM4 2 6 (mk_flags false false false false) false false false false false false false false false GNone)
  PAM4 (ofZ 192) (ofZ 3) (mk_md PAM4 (map ofZ [-96; -32; 32; 96]%Z) (ofZ 192) (ofZ 3)) "rect" 0.35 2 1 "awgn" (Some 20) [2; -3] [-3; 2] 0 1 8 5 "s" 1
  1 1 0 None (mk_eq 1 1 0 None (map ofZ [0; 1; 0]%Z) [] (map ofZ [0; 0; 0]%Z) []).
Lemma gain0 : linear_gain 0 = 1.
Proof. unfold linear_gain. replace (0 / 20) with 0 by field. apply Rpower_O; lra. Qed.
Lemma ex71_eye : eye_open (ls_adc ex71) (ls_map ex71) (linear_gain (ls_dc ex71)) (linear_gain (ls_dc ex71) * 31).
Proof.
  intros i v z Hi. change (ls_dc ex71) with 0. rewrite gain0, !Rmult_1_l. change (length (get_levels (md_constel (ls_map ex71)))) with 4%nat in Hi.
  assert (K : forall L : Z, (-96 <= L <= 96)%Z -> Rabs (v - IZR L) <= 31 -> nearest_code (ls_adc ex71) v z -> (L - 31 <= z <= L + 31)%Z).
  { intros L HL HV [[Z1 Z2] NZ]. change (adc_low (ls_adc ex71)) with (-128)%Z in *. change (adc_high (ls_adc ex71)) with 127%Z in *.
    assert (HV' : IZR L - 31 <= v <= IZR L + 31) by (destruct (Rcase_abs (v - IZR L)) as [C|C]; [rewrite Rabs_left in HV by auto|rewrite Rabs_right in HV by auto]; lra).
    split.
    - destruct (Z_lt_ge_dec z (L - 31)) as [C|C]; [exfalso|lia]. specialize (NZ (L - 31)%Z ltac:(lia)). rewrite minus_IZR in NZ. assert (CR : IZR z <= IZR L - 32) by (rewrite <- minus_IZR; apply IZR_le; lia). rewrite !Rabs_right in NZ by lra. lra.
    - destruct (Z_lt_ge_dec (L + 31) z) as [C|C]; [exfalso|lia]. specialize (NZ (L + 31)%Z ltac:(lia)). rewrite plus_IZR in NZ. assert (CR : IZR L + 32 <= IZR z) by (rewrite <- plus_IZR; apply IZR_le; lia). rewrite !Rabs_left1 in NZ by lra. lra. }
  assert (Q : forall L r : Z, (L = 32 * r)%Z -> (L - 31 <= z <= L + 31)%Z -> (Qcabs (ofZ z / pow2 5 - ofZ r) < ofZ 3 / ofZ 3)%Qc).
  { intros L r -> H. assert (X : (ofZ z / pow2 5 - ofZ r)%Qc = ((ofZ (z - 32 * r)) / ofZ 32)%Qc).
    { change (pow2 5) with (ofZ 32). apply Qc_is_canon. unfold ofZ, Qcdiv, Qcinv, Qcmult, Qcminus, Qcopp, Qcplus. cbn [this Q2Qc]. rewrite !Qred_correct. unfold Qeq, Qminus, Qplus, Qmult, Qopp, Qinv, inject_Z. cbn -[Z.mul Z.add Z.sub]. lia. }
    rewrite X. unfold Qclt. unfold Qcabs. cbn [this Q2Qc]. assert (Y : (this (ofZ (z - 32 * r) / ofZ 32)%Qc == (z - 32 * r) # 32)%Q).
    { unfold ofZ, Qcdiv, Qcinv, Qcmult. cbn [this Q2Qc]. rewrite !Qred_correct. unfold Qeq, Qmult, Qinv, inject_Z. cbn -[Z.mul Z.add Z.sub]. lia. }
    rewrite Y. change (this (ofZ 3 / ofZ 3)%Qc) with 1%Q. unfold Qlt, Qabs.Qabs. cbn -[Z.mul Z.add Z.sub Z.abs]. lia. }
  change (half_spacing (md_constel (ls_map ex71)) (md_rx_factor (ls_map ex71))) with (ofZ 3 / ofZ 3)%Qc. change (a_frac (ls_adc ex71)) with 5%Z.
  destruct i as [|[|[|[|i]]]]; [| | | |lia]; intros HV HN.
  - replace (nth 0 (rx_level_vec (ls_map ex71)) (ofZ 0)) with (ofZ (-3)) by (apply Qc_is_canon; reflexivity). apply (Q (-96)%Z); [reflexivity|]. apply K; auto; [lia|]. rewrite <- Qc2R_ofZ. exact HV.
  - replace (nth 1 (rx_level_vec (ls_map ex71)) (ofZ 0)) with (ofZ (-1)) by (apply Qc_is_canon; reflexivity). apply (Q (-32)%Z); [reflexivity|]. apply K; auto; [lia|]. rewrite <- Qc2R_ofZ. exact HV.
  - replace (nth 2 (rx_level_vec (ls_map ex71)) (ofZ 0)) with (ofZ 1) by (apply Qc_is_canon; reflexivity). apply (Q 32%Z); [reflexivity|]. apply K; auto; [lia|]. rewrite <- Qc2R_ofZ. exact HV.
  - replace (nth 3 (rx_level_vec (ls_map ex71)) (ofZ 0)) with (ofZ 3) by (apply Qc_is_canon; reflexivity). apply (Q 96%Z); [reflexivity|]. apply K; auto; [lia|]. rewrite <- Qc2R_ofZ. exact HV.
Qed.
Lemma ex71_good : good_settings ex71 0 31.
Proof.
  split; [|repeat split; cbn; auto]. unfold good_path. split; [exact I|]. split; [discriminate|]. split; [split; reflexivity|].
  split. { cbn [ls_constel ls_amp ls_rx_factor ls_map ex71]. unfold mapping_data_init. replace (Qceqb (max_abs (map ofZ (get_levels PAM4))) (ofZ 0)) with false by reflexivity. change (map ofZ (get_levels PAM4)) with (map ofZ [-3; -1; 1; 3]%Z). cbv iota beta. cbn [map]. replace (max_abs [ofZ (-3); ofZ (-1); ofZ 1; ofZ 3]) with (ofZ 3) by (apply Qc_is_canon; reflexivity).
    match goal with |- Done (Ok (mk_md _ [?a; ?b; ?c; ?d] _ _)) = _ => replace a with (ofZ (-96)) by (apply Qc_is_canon; reflexivity); replace b with (ofZ (-32)) by (apply Qc_is_canon; reflexivity); replace c with (ofZ 32) by (apply Qc_is_canon; reflexivity); replace d with (ofZ 96) by (apply Qc_is_canon; reflexivity) end. reflexivity. }
  split; [cbn; lia|]. split; [cbn; lia|]. split; [cbn; lia|]. split; [left; split; reflexivity|]. split; [discriminate|]. split; [repeat constructor; lra|]. split; [constructor|]. split; [cbn; lra|]. split; [cbn [ls_dc ex71]; rewrite gain0; lra|].
  split; [cbn; lia|]. split; [auto|]. split; [reflexivity|]. split; [discriminate|]. split; [cbn; lia|]. exact ex71_eye.
Qed.
Example C71_case : good_settings ex71 0 31 /\ ls_type ex71 = "awgn"%string /\ Forall (fun v => Rabs (Qc2R v) <= 96) (md_levels (ls_map ex71)) /\
  sqrt (2 * (96 * 96) / Rpower 10 (20 / 10)) * 2 <= 31 /\
  forall normal n l, (forall i k, Rabs (normal i k) <= 2) -> ls_link ex71 = Ok l -> link_noise_at_most (sqrt (2 * (96 * 96) / Rpower 10 (20 / 10)) * 2) l n normal.
Proof.
  split; [exact ex71_good|]. split; [reflexivity|].
  assert (FL : Forall (fun v => Rabs (Qc2R v) <= 96) (md_levels (ls_map ex71))).
  { cbn [ls_map ex71 md_levels map]. repeat constructor; rewrite Qc2R_ofZ; [rewrite Rabs_left by lra|rewrite Rabs_left by lra|rewrite Rabs_right by lra|rewrite Rabs_right by lra]; lra. }
  split; [exact FL|]. split.
  - replace (20 / 10) with (INR 2) by (cbn; field). rewrite Rpower_pow by lra. apply (Rmult_le_reg_r (/ 2)); [lra|]. replace (sqrt (2 * (96 * 96) / 10 ^ 2) * 2 * / 2) with (sqrt (2 * (96 * 96) / 10 ^ 2)) by field.
    rewrite <- (sqrt_square (31 * / 2)) by lra. apply sqrt_le_1_alt. lra.
  - intros normal n l HB E. apply (C71_noise ex71 0 31 20 96 2 l n normal); auto; try lra; try exact ex71_good; cbn; lia.
Qed.
Example C71_alternating : nyquist "sinc" 0 /\ forall i, (S i < length [5; -5; 5; -5]%R)%nat -> nth (S i) [5; -5; 5; -5] 0 = - nth i [5; -5; 5; -5] 0.
Proof. split; [left; reflexivity|]. intros [|[|[|i]]] H; cbn in *; try lra; lia. Qed.
