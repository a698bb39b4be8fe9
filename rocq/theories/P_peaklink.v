(** Proofs about the example link with inter-symbol interference: the whole link. *)
From Coq Require Import Reals Lra Lia String Qreals.
From Verif Require Import Py PyQ B_list B_qc M_aux M_symbol M_slicer S_rx P_slicer M_filter S_filter M_prbs S_prbs P_prbs M_sim S_sim P_sim M_simcheck S_simcheck P_prbs_gen P_checker P_simcheck M_rxloop S_rxparts S_rxloop P_rxloop P_rxparts P_rxlink M_link P_fulldig.
From Verif Require Import M_delay P_delay M_channel S_channel P_channel P_pulse P_dft M_ctle S_ctle P_ctle S_link P_link S_full P_full S_peak P_peak P_peakdig.
From Coq Require Import QArith Qcanon.
Import List.
Open Scope R_scope.

Lemma isi_ready t : good_isi t -> let s := is_base t in
  exists l, is_link t = Ok l /\ channel_sized (fl_ch l) (ls_osr s) (ls_span s) /\ ch_type (fl_ch l) = ls_type s /\ ch_snr (fl_ch l) = ls_snr s /\ ch_pulse_zi (fl_ch l) = repeat 0 (2 * (ls_osr s * ls_span s) - 1) /\
    ch_zi (fl_ch l) = repeat 0 (length (ch_zi (fl_ch l))) /\
    fl_gen l = prbs_gen_init (prbs_data_init (ls_prbs s) (ls_symbols s * ls_bits s) (ls_seed s)) /\ fl_cd l = ls_cd s /\ fl_md l = ls_map s /\
    fl_ctle l = ctle_init (ls_zeros s) (ls_poles s) (ls_dc s) (ls_fs s) (Z.of_nat (ls_osr s)) None /\
    fl_rx l = receiver_init (Z.of_nat (ls_osr s)) (ls_adc s) (ls_eq s) (ls_map s) (ls_cd s) (ofZ 1 / ofZ 1024)%Qc (ofZ 1).
Proof.
  intros G s. destruct G as (_ & _ & _ & _ & Hs & Hp & UP & _ & NF & _). fold s in Hs, Hp, UP. assert (LF : (1 <= length (is_fir t))%nat) by (destruct (is_fir t); [congruence|cbn; lia]).
  unfold is_link. fold s. unfold full_link_init, channel_init, channel_data_init. cbn [chd_zi chd_iir chd_fir chd_pulse_zi chd_span chd_osr chd_pulse chd_rolloff chd_type chd_snr length]. unfold np_zerosR.
  destruct (Z.ltb_spec (Z.of_nat (Nat.max 1 (length (is_fir t))) - 1) 0); [lia|]. cbn [bind]. destruct (Z.ltb_spec (Z.of_nat (ls_span s) * Z.of_nat (ls_osr s) * 2 - 1) 0); [nia|]. cbn [bind].
  eexists. split; [reflexivity|]. cbn [fl_ch fl_gen fl_cd fl_md fl_ctle fl_rx ch_type ch_snr ch_pulse_zi ch_zi].
  replace (Z.to_nat (Z.of_nat (ls_span s) * Z.of_nat (ls_osr s) * 2 - 1)) with (2 * (ls_osr s * ls_span s) - 1)%nat by nia. rewrite repeat_length.
  split; [|repeat split; auto]. unfold channel_sized. cbn [ch_osr ch_span ch_pulse ch_rolloff ch_pulse_zi ch_iir ch_fir ch_zi]. rewrite !repeat_length. split; [lia|]. repeat (split; [now auto|]). exists [1]. split; [reflexivity|].
  unfold usable. cbn [coef_list nth length]. split; [auto|]. split; [discriminate|]. split; [lra|]. lia.
Qed.
Lemma any_noise_free_linear c : (ch_type c = "pulse" \/ ch_type c = "awgn" \/ ch_type c = "isi_awgn")%string -> linear_type (noise_free c).
Proof. intros [T|[T|T]]; unfold linear_type, noise_free; cbn [ch_type ch_snr]; rewrite T; cbn; auto. Qed.
(** What the ADC gets without noise, in one call and over a history. *)
Lemma isi_chain t l : good_isi t -> is_link t = Ok l -> let s := is_base t in
  exists h, forall x n0, x <> [] -> exists c' y ct' v, channel_call (noise_free (fl_ch l)) x n0 = (c', Ok (Some (map Some y))) /\ ctle_call (fl_ctle l) y = Ok (Some (ct', v)) /\
    length v = (length x * ls_osr s)%nat /\ forall j, (j < length x)%nat -> nth (ls_phase s + j * ls_osr s) v 0 = superposed h (fun k => nth k x 0) j.
Proof.
  intros G EL s. destruct (isi_ready t G) as (l0 & E0 & S & T & _ & Z1 & Z2 & _ & _ & _ & Ect & _). rewrite EL in E0. injection E0 as <-. fold s in S, T, Z1, Ect.
  destruct G as (_ & _ & _ & _ & Hs & Hp & _ & TY & _ & D & _). fold s in Hs, Hp, TY, D.
  apply (chain_response (noise_free (fl_ch l)) (fl_ctle l) (ls_osr s) (ls_span s) (ls_phase s)); try assumption.
  - apply any_noise_free_linear. now rewrite T.
  - rewrite Ect. split; [exact D|]. cbn [ctle_init ct_zi ct_zeros ct_poles]. apply repeat_length.
  - rewrite Ect. reflexivity.
Qed.
Lemma superposed_one h k m : (k <= m)%nat -> superposed h (fun i => nth i (1 :: repeat 0 m) 0) k = h k.
Proof.
  intros H. unfold superposed. rewrite (sum_upto_single _ _ k); [rewrite Nat.sub_diag; cbn [nth]; ring|lia|]. intros i Hi Ne. destruct (k - i)%nat as [|q] eqn:E; [lia|]. cbn [nth]. rewrite nth_zeros. ring.
Qed.
Lemma isi_response t l : good_isi t -> is_link t = Ok l -> exists h, symbol_response t l h.
Proof.
  intros G EL. destruct (isi_chain t l G EL) as (h & H). exists h. intros m. destruct (H (1 :: repeat 0 m) (fun _ => 0) ltac:(discriminate)) as (c' & y & ct' & v & E1 & E2 & _ & E4). exists c', y, ct', v. split; [exact E1|]. split; [exact E2|].
  intros k Hk. rewrite E4 by (cbn [length]; rewrite repeat_length; lia). now apply superposed_one.
Qed.
Lemma map_some_inj (l l' : list R) : map Some l = map Some l' -> l = l'.
Proof. revert l'. induction l as [|q l IH]; intros [|q' l'] X; try discriminate; auto. injection X as -> X. f_equal; auto. Qed.
Lemma response_chain t l h : good_isi t -> is_link t = Ok l -> symbol_response t l h -> let s := is_base t in
  forall x n0, x <> [] -> exists c' y ct' v, channel_call (noise_free (fl_ch l)) x n0 = (c', Ok (Some (map Some y))) /\ ctle_call (fl_ctle l) y = Ok (Some (ct', v)) /\
    length v = (length x * ls_osr s)%nat /\ forall j, (j < length x)%nat -> nth (ls_phase s + j * ls_osr s) v 0 = superposed h (fun k => nth k x 0) j.
Proof.
  intros G EL SR s x n0 Nx. destruct (isi_chain t l G EL) as (h' & H). fold s in H.
  assert (EH : forall k, h' k = h k).
  { intros k. destruct (SR k) as (c1 & y1 & ct1 & v1 & A1 & A2 & A3). destruct (H (1 :: repeat 0 k) (fun _ => 0) ltac:(discriminate)) as (c2 & y2 & ct2 & v2 & B1 & B2 & _ & B4).
    rewrite A1 in B1. apply (f_equal snd) in B1. cbn [snd] in B1. injection B1 as B1. apply map_some_inj in B1. subst y2. rewrite A2 in B2. injection B2 as _ B2. subst v2.
    specialize (A3 k ltac:(lia)). rewrite B4 in A3 by (cbn [length]; rewrite repeat_length; lia). rewrite superposed_one in A3 by lia. exact A3. }
  destruct (H x n0 Nx) as (c' & y & ct' & v & E1 & E2 & E3 & E4). exists c', y, ct', v. split; [exact E1|]. split; [exact E2|]. split; [exact E3|]. intros j Hj. rewrite E4 by exact Hj. apply superposed_ext; auto.
Qed.
Lemma response_history t l h : good_isi t -> is_link t = Ok l -> symbol_response t l h -> let s := is_base t in
  forall N xs normal, (1 <= N)%nat -> Forall (fun x => length x = N) xs ->
  exists c' cs ct' ys, channel_calls (noise_free (fl_ch l)) xs normal = (c', Ok (returned cs)) /\ ctle_calls (fl_ctle l) cs = Ok (Some (ct', ys)) /\ length ys = length xs /\
    Forall (fun y => length y = (N * ls_osr s)%nat) ys /\ forall j, (j < length xs * N)%nat -> nth (ls_phase s + j * ls_osr s) (concat ys) 0 = superposed h (fun k => nth k (concat xs) 0) j.
Proof.
  intros G EL SR s N xs normal HN F. destruct (isi_ready t G) as (l0 & E0 & S & T & _ & _ & _ & _ & _ & _ & Ect & _). rewrite EL in E0. injection E0 as <-. fold s in S, T, Ect.
  pose proof G as (_ & _ & _ & _ & Hs & Hp & _ & TY & _ & D & _). fold s in Hs, Hp, TY, D.
  assert (SC : ctle_sized (fl_ctle l)) by (rewrite Ect; split; [exact D|]; cbn [ctle_init ct_zi ct_zeros ct_poles]; apply repeat_length).
  destruct xs as [|x xs].
  - exists (noise_free (fl_ch l)), [], (fl_ctle l), []. repeat split; auto. intros j Hj. cbn [length] in Hj. lia.
  - assert (NE : Forall (fun x => x <> []) (x :: xs)) by (eapply Forall_impl; [|exact F]; intros y Hy ->; cbn [length] in Hy; lia).
    assert (NC : concat (x :: xs) <> []) by (inversion NE; subst; cbn [concat]; intros X; apply app_eq_nil in X as [-> _]; congruence).
    destruct (calls_concat (ls_osr s) (ls_span s) xs (noise_free (fl_ch l)) x normal (fun _ => 0) (noise_free_sized _ _ _ S) (any_noise_free_linear _ ltac:(rewrite T; exact TY)) NE) as (c' & cs & A1 & A2 & _ & A3).
    assert (FC : Forall (fun y => length y = (N * ls_osr s)%nat) cs).
    { clear - A2 F. revert A2 F. generalize (x :: xs). intros q. revert q. induction cs as [|y cs IH]; intros [|z q] E F; cbn [map] in E; try discriminate E; constructor; injection E as E1 E2; inversion F; subst; [exact E1|eauto]. }
    assert (LC : length cs = length (x :: xs)) by (apply (f_equal (@length nat)) in A2; now rewrite !map_length in A2).
    destruct cs as [|y cs]; [discriminate LC|].
    assert (NY : Forall (fun y => y <> []) (y :: cs)) by (eapply Forall_impl; [|exact FC]; intros w Hw ->; cbn [length] in Hw; nia).
    destruct (ctle_calls_concat cs (fl_ctle l) y SC NY) as (ct' & ys & B1 & B2 & _ & B3).
    assert (FY : Forall (fun y => length y = (N * ls_osr s)%nat) ys).
    { clear - B2 FC. revert B2 FC. generalize (y :: cs). intros q. revert q. induction ys as [|v ys IH]; intros [|z q] E F; cbn [map] in E; try discriminate E; constructor; injection E as E1 E2; inversion F; subst; [congruence|eauto]. }
    assert (LY : length ys = length (x :: xs)) by (apply (f_equal (@length nat)) in B2; rewrite !map_length in B2; congruence).
    exists c', (y :: cs), ct', ys. split; [exact A1|]. split; [exact B1|]. split; [exact LY|]. split; [exact FY|].
    destruct (response_chain t l h G EL SR (concat (x :: xs)) (fun _ => 0) NC) as (c2 & y2 & ct2 & v2 & C1 & C2 & _ & C4). rewrite A3 in C1. apply (f_equal snd) in C1. cbn [snd] in C1. injection C1 as C1. change (y ++ concat cs) with (concat (y :: cs)) in C1.
    apply map_some_inj in C1. subst y2. rewrite B3 in C2. injection C2 as _ C2. subst v2. fold s in C4. intros j Hj. apply C4. rewrite (concat_length_const N) by exact F. exact Hj.
Qed.
Lemma level_size c : forall i, (i < length (get_levels c))%nat -> Rabs (IZR (nth i (get_levels c) 0%Z) / IZR (top_level c)) <= 1.
Proof. intros i Hi. destruct c; cbn [get_levels length top_level] in *; (destruct i as [|[|[|[|i]]]]; try (exfalso; lia)); cbn [nth]; apply Rabs_le; lra. Qed.
Lemma top_nonzero c : ofZ (top_level c) <> 0%Qc.
Proof. destruct c; discriminate. Qed.
Lemma top_nonzeroR c : IZR (top_level c) <> 0.
Proof. destruct c; cbn [top_level]; lra. Qed.
(** The symbols decided over a history. *)
Lemma isi_symbols lms t l h d n normal : good_isi t -> is_link t = Ok l -> symbol_response t l h -> adc_noise_at_most d l n normal ->
  let s := is_base t in let N := ls_symbols s in let M := is_main t in
  exists l' bs ss rs g, prbs_gen_run n (prbs_gen_init (prbs_data_init (ls_prbs s) (N * ls_bits s) (ls_seed s))) = (g, Ok bs) /\ length bs = n /\ Forall (fun b => bits b /\ length b = (N * ls_bits s)%nat) bs /\
    Forall2 (fun b s0 => encoder (ls_cd s) b = Done (Ok s0)) bs ss /\ full_link_run lms n l normal = obind (decode_all (ls_cd s) rs) (fun ds => Done (Ok (l', bs, ds))) /\
    length rs = n /\ Forall (fun x => length x = N) rs /\ length (concat rs) = (n * N)%nat /\ length (concat ss) = (n * N)%nat /\
    Forall (fun v => (0 <= v < Z.of_nat (length (get_levels (ls_constel s))))%Z) (concat ss) /\ Forall (fun v => (0 <= v < Z.of_nat (length (get_levels (ls_constel s))))%Z) (concat rs) /\
    forall extra j, peak_open t h d extra -> (M <= j < n * N)%nat ->
      (extra = 0 /\ forall k, (k < ls_dfe s)%nat -> (S k <= j)%nat -> (S k <= j - M)%nat /\ nth (j - S k) (concat rs) 0%Z = nth (j - M - S k) (concat ss) 0%Z) \/ extra = 2 * Qc2R (ls_rx_factor s) * tap_size (is_dfe t) ->
      nth j (concat rs) 0%Z = nth (j - M) (concat ss) 0%Z.
Proof.
  intros G EL SR NO s N M. destruct (isi_ready t G) as (l0 & E0 & Sz & T & _ & _ & _ & Ge & Ecd & Emd & Ect & Erx). rewrite EL in E0. injection E0 as <-. fold s in Sz, T, Ge, Ecd, Emd, Ect, Erx. fold N in Ge.
  pose proof G as (SE & A & SF & MI & Hs & Hp & UP & TY & NF & D & To & Fo & EI & LE & U). fold s in SE, A, SF, MI, Hs, Hp, UP, TY, D, To, Fo, EI, LE, U. fold N in LE, U.
  set (c := ls_constel s) in *. set (f := ls_rx_factor s) in *. set (amp := ls_amp s) in *. set (m := ls_map s) in *. set (a := ls_adc s) in *. set (e := ls_eq s) in *. set (o := ls_osr s) in *. set (ph := ls_phase s) in *. set (cd := ls_cd s) in *. set (nb := (N * ls_bits s)%nat) in *.
  assert (HN : (1 <= N)%nat) by (destruct U as (_ & _ & _ & _ & _ & _ & _ & _ & _ & _ & X & _); exact X).
  set (sd := match ls_seed s with Some v => v | None => repeat 1%Z (prbs_value (ls_prbs s)) end).
  assert (SD : pd_seed (prbs_data_init (ls_prbs s) nb (ls_seed s)) = sd). { unfold sd. destruct (ls_seed s); [reflexivity|]. cbn [prbs_data_init pd_seed]. apply ones_map. }
  assert (SDok : length sd = prbs_value (ls_prbs s) /\ bits sd). { unfold sd. destruct (ls_seed s); [exact SE|]. destruct (ones_seed (ls_prbs s)) as (X & Y & _). auto. }
  destruct (gen_run (ls_prbs s) n (prbs_gen_init (prbs_data_init (ls_prbs s) nb (ls_seed s)))) as (g & bs & R1 & R2 & R3 & _ & _ & R6); [reflexivity|cbn [prbs_gen_init pg_seed]; rewrite SD; apply SDok|cbn [prbs_gen_init pg_seed]; rewrite SD; apply SDok|].
  cbn [prbs_gen_init pg_chunk pg_seed prbs_data_init pd_chunk] in R3.
  assert (FB : Forall (fun b => bits b /\ length b = nb) bs).
  { assert (BC : bits (concat bs)). { cbn [prbs_gen_init pg_seed] in R6. rewrite gen_char in R6; [injection R6 as <- _; apply outbits_bits|rewrite SD; apply SDok|rewrite SD; apply SDok]. }
    apply Forall_forall. intros b Hb. split; [|rewrite Forall_forall in R3; exact (R3 b Hb)]. unfold bits in *. rewrite Forall_forall in *. intros v Hv. apply BC. apply in_concat. eauto. }
  destruct (encode_chunks cd c nb N m amp f (uncoded_carries _ _ _ _ U) A MI bs FB) as (ss & T1 & T2 & T3 & T4 & T5). set (lvl := fun v => nth (Z.to_nat v) (md_levels m) 0%Qc) in *.
  destruct (rx_levels_eq _ _ _ _ A MI) as (EV & EM & EC). fold (scaled_levels c f) in EV.
  assert (F0 : (0 < f)%Qc) by (eapply scale_pos; exact SF). pose proof (proj1 (Qc2R_lt _ _) F0) as F0R. rewrite Qc2R_0 in F0R.
  assert (Fn : f <> 0%Qc) by (intros X; rewrite X in F0R; rewrite Qc2R_0 in F0R; lra).
  set (txs := map (map lvl) ss) in *. set (xs := map (map Qc2R) txs).
  assert (FX : Forall (fun x => length x = N) xs). { apply Forall_forall. intros x Hx. apply in_map_iff in Hx. destruct Hx as (w & <- & Hw). apply in_map_iff in Hw. destruct Hw as (v & <- & Hv). rewrite !map_length. rewrite Forall_forall in T4. now apply T4. }
  assert (LX : length xs = n) by (unfold xs, txs; rewrite !map_length; congruence).
  assert (NA := NO g bs txs). rewrite Ge, Ecd, Emd in NA. destruct (NA R1 T1) as (c1 & c2 & ct1 & ct2 & cs & cl & ys & yc & N1 & N2 & N3 & N4 & N5). fold xs in N1, N2. clear NA.
  destruct (response_history t l h G EL SR N xs normal HN FX) as (c2' & cl' & ct2' & yc' & Q1 & Q2 & Q3 & Q4 & Q5). rewrite N2 in Q1. apply (f_equal snd) in Q1. cbn [snd] in Q1. injection Q1 as Q1. apply returned_inj in Q1. subst cl'.
  rewrite N4 in Q2. injection Q2 as _ Q2. subst yc'. fold s in Q4, Q5. fold o in Q4, Q5. fold ph in Q5. rewrite LX in Q3, Q5.
  destruct (within_lengths d ys yc (N * o) N5 Q4) as (W1 & Ly & W3). rewrite Q3 in W1, W3.
  set (conv := fun v : R => (ofZ (codeR a v) / pow2 (a_frac a))%Qc). set (sample := fun y : list R => map (fun q => conv (nth (ph + q * o)%nat y 0%R)) (seq 0 N)).
  assert (AG : adc_good a). { unfold adc_good, a, ls_adc, adc_init. cbn [a_total a_type a_rate a_osr a_phase]. rewrite Z.div_1_r. fold o. repeat split; auto; lia. }
  assert (LH : (adc_low a <= adc_high a)%Z) by (apply (adc_callR_spec a o ph 0 [] AG eq_refl eq_refl eq_refl Hp eq_refl)).
  assert (AD : Forall2 (fun y ad => adc_callR a y = Ok ad) ys (map sample ys)).
  { clear - Ly AG Hp. induction Ly as [|y l' Hy _ IH]; cbn [map]; constructor; auto. now apply (adc_callR_spec a o ph N). }
  assert (LA : Forall (fun x => length x = N) (map sample ys)). { apply Forall_forall. intros x Hx. apply in_map_iff in Hx. destruct Hx as (y & <- & _). unfold sample. now rewrite map_length, seq_length. }
  assert (SZ : sized e) by (apply (eq_init_sized _ _ _ _ _ _ _ _ _ EI); rewrite EV; intros X; injection X as X; revert X; apply scaled_nonempty).
  assert (EE : e = mk_eq (ls_pre s) (ls_post s) (ls_dfe s) (Some (rx_level_vec m)) (is_ffe t) (is_dfe t) (repeat (ofZ 0) (ls_pre s + ls_post s + 1)) (repeat (ofZ 0) (ls_dfe s))).
  { destruct (eq_init_spec (ls_pre s) (ls_post s) (ls_dfe s) (Some (is_ffe t)) (Some (is_dfe t)) (Some (rx_level_vec m)) None None) as [I1 I2]. unfold eq_init, checked in EI. destruct (Nat.eqb_spec (length (is_ffe t)) (ls_pre s + ls_post s + 1)); [|discriminate EI]. cbn [bind] in EI. destruct (Nat.eqb_spec (length (is_dfe t)) (ls_dfe s)); [|discriminate EI]. cbn [bind] in EI.
    destruct (_ && _)%bool in EI; [discriminate EI|]. injection EI as EI. symmetry. exact EI. }
  set (W := map sample ys) in *. assert (LW : length W = n) by (unfold W; rewrite map_length; exact W1).
  assert (LCW : length (concat W) = (n * N)%nat) by (rewrite (concat_length_const N) by exact LA; now rewrite LW).
  assert (LD : length (is_dfe t) = ls_dfe s) by (destruct SZ as (_ & _ & X & _); rewrite EE in X; exact X).
  assert (EO : exists zs dec, eq_outs e W = Ok zs /\ map (@length Qc) zs = map (@length Qc) W /\ ((0 < ls_dfe s)%nat -> forall j, (j < n * N)%nat -> nearest_level (scaled_levels c f) (nth j (concat zs) 0%Qc) (nth j dec 0%Qc)) /\
    forall j, (j < n * N)%nat -> Qc2R (nth j (concat zs) 0%Qc) = sum_upto (fun i => Qc2R (nth i (is_ffe t) 0%Qc) * past (fun k => Qc2R (nth k (concat W) 0%Qc)) j i) (length (is_ffe t)) -
      sum_upto (fun k => nth k (map Qc2R (is_dfe t)) 0 * past (fun i => Qc2R (nth i dec 0%Qc)) j (S k)) (length (map Qc2R (is_dfe t)))).
  { destruct W as [|x xs'] eqn:EX.
    - exists [], []. cbn [length] in LW. split; [reflexivity|]. split; [reflexivity|]. split; [intros _|]; intros j Hj; subst n; lia.
    - assert (LO : Forall (long_enough e) (x :: xs')).
      { eapply Forall_impl; [|exact LA]. intros w Hw. split; [intros ->; cbn [length] in Hw; lia|]. destruct SZ as (Z1 & _). rewrite Z1, EE. cbn [e_dfe e_pre e_post]. rewrite Hw. intros X1 X2. apply LE; auto; lia. }
      inversion LO as [|? ? LO1 LO2]; subst x0 l0. destruct (eq_outs_concat xs' e x SZ LO1 LO2) as (zs & r & Z1 & Z2 & Z3 & Z4).
      assert (NC : concat (x :: xs') <> []) by (destruct LO1 as [NX _]; destruct x; [congruence|discriminate]).
      destruct (eq_equation_R e (concat (x :: xs')) SZ) as (sin & e' & dec & Y1 & Y2 & Y3 & Y4); [rewrite EE; cbn [e_zi_ffe]; now rewrite repeat_length|rewrite EE; cbn [e_zi_dfe]; now rewrite repeat_length|exact NC|].
      rewrite Z3 in Y1. apply (f_equal (fun r => match r with Ok q => fst q | Raise _ => [] end)) in Y1. cbn [fst] in Y1. rewrite Y1 in Z4. subst sin. rewrite LCW in Y2, Y4. exists zs, dec. split; [exact Z1|]. split; [exact Z2|].
      rewrite EE in Y3, Y4. cbn [e_dfe e_levels slicer_levels e_ffe_vec e_dfe_vec] in Y3, Y4. rewrite EV in Y3. rewrite Y2 in Y4 || idtac. split; [|exact Y4]. intros HD j Hj. destruct (Y3 HD) as [_ Y5]. apply Y5. rewrite Y2. exact Hj. }
  destruct EO as (zs & dec & Z1 & Z2 & ZD & Z3).
  assert (Lz : Forall (fun x => length x = N) zs).
  { clear - Z2 LA. revert zs Z2. induction LA as [|x l' Hx _ IH]; intros [|z zs] Z2; cbn [map] in Z2; try discriminate Z2; constructor; injection Z2 as Z2 Z3; [congruence|now apply IH]. }
  assert (Ln : length zs = n). { apply (f_equal (@length nat)) in Z2. rewrite !map_length in Z2. congruence. }
  assert (LCZ : length (concat zs) = (n * N)%nat) by (rewrite (concat_length_const N) by exact Lz; now rewrite Ln).
  assert (St : steady c f cd (fl_rx l)). { rewrite Erx. unfold steady, receiver_init. cbn [rx_converge rx_levels rx_constel rx_cd]. repeat split; auto. }
  assert (Eeq : rx_eq (fl_rx l) = e) by now rewrite Erx. rewrite <- Eeq in Z1. destruct (digital_history lms c f cd SF W (fl_rx l) zs St Z1) as (r' & DR & _).
  assert (Ega : rx_gain (fl_rx l) = ofZ 1) by now rewrite Erx. rewrite Ega in DR. set (dcs := fun v => Z.of_nat (decide (scaled_levels c f) (ofZ 1 * v)%Qc)) in *.
  exists (mk_link g (fl_cd l) (fl_md l) c1 ct1 r'), bs, ss, (map (map dcs) zs), g.
  assert (LS : length (concat ss) = (n * N)%nat) by (rewrite (concat_length_const N) by exact T4; now rewrite T3, R2).
  assert (LR : length (concat (map (map dcs) zs)) = (n * N)%nat) by (rewrite <- concat_map, map_length; exact LCZ).
  assert (RJ : forall j, (j < n * N)%nat -> nth j (concat (map (map dcs) zs)) 0%Z = dcs (nth j (concat zs) 0%Qc)) by (intros j Hj; rewrite <- concat_map; apply map_nth_lt; rewrite LCZ; exact Hj).
  split; [exact R1|]. split; [exact R2|]. split; [exact FB|]. split; [exact T2|]. split.
  { rewrite <- run_plain. rewrite (run_stages lms n l (plain normal) bs txs cs ys W g c1 ct1); rewrite ?Ecd, ?Emd; eauto.
    - rewrite DR. destruct (decode_all cd _) as [[ds|er]|]; reflexivity.
    - now rewrite Ge.
    - now rewrite calls_plain.
    - rewrite Erx. exact AD.
    - apply St. }
  split; [now rewrite map_length|]. split.
  { apply Forall_forall. intros x Hx. apply in_map_iff in Hx. destruct Hx as (y & <- & Hy). rewrite map_length. rewrite Forall_forall in Lz. now apply Lz. }
  split; [exact LR|]. split; [exact LS|]. split; [exact T5|]. split.
  { rewrite <- concat_map. apply Forall_forall. intros v Hv. apply in_map_iff in Hv. destruct Hv as (x & <- & _). unfold dcs. pose proof (decide_range c f (ofZ 1 * x)%Qc). lia. }
  intros extra j (Hd & HH & E & P1 & P2 & P3 & P4 & P5) Hj CASE. fold s in P3, P4, P5. fold amp a f c in P3, P4, P5.
  set (ratio := level_ratio t). set (unit := adc_unit t). assert (ERA : ratio = Qc2R amp / 2 / Qc2R f) by reflexivity.
  assert (PP : 0 < Qc2R (pow2 (ls_frac s))) by (rewrite <- Qc2R_0; apply Qc2R_lt, pow2_pos). assert (UN : 0 < unit) by (unfold unit, adc_unit; fold s; now apply Rinv_0_lt_compat).
  set (sym := fun k => nth k (concat ss) 0%Z). set (Y := fun k => if (k <? n * N)%nat then Qc2R (nth (Z.to_nat (sym k)) (scaled_levels c f) 0%Qc) else 0).
  assert (RS : forall k, (k < n * N)%nat -> (0 <= sym k < Z.of_nat (length (get_levels c)))%Z) by (intros k Hk; rewrite Forall_forall in T5; apply T5, nth_In; rewrite LS; exact Hk).
  assert (LVR : forall i, (i < length (get_levels c))%nat -> Qc2R (nth i (scaled_levels c f) 0%Qc) = IZR (nth i (get_levels c) 0%Z) / IZR (top_level c) * Qc2R f).
  { intros i Hi. rewrite scaled_nth by exact Hi. rewrite Qc2R_mult, Qc2R_div, !Qc2R_ofZ by apply top_nonzero. reflexivity. }
  assert (XV : forall k, (k < n * N)%nat -> nth k (concat xs) 0 = ratio * Y k).
  { intros k Hk. assert (EX : concat xs = map (fun v => Qc2R (lvl v)) (concat ss)) by (unfold xs, txs; rewrite <- !concat_map, map_map; reflexivity). rewrite EX, (map_nth_lt _ _ _ 0%Z) by (rewrite LS; exact Hk). unfold Y. destruct (Nat.ltb_spec k (n * N)); [|lia]. fold (sym k).
    specialize (RS k Hk). rewrite LVR by lia. unfold lvl. rewrite EM, (map_nth_lt _ _ _ 0%Z) by lia. rewrite Qc2R_mult, !Qc2R_div, !Qc2R_ofZ by (try apply top_nonzero; discriminate). rewrite ERA. pose proof (top_nonzeroR c). field. split; lra. }
  assert (YB : forall k, Rabs (Y k) <= Qc2R f).
  { intros k. unfold Y. destruct (Nat.ltb_spec k (n * N)) as [Hk|Hk]; [|rewrite Rabs_R0; lra]. specialize (RS k Hk). rewrite LVR by lia. rewrite Rabs_mult, (Rabs_right (Qc2R f)) by lra.
    pose proof (level_size c (Z.to_nat (sym k)) ltac:(lia)) as LVS. rewrite <- (Rmult_1_l (Qc2R f)) at 2. apply Rmult_le_compat_r; lra. }
  set (clean := fun k => nth (ph + k * o) (concat yc) 0). set (noisy := fun k => nth (ph + k * o) (concat ys) 0).
  assert (CL : forall k, (k < n * N)%nat -> clean k = ratio * superposed h Y k).
  { intros k Hk. unfold clean. rewrite Q5 by exact Hk. unfold superposed. rewrite <- sum_upto_scale. apply sum_upto_ext. intros i Hi. rewrite XV by lia. ring. }
  assert (CB : forall k, (k < n * N)%nat -> Rabs (clean k) <= Rabs (Qc2R amp) / 2 * HH).
  { intros k Hk. rewrite CL by exact Hk. rewrite Rabs_mult. assert (ER : Rabs ratio = Rabs (Qc2R amp) / 2 / Qc2R f).
    { rewrite ERA. unfold Rdiv. rewrite !Rabs_mult, !Rabs_inv, (Rabs_right 2), (Rabs_right (Qc2R f)) by lra. reflexivity. }
    rewrite ER. pose proof (superposed_bound h Y k (Qc2R f) HH ltac:(lra) (fun i _ => YB i) (P1 _)) as SB. apply Rle_trans with (Rabs (Qc2R amp) / 2 / Qc2R f * (Qc2R f * HH)); [|right; field; lra].
    apply Rmult_le_compat_l; [|exact SB]. apply Rmult_le_pos; [|left; now apply Rinv_0_lt_compat]. pose proof (Rabs_pos (Qc2R amp)). lra. }
  assert (NB : forall k, (k < n * N)%nat -> Rabs (noisy k - clean k) <= d).
  { intros k Hk. apply W3; [unfold o; nia|]. assert (ph < o)%nat by exact Hp. nia. }
  assert (CW : forall k, (k < n * N)%nat -> nth k (concat W) 0%Qc = conv (noisy k)).
  { intros w Hw. pose proof (Nat.div_mod w N ltac:(lia)) as WD. pose proof (Nat.mod_upper_bound w N ltac:(lia)) as WM. set (i := (w / N)%nat) in *. set (q := (w mod N)%nat) in *. clearbody i q.
    assert (Hi : (i < n)%nat) by nia. unfold noisy. replace w with (i * N + q)%nat by lia. rewrite (concat_const_nth 0%Qc N) by (auto; rewrite LW; exact Hi).
    unfold W. rewrite (map_nth_lt _ _ _ []) by (rewrite W1; exact Hi). unfold sample at 1. rewrite nth_map_seq by exact WM. cbn [Nat.add]. f_equal.
    replace (ph + (i * N + q) * o)%nat with (i * (N * o) + (ph + q * o))%nat by ring. assert (ph < o)%nat by exact Hp. assert (ph + q * o < N * o)%nat by nia. rewrite (concat_const_nth 0 (N * o)) by (auto; rewrite W1; exact Hi). reflexivity. }
  assert (EAF : a_frac a = ls_frac s) by reflexivity.
  assert (CV : forall v, Qc2R (conv v) = IZR (codeR a v) * unit).
  { intros v. unfold conv. rewrite Qc2R_div, Qc2R_ofZ, EAF; [reflexivity|]. intros X. rewrite EAF in X. rewrite X, Qc2R_0 in PP. lra. }
  set (adv := fun k => Qc2R (nth k (concat W) 0%Qc)). set (eta := fun k => if (k <? n * N)%nat then (IZR (codeR a (noisy k)) - clean k) * unit else 0).
  assert (EB : forall k, Rabs (eta k) <= (d + / 2) * unit).
  { intros k. unfold eta. destruct (Nat.ltb_spec k (n * N)) as [Hk|Hk]; [|rewrite Rabs_R0; apply Rmult_le_pos; lra]. rewrite Rabs_mult, (Rabs_right unit) by lra. apply Rmult_le_compat_r; [lra|].
    assert (NBk := NB k Hk). assert (CBk := CB k Hk). assert (RNG : IZR (adc_low a) - / 2 <= noisy k <= IZR (adc_high a) + / 2).
    { revert NBk CBk P3 P4. generalize (Rabs (Qc2R amp) / 2 * HH). intros B. unfold Rabs. destruct (Rcase_abs (noisy k - clean k)), (Rcase_abs (clean k)); intros; lra. }
    pose proof (code_close a (noisy k) _ (codeR_nearest a (noisy k) LH) RNG) as CC. replace (IZR (codeR a (noisy k)) - clean k) with ((noisy k - clean k) - (noisy k - IZR (codeR a (noisy k)))) by ring.
    eapply Rle_trans; [apply Rabs_triang|]. rewrite Rabs_Ropp. lra. }
  set (r := fun k => ratio * unit * h k).
  assert (ADV : forall i, (i <= j)%nat -> adv i = superposed r Y i + eta i).
  { intros i Hi. assert (Hi' : (i < n * N)%nat) by lia. unfold adv. rewrite CW by exact Hi'. rewrite CV. unfold eta. destruct (Nat.ltb_spec i (n * N)); [|lia]. rewrite CL by exact Hi'.
    assert (ES : superposed r Y i = unit * (ratio * superposed h Y i)). { unfold superposed, r. rewrite <- !sum_upto_scale. apply sum_upto_ext. intros; ring. } rewrite ES. ring. }
  set (z := Qc2R (nth j (concat zs) 0%Qc)). set (bv := map Qc2R (is_dfe t)) in *. set (w := fun i => Qc2R (nth i (is_ffe t) 0%Qc)) in *. set (decR := fun i => Qc2R (nth i dec 0%Qc)) in *.
  pose proof (Z3 j ltac:(lia)) as EZ. fold adv in EZ. fold z in EZ.
  pose proof (equaliser_error M w (length (is_ffe t)) bv r Y eta adv decR z j ltac:(lia) ADV EZ) as ERR.
  assert (ERES : forall n0, sum_upto (fun i => w i * past r n0 i) (length (is_ffe t)) - (if (n0 <? M)%nat then 0 else nth (n0 - M) (1 :: bv) 0) = residual t h n0).
  { intros n0. unfold residual, equalised, wanted. fold M bv ratio unit. f_equal. rewrite <- sum_upto_scale. apply sum_upto_ext. intros i _. fold (w i). unfold past, r. destruct (i <=? n0)%nat; ring. }
  rewrite (superposed_ext _ (residual t h) Y Y j (fun k _ => ERES k) (fun k _ => eq_refl)) in ERR.
  assert (B1 : Rabs (superposed (residual t h) Y j) <= Qc2R f * E) by (apply superposed_bound; [lra|intros; apply YB|apply P2]).
  assert (HB : 0 <= (d + / 2) * unit) by (apply Rmult_le_pos; lra).
  assert (B2 : Rabs (sum_upto (fun i => w i * past eta j i) (length (is_ffe t))) <= tap_size (is_ffe t) * (d + / 2) * unit).
  { rewrite Rmult_assoc. apply weighted_bound; [exact HB|]. intros i _. apply past_bound; [exact HB|]. intros; apply EB. }
  assert (DV : (0 < ls_dfe s)%nat -> forall i, (i < n * N)%nat -> decR i = Qc2R (nth (Z.to_nat (nth i (concat (map (map dcs) zs)) 0%Z)) (scaled_levels c f) 0%Qc)).
  { intros HD i Hi. unfold decR. rewrite RJ by exact Hi. unfold dcs. rewrite Nat2Z.id. replace (ofZ 1 * nth i (concat zs) 0)%Qc with (nth i (concat zs) 0%Qc) by (change (ofZ 1) with 1%Qc; ring).
    destruct (decide_level (scaled_levels c f) (nth i (concat zs) 0%Qc) (scaled_nonempty c f)) as [_ <-]. f_equal. apply (nearest_unique (scaled_levels c f) (nth i (concat zs) 0%Qc)); [now apply ZD|apply sliced_nearest, scaled_nonempty]. }
  assert (LB : length bv = ls_dfe s) by (unfold bv; now rewrite map_length).
  assert (B3 : Rabs (sum_upto (fun k => nth k bv 0 * (past Y (j - M) (S k) - past decR j (S k))) (length bv)) <= extra).
  { destruct CASE as [[-> CASE]| ->].
    - rewrite sum_upto_0; [rewrite Rabs_R0; lra|]. intros k Hk. rewrite LB in Hk. specialize (CASE k Hk). unfold past. destruct (Nat.leb_spec (S k) j) as [H1|H1].
      + destruct (CASE H1) as [H2 H3]. destruct (Nat.leb_spec (S k) (j - M)); [|lia]. rewrite DV by lia. rewrite H3. unfold Y. destruct (Nat.ltb_spec (j - M - S k) (n * N)); [|lia]. fold (sym (j - M - S k)%nat). ring.
      + destruct (Nat.leb_spec (S k) (j - M)); [lia|]. ring.
    - unfold tap_size. rewrite Rmult_comm. replace (sum_upto (fun i => Rabs (Qc2R (nth i (is_dfe t) 0%Qc))) (length (is_dfe t))) with (sum_upto (fun i => Rabs (nth i bv 0)) (length bv)).
      2:{ unfold bv. rewrite map_length. apply sum_upto_ext. intros i Hi. rewrite (map_nth_lt _ _ _ 0%Qc) by exact Hi. reflexivity. }
      apply weighted_bound; [lra|]. intros k Hk. rewrite LB in Hk. eapply Rle_trans; [apply Rabs_triang|]. rewrite Rabs_Ropp. assert (PY : Rabs (past Y (j - M) (S k)) <= Qc2R f) by (apply past_bound; [lra|intros; apply YB]).
      assert (PD : Rabs (past decR j (S k)) <= Qc2R f).
      { apply past_bound; [lra|]. intros i Hi. rewrite DV by lia. rewrite RJ by lia. unfold dcs. rewrite Nat2Z.id. set (q := decide _ _). assert (Hq : (q < length (get_levels c))%nat) by apply decide_range. rewrite LVR by exact Hq. rewrite Rabs_mult, (Rabs_right (Qc2R f)) by lra.
        pose proof (level_size c q Hq). rewrite <- (Rmult_1_l (Qc2R f)) at 2. apply Rmult_le_compat_r; lra. }
      lra. }
  assert (ZC : Rabs (z - Y (j - M)%nat) < Qc2R (half_spacing c f)).
  { rewrite ERR. eapply Rle_lt_trans; [apply Rabs_triang|]. eapply Rle_lt_trans; [apply Rplus_le_compat_r, Rabs_triang|]. fold unit in P5. lra. }
  rewrite RJ by lia. unfold dcs. fold (sym (j - M)%nat). specialize (RS (j - M)%nat ltac:(lia)). replace (ofZ 1 * nth j (concat zs) 0)%Qc with (nth j (concat zs) 0%Qc) by (change (ofZ 1) with 1%Qc; ring).
  rewrite (decide_close c f (Z.to_nat (sym (j - M)%nat))); [lia|exact SF|lia|]. apply close_R. unfold Y in ZC. destruct (Nat.ltb_spec (j - M) (n * N)); [|lia]. exact ZC.
Qed.
