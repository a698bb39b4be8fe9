(** Proofs about the example link with inter-symbol interference: the received bits, and the noise at the ADC. *)
From Coq Require Import Reals Lra Lia String Qreals.
From Verif Require Import Py PyQ B_list B_qc M_aux M_symbol M_slicer S_rx M_filter S_filter M_prbs S_prbs P_prbs M_sim S_sim P_sim M_simcheck S_simcheck P_prbs_gen P_checker P_simcheck M_rxloop S_rxparts S_rxloop P_rxloop P_rxparts P_rxlink M_link P_fulldig.
From Verif Require Import M_delay P_delay M_channel S_channel P_channel P_pulse P_dft M_ctle S_ctle P_ctle S_link P_link S_full P_full S_peak P_peak P_peakdig P_peaklink.
From Coq Require Import QArith Qcanon.
Import List.
Open Scope R_scope.

(** * The decided symbols *)
Lemma start_split {A} (d0 : A) M n (rs ss : list A) : length rs = n -> length ss = n -> (forall j, (M <= j < n)%nat -> nth j rs d0 = nth (j - M) ss d0) ->
  rs = firstn n (firstn M (rs ++ repeat d0 M) ++ ss).
Proof.
  intros L1 L2 H. assert (LF : length (firstn M (rs ++ repeat d0 M)) = M) by (rewrite firstn_length, app_length, repeat_length; lia). apply (nth_ext _ _ d0 d0).
  - rewrite firstn_length, app_length, LF. lia.
  - intros j Hj. rewrite L1 in Hj. rewrite nth_firstn by exact Hj. destruct (Nat.lt_ge_cases j M) as [C|C].
    + rewrite app_nth1 by (rewrite LF; exact C). rewrite nth_firstn by exact C. rewrite app_nth1 by (rewrite L1; exact Hj). reflexivity.
    + rewrite app_nth2 by (rewrite LF; exact C). rewrite LF. apply H. lia.
Qed.
Section decided.
  Variables (n M K : nat) (R S : nat -> Z).
  Hypothesis step : forall j, (M <= j < n)%nat -> (forall k, (k < K)%nat -> (Datatypes.S k <= j)%nat -> (Datatypes.S k <= j - M)%nat /\ R (j - Datatypes.S k)%nat = S (j - M - Datatypes.S k)%nat) -> R j = S (j - M)%nat.
  Lemma starts_locked : K = 0%nat \/ M = 0%nat -> forall j, (M <= j < n)%nat -> R j = S (j - M)%nat.
  Proof.
    intros C j. induction j as [j IH] using lt_wf_ind. intros Hj. apply step; [exact Hj|]. intros k Hk Hj'. destruct C as [->| ->]; [lia|]. split; [lia|].
    rewrite (IH (j - Datatypes.S k)%nat ltac:(lia) ltac:(lia)). f_equal. lia.
  Qed.
  Lemma stays_locked q : (M + K <= q)%nat -> (forall i, (q - K <= i < q)%nat -> (i < n)%nat -> R i = S (i - M)%nat) -> forall j, (q <= j < n)%nat -> R j = S (j - M)%nat.
  Proof.
    intros Hq H0 j. induction j as [j IH] using lt_wf_ind. intros Hj. apply step; [lia|]. intros k Hk Hj'. split; [lia|].
    assert (E : R (j - Datatypes.S k)%nat = S (j - Datatypes.S k - M)%nat). { destruct (Nat.lt_ge_cases (j - Datatypes.S k) q); [apply H0; lia|apply IH; lia]. } rewrite E. f_equal. lia.
  Qed.
End decided.

(** * The received bits *)
Lemma isi_bits lms t l h d n normal : good_isi t -> is_link t = Ok l -> symbol_response t l h -> adc_noise_at_most d l n normal ->
  let s := is_base t in let N := ls_symbols s in let M := is_main t in let k := ls_bits s in let L := (N * k)%nat in
  exists l' bs ds ss rs g, full_link_run lms n l normal = Done (Ok (l', bs, ds)) /\ prbs_gen_run n (prbs_gen_init (prbs_data_init (ls_prbs s) L (ls_seed s))) = (g, Ok bs) /\
    length ds = n /\ Forall (fun x => length x = L) ds /\ length rs = (n * N)%nat /\ length ss = (n * N)%nat /\
    Forall (fun v => (0 <= v < 2 ^ Z.of_nat k)%Z) rs /\ Forall (fun v => (0 <= v < 2 ^ Z.of_nat k)%Z) ss /\
    concat ds = map inject_Z (concat (map (sym_bits (ls_cd s) k) rs)) /\ concat bs = concat (map (sym_bits (ls_cd s) k) ss) /\
    forall extra j, peak_open t h d extra -> (M <= j < n * N)%nat ->
      (extra = 0 /\ forall k, (k < ls_dfe s)%nat -> (S k <= j)%nat -> (S k <= j - M)%nat /\ nth (j - S k) rs 0%Z = nth (j - M - S k) ss 0%Z) \/ extra = 2 * Qc2R (ls_rx_factor s) * tap_size (is_dfe t) ->
      nth j rs 0%Z = nth (j - M) ss 0%Z.
Proof.
  intros G EL SR NO s N M k L. destruct (isi_symbols lms t l h d n normal G EL SR NO) as (l' & bs & ss & rs & g & A1 & A2 & A3 & A4 & A5 & A6 & A7 & A8 & A9 & A10 & A11 & A12). fold s N in A1, A3, A4, A5, A7, A8, A9, A10, A11, A12. fold M in A12. fold k in A1, A3.
  assert (U : uncoded (ls_cd s) (ls_constel s) k N) by apply G. assert (T2 := uncoded_bits _ _ _ _ U bs ss A3 A4). destruct (uncoded_codes _ _ _ _ U) as [NS NB]. destruct U as (_ & _ & _ & _ & _ & _ & _ & _ & _ & Hk & HN & Hb & HL & HF).
  rewrite (decode_plain (ls_cd s) k NS NB Hk Hb) in A5; [|eapply Forall_impl; [|exact A7]; intros z Hz; cbn beta in Hz; unfold row_flags; rewrite Hz; exact HF]. cbn [obind] in A5.
  assert (SL := sym_bits_length (ls_cd s) k). exists l', bs, (map (fun y => map inject_Z (concat (map (sym_bits (ls_cd s) k) y))) rs), (concat ss), (concat rs), g.
  assert (RW : forall y, length (concat (map (sym_bits (ls_cd s) k) y)) = (length y * k)%nat).
  { intros y. rewrite (concat_length_const k); [now rewrite map_length|]. apply Forall_forall. intros r Hr. apply in_map_iff in Hr. destruct Hr as (v & <- & _). apply SL. }
  rewrite HL, pow2_nat_Z in A10, A11. split; [exact A5|]. split; [exact A1|]. split; [now rewrite map_length|]. split.
  { apply Forall_forall. intros x Hx. apply in_map_iff in Hx. destruct Hx as (y & <- & Hy). rewrite map_length, RW. rewrite Forall_forall in A7. now rewrite (A7 y Hy). }
  split; [exact A8|]. split; [exact A9|]. split; [exact A11|]. split; [exact A10|]. split; [|split; [now symmetry|exact A12]].
  clear. induction rs as [|z zs IH]; [reflexivity|]. cbn [map concat]. now rewrite IH, !map_app, concat_app, map_app.
Qed.
Lemma sym_bits_bits cd k v : (1 <= k)%nat -> (0 <= v < 2 ^ Z.of_nat k)%Z -> bits (sym_bits cd k v).
Proof.
  intros Hk Hv. unfold sym_bits. destruct (Nat.eqb_spec k 1) as [->|K1]; [|apply P_symbol.unmod_row_bits, P_symbol.lsb_bits_bits].
  change (2 ^ Z.of_nat 1)%Z with 2%Z in Hv. constructor; [|constructor]. unfold isbit. destruct (pn_inv _); lia.
Qed.
Lemma isi_delivers lms t l h d n normal : good_isi t -> is_link t = Ok l -> symbol_response t l h -> adc_noise_at_most d l n normal -> self_starting t h d ->
  let s := is_base t in let L := (ls_symbols s * ls_bits s)%nat in
  exists l' bs ds start g, full_link_run lms n l normal = Done (Ok (l', bs, ds)) /\ prbs_gen_run n (prbs_gen_init (prbs_data_init (ls_prbs s) L (ls_seed s))) = (g, Ok bs) /\
    length start = (is_main t * ls_bits s)%nat /\ bits start /\ length ds = n /\ Forall (fun x => length x = L) ds /\
    concat ds = map inject_Z (firstn (n * L) (start ++ concat bs)).
Proof.
  intros G EL SR NO SS s L. destruct (isi_bits lms t l h d n normal G EL SR NO) as (l' & bs & ds & ss & rs & g & A1 & A2 & A3 & A4 & A5 & A6 & A7 & A8 & A9 & A10 & A11). fold s in A2, A4, A5, A6, A7, A8, A9, A10, A11. set (N := ls_symbols s) in *. set (M := is_main t) in *. set (k := ls_bits s) in *.
  assert (Hk : (1 <= k)%nat) by apply G. assert (SL := sym_bits_length (ls_cd s) k).
  assert (RES : forall j, (M <= j < n * N)%nat -> nth j rs 0%Z = nth (j - M) ss 0%Z).
  { destruct SS as [[K0 P]|[[M0 P]|P]].
    - intros j Hj. apply (A11 0 j P Hj). left. split; [reflexivity|]. intros i Hi. fold s in K0. lia.
    - fold M in M0. apply (starts_locked (n * N) M (ls_dfe s) (fun j => nth j rs 0%Z) (fun j => nth j ss 0%Z)); [|auto]. intros j Hj H. apply (A11 0 j P Hj). left. auto.
    - intros j Hj. apply (A11 _ j P Hj). right. reflexivity. }
  set (st := firstn M (rs ++ repeat 0%Z M)). assert (ES := start_split 0%Z M (n * N) rs ss A5 A6 RES). fold st in ES.
  assert (FS : Forall (fun v => (0 <= v < 2 ^ Z.of_nat k)%Z) st). { apply Forall_forall. intros v Hv. assert (Hv2 : In v (rs ++ repeat 0%Z M)) by (rewrite <- (firstn_skipn M); apply in_or_app; left; exact Hv). clear Hv. rename Hv2 into Hv. apply in_app_or in Hv. destruct Hv as [Hv|Hv]; [rewrite Forall_forall in A7; auto|]. apply repeat_spec in Hv. subst v. split; [lia|]. apply Z.pow_pos_nonneg; lia. }
  exists l', bs, ds, (concat (map (sym_bits (ls_cd s) k) st)), g. split; [exact A1|]. split; [exact A2|]. split.
  { rewrite (concat_length_const k); [rewrite map_length; unfold st; rewrite firstn_length, app_length, repeat_length; f_equal; lia|]. apply Forall_forall. intros r Hr. apply in_map_iff in Hr. destruct Hr as (v & <- & _). apply SL. }
  split. { apply bits_concat, Forall_forall. intros r Hr. apply in_map_iff in Hr. destruct Hr as (v & <- & Hv). apply sym_bits_bits; [exact Hk|]. rewrite Forall_forall in FS. now apply FS. }
  split; [exact A3|]. split; [exact A4|]. rewrite A9, ES. f_equal. rewrite (firstn_rows (sym_bits (ls_cd s) k) k) by exact SL. rewrite map_app, concat_app, <- A10. f_equal. unfold L. ring.
Qed.
Lemma rows_nth cd k (x : list Z) i : (1 <= k)%nat -> (i < length x * k)%nat -> nth i (concat (map (sym_bits cd k) x)) 0%Z = nth (i mod k) (sym_bits cd k (nth (i / k) x 0%Z)) 0%Z.
Proof.
  intros Hk Hi. rewrite (concat_nth_const 0%Z k); [|lia|apply Forall_forall; intros r Hr; apply in_map_iff in Hr; destruct Hr as (v & <- & _); apply sym_bits_length].
  f_equal. apply map_nth_lt. apply Nat.div_lt_upper_bound; lia.
Qed.
Lemma isi_locked lms t l h d n normal : good_isi t -> is_link t = Ok l -> symbol_response t l h -> adc_noise_at_most d l n normal -> peak_open t h d 0 ->
  let s := is_base t in let k := ls_bits s in let L := (ls_symbols s * k)%nat in let M := is_main t in
  exists l' bs ds g, full_link_run lms n l normal = Done (Ok (l', bs, ds)) /\ prbs_gen_run n (prbs_gen_init (prbs_data_init (ls_prbs s) L (ls_seed s))) = (g, Ok bs) /\
    length ds = n /\ Forall (fun x => length x = L) ds /\
    forall q, (M + ls_dfe s <= q)%nat -> (forall i, ((q - ls_dfe s) * k <= i < q * k)%nat -> (i < n * L)%nat -> nth i (concat ds) 0%Q = inject_Z (nth (i - M * k) (concat bs) 0%Z)) ->
    forall i, (q * k <= i < n * L)%nat -> nth i (concat ds) 0%Q = inject_Z (nth (i - M * k) (concat bs) 0%Z).
Proof.
  intros G EL SR NO P s k L M. destruct (isi_bits lms t l h d n normal G EL SR NO) as (l' & bs & ds & ss & rs & g & A1 & A2 & A3 & A4 & A5 & A6 & A7 & A8 & A9 & A10 & A11). fold s in A2, A4, A5, A6, A7, A8, A9, A10, A11. fold k in A2, A4, A7, A8, A9, A10. fold M in A11. set (N := ls_symbols s) in *. set (K := ls_dfe s) in *.
  assert (Hk : (1 <= k)%nat) by apply G. exists l', bs, ds, g. split; [exact A1|]. split; [exact A2|]. split; [exact A3|]. split; [exact A4|]. intros q Hq H0.
  assert (EL' : (n * L = n * N * k)%nat) by (unfold L; ring).
  assert (LR : length (concat (map (sym_bits (ls_cd s) k) rs)) = (n * L)%nat). { rewrite (concat_length_const k); [rewrite map_length; lia|]. apply Forall_forall. intros r Hr. apply in_map_iff in Hr. destruct Hr as (v & <- & _). apply sym_bits_length. }
  assert (DI : forall i, (i < n * L)%nat -> nth i (concat ds) 0%Q = inject_Z (nth (i mod k) (sym_bits (ls_cd s) k (nth (i / k) rs 0%Z)) 0%Z)).
  { intros i Hi. rewrite A9, (map_nth_lt _ _ _ 0%Z) by (rewrite LR; exact Hi). f_equal. apply rows_nth; [exact Hk|]. rewrite A5. lia. }
  assert (BI : forall j p, (p < k)%nat -> (M <= j < n * N)%nat -> nth (j * k + p - M * k) (concat bs) 0%Z = nth p (sym_bits (ls_cd s) k (nth (j - M) ss 0%Z)) 0%Z).
  { intros j p Hp Hj. rewrite A10, rows_nth; [|exact Hk|rewrite A6; nia]. replace (j * k + p - M * k)%nat with (p + (j - M) * k)%nat by nia. rewrite Nat.mod_add, Nat.div_add, Nat.mod_small, Nat.div_small by lia. reflexivity. }
  assert (DJ : forall j p, (p < k)%nat -> (j < n * N)%nat -> nth (j * k + p) (concat ds) 0%Q = inject_Z (nth p (sym_bits (ls_cd s) k (nth j rs 0%Z)) 0%Z)).
  { intros j p Hp Hj. rewrite DI by nia. replace (j * k + p)%nat with (p + j * k)%nat by lia. rewrite Nat.mod_add, Nat.div_add, Nat.mod_small, Nat.div_small by lia. reflexivity. }
  assert (RES : forall j, (q <= j < n * N)%nat -> nth j rs 0%Z = nth (j - M) ss 0%Z).
  { apply (stays_locked (n * N) M K (fun j => nth j rs 0%Z) (fun j => nth j ss 0%Z)); [|exact Hq|].
    - intros j Hj H. apply (A11 0 j P Hj). left. auto.
    - intros j Hj Hn. assert (HM : (M <= j)%nat) by lia. rewrite Forall_forall in A7, A8. apply (sym_bits_inj (ls_cd s) k); [exact Hk|apply A7, nth_In; lia|apply A8, nth_In; lia|].
      apply (nth_ext _ _ 0%Z 0%Z); rewrite !sym_bits_length; [reflexivity|]. intros p Hp. specialize (H0 (j * k + p)%nat ltac:(nia) ltac:(nia)). rewrite DJ, BI in H0 by (auto; lia). now apply (f_equal Qnum) in H0. }
  intros i Hi. pose proof (Nat.div_mod i k ltac:(lia)) as WD. pose proof (Nat.mod_upper_bound i k ltac:(lia)) as WM. set (j := (i / k)%nat) in *. set (p := (i mod k)%nat) in *. clearbody j p. replace i with (j * k + p)%nat by lia. rewrite DJ, BI by (auto; nia). rewrite RES by nia. reflexivity.
Qed.

(** * Noise *)
Lemma transmit_sizes t l n g bs txs : good_isi t -> is_link t = Ok l -> prbs_gen_run n (fl_gen l) = (g, Ok bs) -> Forall2 (fun b t => transmit (fl_cd l) (fl_md l) b = Done (Ok t)) bs txs ->
  Forall (fun x => length x = ls_symbols (is_base t)) (map (map Qc2R) txs).
Proof.
  intros G EL R F2. set (s := is_base t). destruct (isi_ready t G) as (l0 & E0 & _ & _ & _ & _ & _ & Ge & Ecd & Emd & _). rewrite EL in E0. injection E0 as <-. fold s in Ge, Ecd, Emd.
  pose proof G as (SE & NA & SF & MI & H). assert (U : uncoded (ls_cd s) (ls_constel s) (ls_bits s) (ls_symbols s)) by apply H. clear H. fold s in SE, NA, SF, MI. set (L := (ls_symbols s * ls_bits s)%nat) in *.
  set (sd := match ls_seed s with Some v => v | None => repeat 1%Z (prbs_value (ls_prbs s)) end).
  assert (EG : prbs_gen_init (prbs_data_init (ls_prbs s) L (ls_seed s)) = mk_pg (get_polynomial (ls_prbs s)) L sd).
  { unfold prbs_gen_init, prbs_data_init, sd. cbn [pd_poly pd_chunk pd_seed]. destruct (ls_seed s); [reflexivity|]. now rewrite ones_map. }
  assert (SDok : length sd = prbs_value (ls_prbs s) /\ bits sd). { unfold sd. destruct (ls_seed s); [exact SE|]. destruct (ones_seed (ls_prbs s)) as (X & Y & _). auto. }
  rewrite Ge, EG in R. destruct (gen_run (ls_prbs s) n (mk_pg (get_polynomial (ls_prbs s)) L sd) eq_refl (proj1 SDok) (proj2 SDok)) as (g' & bs' & R1 & R2 & R3 & _ & _ & R6). rewrite R in R1. injection R1 as <- <-. cbn [pg_chunk pg_seed] in *.
  assert (FB : Forall (fun b => bits b /\ length b = L) bs).
  { assert (BC : bits (concat bs)). { rewrite gen_char in R6 by apply SDok. injection R6 as <- _. apply outbits_bits. }
    apply Forall_forall. intros b Hb. split; [|rewrite Forall_forall in R3; exact (R3 b Hb)]. unfold bits in *. rewrite Forall_forall in *. intros v Hv. apply BC. apply in_concat. eauto. }
  destruct (encode_chunks (ls_cd s) (ls_constel s) L (ls_symbols s) (ls_map s) (ls_amp s) (ls_rx_factor s) (uncoded_carries _ _ _ _ U) NA MI bs FB) as (ss & T1 & _ & _ & T4 & T5). rewrite Ecd, Emd in F2.
  assert (EX : txs = map (map (fun v => nth (Z.to_nat v) (md_levels (ls_map s)) 0%Qc)) ss).
  { clear - F2 T1. set (q := map _ ss) in *. clearbody q. revert q T1. induction F2 as [|b u bs txs Hb _ IH]; intros q T1; inversion T1; subst; auto. rewrite Hb in H1. injection H1 as <-. f_equal. auto. }
  subst txs. apply Forall_forall. intros x Hx. rewrite map_map in Hx. apply in_map_iff in Hx. destruct Hx as (v & <- & Hv). rewrite !map_length. rewrite Forall_forall in T4. now apply T4.
Qed.
Lemma quiet t l n normal : good_isi t -> is_link t = Ok l -> (ls_type (is_base t) = "pulse" \/ (ls_type (is_base t) = "isi_awgn" /\ ls_snr (is_base t) = None))%string -> adc_noise_at_most 0 l n normal.
Proof.
  intros G EL TY g bs txs R F2. assert (FX := transmit_sizes t l n g bs txs G EL R F2). destruct (isi_response t l G EL) as (h & SR). assert (HN : (1 <= ls_symbols (is_base t))%nat) by apply G.
  destruct (response_history t l h G EL SR _ _ normal HN FX) as (c2 & cs & ct & ys & A1 & A2 & _). destruct (isi_ready t G) as (l0 & E0 & S & T & Sn & _). rewrite EL in E0. injection E0 as <-.
  assert (exists c1, channel_calls (fl_ch l) (map (map Qc2R) txs) normal = (c1, Ok (returned cs))) as (c1 & A3).
  { destruct TY as [TP|[TI SN]].
    - destruct (pulse_noise_free (map (map Qc2R) txs) (fl_ch l) normal ltac:(congruence)) as (c1 & E1). rewrite A1 in E1. destruct (channel_calls (fl_ch l) _ normal) as (c3 & r). cbn [snd] in E1. exists c3. f_equal. congruence.
    - exists c2. rewrite <- A1. f_equal. unfold noise_free. rewrite T, TI. cbn [String.eqb Ascii.eqb Bool.eqb]. rewrite <- TI, <- T, <- SN, <- Sn. now destruct (fl_ch l). }
  exists c1, c2, ct, ct, cs, cs, ys, ys. repeat (split; [assumption|]). apply within_refl. lra.
Qed.
(** The CTLE passes on noise of at most [d] as noise of at most the absolute sum of its response times [d]. *)
Lemma ctle_impulse ct : ctle_sized ct -> ct_zi ct = repeat 0 (Nat.max (length (ct_zeros ct)) (length (ct_poles ct))) ->
  exists g, forall y, y <> [] -> exists ct' v, ctle_call ct y = Ok (Some (ct', v)) /\ length v = length y /\ forall n, (n < length y)%nat -> nth n v 0 = superposed g (fun k => nth k y 0) n.
Proof.
  intros (D & Lz) Z3. destruct (design_spec _ _ _ _ _ D) as (b2 & a2 & E2 & Lb2 & La2 & A20 & _). set (m := Nat.max (length (ct_zeros ct)) (length (ct_poles ct))) in *.
  assert (LSc : lf_shape b2 a2 m) by (repeat split; [intros ->; discriminate|intros ->; discriminate|lra|lia]).
  exists (impulse b2 a2). intros y Ny. destruct (lfilter_impulse b2 a2 y m LSc Ny) as (v & zf' & F & Lv & V3). do 2 eexists. split; [unfold ctle_call, ctle; rewrite E2; cbn [bind]; rewrite Z3, F; cbn [bind fst snd]; reflexivity|]. split; [congruence|exact V3].
Qed.
Lemma within_nth d xs ys N : map (@length R) xs = map (@length R) ys -> Forall (fun y => length y = N) ys -> (forall j, (j < length (concat ys))%nat -> Rabs (nth j (concat xs) 0 - nth j (concat ys) 0) <= d) -> within d xs ys.
Proof.
  revert ys. induction xs as [|x xs IH]; intros [|y ys] E F H; try discriminate E; [constructor|]. injection E as E1 E2. inversion F; subst. constructor.
  - split; [exact E1|]. intros j Hj. specialize (H j). cbn [concat] in H. rewrite !app_nth1 in H by lia. apply H. rewrite app_length. lia.
  - apply IH; auto. intros j Hj. specialize (H (length y + j)%nat). cbn [concat] in H. rewrite app_length in H. rewrite !app_nth2 in H by lia. rewrite E1 in H. replace (length y + j - length y)%nat with j in H by lia. apply H. lia.
Qed.
Lemma ctle_noise t l n normal d G0 : good_isi t -> is_link t = Ok l -> 0 <= d -> link_noise_at_most d l n normal -> ctle_gain_at_most G0 l -> adc_noise_at_most (G0 * d) l n normal.
Proof.
  intros G EL Hd LN CG g bs txs RG F2. set (s := is_base t). assert (FX := transmit_sizes t l n g bs txs G EL RG F2). fold s in FX. destruct (isi_response t l G EL) as (h & SR). assert (HN : (1 <= ls_symbols s)%nat) by apply G.
  destruct (response_history t l h G EL SR _ _ normal HN FX) as (c2 & cs & ct & ys & A1 & A2 & A3 & A4 & _). fold s in A4. destruct (isi_ready t G) as (l0 & E0 & S & T & Sn & _ & _ & _ & _ & _ & Ect & _). rewrite EL in E0. injection E0 as <-. fold s in S, Ect.
  destruct (LN g bs txs RG F2) as (c1 & c3 & ns & cl & B1 & B2 & B3). rewrite A1 in B2. apply (f_equal snd) in B2. cbn [snd] in B2. injection B2 as B2. apply returned_inj in B2. subst cl.
  pose proof G as (_ & _ & _ & _ & Hs & Hp & _ & TY & _ & D & _). fold s in Hs, Hp, TY, D.
  assert (SC : ctle_sized (fl_ctle l)) by (rewrite Ect; split; [exact D|]; cbn [ctle_init ct_zi ct_zeros ct_poles]; apply repeat_length).
  assert (ZC : ct_zi (fl_ctle l) = repeat 0 (Nat.max (length (ct_zeros (fl_ctle l))) (length (ct_poles (fl_ctle l))))) by (rewrite Ect; reflexivity).
  destruct (ctle_impulse _ SC ZC) as (gi & GI).
  assert (GB : forall L, sum_upto (fun k => Rabs (gi k)) (Datatypes.S L) <= G0).
  { intros m. destruct (CG m) as (c4 & v & V1 & V2). destruct (GI (1 :: repeat 0 m) ltac:(discriminate)) as (c5 & v' & W1 & _ & W3). rewrite V1 in W1. injection W1 as _ <-. eapply Rle_trans; [|exact V2]. right. apply sum_upto_ext. intros k Hk. rewrite W3 by (cbn [length]; rewrite repeat_length; lia). now rewrite superposed_one by lia. }
  destruct cs as [|y cs].
  { inversion B3; subst. exists c1, c2, (fl_ctle l), ct, [], [], [], ys. cbn [ctle_calls] in *. injection A2 as <- <-. repeat (split; [assumption || reflexivity|]). constructor. }
  assert (FC : Forall (fun y => length y = (ls_symbols s * ls_osr s)%nat) (y :: cs)).
  { destruct (map (map Qc2R) txs) as [|x xs] eqn:EX; [cbn [channel_calls] in A1; apply (f_equal snd) in A1; cbn [snd] in A1; discriminate A1|].
    assert (NE : Forall (fun x => x <> []) (x :: xs)) by (eapply Forall_impl; [|exact FX]; intros w Hw ->; cbn [length] in Hw; lia).
    destruct (calls_concat (ls_osr s) (ls_span s) xs (noise_free (fl_ch l)) x normal (fun _ => 0) (noise_free_sized _ _ _ S) (any_noise_free_linear _ ltac:(rewrite T; exact TY)) NE) as (c' & cs' & D1 & D2 & _). rewrite A1 in D1. apply (f_equal snd) in D1. cbn [snd] in D1. apply (f_equal (fun r => match r with Ok v => v | Raise _ => [] end)) in D1. cbv beta iota in D1. assert (EC : y :: cs = cs') by (apply returned_inj; exact D1). rewrite <- EC in D2. clear - D2 FX. revert D2 FX. generalize (x :: xs). generalize (y :: cs). intros l. induction l as [|v ys IH]; intros [|z q] E F; cbn [map] in E; try discriminate E; [constructor|]. injection E as E1 E2. inversion F; subst. constructor; [cbn beta; congruence|eauto]. }
  assert (NY : Forall (fun y => y <> []) (y :: cs)) by (eapply Forall_impl; [|exact FC]; intros w Hw ->; cbn [length] in Hw; nia).
  destruct (within_lengths d ns (y :: cs) (ls_symbols s * ls_osr s) B3 FC) as (W1 & W2 & W3). destruct ns as [|z ns]; [discriminate W1|].
  assert (NZ : Forall (fun y => y <> []) (z :: ns)) by (eapply Forall_impl; [|exact W2]; intros w Hw ->; cbn [length] in Hw; nia).
  destruct (ctle_calls_concat cs (fl_ctle l) y SC NY) as (ct1 & ys1 & P1 & P2 & _ & P3). rewrite A2 in P1. injection P1 as <- <-. destruct (ctle_calls_concat ns (fl_ctle l) z SC NZ) as (ct2 & zs & Q1 & Q2 & _ & Q3).
  exists c1, c2, ct2, ct, (z :: ns), (y :: cs), zs, ys. split; [exact B1|]. split; [exact A1|]. split; [exact Q1|]. split; [exact A2|].
  assert (ML : map (@length R) (z :: ns) = map (@length R) (y :: cs)). { clear - B3. induction B3 as [|a b l1 l2 [HL _] _ IH]; [reflexivity|]. cbn [map]. now rewrite HL, IH. }
  assert (LC : length (concat (z :: ns)) = length (concat (y :: cs))) by (rewrite !(concat_length_const (ls_symbols s * ls_osr s)) by auto; now rewrite W1).
  assert (N1 : concat (y :: cs) <> []) by (inversion NY; subst; cbn [concat]; intros X; apply app_eq_nil in X as [-> _]; congruence). assert (N2 : concat (z :: ns) <> []) by (inversion NZ; subst; cbn [concat]; intros X; apply app_eq_nil in X as [-> _]; congruence).
  destruct (GI _ N1) as (k1 & v1 & I1 & I2 & I3). rewrite P3 in I1. injection I1 as _ <-. destruct (GI _ N2) as (k2 & v2 & J1 & J2 & J3). rewrite Q3 in J1. injection J1 as _ <-.
  apply (within_nth _ _ _ (ls_symbols s * ls_osr s)); [congruence|exact A4|]. intros j Hj. rewrite I2 in Hj. rewrite I3, J3 by (rewrite ?LC; exact Hj).
  assert (ES : superposed gi (fun k => nth k (concat (z :: ns)) 0) j - superposed gi (fun k => nth k (concat (y :: cs)) 0) j = superposed gi (fun k => nth k (concat (z :: ns)) 0 - nth k (concat (y :: cs)) 0) j).
  { unfold superposed. match goal with |- ?a - ?b = _ => replace (a - b) with (a + (-1) * b) by ring end. rewrite <- sum_upto_scale, <- sum_upto_add. apply sum_upto_ext. intros; ring. }
  rewrite ES, Rmult_comm. apply superposed_bound; [exact Hd| |apply GB]. intros i Hi. apply W3; [nia|]. rewrite <- (concat_length_const _ _ FC). lia.
Qed.
