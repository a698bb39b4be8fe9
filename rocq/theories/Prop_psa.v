(** C61: power spectrum analyser.  Theorems only; proofs are in P_psa.v, P_dft.v, P_tone.v, P_psaspec.v and P_psatone.v. *)
From Coq Require Import Reals Lra Lia String.
From Verif Require Import Py B_list M_soft M_sim M_psa S_channel P_channel S_psa P_psa P_dft P_tone P_psaspec P_psatone.
Import List.
Open Scope R_scope.

(** *** Modes *)
Theorem C61_unknown_mode : forall W p s, sensible p -> (0 < size s)%nat -> ps_obw p = None -> ~ In (ps_mode p) supported -> psa W p s = Done (Raise ValueError).
Proof.
  intros W p s S N O I. unfold psa. rewrite (proj2 (domain_iff p) S), points_length. cbn [negb]. destruct (Nat.eqb_spec (size s) 0); [lia|].
  unfold norm_factor, eff_mode. rewrite O. unfold supported in I. cbn [In] in I.
  repeat match goal with |- context [(ps_mode p =? ?m)%string] => destruct (String.eqb_spec (ps_mode p) m); [exfalso; apply I; rewrite e; tauto|] end. reflexivity.
Qed.
Print Assumptions C61_unknown_mode.
(** (Finding.)  The documented mode for phase noise measurements does not exist. *)
Theorem C61_phase_noise_mode_refuted : forall W p s, sensible p -> (0 < size s)%nat -> ps_obw p = None -> (ps_mode p = "dBc/Hz " \/ ps_mode p = "dBc/Hz")%string ->
  psa W p s = Done (Raise ValueError).
Proof. intros W p s S N O M. apply C61_unknown_mode; auto. unfold supported. destruct M as [-> | ->]; cbn; intuition discriminate. Qed.
Print Assumptions C61_phase_noise_mode_refuted.
(** Every supported mode is mode dB times its calibration; an occupied bandwidth forces dBc, for any mode given. *)
Theorem C61_calibration : forall W p s m b, sensible p -> (0 < size s)%nat -> is_mode p m -> In m supported -> (m = "dBc"%string -> ~ silent s) -> noise_band p s b ->
  let bw := match ps_obw p with Some ob => ob | None => resolution p (size s) end in
  let g := calibration m bw b (ps_r p) (ps_fullscale p) (mean_power (points s)) in
  exists r, psa W (with_mode "dB" p) s = Done r /\
    psa W p s = Done (match r with Ok (f, x) => Ok (f, map (Rmult g) x) | Raise e => Raise e end).
Proof.
  intros W p s m b S N M I Z B bw g. exists (raw W p s). split; [now apply psa_db|].
  assert (EM : eff_mode p = m) by (unfold eff_mode; destruct M as [(-> & ->)|(O & ->)]; [auto|destruct (ps_obw p); congruence]).
  rewrite psa_eq; auto; [|rewrite EM; auto|rewrite EM; intros E; apply loud; auto]. fold (scaled g (raw W p s)). f_equal. f_equal. unfold gain, g. rewrite EM. f_equal.
  - unfold bandwidth, bw, eff_rbw, resolution. destruct (ps_obw p); auto. destruct (ps_rbw p); auto. f_equal. assert (0 < INR (size s)) by (apply lt_0_INR; lia). field. lra.
  - unfold noise_band in B. unfold eff_fs. destruct (all_real (points s) && (ps_sb p =? "DSB")%string)%bool eqn:E.
    + symmetry. apply B. apply andb_prop in E. destruct E as (E1 & E2). apply String.eqb_eq in E2. split; auto. now apply all_real_iff.
    + symmetry. apply B. intros (H1 & H2). rewrite (proj2 (all_real_iff _)) in E by auto. rewrite H2 in E. discriminate E.
Qed.
Print Assumptions C61_calibration.

(** *** Sizes *)
(** The window: 1.9 times the least integer at least fs / rbw, cut to an integer. *)
Theorem C61_window : forall p n, sensible p -> (0 < n)%nat ->
  exists c : Z, IZR c - 1 < ps_fs p / resolution p n <= IZR c /\ Z.of_nat (window_n p n) = (19 * c / 10)%Z /\ (0 < window_n p n)%nat.
Proof.
  intros p n S N. assert (P := window_pos p n S N). exists (Rceil (ps_fs p / eff_rbw p n)). split; [|split; [|exact P]].
  - replace (resolution p n) with (eff_rbw p n); [apply Rceil_spec|]. unfold eff_rbw, resolution. destruct (ps_rbw p); auto. f_equal. assert (0 < INR n) by (apply lt_0_INR; lia). field. lra.
  - unfold window_n in *. rewrite Z2Nat.id; [reflexivity|]. lia.
Qed.
Print Assumptions C61_window.
(** The FFT size: the least power of two at least window * osr. *)
Theorem C61_nfft : forall osr w, 1 <= INR w * osr -> exists k, psa_nfft osr w = (2 ^ k)%nat /\ INR w * osr <= INR (2 ^ k) /\ INR (2 ^ k) < 2 * (INR w * osr).
Proof. exact nfft_spec. Qed.
Print Assumptions C61_nfft.
(** The analyser works exactly if the window is not longer than the signal (usual overlap and osr). *)
Theorem C61_works : forall W p s m, sensible p -> good_window W -> (0 < size s)%nat -> is_mode p m -> In m supported -> (m = "dBc"%string -> ~ silent s) -> ps_overlap p < 1 -> 1 <= ps_osr p ->
  let nfft := psa_nfft (ps_osr p) (window_n p (size s)) in
  ((window_n p (size s) <= size s)%nat -> exists pxx, psa W p s = Done (Ok (freq_list (is_cplx s) (ps_fs p) nfft, pxx)) /\ length pxx = (if is_cplx s then nfft else nfft / 2 + 1)%nat /\ Forall (fun v => 0 <= v) pxx) /\
  ((size s < window_n p (size s))%nat -> psa W p s = Done (Raise ValueError)).
Proof.
  intros W p s m S G N M I Z O Q nfft.
  assert (EM : eff_mode p = m) by (unfold eff_mode; destruct M as [(-> & ->)|(U & ->)]; [auto|destruct (ps_obw p); congruence]).
  assert (PE : psa W p s = Done (scaled (gain p s) (raw W p s))) by (apply psa_eq; auto; rewrite EM; auto; intros E; apply loud; auto).
  assert (G0 : 0 <= gain p s).
  { assert (NE : points s <> []) by (intros E; rewrite <- points_length, E in N; cbn in N; lia). destruct (norm_gain p (points s) S NE) as (c & _ & E); [now rewrite EM|rewrite EM; intros E; apply loud; auto|]. unfold gain. rewrite <- points_length, <- E. nra. }
  assert (P := window_pos p _ S N). destruct (G _ P) as (GL & _). split; intros L.
  - rewrite PE, raw_ok by auto. cbn [scaled]. eexists. split; [reflexivity|]. rewrite !map_length, seq_length. split; [reflexivity|]. rewrite map_map. apply Forall_forall. intros v V. apply in_map_iff in V. destruct V as (k & <- & _).
    apply Rmult_le_pos; [exact G0|]. unfold power_at. set (sw := sumR _). set (st := step_of _ _). set (cn := count_of _ _ _).
    assert (0 <= side_factor (is_cplx s) (psa_nfft (ps_osr p) (window_n p (size s))) k) by (unfold side_factor; destruct (is_cplx s); [lra|]; destruct (_ =? _)%nat; [lra|]; destruct (_ && _)%bool; lra).
    assert (0 <= / (sw * sw)) by (destruct (Req_EM_T sw 0) as [->|D]; [rewrite Rmult_0_l, Rinv_0; lra|left; apply Rinv_0_lt_compat; nra]).
    apply Rmult_le_pos; [now apply Rmult_le_pos|]. apply Rmult_le_pos.
    + apply P_limits.sum_upto_nonneg. intros j _. unfold dft_power. nra.
    + left. apply Rinv_0_lt_compat, lt_0_INR. unfold cn, count_of. lia.
  - rewrite PE. unfold raw. rewrite welch_too_short; rewrite ?points_length, ?GL; auto.
Qed.
Print Assumptions C61_works.
(** (Finding.)  With the default resolution bandwidth every signal shorter than 1900 samples is refused. *)
Theorem C61_default_refuted : forall W p s m, sensible p -> good_window W -> (0 < size s < 1900)%nat -> is_mode p m -> In m supported -> (m = "dBc"%string -> ~ silent s) -> ps_overlap p < 1 -> 1 <= ps_osr p ->
  ps_rbw p = None -> psa W p s = Done (Raise ValueError).
Proof.
  intros W p s m S G [N1 N2] M I Z O Q D. destruct (C61_works W p s m S G N1 M I Z O Q) as (_ & T). apply T. clear T.
  destruct (C61_window p (size s) S N1) as (c & (C1 & C2) & C3 & _). destruct S as (F & _). unfold resolution in *. rewrite D in *. set (n := size s) in *. assert (P : 0 < INR n) by (apply lt_0_INR; lia).
  assert (U : INR (Nat.min 1000 (5 * n)) <= IZR c).
  { eapply Rle_trans; [|exact C2]. destruct (Nat.le_ge_cases 200 n) as [H|H].
    - rewrite Nat.min_l by lia. assert (200 <= INR n) by (apply (le_INR 200) in H; cbn in H; lra). rewrite Rmax_left.
      + replace (ps_fs p / (ps_fs p / 1000)) with 1000 by (field; lra). replace (INR 1000) with 1000; [lra|]. rewrite INR_IZR_INZ. reflexivity.
      + unfold Rdiv. apply Rmult_le_compat_l; [lra|]. apply Rinv_le_contravar; lra.
    - rewrite Nat.min_r by lia. assert (INR n <= 200) by (apply (le_INR n) in H; cbn in H; lra). rewrite Rmax_right.
      + replace (ps_fs p / (ps_fs p / (5 * INR n))) with (5 * INR n) by (field; lra). rewrite mult_INR. cbn [INR]. lra.
      + unfold Rdiv. apply Rmult_le_compat_l; [lra|]. apply Rinv_le_contravar; lra. }
  rewrite INR_IZR_INZ in U. apply le_IZR in U. apply Nat2Z.inj_lt. rewrite C3. apply Z.lt_le_trans with (19 * (Z.of_nat (Nat.min 1000 (5 * n))) / 10)%Z; [|apply Z.div_le_mono; lia].
  destruct (Nat.le_ge_cases 200 n); [rewrite Nat.min_l by lia; change (Z.of_nat 1000) with 1000%Z; change (19 * 1000 / 10)%Z with 1900%Z; lia|rewrite Nat.min_r by lia]. apply Z.lt_le_trans with (Z.of_nat n + 1)%Z; [lia|]. apply Z.div_le_lower_bound; lia.
Qed.
Print Assumptions C61_default_refuted.
(** From 1900 samples on the default works. *)
Theorem C61_default_long : forall p n, sensible p -> (1900 <= n)%nat -> ps_rbw p = None -> window_n p n = 1900%nat.
Proof.
  intros p n S N D. assert (N' : (0 < n)%nat) by lia. assert (F := proj1 S). unfold window_n, eff_rbw. rewrite D. assert (1900 <= INR n) by (apply (le_INR 1900) in N; rewrite (INR_IZR_INZ 1900) in N; exact N).
  rewrite Rmax_left.
  - replace (ps_fs p / (ps_fs p / 1000)) with 1000 by (field; lra). rewrite (Rceil_unique 1000 1000); [reflexivity|change (1000 - 1)%Z with 999%Z; lra|lra].
  - replace (2 * ps_fs p / INR n / 10) with (ps_fs p * / (5 * INR n)) by (field; lra). unfold Rdiv. apply Rmult_le_compat_l; [lra|]. apply Rinv_le_contravar; lra.
Qed.
Print Assumptions C61_default_long.

(** *** Signals *)
(** Amplifying the signal by c multiplies the spectrum by c squared, in mode dBc it changes nothing. *)
Theorem C61_amplified : forall W p s m c, sensible p -> (0 < size s)%nat -> is_mode p m -> In m supported -> (m = "dBc"%string -> ~ silent s) -> c <> 0 ->
  exists r, psa W p s = Done r /\
    psa W p (amplified c s) = Done (match r with Ok (f, x) => Ok (f, if (m =? "dBc")%string then x else map (Rmult (c * c)) x) | Raise e => Raise e end).
Proof.
  intros W p s m c S N M I Z C.
  assert (EM : eff_mode p = m) by (unfold eff_mode; destruct M as [(-> & ->)|(U & ->)]; [auto|destruct (ps_obw p); congruence]).
  assert (LS : eff_mode p = "dBc"%string -> mean_power (points s) <> 0) by (rewrite EM; intros E; apply loud; auto).
  assert (PA : mean_power (points (amplified c s)) = c * c * mean_power (points s)) by (rewrite points_amplified; apply mean_power_scale).
  exists (scaled (gain p s) (raw W p s)). split; [apply psa_eq; auto; now rewrite EM|].
  rewrite psa_eq; rewrite ?size_amplified; auto; [|now rewrite EM|intros E; rewrite PA; specialize (LS E); intros X; apply Rmult_integral in X; destruct X as [X|X]; [nra|auto]].
  rewrite raw_amplified. f_equal. destruct (raw W p s) as [[f x]|e]; [|reflexivity]. cbn [scaled]. do 2 f_equal.
  assert (GA : gain p (amplified c s) * (c * c) = if (m =? "dBc")%string then gain p s else gain p s * (c * c)).
  { unfold gain. rewrite PA, size_amplified, points_amplified. unfold eff_fs. rewrite all_real_scale by auto. fold (eff_fs p (points s)). rewrite EM in *.
    assert (FP := eff_fs_pos p (points s) S). destruct (String.eqb_spec m "dBc") as [E|E].
    - rewrite E. unfold calibration. cbn. specialize (LS E). field. repeat split; auto; lra.
    - unfold calibration. rewrite (proj2 (String.eqb_neq _ _) E). reflexivity. }
  destruct (m =? "dBc")%string; rewrite !map_map; apply map_ext; intros v; rewrite <- !Rmult_assoc; [rewrite <- GA; ring|].
  rewrite <- (Rmult_assoc (gain p (amplified c s))) in GA. transitivity (gain p (amplified c s) * c * c * v); [ring|rewrite GA; ring].
Qed.
Print Assumptions C61_amplified.
(** A constant added to the signal is not seen (except through the power in mode dBc). *)
Theorem C61_shifted : forall W p s m c, sensible p -> (0 < size s)%nat -> is_mode p m -> In m supported -> m <> "dBc"%string -> psa W p (shifted c s) = psa W p s.
Proof.
  intros W p s m c S N M I Z.
  assert (EM : eff_mode p = m) by (unfold eff_mode; destruct M as [(-> & ->)|(U & ->)]; [auto|destruct (ps_obw p); congruence]).
  rewrite !psa_eq; rewrite ?size_shifted; auto; try (rewrite EM; auto; congruence). rewrite raw_shifted. f_equal. f_equal. unfold gain. rewrite size_shifted, points_shifted, EM. unfold eff_fs. rewrite all_real_shift. unfold calibration.
  rewrite (proj2 (String.eqb_neq _ _) Z). reflexivity.
Qed.
Print Assumptions C61_shifted.
(** Single side band halves the readings of real signals, except in mode dB (finding: the documentation promises it for all). *)
Theorem C61_single_side_band : forall W p s m, sensible p -> (0 < size s)%nat -> is_mode p m -> In m supported -> (m = "dBc"%string -> ~ silent s) -> (forall v, In v (points s) -> snd v = 0) ->
  exists r, psa W (with_sb "DSB" p) s = Done r /\
    psa W (with_sb "SSB" p) s = Done (match r with Ok (f, x) => Ok (f, if (m =? "dB")%string then x else map (Rmult (/ 2)) x) | Raise e => Raise e end).
Proof.
  intros W p s m S N M I Z RL.
  assert (EM : forall b, eff_mode (with_sb b p) = m) by (intros b; unfold eff_mode; cbn; destruct M as [(-> & ->)|(U & ->)]; [auto|destruct (ps_obw p); congruence]).
  assert (SS : forall b, sensible (with_sb b p)) by (intros b; exact S).
  assert (PE : forall b, psa W (with_sb b p) s = Done (scaled (gain (with_sb b p) s) (raw W p s))).
  { intros b. rewrite psa_eq; auto; try (rewrite EM; auto). intros E. apply loud; auto. }
  exists (scaled (gain (with_sb "DSB" p) s) (raw W p s)). split; [apply PE|]. rewrite PE. f_equal. destruct (raw W p s) as [[f x]|e]; [|reflexivity]. cbn [scaled]. do 2 f_equal.
  assert (A1 : eff_fs (with_sb "DSB" p) (points s) = ps_fs p / 2) by (unfold eff_fs; rewrite (proj2 (all_real_iff _)) by auto; reflexivity).
  assert (A2 : eff_fs (with_sb "SSB" p) (points s) = ps_fs p) by (unfold eff_fs; rewrite (proj2 (all_real_iff _)) by auto; reflexivity).
  assert (GA : gain (with_sb "SSB" p) s = if (m =? "dB")%string then gain (with_sb "DSB" p) s else / 2 * gain (with_sb "DSB" p) s).
  { unfold gain. rewrite !EM, A1, A2. change (bandwidth (with_sb "SSB" p)) with (bandwidth p). change (bandwidth (with_sb "DSB" p)) with (bandwidth p). cbn [with_sb ps_r ps_fullscale]. destruct S as (F & _ & _ & R0 & _ & U0).
    assert (PW : m = "dBc"%string -> mean_power (points s) <> 0) by (intros E; apply loud; auto).
    unfold supported in I. cbn [In] in I. repeat (destruct I as [E|I]; [rewrite <- E in *; unfold calibration; cbn; try (specialize (PW eq_refl)); try (field; repeat split; auto; lra); reflexivity|]). contradiction. }
  rewrite GA. destruct (m =? "dB")%string; [reflexivity|]. rewrite map_map. apply map_ext. intros v. ring.
Qed.
Print Assumptions C61_single_side_band.
(** *** Calibration of the estimate *)
(** Total power in mode dB: the mean energy of the windowed segments without their means, times nfft, over the squared
    window sum.  Segments start every window - overlap samples. *)
Theorem C61_total_power : forall W p s f pxx, sensible p -> good_window W -> (0 < size s)%nat -> (window_n p (size s) <= size s)%nat -> ps_overlap p < 1 -> 1 <= ps_osr p ->
  psa W (with_mode "dB" p) s = Done (Ok (f, pxx)) ->
  let w := window_n p (size s) in
  let step := Z.to_nat (Z.of_nat w - Int_part (INR w * ps_overlap p)) in
  let count := (1 + (size s - w) / step)%nat in
  let re i := fst (nth i (points s) (0, 0)) in let im i := snd (nth i (points s) (0, 0)) in
  total pxx = INR (psa_nfft (ps_osr p) w) / (total (W w) * total (W w)) * (sum_upto (fun j => window_energy (W w) re (j * step) + window_energy (W w) im (j * step)) count / INR count).
Proof.
  intros W p s f pxx S G N L O Q H w step count re im. rewrite psa_db, raw_ok in H by auto. inversion H; subst. clear H. rewrite total_map.
  assert (P := window_pos p _ S N). fold w in P, L |- *. destruct (G w P) as (GL & _).
  assert (TW : sumR (W w) = total (W w)) by (unfold total; rewrite <- (map_id (W w)) at 1; apply (sumR_nth (fun x => x) (W w) 0)).
  assert (1 <= INR w) by (apply (le_INR 1); lia). destruct (nfft_spec (ps_osr p) w) as (k & E & A & _); [nra|].
  assert (OV := overlap_lt (ps_overlap p) w O P).
  etransitivity; [apply energy; rewrite ?GL, ?points_length; auto|].
  - apply INR_le. rewrite E. nra.
  - destruct s as [x|x]; [|discriminate]. intros _ v V. cbn in V. apply in_map_iff in V. destruct V as (u & <- & _). reflexivity.
  - rewrite TW, GL, points_length. reflexivity.
Qed.
Print Assumptions C61_total_power.
(** A tone of amplitude A on a bin frequency, default window, mode dB: its bin shows A^2 / 2. *)
Theorem C61_tone : forall p n A c k phi, sensible p -> (0 < n)%nat -> ps_overlap p < 1 -> 1 <= ps_osr p ->
  let w := window_n p n in let nfft := psa_nfft (ps_osr p) w in
  (w <= n)%nat -> (2 <= c)%nat -> (2 * c + 3 < w)%nat -> (k * w = c * nfft)%nat ->
  exists f pxx, psa blackmanharris (with_mode "dB" p) (RealSig (tone A c w phi n)) = Done (Ok (f, pxx)) /\
    nth k f 0 = INR c * ps_fs p / INR w /\ nth k pxx 0 = A * A / 2.
Proof.
  intros p n A c k phi S N O Q w nfft L C1 C2 K. set (s := RealSig (tone A c w phi n)).
  assert (SZ : size s = n) by (unfold s, tone; cbn; now rewrite map_length, seq_length).
  assert (W0 : 0 < INR w) by (apply lt_0_INR; lia). assert (1 <= INR w) by (apply (le_INR 1); lia). destruct (nfft_spec (ps_osr p) w) as (e & E & E1 & _); [nra|]. fold nfft in E.
  assert (NW : (w <= nfft)%nat) by (apply INR_le; rewrite E; nra). assert (N0 : 0 < INR nfft) by (apply lt_0_INR; lia).
  assert (K2 : (2 * k < nfft)%nat) by nia. assert (K0 : (0 < k)%nat) by nia.
  assert (OV := overlap_lt (ps_overlap p) w O ltac:(lia)).
  rewrite psa_db by (rewrite ?SZ; auto). rewrite raw_ok by (rewrite ?SZ; auto; apply bh_good). rewrite SZ. fold w nfft. do 2 eexists. split; [reflexivity|].
  assert (KB : (k < bins (is_cplx s) nfft)%nat) by (cbn [is_cplx s bins]; pose proof (Nat.div_mod nfft 2 ltac:(lia)); pose proof (Nat.mod_upper_bound nfft 2 ltac:(lia)); lia).
  assert (KR : INR k * INR w = INR c * INR nfft) by (rewrite <- !mult_INR; now f_equal). split.
  - unfold freq_list. rewrite nth_map_seq by auto. cbn [Nat.add]. unfold bin_freq. cbn [is_cplx s negb orb]. apply (Rmult_eq_reg_r (INR nfft * INR w)); [|nra]. transitivity (INR k * INR w * ps_fs p); [field; lra|]. rewrite KR. field. lra.
  - rewrite nth_map_seq by auto. cbn [Nat.add]. unfold power_at. rewrite bh_length, points_length, SZ. set (st := step_of w _). set (m := count_of n w st).
    assert (M0 : 0 < INR m) by (apply lt_0_INR; unfold m, count_of; lia). assert (ST : (0 < st)%nat) by (unfold st, step_of; lia).
    rewrite (sum_upto_ext _ (fun _ => A * A / 4 * (sumR (blackmanharris w) * sumR (blackmanharris w)))).
    + rewrite sum_upto_const. assert (SW : sumR (blackmanharris w) = 0.35875 * INR w) by (rewrite <- (bh_sum w) by lia; rewrite <- (map_id (blackmanharris w)) at 1; rewrite (sumR_nth (fun x => x) (blackmanharris w) 0), bh_length; reflexivity).
      replace (side_factor (is_cplx s) nfft k) with 2; [rewrite SW; field; lra|]. unfold side_factor. cbn [is_cplx s]. rewrite (proj2 (Nat.eqb_neq k 0)) by lia.
      destruct (Nat.eqb_spec k (nfft / 2)); [|now rewrite andb_false_r]. exfalso. destruct e as [|e]; [cbn in E; lia|]. rewrite E in e0, K2. rewrite Nat.pow_succ_r' in *. rewrite Nat.mul_comm, Nat.div_mul in e0 by lia. lia.
    + intros j Hj. apply (tone_power w c k nfft A phi n st j); auto; try lia. apply seg_inside; auto.
Qed.
Print Assumptions C61_tone.
(** (Finding.)  Mode dBm does not show the power A^2 / (2 r) (in mW) of a tone but 2 * rbw / fs of it. *)
Theorem C61_tone_power_refuted : forall p n A c k phi, sensible p -> (0 < n)%nat -> ps_overlap p < 1 -> 1 <= ps_osr p -> ps_obw p = None -> ps_mode p = "dBm"%string -> ps_sb p = "DSB"%string ->
  let w := window_n p n in let nfft := psa_nfft (ps_osr p) w in
  (w <= n)%nat -> (2 <= c)%nat -> (2 * c + 3 < w)%nat -> (k * w = c * nfft)%nat ->
  exists f pxx, psa blackmanharris p (RealSig (tone A c w phi n)) = Done (Ok (f, pxx)) /\
    nth k pxx 0 = (2 * resolution p n / ps_fs p) * (1000 * (A * A / 2 / ps_r p)).
Proof.
  intros p n A c k phi S N O Q OB M SB w nfft L C1 C2 K. destruct (C61_tone p n A c k phi S N O Q L C1 C2 K) as (f & x & E & _ & X). fold w in E, X. set (s := RealSig (tone A c w phi n)) in *.
  assert (SZ : size s = n) by (unfold s, tone; cbn; now rewrite map_length, seq_length).
  destruct (C61_calibration blackmanharris p s "dBm" (ps_fs p / 2) S) as (r & E1 & E2); try rewrite SZ; auto.
  - left. auto.
  - cbn. tauto.
  - discriminate.
  - split; [reflexivity|]. intros H. exfalso. apply H. split; [|auto]. intros v V. cbn in V. apply in_map_iff in V. destruct V as (u & <- & _). reflexivity.
  - rewrite E in E1. inversion E1; subst r. do 2 eexists. split; [exact E2|]. rewrite OB, SZ. destruct (Nat.lt_ge_cases k (length x)) as [H|H].
    + rewrite (map_nth_lt _ _ _ 0) by auto. rewrite X. unfold calibration. cbn. destruct S as (F & _ & _ & R0 & _). field. lra.
    + rewrite (nth_overflow x) in X by auto. rewrite nth_overflow by (rewrite map_length; auto). symmetry. transitivity (2 * resolution p n / ps_fs p * (1000 * (A * A / 2) / ps_r p)); [unfold Rdiv; ring|]. rewrite <- X. unfold Rdiv. ring.
Qed.
Print Assumptions C61_tone_power_refuted.
(** Constant signals are invisible in every mode but dBc. *)
Theorem C61_constant_signal : forall W p c n m, sensible p -> (0 < n)%nat -> is_mode p m -> In m supported -> m <> "dBc"%string ->
  psa W p (RealSig (repeat c n)) = psa W p (RealSig (repeat 0 n)).
Proof.
  intros W p c n m S N M I Z. rewrite <- (C61_shifted W p (RealSig (repeat 0 n)) m c); auto; [|cbn; now rewrite repeat_length]. cbn [shifted]. do 2 f_equal. induction n as [|n IH]; [reflexivity|]. cbn. rewrite Rplus_0_r. f_equal. destruct n; [reflexivity|]. apply IH. lia.
Qed.
Print Assumptions C61_constant_signal.
(** The default window is usable. *)
Theorem C61_default_window : good_window blackmanharris. Proof. exact bh_good. Qed.
Print Assumptions C61_default_window.

(** Cases: sampling rate 1000, resolution 25, a tone at a quarter of the sampling rate in 100 samples. *)
Definition p61 (rbw : option R) (m : string) : psa_par := mk_psa 1000 rbw m None 50 4 0.75 1 "DSB".
Lemma p61_sensible rbw m : (forall b, rbw = Some b -> 0 < b) -> sensible (p61 rbw m). Proof. intros H. unfold sensible, p61. cbn. repeat split; try lra; try discriminate. exact H. Qed.
Lemma p61_good m : sensible (p61 (Some 25) m). Proof. apply p61_sensible. intros b E. inversion E. lra. Qed.
Lemma p61_window m n : window_n (p61 (Some 25) m) n = 76%nat.
Proof. unfold window_n, eff_rbw. cbn [p61 ps_rbw ps_fs]. replace (1000 / 25) with 40 by field. rewrite (Rceil_unique 40 40); [reflexivity|change (40 - 1)%Z with 39%Z; lra|lra]. Qed.
Lemma p61_nfft : psa_nfft 4 76 = 512%nat.
Proof.
  assert (I : INR 76 = 76) by (rewrite INR_IZR_INZ; reflexivity). destruct (nfft_spec 4 76) as (k & -> & A & B); rewrite I in *; [lra|]. rewrite pow_INR in A, B. replace (INR 2) with 2 in A, B by (cbn; lra).
  destruct (Nat.lt_trichotomy k 9) as [H|[->|H]]; [|reflexivity|].
  - assert (2 ^ k <= 2 ^ 8)%R by (apply Rle_pow; [lra|lia]). lra.
  - assert (2 ^ 10 <= 2 ^ k)%R by (apply Rle_pow; [lra|lia]). lra.
Qed.
Example C61_case_tone : forall A phi, exists f pxx, psa blackmanharris (with_mode "dB" (p61 (Some 25) "dB")) (RealSig (tone A 19 76 phi 100)) = Done (Ok (f, pxx)) /\ nth 128 f 0 = 250 /\ nth 128 pxx 0 = A * A / 2.
Proof.
  intros A phi. assert (W := p61_window "dB" 100).
  destruct (C61_tone (p61 (Some 25) "dB") 100 A 19 128 phi (p61_good _)) as (f & x & E & F & X); try rewrite W; cbn [ps_overlap ps_osr p61]; try lra; try lia; [rewrite p61_nfft; reflexivity|].
  rewrite W in *. exists f, x. split; [exact E|]. split; [|exact X]. rewrite F. cbn [ps_fs p61]. rewrite !INR_IZR_INZ. change (Z.of_nat 19) with 19%Z. change (Z.of_nat 76) with 76%Z. field.
Qed.
Example C61_case_dbm : forall A phi, exists f pxx, psa blackmanharris (p61 (Some 25) "dBm") (RealSig (tone A 19 76 phi 100)) = Done (Ok (f, pxx)) /\ nth 128 pxx 0 = / 20 * (10 * A * A).
Proof.
  intros A phi. assert (W := p61_window "dBm" 100).
  destruct (C61_tone_power_refuted (p61 (Some 25) "dBm") 100 A 19 128 phi (p61_good _)) as (f & x & E & X); try rewrite W; cbn [ps_overlap ps_osr p61]; try lra; try lia; try reflexivity; [rewrite p61_nfft; reflexivity|].
  rewrite W in *. exists f, x. split; [exact E|]. rewrite X. unfold resolution. cbn [ps_rbw ps_fs p61 ps_r]. field.
Qed.
Example C61_case_default : psa blackmanharris (p61 None "dBm") (RealSig (repeat 1 1000)) = Done (Raise ValueError) /\ psa blackmanharris (p61 None "dBc/Hz ") (RealSig [1; 2; 3]) = Done (Raise ValueError).
Proof.
  split.
  - apply (C61_default_refuted _ _ _ "dBm"); try apply p61_sensible; try apply C61_default_window; try discriminate; cbn [ps_overlap ps_osr p61 size ps_rbw]; rewrite ?repeat_length; try lra; try lia; [left; auto|cbn; tauto|reflexivity].
  - apply C61_phase_noise_mode_refuted; [apply p61_sensible; discriminate|cbn; lia|reflexivity|left; reflexivity].
Qed.
Example C61_case_total : exists f pxx, psa blackmanharris (with_mode "dB" (p61 (Some 25) "dB")) (RealSig (tone 1 19 76 0 100)) = Done (Ok (f, pxx)) /\ (window_n (p61 (Some 25%R) "dB") 100 <= 100)%nat.
Proof. destruct (C61_case_tone 1 0) as (f & x & E & _). exists f, x. split; [exact E|]. rewrite p61_window. lia. Qed.
