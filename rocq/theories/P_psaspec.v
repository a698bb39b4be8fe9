(** Lemmas for C61: the analyser as a whole. *)
From Coq Require Import Reals Lra Lia String.
From Verif Require Import Py B_list M_soft M_sim M_psa S_channel P_channel P_limits S_psa P_psa P_dft P_tone.
Import List.
Open Scope R_scope.

Lemma points_length s : length (points s) = size s. Proof. destruct s; cbn; auto. apply map_length. Qed.
Definition scaled (g : R) (r : res (list R * list R)) : res (list R * list R) := match r with Ok (f, q) => Ok (f, map (Rmult g) q) | Raise e => Raise e end.
Definition raw (W : nat -> list R) (p : psa_par) (s : psa_signal) : res (list R * list R) :=
  let w := window_n p (size s) in welch (is_cplx s) (points s) (ps_fs p) (W w) (psa_overlap (ps_overlap p) w) (psa_nfft (ps_osr p) w).
Definition gain (p : psa_par) (s : psa_signal) : R :=
  calibration (eff_mode p) (bandwidth p (size s)) (eff_fs p (points s)) (ps_r p) (ps_fullscale p) (mean_power (points s)).
Lemma psa_eq W p s : sensible p -> (0 < size s)%nat -> In (eff_mode p) supported -> (eff_mode p = "dBc"%string -> mean_power (points s) <> 0) ->
  psa W p s = Done (scaled (gain p s) (raw W p s)).
Proof.
  intros S N I Z. assert (NE : points s <> []) by (intros E; rewrite <- points_length, E in N; cbn in N; lia).
  destruct (norm_gain p (points s) S NE I Z) as (c & E & G). unfold psa. rewrite (proj2 (domain_iff p) S). cbn [negb]. rewrite points_length, E.
  destruct (Nat.eqb_spec (size s) 0); [lia|]. rewrite welch_scale. unfold raw, gain, scaled. rewrite G, points_length. reflexivity.
Qed.
Lemma sensible_mode m p : sensible p -> sensible (with_mode m p).
Proof. intros (A & B & C & D). unfold sensible, with_mode. cbn. repeat split; auto; try tauto. discriminate. Qed.
Lemma psa_db W p s : sensible p -> (0 < size s)%nat -> psa W (with_mode "dB" p) s = Done (raw W p s).
Proof.
  intros S N. rewrite psa_eq; auto.
  - f_equal. change (raw W (with_mode "dB" p) s) with (raw W p s). destruct (raw W p s) as [[f q]|e]; [|reflexivity]. cbn [scaled]. do 2 f_equal. rewrite <- (map_id q) at 2. apply map_ext. intros x. unfold gain, calibration. cbn. lra.
  - now apply sensible_mode.
  - cbn. tauto.
  - discriminate.
Qed.
Lemma power_zero x : x <> [] -> (mean_power x = 0 <-> forall v, In v x -> fst v = 0 /\ snd v = 0).
Proof.
  intros N. rewrite <- mean_power_eq. assert (P : 0 < INR (length x)) by (apply lt_0_INR; destruct x; [congruence|cbn; lia]).
  assert (A : sumR (map (fun v => fst v * fst v + snd v * snd v) x) / INR (length x) = 0 <-> sumR (map (fun v => fst v * fst v + snd v * snd v) x) = 0).
  { split; intros H; [|rewrite H; unfold Rdiv; ring]. apply (f_equal (fun t => t * INR (length x))) in H. unfold Rdiv in H. rewrite Rmult_assoc, Rinv_l in H by lra. lra. }
  rewrite A. clear. induction x as [|a x IH]; [cbn; tauto|]. cbn [map]. unfold sumR in *. cbn [fold_right].
  assert (0 <= fold_right Rplus 0 (map (fun v => fst v * fst v + snd v * snd v) x)) by (clear; induction x as [|b x IH]; cbn; [lra|nra]).
  split.
  - intros H1 v [<-|I]; [split; nra|]. apply IH; [nra|auto].
  - intros H1. destruct (H1 a (or_introl eq_refl)) as (-> & ->). rewrite (proj2 IH); [ring|]. intros v I. apply H1. now right.
Qed.
Lemma loud s : (0 < size s)%nat -> ~ silent s -> mean_power (points s) <> 0.
Proof. intros N H E. apply H. unfold silent. apply power_zero; auto. intros E2. rewrite <- points_length, E2 in N. cbn in N. lia. Qed.

(** *** Ceiling and FFT size *)
Lemma Rceil_spec x : IZR (Rceil x) - 1 < x <= IZR (Rceil x).
Proof. unfold Rceil. rewrite opp_IZR. destruct (base_Int_part (- x)). lra. Qed.
Lemma Rceil_unique x c : IZR (c - 1) < x -> x <= IZR c -> Rceil x = c.
Proof.
  intros H1 H2. destruct (Rceil_spec x) as (A & B). rewrite minus_IZR in H1. assert (IZR (Rceil x) < IZR (c + 1)) by (rewrite plus_IZR; lra). assert (IZR c < IZR (Rceil x + 1)) by (rewrite plus_IZR; lra).
  apply lt_IZR in H. apply lt_IZR in H0. lia.
Qed.
Lemma ln2_pos : 0 < ln 2. Proof. rewrite <- ln_1. apply ln_increasing; lra. Qed.
Lemma nfft_spec osr w : 1 <= INR w * osr -> exists k, psa_nfft osr w = (2 ^ k)%nat /\ INR w * osr <= INR (2 ^ k) /\ INR (2 ^ k) < 2 * (INR w * osr).
Proof.
  intros H. set (y := INR w * osr) in *. assert (L := ln2_pos). unfold psa_nfft. fold y. set (t := ln y / ln 2). destruct (Rceil_spec t) as (A & B). set (e := Rceil t) in *.
  assert (T0 : 0 <= t). { unfold t. apply Rmult_le_pos; [|left; now apply Rinv_0_lt_compat]. destruct H as [H|H]; [left; rewrite <- ln_1; apply ln_increasing; lra|rewrite <- H, ln_1; lra]. }
  assert (E0 : (0 <= e)%Z) by (apply le_IZR; lra). destruct (Z.ltb_spec e 0); [lia|]. assert (Y : y = Rpower 2 t) by (unfold Rpower, t; replace (ln y / ln 2 * ln 2) with (ln y) by (field; lra); rewrite exp_ln; lra).
  exists (Z.to_nat e). assert (P : INR (2 ^ Z.to_nat e) = Rpower 2 (IZR e)).
  { rewrite pow_INR. replace (INR 2) with 2 by (cbn; lra). rewrite <- Rpower_pow by lra. rewrite INR_IZR_INZ, Z2Nat.id by auto. reflexivity. }
  split; [|split].
  - rewrite <- (Z2Nat.id e) at 1 by auto. generalize (Z.to_nat e). intros k. rewrite <- (Nat2Z.id (2 ^ k)). f_equal. rewrite Nat2Z.inj_pow. reflexivity.
  - rewrite P, Y. apply Rle_Rpower; lra.
  - rewrite P, Y. apply Rlt_le_trans with (Rpower 2 (t + 1)); [apply Rpower_lt; lra|]. rewrite Rpower_plus, Rpower_1 by lra. lra.
Qed.

(** *** Successful runs *)
Definition freq_list cplx fs nfft := map (bin_freq cplx fs nfft) (seq 0 (bins cplx nfft)).
Definition seg_at (x : list (R * R)) (nper step j : nat) : list (R * R) := firstn nper (skipn (j * step) x).
Definition step_of (nper : nat) (nov : Z) : nat := Z.to_nat (Z.of_nat nper - nov).
Definition count_of (n nper step : nat) : nat := (1 + (n - nper) / step)%nat.
Definition power_at (cplx : bool) (x : list (R * R)) (win : list R) (nov : Z) (nfft k : nat) : R :=
  let st := step_of (length win) nov in let m := count_of (length x) (length win) st in
  side_factor cplx nfft k / (sumR win * sumR win) * (sum_upto (fun j => dft_power nfft (windowed win (detrend (seg_at x (length win) st j))) k) m / INR m).
Lemma welch_ok cplx x fs win nov nfft : (0 < length x)%nat -> (length win <= length x)%nat -> (length win <= nfft)%nat -> (nov < Z.of_nat (length win))%Z ->
  welch cplx x fs win nov nfft = Ok (freq_list cplx fs nfft, map (power_at cplx x win nov nfft) (seq 0 (bins cplx nfft))).
Proof.
  intros H1 H2 H3 H4. unfold welch. destruct (Nat.eqb_spec (length x) 0); [lia|]. destruct (Nat.ltb_spec (length x) (length win)); [lia|]. destruct (Nat.ltb_spec nfft (length win)); [lia|]. destruct (Z.leb_spec (Z.of_nat (length win)) nov); [lia|].
  assert (C : Z.to_nat ((Z.of_nat (length x) - nov) / (Z.of_nat (length win) - nov)) = count_of (length x) (length win) (step_of (length win) nov)).
  { unfold count_of, step_of. replace (Z.of_nat (length x) - nov)%Z with (Z.of_nat (length x - length win) + 1 * (Z.of_nat (length win) - nov))%Z by lia. rewrite Z.div_add by lia.
    set (st := (Z.of_nat (length win) - nov)%Z) in *. rewrite <- (Z2Nat.id st) at 1 by lia. rewrite <- Nat2Z.inj_div. lia. }
  f_equal. f_equal. apply map_ext. intros k. rewrite C. unfold power_at. cbn zeta. fold (step_of (length win) nov). set (st := step_of (length win) nov). set (m := count_of _ _ _).
  rewrite map_map. unfold segments. rewrite map_map, sumR_upto. unfold seg_at. rewrite (sum_upto_ext _ (fun j => side_factor cplx nfft k / (sumR win * sumR win) * dft_power nfft (windowed win (detrend (firstn (length win) (skipn (j * st) x)))) k)).
  - rewrite sum_upto_scale. unfold Rdiv. ring.
  - intros j _. unfold Rdiv. ring.
Qed.
Lemma welch_too_short cplx x fs win nov nfft : (0 < length x)%nat -> (length x < length win)%nat -> welch cplx x fs win nov nfft = Raise ValueError.
Proof. intros H1 H2. unfold welch. destruct (Nat.eqb_spec (length x) 0); [lia|]. destruct (Nat.ltb_spec (length x) (length win)); [auto|lia]. Qed.
Lemma window_pos p n : sensible p -> (0 < n)%nat -> (0 < window_n p n)%nat.
Proof.
  intros S N. assert (B := eff_rbw_pos p n S N). destruct S as (F & _). unfold window_n. destruct (Rceil_spec (ps_fs p / eff_rbw p n)) as (_ & U).
  assert (0 < ps_fs p / eff_rbw p n) by (apply Rmult_lt_0_compat; [auto|now apply Rinv_0_lt_compat]). assert (0 < Rceil (ps_fs p / eff_rbw p n))%Z by (apply lt_IZR; lra).
  assert (1 <= 19 * Rceil (ps_fs p / eff_rbw p n) / 10)%Z by (apply Z.div_le_lower_bound; lia). lia.
Qed.
Lemma overlap_lt o w : o < 1 -> (0 < w)%nat -> (psa_overlap o w < Z.of_nat w)%Z.
Proof. intros H W. unfold psa_overlap. apply lt_IZR. rewrite <- INR_IZR_INZ. destruct (base_Int_part (INR w * o)). assert (0 < INR w) by (apply lt_0_INR; lia). nra. Qed.
Lemma raw_ok W p s : sensible p -> good_window W -> (0 < size s)%nat -> (window_n p (size s) <= size s)%nat -> ps_overlap p < 1 -> 1 <= ps_osr p ->
  let w := window_n p (size s) in let nfft := psa_nfft (ps_osr p) w in
  raw W p s = Ok (freq_list (is_cplx s) (ps_fs p) nfft, map (power_at (is_cplx s) (points s) (W w) (psa_overlap (ps_overlap p) w) nfft) (seq 0 (bins (is_cplx s) nfft))).
Proof.
  intros S G N L O Q w nfft. assert (WP := window_pos p _ S N). fold w in WP, L. unfold raw. fold w nfft. destruct (G w WP) as (GL & _). apply welch_ok; rewrite ?points_length, ?GL; auto.
  - assert (1 <= INR w) by (apply (le_INR 1); lia). destruct (nfft_spec (ps_osr p) w) as (k & E & A & _); [nra|]. fold nfft in E. apply INR_le. rewrite E. nra.
  - now apply overlap_lt.
Qed.
(** Scaling and shifting the signal. *)
Lemma points_amplified c s : points (amplified c s) = cscale c (points s).
Proof. destruct s as [x|x]; cbn [amplified points]; unfold cscale; rewrite ?map_map; [|reflexivity]. apply map_ext. intros v. cbn [fst snd]. f_equal. ring. Qed.
Lemma size_amplified c s : size (amplified c s) = size s. Proof. destruct s; cbn; apply map_length. Qed.
Lemma cplx_amplified c s : is_cplx (amplified c s) = is_cplx s. Proof. destruct s; auto. Qed.
Lemma all_real_iff x : all_real x = true <-> forall v, In v x -> snd v = 0.
Proof. unfold all_real. rewrite forallb_forall. split; intros H v I; specialize (H v I); destruct (Req_EM_T (snd v) 0); auto; discriminate. Qed.
Lemma all_real_scale c x : c <> 0 -> all_real (cscale c x) = all_real x.
Proof.
  intros C. apply Bool.eq_iff_eq_true. rewrite !all_real_iff. unfold cscale. split; intros H v I.
  - assert (T := H _ (in_map _ _ _ I)). cbn [snd] in T. apply Rmult_integral in T. tauto.
  - apply in_map_iff in I. destruct I as (u & <- & I). cbn [snd]. rewrite H by auto. ring.
Qed.
Lemma mean_power_scale c x : mean_power (cscale c x) = c * c * mean_power x.
Proof.
  unfold mean_power. rewrite cscale_length. unfold Rdiv. rewrite <- Rmult_assoc. f_equal. rewrite <- sum_upto_scale. apply sum_upto_ext. intros k _. rewrite cscale_nth. cbn [fst snd]. ring.
Qed.
Lemma raw_amplified W p s c : raw W p (amplified c s) = scaled (c * c) (raw W p s).
Proof. unfold raw. rewrite size_amplified, cplx_amplified, points_amplified, welch_scale. reflexivity. Qed.
Definition cshift (c : R) (x : list (R * R)) : list (R * R) := map (fun v => (c + fst v, snd v)) x.
Lemma points_shifted c s : points (shifted c s) = cshift c (points s).
Proof. destruct s as [x|x]; cbn [shifted points]; unfold cshift; rewrite ?map_map; reflexivity. Qed.
Lemma size_shifted c s : size (shifted c s) = size s. Proof. destruct s; cbn; apply map_length. Qed.
Lemma cplx_shifted c s : is_cplx (shifted c s) = is_cplx s. Proof. destruct s; auto. Qed.
Lemma all_real_shift c x : all_real (cshift c x) = all_real x.
Proof. unfold cshift, all_real. induction x as [|a x IH]; cbn; auto. now rewrite IH. Qed.
Lemma detrend_shift c x : detrend (cshift c x) = detrend x.
Proof.
  destruct x as [|a x]; [reflexivity|]. set (l := a :: x). assert (0 < INR (length l)) by (apply lt_0_INR; cbn; lia). unfold detrend, cmean, cshift. rewrite !map_map, map_length. cbn [fst snd]. apply map_ext. intros v.
  f_equal. rewrite (sumR_map_add (fun _ => c) fst), sumR_map_const. field. lra.
Qed.
Lemma raw_shifted W p s c : raw W p (shifted c s) = raw W p s.
Proof.
  unfold raw. rewrite size_shifted, cplx_shifted, points_shifted. unfold welch, cshift. rewrite map_length. set (w := W _). repeat match goal with |- context [if ?b then Raise _ else _] => destruct b; [reflexivity|] end. destruct (_ =? 0)%nat; [reflexivity|].
  repeat match goal with |- context [if ?b then Raise _ else _] => destruct b; [reflexivity|] end. do 2 f_equal. apply map_ext. intros k. do 3 f_equal. unfold segments. rewrite !map_map. apply map_ext. intros j. rewrite skipn_map, firstn_map.
  fold (cshift c (firstn (length w) (skipn (j * Z.to_nat (Z.of_nat (length w) - psa_overlap (ps_overlap p) (window_n p (size s)))) (points s)))). now rewrite detrend_shift.
Qed.
