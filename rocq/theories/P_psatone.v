(** Lemmas for C61: total power and tones. *)
From Coq Require Import Reals Lra Lia String.
From Verif Require Import Py B_list M_soft M_sim M_psa S_channel P_channel P_limits S_psa P_psa P_dft P_tone P_psaspec.
Import List.
Open Scope R_scope.

Lemma seg_inside n nper step j : (0 < step)%nat -> (nper <= n)%nat -> (j < count_of n nper step)%nat -> (j * step + nper <= n)%nat.
Proof.
  intros S N H. unfold count_of in H. assert (Q := Nat.mul_div_le (n - nper) step ltac:(lia)). set (d := ((n - nper) / step)%nat) in *. clearbody d. assert (j <= d)%nat by lia. assert (j * step <= d * step)%nat by (apply Nat.mul_le_mono_r; auto). lia.
Qed.
Lemma seg_length x nper step j : (j * step + nper <= length x)%nat -> length (seg_at x nper step j) = nper.
Proof. intros H. unfold seg_at. rewrite firstn_length, skipn_length. lia. Qed.
Lemma seg_nth x nper step j i : (i < nper)%nat -> nth i (seg_at x nper step j) (0, 0) = nth (j * step + i) x (0, 0).
Proof. intros H. unfold seg_at. rewrite nth_firstn by auto. now rewrite nth_skipn. Qed.
Lemma seg_mean (x : list (R * R)) nper step j (f : R * R -> R) : (j * step + nper <= length x)%nat ->
  sumR (map f (seg_at x nper step j)) / INR (length (seg_at x nper step j)) = mean_from (fun i => f (nth i x (0, 0))) (j * step) nper.
Proof. intros H. unfold mean_from. rewrite (sumR_nth _ _ (0, 0)), seg_length by auto. unfold Rdiv. f_equal. apply sum_upto_ext. intros i Hi. now rewrite seg_nth. Qed.
Lemma wd_nth win x step j i : (j * step + length win <= length x)%nat -> (i < length win)%nat ->
  nth i (windowed win (detrend (seg_at x (length win) step j))) (0, 0) =
  (nth i win 0 * (fst (nth (j * step + i) x (0, 0)) - mean_from (fun i => fst (nth i x (0, 0))) (j * step) (length win)),
   nth i win 0 * (snd (nth (j * step + i) x (0, 0)) - mean_from (fun i => snd (nth i x (0, 0))) (j * step) (length win))).
Proof.
  intros H Hi. set (sg := seg_at x (length win) step j). assert (L : length sg = length win) by (now apply seg_length). unfold windowed.
  rewrite (map2_nth _ _ _ _ 0 (0, 0)); [| |unfold detrend; rewrite map_length]; try lia. unfold detrend. rewrite (map_nth_lt _ _ _ (0, 0)) by lia. unfold cmean. cbn [fst snd]. unfold sg. rewrite !seg_mean by auto. rewrite seg_nth by auto. reflexivity.
Qed.
Lemma wd_length win x step j : (j * step + length win <= length x)%nat -> length (windowed win (detrend (seg_at x (length win) step j))) = length win.
Proof. intros H. unfold windowed. rewrite map2_length. unfold detrend. rewrite map_length, seg_length by auto. lia. Qed.
Lemma mean_from_0 f a len : (0 < len)%nat -> (forall i, (i < len)%nat -> f (a + i)%nat = 0) -> mean_from f a len = 0.
Proof. intros L H. unfold mean_from. rewrite sum_upto_0; [unfold Rdiv; ring|auto]. Qed.

Lemma total_map f n : total (map f (seq 0 n)) = sum_upto f n.
Proof. unfold total. rewrite map_length, seq_length. apply sum_upto_ext. intros k Hk. rewrite nth_map_seq by auto. reflexivity. Qed.
Lemma energy cplx x win nov nfft : (0 < length win)%nat -> (length win <= length x)%nat -> (length win <= nfft)%nat -> (nov < Z.of_nat (length win))%Z ->
  (cplx = false -> forall v, In v x -> snd v = 0) ->
  let st := step_of (length win) nov in let m := count_of (length x) (length win) st in
  sum_upto (power_at cplx x win nov nfft) (bins cplx nfft) =
  INR nfft / (sumR win * sumR win) * (sum_upto (fun j => window_energy win (fun i => fst (nth i x (0, 0))) (j * st) + window_energy win (fun i => snd (nth i x (0, 0))) (j * st)) m / INR m).
Proof.
  intros H0 H1 H2 H3 H4 st m. assert (ST : (0 < st)%nat) by (unfold st, step_of; lia).
  assert (E : forall j, (j < m)%nat -> sum_upto (fun k => side_factor cplx nfft k * dft_power nfft (windowed win (detrend (seg_at x (length win) st j))) k) (bins cplx nfft) =
    INR nfft * (window_energy win (fun i => fst (nth i x (0, 0))) (j * st) + window_energy win (fun i => snd (nth i x (0, 0))) (j * st))).
  { intros j Hj. assert (IN := seg_inside _ _ _ _ ST H1 Hj). set (y := windowed win (detrend (seg_at x (length win) st j))). assert (LY : length y = length win) by (now apply wd_length).
    transitivity (sum_upto (dft_power nfft y) nfft).
    - destruct cplx; cbn [bins].
      + apply sum_upto_ext. intros k _. unfold side_factor. ring.
      + apply one_sided; [lia|]. intros k Hk. apply mirror; [lia|]. apply Forall_forall. intros v I. apply (In_nth _ _ (0, 0)) in I. destruct I as (i & Hi & <-). rewrite LY in Hi. unfold y. rewrite wd_nth by auto. cbn [snd].
        assert (Z0 : forall i, snd (nth i x (0, 0)) = 0). { intros u. destruct (Nat.lt_ge_cases u (length x)); [apply H4; auto; now apply nth_In|now rewrite nth_overflow]. }
        rewrite mean_from_0, Z0; auto. ring.
    - rewrite parseval by lia. rewrite LY. f_equal. unfold window_energy. rewrite <- sum_upto_add. apply sum_upto_ext. intros i Hi. unfold y. rewrite wd_nth by auto. reflexivity. }
  unfold power_at. fold st m. rewrite (sum_upto_ext _ (fun k => / (sumR win * sumR win) * / INR m * sum_upto (fun j => side_factor cplx nfft k * dft_power nfft (windowed win (detrend (seg_at x (length win) st j))) k) m)).
  2:{ intros k _. rewrite sum_upto_scale. unfold Rdiv. ring. }
  rewrite sum_upto_scale, sum_upto_swap. rewrite (sum_upto_ext _ _ _ E). rewrite sum_upto_scale. unfold Rdiv. ring.
Qed.

(** *** Tones *)
Lemma tone_power w c k nfft A phi n step j : (2 <= c)%nat -> (2 * c + 3 < w)%nat -> (w <= n)%nat -> (k * w = c * nfft)%nat -> (0 < nfft)%nat -> (j * step + w <= n)%nat ->
  dft_power nfft (windowed (blackmanharris w) (detrend (seg_at (map (fun v => (v, 0)) (tone A c w phi n)) w step j))) k =
  A * A / 4 * (sumR (blackmanharris w) * sumR (blackmanharris w)).
Proof.
  intros C1 C2 WN K NF IN. set (x := map (fun v => (v, 0)) (tone A c w phi n)). assert (W0 : 0 < INR w) by (apply lt_0_INR; lia). assert (N0 : 0 < INR nfft) by (apply lt_0_INR; lia).
  assert (LX : length x = n) by (unfold x, tone; now rewrite !map_length, seq_length).
  set (th := 2 * PI * INR c / INR w). set (psi := INR (j * step) * th + phi).
  assert (X1 : forall i, (i < w)%nat -> nth (j * step + i) x (0, 0) = (A * cos (INR i * th + psi), 0)).
  { intros i Hi. unfold x. rewrite (map_nth_lt _ _ _ 0) by (unfold tone; rewrite map_length, seq_length; lia). unfold tone. rewrite nth_map_seq by lia. cbn [Nat.add]. fold th. unfold psi. rewrite plus_INR. f_equal. f_equal. f_equal. ring. }
  assert (M1 : mean_from (fun i => fst (nth i x (0, 0))) (j * step) w = 0).
  { unfold mean_from. rewrite (sum_upto_ext _ (fun i => A * cos (INR i * th + psi))) by (intros i Hi; now rewrite X1). rewrite sum_upto_scale. unfold th. rewrite turn_phase by lia. unfold Rdiv. ring. }
  assert (M2 : mean_from (fun i => snd (nth i x (0, 0))) (j * step) w = 0) by (apply mean_from_0; [lia|]; intros i Hi; now rewrite X1).
  set (y := windowed (blackmanharris w) (detrend (seg_at x w step j))).
  assert (Y : forall i, (i < w)%nat -> nth i y (0, 0) = (nth i (blackmanharris w) 0 * (A * cos (INR i * th + psi)), 0)).
  { intros i Hi. unfold y. rewrite <- (bh_length w) at 2. rewrite wd_nth by (rewrite ?bh_length; lia). rewrite bh_length, M1, M2, X1 by auto. cbn [fst snd]. f_equal; ring. }
  assert (LY : length y = w) by (unfold y; rewrite <- (bh_length w) at 2; rewrite wd_length, bh_length; [auto|rewrite bh_length; lia]).
  assert (AN : forall i, ang nfft k i = INR i * th).
  { intros i. unfold ang, th. assert (KR : INR k * INR w = INR c * INR nfft) by (rewrite <- !mult_INR; now f_equal). replace (INR c) with (INR k * INR w / INR nfft) by (rewrite KR; field; lra). field. lra. }
  set (S := sumR (blackmanharris w)). assert (SS : S = sum_upto (fun i => nth i (blackmanharris w) 0) w) by (unfold S; rewrite <- (map_id (blackmanharris w)), (sumR_nth _ _ 0), map_id, bh_length; reflexivity).
  assert (B1 : forall ph, sum_upto (fun i => nth i (blackmanharris w) 0 * cos (INR i * (2 * th) + ph)) w = 0).
  { intros ph. etransitivity; [|apply (bh_tone w (2 * c) ph); lia]. apply sum_upto_ext. intros i _. f_equal. f_equal. f_equal. unfold th. rewrite mult_INR. replace (INR 2) with 2 by (cbn; lra). field. lra. }
  assert (RE : dft_re nfft y k = A / 2 * cos psi * S).
  { rewrite dft_re_upto, LY. rewrite (sum_upto_ext _ (fun i => A / 2 * cos psi * nth i (blackmanharris w) 0 + A / 2 * (nth i (blackmanharris w) 0 * cos (INR i * (2 * th) + psi)))).
    - rewrite sum_upto_add, !sum_upto_scale, B1, SS. ring.
    - intros i Hi. rewrite Y, AN by auto. cbn [fst snd]. replace (INR i * (2 * th) + psi) with (INR i * th + psi + INR i * th) by ring. set (u := INR i * th + psi). replace psi with (u - INR i * th) by (unfold u; ring). rewrite cos_plus, cos_minus. field. }
  assert (IM : dft_im nfft y k = A / 2 * sin psi * S).
  { rewrite dft_im_upto, LY. rewrite (sum_upto_ext _ (fun i => A / 2 * sin psi * nth i (blackmanharris w) 0 + A / 2 * (nth i (blackmanharris w) 0 * cos (INR i * (2 * th) + (psi + PI / 2))))).
    - rewrite sum_upto_add, !sum_upto_scale, B1, SS. ring.
    - intros i Hi. rewrite Y, AN by auto. cbn [fst snd]. replace (INR i * (2 * th) + (psi + PI / 2)) with (INR i * th + psi + INR i * th + PI / 2) by ring. set (u := INR i * th + psi). replace psi with (u - INR i * th) by (unfold u; ring).
      rewrite (cos_plus _ (PI / 2)), cos_PI2, sin_PI2, sin_plus, sin_minus. field. }
  unfold dft_power. rewrite RE, IM. assert (D : sin psi * sin psi + cos psi * cos psi = 1) by (generalize (sin2_cos2 psi); unfold Rsqr; auto).
  transitivity (A * A / 4 * (S * S) * (sin psi * sin psi + cos psi * cos psi)); [field|rewrite D; ring].
Qed.
