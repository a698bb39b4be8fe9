(** Lemmas for C61. *)
From Coq Require Import Reals Lra Lia String Rfunctions.
From Verif Require Import Py B_list M_soft M_sim M_psa S_channel P_channel P_limits S_psa.
Import List.
Open Scope R_scope.

Lemma sumR_map_scale {A} c (f : A -> R) l : sumR (map (fun v => c * f v) l) = c * sumR (map f l).
Proof. unfold sumR. induction l as [|a l IH]; cbn; [lra|]. rewrite IH. lra. Qed.
Lemma sumR_map_add {A} (f g : A -> R) l : sumR (map (fun v => f v + g v) l) = sumR (map f l) + sumR (map g l).
Proof. unfold sumR. induction l as [|a l IH]; cbn; [lra|]. rewrite IH. lra. Qed.
Lemma sumR_map_const {A} c (l : list A) : sumR (map (fun _ => c) l) = INR (length l) * c.
Proof. unfold sumR. induction l as [|a l IH]; cbn [map fold_right length]; [cbn; lra|]. rewrite IH, S_INR. lra. Qed.
Lemma cscale_length c x : length (cscale c x) = length x. Proof. apply map_length. Qed.
Lemma cscale_nth c x i : nth i (cscale c x) (0, 0) = (c * fst (nth i x (0, 0)), c * snd (nth i x (0, 0))).
Proof. unfold cscale. destruct (Nat.lt_ge_cases i (length x)) as [H|H]; [now rewrite (map_nth_lt _ _ _ (0, 0)) by auto|]. rewrite !nth_overflow by (rewrite ?map_length; lia). cbn. f_equal; lra. Qed.
Lemma dft_re_scale n c x k : dft_re n (cscale c x) k = c * dft_re n x k.
Proof. unfold dft_re. rewrite cscale_length, <- sumR_map_scale. f_equal. apply map_ext. intros i. rewrite cscale_nth. cbn [fst snd]. ring. Qed.
Lemma dft_im_scale n c x k : dft_im n (cscale c x) k = c * dft_im n x k.
Proof. unfold dft_im. rewrite cscale_length, <- sumR_map_scale. f_equal. apply map_ext. intros i. rewrite cscale_nth. cbn [fst snd]. ring. Qed.
Lemma dft_power_scale n c x k : dft_power n (cscale c x) k = c * c * dft_power n x k.
Proof. unfold dft_power. rewrite dft_re_scale, dft_im_scale. ring. Qed.
Lemma cmean_scale c x : cmean (cscale c x) = (c * fst (cmean x), c * snd (cmean x)).
Proof. unfold cmean. rewrite cscale_length. unfold cscale. rewrite !map_map. cbn [fst snd]. rewrite !sumR_map_scale. unfold Rdiv. f_equal; ring. Qed.
Lemma detrend_scale c x : detrend (cscale c x) = cscale c (detrend x).
Proof. unfold detrend. rewrite cmean_scale. unfold cscale. rewrite !map_map. apply map_ext. intros v. cbn [fst snd]. f_equal; ring. Qed.
Lemma windowed_scale c w x : windowed w (cscale c x) = cscale c (windowed w x).
Proof. unfold windowed, cscale. revert x. induction w as [|a w IH]; intros [|b x]; cbn [map map2]; auto. rewrite IH. cbn [fst snd]. f_equal. f_equal; ring. Qed.
Lemma segments_scale c x nper step nseg : segments (cscale c x) nper step nseg = map (cscale c) (segments x nper step nseg).
Proof. unfold segments. rewrite map_map. apply map_ext. intros j. unfold cscale. now rewrite skipn_map, firstn_map. Qed.
Lemma welch_scale cplx x fs win nov nfft c : welch cplx (cscale c x) fs win nov nfft =
  match welch cplx x fs win nov nfft with Ok (f, p) => Ok (f, map (Rmult (c * c)) p) | Raise e => Raise e end.
Proof.
  unfold welch. rewrite cscale_length. destruct (_ =? 0)%nat; [reflexivity|]. destruct (_ <? _)%nat; [reflexivity|]. destruct (_ <? _)%nat; [reflexivity|]. destruct (_ <=? _)%Z; [reflexivity|].
  f_equal. f_equal. rewrite map_map. apply map_ext. intros k. rewrite segments_scale, !map_map. unfold Rdiv. rewrite <- Rmult_assoc. f_equal. rewrite <- sumR_map_scale. f_equal. apply map_ext. intros s.
  rewrite detrend_scale, windowed_scale, dft_power_scale. ring.
Qed.

(** *** Parameters *)
Lemma positive_iff x : positive x = true <-> 0 < x. Proof. unfold positive. destruct (Rlt_dec 0 x); split; auto; discriminate. Qed.
Lemma domain_iff p : psa_domain p = true <-> sensible p.
Proof.
  unfold psa_domain, sensible. rewrite !andb_true_iff, !positive_iff.
  assert (O : forall o, positive_opt o = true <-> forall b, o = Some b -> 0 < b).
  { intros [b|]; cbn [positive_opt].
    - rewrite positive_iff. split; intros H; [intros c E; inversion E; now subst|now apply H].
    - split; intros H; [intros c E; discriminate E|reflexivity]. }
  rewrite !O. tauto.
Qed.
Lemma eff_rbw_pos p n : sensible p -> (0 < n)%nat -> 0 < eff_rbw p n.
Proof. intros (F & B & _) N. unfold eff_rbw. destruct (ps_rbw p); [now apply B|]. eapply Rlt_le_trans; [|apply Rmax_l]. lra. Qed.
Lemma eff_fs_pos p x : sensible p -> 0 < eff_fs p x.
Proof. intros (F & _). unfold eff_fs. destruct (_ && _)%bool; lra. Qed.
Lemma sumR_nth {A} (f : A -> R) l d : sumR (map f l) = sum_upto (fun k => f (nth k l d)) (length l).
Proof. rewrite <- sumR_upto. f_equal. apply (nth_ext_def 0). { rewrite !map_length, seq_length. auto. } intros i Hi. rewrite map_length in Hi. rewrite (map_nth_lt _ _ _ d) by auto. rewrite nth_map_seq by auto. reflexivity. Qed.
Lemma mean_power_eq x : sumR (map (fun v => fst v * fst v + snd v * snd v) x) / INR (length x) = mean_power x.
Proof. unfold mean_power. now rewrite (sumR_nth _ _ (0, 0)). Qed.
Lemma mean_power_nonneg x : x <> [] -> 0 <= mean_power x.
Proof.
  intros N. unfold mean_power. assert (0 < INR (length x)) by (apply lt_0_INR; destruct x; [congruence|cbn; lia]). apply Rmult_le_pos; [|left; now apply Rinv_0_lt_compat].
  apply sum_upto_nonneg. intros k _. nra.
Qed.
Lemma sq_sqrt x : 0 <= x -> sqrt x * sqrt x = x. Proof. apply sqrt_sqrt. Qed.
(** The norm factor squared is the calibration. *)
Definition bandwidth (p : psa_par) (n : nat) : R := match ps_obw p with Some b => b | None => eff_rbw p n end.
Lemma norm_gain p x : sensible p -> x <> [] -> In (eff_mode p) supported -> (eff_mode p = "dBc"%string -> mean_power x <> 0) ->
  exists c, norm_factor p x = Some (Ok c) /\ c * c = calibration (eff_mode p) (bandwidth p (length x)) (eff_fs p x) (ps_r p) (ps_fullscale p) (mean_power x).
Proof.
  intros S N I Z. assert (L : (0 < length x)%nat) by (destruct x; [congruence|cbn; lia]). assert (B := eff_rbw_pos p _ S L). assert (F := eff_fs_pos p x S). assert (P := mean_power_nonneg x N).
  destruct S as (S1 & S2 & S3 & S4 & S5 & S6). unfold norm_factor. rewrite mean_power_eq. unfold bandwidth in *. set (rbw := eff_rbw p (length x)) in *. set (fs := eff_fs p x) in *. set (pw := mean_power x) in *. set (r := ps_r p) in *. set (fu := ps_fullscale p) in *.
  assert (OB : ps_obw p = None \/ eff_mode p = "dBc"%string) by (unfold eff_mode; destruct (ps_obw p); auto).
  assert (BW : 0 < match ps_obw p with Some b => b | None => rbw end) by (destruct (ps_obw p); auto).
  assert (Q : forall a b, 0 < a -> 0 < b -> 0 <= a / b) by (intros; apply Rmult_le_pos; [lra|left; now apply Rinv_0_lt_compat]).
  unfold supported in I. cbn [In] in I. destruct OB as [OB|OB].
  - rewrite OB in *. repeat (destruct I as [E|I]; [rewrite <- E in *; cbn [String.eqb Ascii.eqb Bool.eqb]; cbv beta|]); [..|contradiction].
    + eexists. split; [reflexivity|]. unfold calibration. cbn. transitivity ((sqrt (1000 / r) * sqrt (1000 / r)) * (sqrt (rbw / fs) * sqrt (rbw / fs))); [ring|]. rewrite !sq_sqrt by (apply Q; lra). field. lra.
    + eexists. split; [reflexivity|]. unfold calibration. cbn. rewrite sq_sqrt. { field. lra. } apply Q; [|auto]. apply Rmult_lt_0_compat; [lra|now apply Rinv_0_lt_compat].
    + eexists. split; [reflexivity|]. unfold calibration. cbn. transitivity ((sqrt (rbw / fs) * sqrt (rbw / fs)) * 1000000000000); [ring|]. rewrite !sq_sqrt by (apply Q; lra). field. lra.
    + eexists. split; [reflexivity|]. unfold calibration. cbn. transitivity ((sqrt (1 / fs) * sqrt (1 / fs)) * 1000000000000); [ring|]. rewrite !sq_sqrt by (apply Q; lra). field. lra.
    + specialize (Z eq_refl). destruct (Req_EM_T (sqrt pw) 0) as [E0|E0]; [exfalso; apply Z; apply sqrt_eq_0; auto|]. eexists. split; [reflexivity|]. unfold calibration. cbn.
      transitivity ((sqrt (rbw / fs) * sqrt (rbw / fs)) / (sqrt pw * sqrt pw)); [field; lra|]. rewrite !sq_sqrt by (auto; apply Q; lra). field. lra.
    + eexists. split; [reflexivity|]. unfold calibration. cbn. transitivity ((sqrt (rbw / fs) * sqrt (rbw / fs)) / (fu * fu)); [field; lra|]. rewrite !sq_sqrt by (auto; apply Q; lra). field. lra.
    + eexists. split; [reflexivity|]. unfold calibration. cbn. ring.
  - rewrite OB in *. cbn [String.eqb Ascii.eqb Bool.eqb]. specialize (Z eq_refl). destruct (Req_EM_T (sqrt pw) 0) as [E0|E0]; [exfalso; apply Z; apply sqrt_eq_0; auto|]. eexists. split; [reflexivity|]. unfold calibration. cbn.
    set (ob := match ps_obw p with Some b => b | None => rbw end) in *. transitivity ((sqrt (ob / fs) * sqrt (ob / fs)) / (sqrt pw * sqrt pw)); [field; lra|]. rewrite !sq_sqrt by (auto; apply Q; lra). field. lra.
Qed.
