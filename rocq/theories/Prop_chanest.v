(** C54, C55: estimation from captures of a PRBS. *)
From Verif Require Import Py PyQ B_list B_qc M_aux M_prbs M_lock M_estim S_lock S_estim S_chanest P_lock P_linalg P_estim P_chanest P_chanref Prop_estim.
Open Scope Qc_scope.

Local Lemma locks_unique pc signal s s' : locks pc signal s -> locks pc signal s' -> s = s'.
Proof.
  intros (_ & M1 & F1) (_ & M2 & F2). destruct (Nat.lt_trichotomy s s') as [Q|[->|Q]]; auto; exfalso.
  - apply (Qclt_not_le _ _ (F2 s Q)). apply M1.
  - apply (Qclt_not_le _ _ (F1 s' Q)). apply M2.
Qed.
Local Lemma locks_exists pc signal : pc <> [] -> signal <> [] -> exists s, locks pc signal s.
Proof. intros A B. destruct (lock_samples_spec pc signal A B) as (s & xc & _ & H1 & _ & H2 & H3). exists s. repeat split; auto. Qed.
Local Lemma channel_ref t signal c post pre a b g i pc s : c <> PAM3 -> (post + pre + 1 <= period t)%nat -> (period t <= length signal)%nat -> reference_pattern t c a b g false pc -> locks pc signal s ->
  let P := period t in let v := variance P (average P signal) in
  let A := ch_matrix P (post + pre + 1) (symbol_at P pc s) in let B := ch_target P post (average P signal) v in
  (v = 0 -> forall nrm, channel_estimation_prbs t signal c post pre nrm a b g i = Ok None) /\
  (v <> 0 -> forall nrm, channel_estimation_prbs t signal c post pre nrm a b g i = (r <- lstsq (post + pre + 1) A B ;; h <- (if nrm : bool then k <- maxQ (fst r) ;; Ok (div_taps (rev (fst r)) k) else Ok (Taps (rev (fst r)))) ;; Ok (Some (h, snd r)))).
Proof.
  intros Hc Hw Hs R K. destruct (coded_reference t c a b g false Hc) as (pc' & E & R'). assert (pc' = pc) by (eapply reference_unique; eauto). subst pc'.
  destruct (channel_spec t signal c post pre a b g i Hc Hw Hs) as (pc' & s' & xc & E' & _ & K' & H). rewrite E in E'. injection E' as <-. assert (s' = s) by (eapply locks_unique; eauto). subst s'. exact H.
Qed.

(** A flat channel is always locked to. *)
Local Lemma gain_lock t c a b g i pc signal s0 k s : c <> PAM3 -> reference_pattern t c a b g i pc -> 0 < k -> (length pc <= length signal)%nat ->
  (forall n, (n < length signal)%nat -> at_ signal n = k * symbol_at (period t) pc s0 n) -> locks pc signal s -> forall n, symbol_at (period t) pc s n = symbol_at (period t) pc s0 n.
Proof.
  intros Hc R Hk L H K n. destruct (coded_reference t c a b g i Hc) as (pc' & E & R'). assert (pc' = pc) by (eapply reference_unique; eauto). subst pc'.
  destruct (coded_spec t c a b g i Hc) as (pc' & E' & Lp & Per). rewrite E in E'. injection E' as <-. pose proof (plen_pos t) as PP. set (P := period t) in *.
  assert (Npc : pc <> []) by (intros ->; cbn in Lp; lia). assert (Nsig : signal <> []) by (intros ->; destruct pc; [congruence|cbn in L; lia]).
  assert (Sym : forall s n, (n < length pc)%nat -> nth n (rotated 0 s pc) 0 = symbol_at P pc s n) by (intros; now apply rotated_symbol).
  destruct (lock_samples_rotation pc signal s0 k Npc Hk L) as (xc & El).
  { intros j Hj. change (nth j signal 0) with (at_ signal j). rewrite H by lia. f_equal. rewrite <- (Sym s0 j Hj). now rewrite rotated_nth by auto. }
  destruct (lock_samples_spec pc signal Npc Nsig) as (s1 & xc1 & E1 & A1 & _ & A2 & A3). assert (s1 = s) by (eapply locks_unique; [repeat split; eauto|exact K]). subst s1. rewrite El in E1. injection E1 as Er _.
  assert (Mod : forall s, symbol_at P pc s n = symbol_at P pc s (n mod P)) by (intros; unfold symbol_at; now rewrite Nat.add_mod_idemp_r by lia).
  assert (n mod P < P)%nat by (apply Nat.mod_upper_bound; lia). rewrite (Mod s), (Mod s0), <- !Sym by lia. now rewrite Er.
Qed.
Local Lemma average_periodic P (sig : list Qc) f n : (0 < P <= length sig)%nat -> (n < P)%nat -> (forall j, (j < length sig)%nat -> at_ sig j = f j) -> (forall j, f (j + P)%nat = f j) -> average P sig n = f n.
Proof.
  intros HP Hn H Per. unfold average. set (R := (length sig / P)%nat). assert (RP : (0 < R)%nat) by (apply Nat.div_str_pos; lia).
  assert (Per2 : forall k, f (k * P + n)%nat = f n) by (induction k as [|k IH]; auto; rewrite <- IH, <- (Per (k * P + n)%nat); f_equal; lia).
  rewrite (sm_ext R _ (fun _ => f n)). 2:{ intros k Hk. rewrite H; [apply Per2|]. pose proof (Nat.mul_div_le (length sig) P ltac:(lia)). fold R in H0. nia. }
  rewrite sm_const. field. now apply ofZ_nat_nz.
Qed.
(** The reference of every flag combination exists and is unique. *)
Theorem C55_reference : forall t c a b g i, c <> PAM3 -> exists pc, prbs_coded t c a b g i = Ok pc /\ reference_pattern t c a b g i pc /\ forall q, reference_pattern t c a b g i q -> q = pc.
Proof. intros t c a b g i Hc. destruct (coded_reference t c a b g i Hc) as (pc & E & R). exists pc. split; auto. split; auto. intros q Q. eapply reference_unique; eauto. Qed.
Print Assumptions C55_reference.
(** The returned channel is the best one for the capture divided by its variance: variance times its output is the closest to the averaged capture. *)
Theorem C55_estimate : forall t signal c post pre a b g i pc s, c <> PAM3 -> (post + pre + 1 <= period t)%nat -> (period t <= length signal)%nat -> reference_pattern t c a b g false pc -> locks pc signal s ->
  let P := period t in let m := average P signal in let v := variance P m in v <> 0 ->
  exists h e, channel_estimation_prbs t signal c post pre false a b g i = Ok (Some (Taps h, e)) /\ length h = (post + pre + 1)%nat /\
  (forall h', length h' = (post + pre + 1)%nat -> channel_cost P (symbol_at P pc s) m v h pre <= channel_cost P (symbol_at P pc s) m v h' pre) /\
  (e = [] \/ e = cons (channel_cost P (symbol_at P pc s) m v h pre / (v * v)) nil).
Proof.
  intros t signal c post pre a b g i pc s Hc Hw Hs R K P m v Nv. destruct (channel_ref t signal c post pre a b g i pc s Hc Hw Hs R K) as (_ & H). specialize (H Nv false). fold P m v in H. set (w := (post + pre + 1)%nat) in *.
  set (A := ch_matrix P w (symbol_at P pc s)) in *. set (B := ch_target P post m v) in *. assert (L : length B = length A) by (unfold A, B; now rewrite ch_matrix_length, ch_target_length).
  assert (MA : matrix (length A) w A) by apply ch_matrix_wf. destruct (lstsq_eq w A B (eq_sym L)) as (e & E & He). rewrite E in H. cbn [bind fst snd] in H. set (x := min_norm_vec w A B) in *.
  assert (Lx : length x = w) by apply min_norm_length. assert (PP : (0 < P)%nat) by apply plen_pos.
  assert (Cost : forall y, length y = w -> cost w A B y = channel_cost P (symbol_at P pc s) m v (rev y) pre / (v * v)).
  { intros y Ly. unfold A, B. rewrite (ch_cost P w _ post pre m v y) by (auto; intros; now apply symbol_at_period). unfold channel_cost, Qcdiv. rewrite Qcmult_comm, <- sm_scale. apply sm_ext. intros n _. unfold sq. field. auto. }
  exists (rev x), e. split; [exact H|]. split; [now rewrite rev_length|]. split.
  - intros h' Lh. destruct (min_norm_least w A B MA L) as (_ & Opt). specialize (Opt (rev h') ltac:(now rewrite rev_length)). rewrite !Cost in Opt by (rewrite ?rev_length; auto). fold x in Opt. rewrite rev_involutive in Opt.
    assert (V : 0 < v * v). { apply Qcnot_le_lt. intros C. pose proof (sm_sq_zero 1 (fun _ => v)) as Z. cbn in Z. apply Nv. apply (Z ltac:(now rewrite Qcplus_0_r) 0%nat). lia. }
    pose proof (Qcmult_le_compat_r _ _ (v * v) Opt (Qclt_le_weak _ _ V)) as D. unfold Qcdiv in D. rewrite <- !Qcmult_assoc, !(Qcmult_comm (/ (v * v))), !Qcmult_inv_r, !Qcmult_1_r in D by (intros Z; rewrite Z in V; discriminate). exact D.
  - destruct He as [-> | ->]; auto. right. f_equal. unfold ssr. rewrite <- Cost by auto. now apply ssr_cost.
Qed.
Print Assumptions C55_estimate.
(** A capture which is a channel output is reproduced: variance times the output of the returned channel. *)
Theorem C55_reproduced : forall t signal c post pre a b g i pc s h0, c <> PAM3 -> (post + pre + 1 <= period t)%nat -> (period t <= length signal)%nat -> reference_pattern t c a b g false pc -> locks pc signal s ->
  let P := period t in let p := symbol_at P pc s in let m := average P signal in let v := variance P m in v <> 0 ->
  length h0 = (post + pre + 1)%nat -> (forall n, (n < P)%nat -> m n = received P p h0 pre n) ->
  exists h e, channel_estimation_prbs t signal c post pre false a b g i = Ok (Some (Taps h, e)) /\ length h = (post + pre + 1)%nat /\
  (forall n, (n < P)%nat -> v * received P p h pre n = received P p h0 pre n) /\ (e = [] \/ e = cons 0 nil).
Proof.
  intros t signal c post pre a b g i pc s h0 Hc Hw Hs R K P p m v Nv L0 Hm. destruct (C55_estimate t signal c post pre a b g i pc s Hc Hw Hs R K Nv) as (h & e & E & Lh & Opt & He).
  exists h, e. split; auto. split; auto. fold P m p in Opt, He. fold v in Opt, He.
  assert (Z : channel_cost P p m v h pre <= 0).
  { eapply Qcle_trans; [apply (Opt (map (fun x => x / v) h0)); now rewrite map_length|]. unfold channel_cost. rewrite sm_0; [apply Qcle_refl|]. intros n Hn. rewrite Hm by auto.
    replace (v * received P p (map (fun x => x / v) h0) pre n) with (received P p h0 pre n); [unfold sq; ring|]. unfold received. rewrite map_length, <- sm_scale. apply sm_ext. intros k Hk. unfold at_. rewrite (map_nth_lt _ h0 k 0) by auto. field. auto. }
  split.
  - intros n Hn. rewrite <- Hm by auto. pose proof (sm_sq_zero P _ Z n Hn) as Q. cbv beta in Q. transitivity (m n - (m n - v * received P p h pre n)); [ring|rewrite Q; ring].
  - destruct He as [-> | ->]; auto. right. replace (channel_cost P p m v h pre) with 0; [unfold Qcdiv; now rewrite Qcmult_0_l|]. apply Qcle_antisym; auto. apply sm_sq_nonneg.
Qed.
Print Assumptions C55_reproduced.
(** For NRZ, up to one period of taps: the returned channel is the true one divided by the variance of the averaged capture. *)
Theorem C55_nrz_channel : forall t signal post pre a b g i pc s h0, (post + pre + 1 <= period t)%nat -> (period t <= length signal)%nat -> reference_pattern t NRZ a b g false pc -> locks pc signal s ->
  let P := period t in let p := symbol_at P pc s in let m := average P signal in let v := variance P m in v <> 0 ->
  length h0 = (post + pre + 1)%nat -> (forall n, (n < P)%nat -> m n = received P p h0 pre n) ->
  exists e, channel_estimation_prbs t signal NRZ post pre false a b g i = Ok (Some (Taps (map (fun x => x / v) h0), e)) /\ (e = [] \/ e = cons 0 nil).
Proof.
  intros t signal post pre a b g i pc s h0 Hw Hs R K P p m v Nv L0 Hm. destruct (C55_reproduced t signal NRZ post pre a b g i pc s h0 ltac:(discriminate) Hw Hs R K Nv L0 Hm) as (h & e & E & Lh & Rc & He).
  exists e. split; auto. rewrite E. do 4 f_equal. fold P p m v in Rc. assert (PP : (0 < P)%nat) by apply plen_pos. rewrite <- (rev_involutive h), <- (rev_involutive (map _ h0)). f_equal.
  apply (independent_unique (post + pre + 1) (ch_matrix P (post + pre + 1) p)); [eapply nrz_independent; eauto|now rewrite rev_length, map_length|now rewrite rev_length|].
  intros n Hn. rewrite ch_matrix_length in Hn. rewrite !(ch_row P (post + pre + 1) p post pre) by (rewrite ?rev_length, ?map_length; auto; intros; now apply symbol_at_period). rewrite !rev_involutive.
  set (k := ((n + post) mod P)%nat). assert (Hk : (k < P)%nat) by (apply Nat.mod_upper_bound; lia). specialize (Rc k Hk).
  transitivity (v * received P p h pre k / v); [field; auto|]. rewrite Rc. unfold received. rewrite map_length. unfold Qcdiv. rewrite Qcmult_comm, <- sm_scale. apply sm_ext. intros l Hl. unfold at_. rewrite (map_nth_lt _ h0 l 0) by auto. ring.
Qed.
Print Assumptions C55_nrz_channel.
(** A capture scaled by k > 0: the channel is scaled by 1/k, the residual by 1/k^2; with normalize=True nothing changes. *)
Theorem C55_scaling : forall t signal c post pre a b g i k, c <> PAM3 -> (post + pre + 1 <= period t)%nat -> (period t <= length signal)%nat -> variance (period t) (average (period t) signal) <> 0 -> 0 < k ->
  let scaled q l := map (fun v => q * v) l in
  exists h e hn, channel_estimation_prbs t signal c post pre false a b g i = Ok (Some (Taps h, e)) /\ channel_estimation_prbs t signal c post pre true a b g i = Ok (Some (hn, e)) /\
  channel_estimation_prbs t (scaled k signal) c post pre false a b g i = Ok (Some (Taps (scaled (/ k) h), scaled (/ (k * k)) e)) /\
  channel_estimation_prbs t (scaled k signal) c post pre true a b g i = Ok (Some (hn, scaled (/ (k * k)) e)).
Proof.
  intros t signal c post pre a b g i k Hc Hw Hs Nv Hk scaled'. change scaled' with scaled. assert (Nk : k <> 0) by (intros ->; discriminate).
  destruct (coded_reference t c a b g false Hc) as (pc & _ & R). set (P := period t) in *. assert (PP : (0 < P)%nat) by apply plen_pos.
  assert (Npc : pc <> []). { destruct R as (bs & Lb & _ & Lp & _). intros ->. cbn in Lp. symmetry in Lp. apply Nat.div_small_iff in Lp; destruct c; cbn in *; lia. }
  destruct (locks_exists pc signal Npc) as (s & K). { intros ->. cbn in Hs. lia. }
  assert (K' : locks pc (scaled k signal) s). { destruct K as (K1 & K2 & K3). split; auto. rewrite scaled_length. split; intros s'; [specialize (K2 s')|intros Q; specialize (K3 s' Q)]; rewrite !corr_scaled, !(Qcmult_comm k); [apply Qcmult_le_compat_r; auto; now apply Qclt_le_weak|now apply Qcmult_lt_compat_r]. }
  destruct (channel_ref t signal c post pre a b g i pc s Hc Hw Hs R K) as (_ & H). specialize (H Nv). fold P in H.
  destruct (channel_ref t (scaled k signal) c post pre a b g i pc s Hc Hw ltac:(rewrite scaled_length; auto) R K') as (_ & H'). fold P in H'. rewrite (ch_target_scaled P post signal k Nk) in H'.
  assert (Nv' : variance P (average P (scaled k signal)) <> 0). { rewrite (variance_ext P _ (fun n => k * average P signal n)) by (intros; apply average_scaled). rewrite variance_scaled. intros Z. apply Qcmult_integral in Z as [Z|Z]; [apply Qcmult_integral in Z; tauto|auto]. } specialize (H' Nv').
  set (w := (post + pre + 1)%nat) in *. set (A := ch_matrix P w (symbol_at P pc s)) in *. set (B := ch_target P post (average P signal) _) in *. assert (L : length B = length A) by (unfold A, B; now rewrite ch_matrix_length, ch_target_length).
  destruct (lstsq_eq w A B (eq_sym L)) as (e & E & _). pose proof (lstsq_scaled w A B (/ k) _ _ (ch_matrix_wf _ _ _) L E) as E'. set (x := min_norm_vec w A B) in *. assert (Lx : length x = w) by apply min_norm_length.
  destruct (maxQ_spec x) as (gm & Eg & _). { intros C. rewrite C in Lx. cbn in Lx. lia. } exists (rev x), e, (div_taps (rev x) gm).
  assert (Rs : forall q l, rev (scaled q l) = scaled q (rev l)) by (intros; unfold scaled; symmetry; apply map_rev).
  rewrite !H, !H', E, E'. cbn [bind fst snd]. rewrite (maxQ_scaled x gm (/ k)) by (auto; now apply Qcinv_pos). rewrite Eg. cbn [bind]. rewrite Rs. replace (/ (k * k)) with (/ k * / k) by (field; auto).
  repeat split. do 3 f_equal. rewrite div_taps_scaled; auto. intros Z. apply Nk. rewrite <- (Qcmult_1_r k), <- (Qcmult_inv_r k Nk) at 1. rewrite Z. ring.
Qed.
Print Assumptions C55_scaling.
(** Finding: pn_inv_postcoding has no effect. *)
Theorem C55_flag_unused : forall t signal c post pre nrm a b g, channel_estimation_prbs t signal c post pre nrm a b g true = channel_estimation_prbs t signal c post pre nrm a b g false.
Proof. reflexivity. Qed.
Print Assumptions C55_flag_unused.
(** No estimate: PAM3 raises ValueError; captures shorter than a period, and captures whose average is constant, give no finite values. *)
Theorem C55_refusals : forall t signal c post pre nrm a b g i,
  channel_estimation_prbs t signal PAM3 post pre nrm a b g i = Raise ValueError /\
  (c <> PAM3 -> signal <> [] -> (length signal < period t)%nat -> channel_estimation_prbs t signal c post pre nrm a b g i = Ok None) /\
  (c <> PAM3 -> (post + pre + 1 <= period t <= length signal)%nat -> variance (period t) (average (period t) signal) = 0 -> channel_estimation_prbs t signal c post pre nrm a b g i = Ok None).
Proof.
  intros t signal c post pre nrm a b g i. split; [unfold channel_estimation_prbs; now rewrite coded_pam3|]. split; intros Hc H1 H2.
  - unfold channel_estimation_prbs. destruct (coded_spec t c a b g false Hc) as (pc & E & L & _). rewrite E. cbn [bind]. pose proof (plen_pos t).
    destruct (lock_samples_spec pc signal) as (s & xc & El & _); auto. { intros ->. cbn in L. lia. } rewrite El. cbn [bind fst]. rewrite plen_Z, Nat2Z.id. now rewrite Nat.div_small by auto.
  - destruct (channel_spec t signal c post pre a b g i Hc ltac:(lia) ltac:(lia)) as (pc & s & xc & _ & _ & _ & H & _). now apply H.
Qed.
Print Assumptions C55_refusals.
(** Concrete captures: PRBS7, NRZ, one period through 1 + z^-1/2; the lock finds the start. *)
Definition ex_pattern : list Qc := match prbs_coded PRBS7 NRZ false false false false with Ok p => p | Raise _ => [] end.
Definition ex_capture (h : list Qc) : list Qc := map (received 127 (symbol_at 127 ex_pattern 0) h 0) (seq 0 127).
Definition ex_h : list Qc := 1 :: Q2Qc (1 # 2) :: nil.
Local Lemma ex_reference : reference_pattern PRBS7 NRZ false false false false ex_pattern.
Proof. destruct (coded_reference PRBS7 NRZ false false false false ltac:(discriminate)) as (pc & E & R). unfold ex_pattern. now rewrite E. Qed.
Local Lemma locks_compute pc signal : forallb (fun s' => Qcltb (corr_samples pc signal (Nat.min (length pc) (length signal)) s') (corr_samples pc signal (Nat.min (length pc) (length signal)) 0) || ((s' mod (length pc / 2) =? 0)%nat && Qcleb (corr_samples pc signal (Nat.min (length pc) (length signal)) s') (corr_samples pc signal (Nat.min (length pc) (length signal)) 0))) (seq 0 (length pc)) = true -> (0 < length pc)%nat -> locks pc signal 0.
Proof.
  intros H P. split; auto. set (m := Nat.min _ _) in *. split; [|lia]. intros s'. assert (E : corr_samples pc signal m s' = corr_samples pc signal m (s' mod length pc)).
  { unfold corr_samples. apply sumQ_map_ext. intros i _. now rewrite Nat.add_mod_idemp_l by lia. }
  rewrite E. rewrite forallb_forall in H. specialize (H (s' mod length pc)%nat). cbv beta in H. apply Bool.orb_true_iff in H; [|apply in_seq; pose proof (Nat.mod_upper_bound s' (length pc)); lia].
  destruct H as [H|H]; [now apply Qclt_le_weak, Qcltb_spec|]. apply andb_prop in H as (_ & H). now apply Qcleb_spec.
Qed.
Example C55_case : reference_pattern PRBS7 NRZ false false false false ex_pattern /\ locks ex_pattern (ex_capture ex_h) 0 /\ variance 127 (average 127 (ex_capture ex_h)) <> 0 /\
  forall n, (n < 127)%nat -> average 127 (ex_capture ex_h) n = received 127 (symbol_at 127 ex_pattern 0) ex_h 0 n.
Proof.
  split; [exact ex_reference|]. split; [apply locks_compute; vm_compute; [reflexivity|lia]|]. split; [intros C; apply (f_equal this) in C; vm_compute in C; discriminate C|]. intros n Hn.
  assert (Q : forallb (fun n => Qceqb (average 127 (ex_capture ex_h) n) (received 127 (symbol_at 127 ex_pattern 0) ex_h 0 n)) (seq 0 127) = true) by (vm_compute; reflexivity).
  rewrite forallb_forall in Q. apply Qceqb_spec, Q. apply in_seq. lia.
Qed.
(** It is returned exactly when the averaged capture has variance one. *)
Theorem C55_true_channel : forall t signal post pre a b g i pc s h0, (post + pre + 1 <= period t)%nat -> (period t <= length signal)%nat -> reference_pattern t NRZ a b g false pc -> locks pc signal s ->
  let P := period t in let m := average P signal in let v := variance P m in v <> 0 -> length h0 = (post + pre + 1)%nat -> (forall n, (n < P)%nat -> m n = received P (symbol_at P pc s) h0 pre n) ->
  ((exists e, channel_estimation_prbs t signal NRZ post pre false a b g i = Ok (Some (Taps h0, e))) <-> v = 1).
Proof.
  intros t signal post pre a b g i pc s h0 Hw Hs R K P m v Nv L0 Hm. destruct (C55_nrz_channel t signal post pre a b g i pc s h0 Hw Hs R K Nv L0 Hm) as (e & E & _). fold P m v in E. rewrite E. split.
  - intros (e' & E'). injection E' as E' _. destruct (Qceqb v 1) eqn:Q; [now apply Qceqb_spec|]. exfalso.
    assert (Z : forall k, (k < length h0)%nat -> at_ h0 k = 0). { intros k Hk. assert (X : at_ h0 k / v = at_ h0 k) by (unfold at_; rewrite <- E' at 2; now rewrite (map_nth_lt _ h0 k 0) by auto).
      assert (Y : at_ h0 k * (v - 1) = 0). { transitivity (at_ h0 k * v - at_ h0 k / v * v); [field; auto|]. rewrite X. ring. }
      apply Qcmult_integral in Y as [Y|Y]; auto. exfalso. assert (V : v = 1) by (transitivity (v - 1 + 1); [ring|rewrite Y; ring]). apply Qceqb_spec in V. congruence. }
    apply Nv. unfold v. rewrite (variance_ext P m (fun _ => 0)). { unfold variance, mean_over. rewrite (sm_0 P (fun _ => 0)) by auto. rewrite sm_0; [unfold Qcdiv; ring|]. intros n Hn. unfold sq, Qcdiv. ring. }
    intros n Hn. rewrite Hm by auto. unfold received. apply sm_0. intros k Hk. rewrite Z by auto. ring.
  - intros ->. exists e. do 4 f_equal. transitivity (map (fun x => x) h0); [apply map_ext; intros x; field; discriminate|apply map_id].
Qed.
Print Assumptions C55_true_channel.
(** A flat channel of gain k > 0, captured for at least the length of the reference, whatever the starting point: the variance of the averaged capture
    times the returned channel is the gain, in the tap given by channel_precursor. *)
Theorem C55_flat : forall t signal post pre a b g i pc s0 k, (post + pre + 1 <= period t)%nat -> (2 * period t <= length signal)%nat -> reference_pattern t NRZ a b g false pc -> 0 < k ->
  (forall n, (n < length signal)%nat -> at_ signal n = k * symbol_at (period t) pc s0 n) ->
  let v := variance (period t) (symbol_at (period t) pc s0) in v <> 0 ->
  exists e, channel_estimation_prbs t signal NRZ post pre false a b g i = Ok (Some (Taps (repeat 0 pre ++ cons (/ (k * v)) nil ++ repeat 0 post), e)) /\ (e = [] \/ e = cons 0 nil).
Proof.
  intros t signal post pre a b g i pc s0 k Hw Hs R Hk H v Nv. set (P := period t) in *. assert (PP : (0 < P)%nat) by apply plen_pos. assert (Nk : k <> 0) by (intros ->; discriminate).
  assert (Lp : length pc = (2 * P)%nat) by (destruct R as (bs & Lb & _ & Lp & _); rewrite Lp, Lb; apply Nat.div_1_r). destruct (locks_exists pc signal) as (s & K); [intros ->; cbn in Lp; lia|intros ->; cbn in Hs; lia|].
  assert (Sym : forall n, symbol_at P pc s n = symbol_at P pc s0 n) by (apply (gain_lock t NRZ a b g false pc signal s0 k s); auto; [discriminate|lia]).
  assert (Av : forall n, (n < P)%nat -> average P signal n = k * symbol_at P pc s0 n) by (intros n Hn; apply (average_periodic P signal (fun n => k * symbol_at P pc s0 n)); auto; [lia|intros j; f_equal; now apply symbol_at_period]).
  assert (Ev : variance P (average P signal) = k * k * v) by (rewrite (variance_ext P _ _ Av); apply variance_scaled).
  set (h0 := repeat 0 pre ++ cons k nil ++ repeat 0 post).
  assert (At : forall j, at_ h0 j = if (j =? pre)%nat then k else 0). { intros j. unfold h0, at_. destruct (Nat.lt_ge_cases j pre); [rewrite app_nth1 by (now rewrite repeat_length); rewrite repeat_nth by auto; now rewrite (proj2 (Nat.eqb_neq j pre)) by lia|].
    rewrite app_nth2 by (now rewrite repeat_length). rewrite repeat_length. destruct (Nat.eqb_spec j pre); [subst; now rewrite Nat.sub_diag|]. destruct (j - pre)%nat as [|q] eqn:Q; [lia|]. cbn [app nth]. destruct (Nat.lt_ge_cases q post); [now apply repeat_nth|apply nth_overflow; now rewrite repeat_length]. }
  assert (L0 : length h0 = (post + pre + 1)%nat) by (unfold h0; rewrite !app_length, !repeat_length; cbn; lia).
  destruct (C55_nrz_channel t signal post pre a b g i pc s h0) as (e & E & He); auto; fold P; [lia|rewrite Ev; intros Z; apply Qcmult_integral in Z as [Z|Z]; [apply Qcmult_integral in Z; tauto|auto]| |].
  - intros n Hn. rewrite Av by auto. unfold received. rewrite (sm_single _ _ pre) by (try lia; intros j Hj Nj; rewrite At; rewrite (proj2 (Nat.eqb_neq j pre)) by auto; ring). rewrite At, Nat.eqb_refl, Sym. f_equal. rewrite <- (symbol_at_period P pc s0 n PP). f_equal. lia.
  - exists e. split; auto. rewrite E. do 4 f_equal. fold P. rewrite Ev. unfold h0. assert (Mr : forall q n, map (fun x => x / q) (repeat 0 n) = repeat 0 n) by (intros q n; induction n as [|n IH]; [reflexivity|]; cbn [repeat map]; rewrite IH; f_equal; unfold Qcdiv; ring). rewrite !map_app, !Mr. cbn [map app]. do 2 f_equal. field. auto.
Qed.
Print Assumptions C55_flat.
Local Lemma ex_variance : this (variance 127 (symbol_at 127 ex_pattern 0)) = (16128 # 16129)%Q. Proof. vm_compute. reflexivity. Qed.
Definition ex_two : list Qc := map (symbol_at 127 ex_pattern 0) (seq 0 254).
Local Lemma ex_two_at n : (n < length ex_two)%nat -> at_ ex_two n = 1 * symbol_at (period PRBS7) ex_pattern 0 n.
Proof. intros Hn. change (period PRBS7) with 127%nat. unfold ex_two in *. rewrite map_length, seq_length in Hn. unfold at_. rewrite nth_map_seq by auto. symmetry. apply Qcmult_1_l. Qed.
Local Lemma ex_two_length : length ex_two = 254%nat. Proof. unfold ex_two. now rewrite map_length, seq_length. Qed.
Local Lemma ex_pattern_length : length ex_pattern = 254%nat. Proof. vm_compute. reflexivity. Qed.
Local Opaque ex_two ex_pattern average.
Local Lemma ex_flat flag post pre : (post + pre + 1 <= 127)%nat -> exists e, channel_estimation_prbs PRBS7 ex_two NRZ post pre false false false false flag = Ok (Some (Taps (repeat 0 pre ++ cons (/ (variance 127 (symbol_at 127 ex_pattern 0))) nil ++ repeat 0 post), e)).
Proof.
  intros H. destruct (C55_flat PRBS7 ex_two post pre false false false flag ex_pattern 0 1) as (e & E & _).
  - exact H.
  - rewrite ex_two_length. apply Nat.leb_le. reflexivity.
  - exact ex_reference.
  - reflexivity.
  - apply ex_two_at.
  - change (period PRBS7) with 127%nat. intros C. apply (f_equal this) in C. rewrite ex_variance in C. discriminate C.
  - exists e. rewrite E. now rewrite Qcmult_1_l.
Qed.
(** Finding: the true channel is not returned, not even one which does nothing. *)
Theorem C55_true_channel_refuted : ~ forall t signal pc, reference_pattern t NRZ false false false false pc -> length signal = (2 * period t)%nat ->
  (forall n, (n < length signal)%nat -> at_ signal n = symbol_at (period t) pc 0 n) ->
  exists e, channel_estimation_prbs t signal NRZ 0 0 false false false false false = Ok (Some (Taps (cons 1 nil), e)).
Proof.
  intros H. destruct (H PRBS7 ex_two ex_pattern ex_reference) as (e & E).
  - exact ex_two_length.
  - intros n Hn. rewrite ex_two_at by auto. ring.
  - destruct (ex_flat false 0%nat 0%nat ltac:(lia)) as (e' & E'). rewrite E in E'. cbn [repeat app] in E'. pose proof ex_variance as V0. revert E' V0. generalize (variance 127 (symbol_at 127 ex_pattern 0)) as v. intros v E' V0. assert (F : 1 = / v) by congruence.
    assert (N : v <> 0) by (intros ->; discriminate V0). assert (V : v = 1) by (rewrite <- (Qcmult_inv_r v N), <- F; ring). rewrite V in V0. discriminate V0.
Qed.
Print Assumptions C55_true_channel_refuted.
(** Finding: a capture with P and N swapped is not corrected by pn_inv_postcoding=True. *)
Theorem C55_pn_inv_refuted : ~ forall t signal c post pre, c <> PAM3 -> (post + pre + 1 <= period t <= length signal)%nat ->
  channel_estimation_prbs t (map Qcopp signal) c post pre false false false false true = channel_estimation_prbs t signal c post pre false false false false false.
Proof.
  intros H. specialize (H PRBS7 ex_two NRZ 0%nat 0%nat ltac:(discriminate)). pose proof ex_two_length as L2. specialize (H ltac:(rewrite L2; change (period PRBS7) with 127%nat; lia)).
  destruct (ex_flat false 0%nat 0%nat ltac:(lia)) as (e & E). rewrite E in H. clear E. cbn [repeat app] in H.
  pose proof ex_pattern_length as Lp. destruct (locks_exists ex_pattern (map Qcopp ex_two)) as (s & K). { intros C. rewrite C in Lp. discriminate Lp. } { intros C. apply (f_equal (@length _)) in C. rewrite map_length, L2 in C. discriminate C. }
  assert (Ev0 : exists v, v = variance 127 (symbol_at 127 ex_pattern 0)) by (eexists; reflexivity). destruct Ev0 as (v & Ev0). assert (Nv : v <> 0) by (intros C; rewrite C in Ev0; apply (f_equal this) in Ev0; rewrite ex_variance in Ev0; discriminate Ev0). rewrite <- Ev0 in H.
  set (p := symbol_at 127 ex_pattern 0) in *.
  assert (Av : forall n, (n < 127)%nat -> average 127 (map Qcopp ex_two) n = - (1) * p n). { intros n Hn. apply (average_periodic 127 (map Qcopp ex_two) (fun n => - (1) * p n)); [rewrite map_length, L2; lia|exact Hn| |intros j; f_equal; apply symbol_at_period; lia].
    intros j Hj. rewrite map_length in Hj. unfold at_. rewrite (map_nth_lt Qcopp ex_two j 0) by auto. change (nth j ex_two 0) with (at_ ex_two j). rewrite ex_two_at by auto. change (period PRBS7) with 127%nat. unfold p. ring. }
  assert (Ev : variance 127 (average 127 (map Qcopp ex_two)) = v). { rewrite (variance_ext 127 _ _ Av), variance_scaled, Ev0. fold p. ring. }
  destruct (C55_estimate PRBS7 (map Qcopp ex_two) NRZ 0 0 false false false true ex_pattern s) as (h & e' & E & Lh & Opt & _); [discriminate|cbn; lia|rewrite map_length, L2; change (period PRBS7) with 127%nat; lia|exact ex_reference|exact K|change (period PRBS7) with 127%nat; rewrite Ev; exact Nv|].
  rewrite E in H. injection H as -> _. specialize (Opt (0 :: nil) eq_refl). change (period PRBS7) with 127%nat in Opt. rewrite Ev in Opt. unfold channel_cost in Opt. set (q := symbol_at 127 ex_pattern s) in *.
  assert (Per : forall n, q (n + 0 + 127 - 0)%nat = q n) by (intros n; replace (n + 0 + 127 - 0)%nat with (n + 127)%nat by lia; unfold q; apply symbol_at_period; lia).
  assert (C1 : sm 127 (fun n => sq (average 127 (map Qcopp ex_two) n - v * received 127 q (cons (/ v) nil) 0 n)) = sm 127 (fun n => sq (p n) + (ofZ 2 * (p n * q n) + sq (q n)))).
  { apply sm_ext. intros n Hn. rewrite Av by auto. unfold received, sum_below. cbn [length seq map fold_right]. rewrite Per. unfold at_. cbn [nth]. change (ofZ 2) with (1 + 1). unfold sq. field. exact Nv. }
  assert (C2 : sm 127 (fun n => sq (average 127 (map Qcopp ex_two) n - v * received 127 q (cons 0 nil) 0 n)) = sm 127 (fun n => sq (p n))).
  { apply sm_ext. intros n Hn. rewrite Av by auto. unfold received, sum_below. cbn [length seq map fold_right]. unfold at_. cbn [nth]. unfold sq. ring. }
  assert (Pp : sm 127 (fun n => sq (p n)) = ofZ 127). { pose proof (nrz_gram PRBS7 _ _ _ _ _ 0 0 0 ex_reference ltac:(cbn; lia) ltac:(cbn; lia)) as G. change (period PRBS7) with 127%nat in G. change (0 =? 0)%nat with true in G. cbv iota in G. change (Z.of_nat 127) with 127%Z in G. rewrite <- G. apply sm_ext. intros n _. now rewrite Nat.add_0_r. }
  assert (Qq : sm 127 (fun n => sq (q n)) = ofZ 127). { pose proof (nrz_gram PRBS7 _ _ _ _ _ s 0 0 ex_reference ltac:(cbn; lia) ltac:(cbn; lia)) as G. change (period PRBS7) with 127%nat in G. change (0 =? 0)%nat with true in G. cbv iota in G. change (Z.of_nat 127) with 127%Z in G. rewrite <- G. apply sm_ext. intros n _. now rewrite Nat.add_0_r. }
  assert (Pq : ofZ (-1) <= sm 127 (fun n => p n * q n)). { pose proof (nrz_gram PRBS7 _ _ _ _ _ 0 0 (s mod 127) ex_reference ltac:(cbn; lia) ltac:(change (period PRBS7) with 127%nat; apply Nat.mod_upper_bound; lia)) as G. change (period PRBS7) with 127%nat in G.
    rewrite (sm_ext 127 (fun n => p n * q n) (fun n => symbol_at 127 ex_pattern 0 (n + 0) * symbol_at 127 ex_pattern 0 (n + s mod 127))); [rewrite G; destruct (0 =? s mod 127)%nat; discriminate|].
    intros n _. rewrite Nat.add_0_r. f_equal. unfold q, symbol_at. f_equal. rewrite Nat.add_assoc, Nat.add_mod_idemp_r by lia. f_equal. lia. }
  rewrite C1, C2, (sm_add 127 (fun n => sq (p n)) (fun n => ofZ 2 * (p n * q n) + sq (q n))), (sm_add 127 (fun n => ofZ 2 * (p n * q n)) (fun n => sq (q n))), sm_scale, Pp, Qq in Opt. revert Opt Pq. generalize (sm 127 (fun n => p n * q n)). clear. intros z A B. 
  assert (D : ofZ 2 * ofZ (-1) <= ofZ 2 * z) by (rewrite !(Qcmult_comm (ofZ 2)); apply Qcmult_le_compat_r; auto; discriminate). revert A D. generalize (ofZ 2 * z). intros y A D. change (ofZ 2 * ofZ (-1)) with (Q2Qc (-2 # 1)) in D. unfold ofZ in A. qlra.
Qed.
Print Assumptions C55_pn_inv_refuted.

(** * C54: equalization_estimation_prbs *)
(** The equaliser is optimal for the averaged capture and the reference moved by the larger of ffe_postcursor and dfe_taps. *)
Theorem C54_prbs_optimal : forall lasso t signal c post pre dfe reg lambda a b g i pc s, c <> PAM3 -> reference_pattern t c a b g i pc -> locks pc signal s ->
  (Nat.max post dfe + pre + 1 < period t <= length signal)%nat -> (Nat.min post dfe < 2)%nat -> reg = RegNone \/ lambda <= 0 ->
  let P := period t in let m := map (average P signal) (seq 0 P) in let r := map (fun n => symbol_at P pc s (n + Nat.max post dfe)) (seq 0 P) in let rows := (P - (Nat.max post dfe + pre + 1))%nat in
  exists f d err mse, equalization_estimation_prbs lasso t signal c post pre dfe false reg lambda a b g i = Ok (mk_est (Taps f) (if (0 <? dfe)%nat then Taps d else NoTaps) 1 err mse) /\
  length f = (post + pre + 1)%nat /\ length d = dfe /\
  (forall f' d', length f' = (post + pre + 1)%nat -> length d' = dfe -> eq_cost m r f d dfe rows <= eq_cost m r f' d' dfe rows).
Proof.
  intros lasso t signal c post pre dfe reg lambda a b g i pc s Hc R K Sz Hm Pl P m r rows.
  destruct (coded_reference t c a b g i Hc) as (pc' & E & R'). assert (pc' = pc) by (eapply reference_unique; eauto). subst pc'.
  destruct (prbs_equaliser_spec lasso t signal c post pre dfe false reg lambda a b g i Hc ltac:(lia) ltac:(lia)) as (pc' & s' & xc & E' & _ & K' & H). rewrite E in E'. injection E' as <-. assert (s' = s) by (eapply locks_unique; eauto). subst s'.
  fold P m r in H. assert (Lm : length m = P) by (unfold m; now rewrite map_length, seq_length). assert (Lr : length r = P) by (unfold r; now rewrite map_length, seq_length).
  destruct (C54_optimal lasso m r post pre dfe reg lambda) as (f & d & err & mse & Ef & L1 & L2 & Opt & _); auto; [split; lia|]. exists f, d, err, mse. rewrite H. split; auto. split; auto. split; auto. unfold eq_rows in Opt. rewrite Lm in Opt. exact Opt.
Qed.
Print Assumptions C54_prbs_optimal.
(** Any flat channel (gain k > 0, any starting point) with no more feedback taps than postcursors is equalised without error. *)
Theorem C54_prbs_flat : forall lasso t signal c post pre dfe reg lambda a b g i pc s0 k, c <> PAM3 -> reference_pattern t c a b g i pc -> 0 < k -> (2 * period t <= length signal)%nat ->
  (forall n, (n < length signal)%nat -> at_ signal n = k * symbol_at (period t) pc s0 n) ->
  (post + pre + 1 < period t)%nat -> (dfe <= post)%nat -> (dfe < 2)%nat -> reg = RegNone \/ lambda <= 0 ->
  exists f d err mse, equalization_estimation_prbs lasso t signal c post pre dfe false reg lambda a b g i = Ok (mk_est (Taps f) (if (0 <? dfe)%nat then Taps d else NoTaps) 1 err mse) /\ length f = (post + pre + 1)%nat /\ length d = dfe /\
  forall n, (post <= n < period t - pre - 1)%nat -> sum_below (length f) (fun j => at_ f j * at_ signal (n + pre + dfe - j)) - sum_below (length d) (fun j => at_ d j * symbol_at (period t) pc s0 (n + dfe - 1 - j)) = symbol_at (period t) pc s0 (n + dfe).
Proof.
  intros lasso t signal c post pre dfe reg lambda a b g i pc s0 k Hc R Hk Hs H Sz Hd Hd2 Pl. set (P := period t) in *. assert (PP : (0 < P)%nat) by apply plen_pos. assert (Nk : k <> 0) by (intros ->; discriminate).
  assert (Lp : (0 < length pc <= 2 * P)%nat). { destruct R as (bs & Lb & _ & Lp & _). rewrite Lp, Lb. fold P. destruct c; cbn [bits_per]; rewrite ?Nat.div_1_r; try lia. rewrite Nat.mul_comm, Nat.div_mul; lia. }
  destruct (locks_exists pc signal) as (s & K); [intros ->; cbn in Lp; lia|intros ->; cbn in Hs; lia|].
  assert (Sym : forall n, symbol_at P pc s n = symbol_at P pc s0 n) by (apply (gain_lock t c a b g i pc signal s0 k s); auto; lia).
  assert (Av : forall n, (n < P)%nat -> average P signal n = k * symbol_at P pc s0 n) by (intros n Hn; apply (average_periodic P signal (fun n => k * symbol_at P pc s0 n)); auto; [lia|intros j; f_equal; now apply symbol_at_period]).
  destruct (C54_prbs_optimal lasso t signal c post pre dfe reg lambda a b g i pc s Hc R K) as (f & d & err & mse & E & Lf & Ld & Opt); auto; fold P; [lia|lia|]. cbv zeta in Opt. fold P in Opt. replace (Nat.max post dfe) with post in Opt by lia.
  exists f, d, err, mse. split; auto. split; auto. split; auto. set (m := map _ _) in Opt. set (r := map _ _) in Opt. set (rows := (P - (post + pre + 1))%nat) in *.
  assert (Hm : forall n, (n < P)%nat -> at_ m n = k * symbol_at P pc s0 n) by (intros n Hn; unfold m, at_; rewrite nth_map_seq by auto; auto).
  assert (Hr : forall n, (n < P)%nat -> at_ r n = symbol_at P pc s0 (n + post)) by (intros n Hn; unfold r, at_; rewrite nth_map_seq by auto; auto).
  set (f' := repeat 0 pre ++ cons (/ k) nil ++ repeat 0 post).
  assert (At : forall j, at_ f' j = if (j =? pre)%nat then / k else 0). { intros j. unfold f', at_. destruct (Nat.lt_ge_cases j pre); [rewrite app_nth1 by (now rewrite repeat_length); rewrite repeat_nth by auto; now rewrite (proj2 (Nat.eqb_neq j pre)) by lia|].
    rewrite app_nth2 by (now rewrite repeat_length). rewrite repeat_length. destruct (Nat.eqb_spec j pre); [subst; now rewrite Nat.sub_diag|]. destruct (j - pre)%nat as [|q] eqn:Q; [lia|]. cbn [app nth]. destruct (Nat.lt_ge_cases q post); [now apply repeat_nth|apply nth_overflow; now rewrite repeat_length]. }
  assert (L0 : length f' = (post + pre + 1)%nat) by (unfold f'; rewrite !app_length, !repeat_length; cbn; lia).
  specialize (Opt f' (repeat 0 dfe) L0 (repeat_length _ _)). rewrite (eq_cost_exact m r f') in Opt.
  2:{ intros n Hn. unfold eq_error. rewrite (sm_single (length f') _ pre) by (try lia; intros j Hj Nj; rewrite At; rewrite (proj2 (Nat.eqb_neq j pre)) by auto; ring). rewrite At, Nat.eqb_refl, L0. rewrite sm_0. 2:{ intros j Hj. rewrite repeat_length in Hj. unfold at_ at 1. rewrite repeat_nth by auto. ring. }
      replace (n + (post + pre + 1) - 1 - pre)%nat with (n + post)%nat by lia. unfold rows in Hn. rewrite Hm, Hr by lia. field. auto. }
  intros n Hn. pose proof (eq_cost_zero _ _ _ _ _ _ Opt (n - post + dfe)%nat) as Z. specialize (Z ltac:(unfold rows; lia)). unfold eq_error in Z. rewrite Hr in Z by lia.
  assert (A1 : sm (length f) (fun j => at_ f j * at_ signal (n + pre + dfe - j)) = sm (length f) (fun j => at_ f j * at_ m (n - post + dfe + length f - 1 - j))).
  { apply sm_ext. intros j Hj. f_equal. rewrite H by lia. rewrite Hm by lia. do 2 f_equal. lia. }
  assert (A2 : sm (length d) (fun j => at_ d j * symbol_at P pc s0 (n + dfe - 1 - j)) = sm (length d) (fun j => at_ d j * at_ r (n - post + dfe - 1 - j))).
  { apply sm_ext. intros j Hj. f_equal. rewrite Hr by lia. f_equal. lia. }
  rewrite A1, A2. replace (n + dfe)%nat with (n - post + dfe + post)%nat by lia. revert Z. generalize (sm (length f) (fun j => at_ f j * at_ m (n - post + dfe + length f - 1 - j)) - sm (length d) (fun j => at_ d j * at_ r (n - post + dfe - 1 - j))). intros z Z.
  transitivity (z - symbol_at P pc s0 (n - post + dfe + post) + symbol_at P pc s0 (n - post + dfe + post)); [ring|rewrite Z; ring].
Qed.
Print Assumptions C54_prbs_flat.
(** Finding: with more feedback taps than other cursors the reference is moved out of the reach of the feed forward taps, so that not even a perfect
    channel is equalised: PRBS7, two feedback taps, one feed forward tap. *)
Theorem C54_prbs_feedback_refuted : ~ forall lasso t signal c post pre dfe pc, c <> PAM3 -> reference_pattern t c false false false false pc -> length signal = (2 * period t)%nat ->
  (forall n, (n < length signal)%nat -> at_ signal n = symbol_at (period t) pc 0 n) -> (Nat.max post dfe + pre + 1 < period t)%nat -> (Nat.min post dfe < 2)%nat ->
  exists f d err, equalization_estimation_prbs lasso t signal c post pre dfe false RegNone 0 false false false false = Ok (mk_est (Taps f) (Taps d) 1 err (Some 0)).
Proof.
  intros H. destruct (H (fun _ _ _ => []) PRBS7 ex_two NRZ 0%nat 0%nat 2%nat ex_pattern) as (f & d & err & E); [discriminate|exact ex_reference|exact ex_two_length| |apply Nat.ltb_lt; reflexivity|cbn; lia|].
  { intros n Hn. rewrite ex_two_at by auto. ring. }
  set (nolasso := fun (_ : list (list Qc)) (_ : list Qc) (_ : Qc) => []) in *.
  destruct (prbs_equaliser_spec nolasso PRBS7 ex_two NRZ 0 0 2 false RegNone 0 false false false false ltac:(discriminate)) as (pc & s & xc & Ep & _ & K & Q); [cbn; lia|rewrite ex_two_length; apply Nat.leb_le; reflexivity|].
  assert (pc = ex_pattern). { destruct (coded_reference PRBS7 NRZ false false false false ltac:(discriminate)) as (pc' & E' & R'). rewrite Ep in E'. injection E' as <-. eapply reference_unique; [exact R'|exact ex_reference]. } subst pc.
  assert (Sym : forall n, symbol_at 127 ex_pattern s n = symbol_at 127 ex_pattern 0 n). { apply (gain_lock PRBS7 NRZ false false false false ex_pattern ex_two 0 1 s); [discriminate|exact ex_reference|reflexivity|rewrite ex_two_length, ex_pattern_length; lia|apply ex_two_at|exact K]. }
  assert (Av : forall n, (n < 127)%nat -> average 127 ex_two n = symbol_at 127 ex_pattern 0 n). { intros n Hn. apply (average_periodic 127 ex_two (symbol_at 127 ex_pattern 0)); [rewrite ex_two_length; lia|exact Hn| |intros j; apply symbol_at_period; lia]. intros j Hj. rewrite ex_two_at by auto. apply Qcmult_1_l. }
  rewrite Q in E. change (period PRBS7) with 127%nat in E. change (Nat.max 0 2) with 2%nat in E. set (m := map (average 127 ex_two) (seq 0 127)) in *. set (r := map _ _) in E.
  assert (Lm : length m = 127%nat) by (unfold m; now rewrite map_length, seq_length). assert (Lr : length r = 127%nat) by (unfold r; now rewrite map_length, seq_length).
  destruct (C54_optimal nolasso m r 0 0 2 RegNone 0) as (f2 & d2 & err2 & mse2 & E2 & L1 & L2 & _ & _ & Hq); [split; [lia|rewrite Lm; cbn; lia]|cbn; lia|auto|]. rewrite E in E2. injection E2 as <- <- <- <-.
  destruct Hq as (Nz & Hq). assert (Z : eq_cost m r f d 2 (eq_rows m 0 0 2) = 0). { symmetry in Hq. revert Hq Nz. generalize (eq_cost m r f d 2 (eq_rows m 0 0 2)) (eq_output2 m r f d 2 (eq_rows m 0 0 2)). intros x y Hq Nz. transitivity (x / y * y); [field; auto|rewrite Hq; ring]. }
  assert (Er : forall n, (2 <= n < 126)%nat -> eq_error m r f d n = 0). { intros n Hn. apply (eq_cost_zero m r f d 2 (eq_rows m 0 0 2)); [rewrite Z; apply Qcle_refl|unfold eq_rows; rewrite Lm; cbn [Nat.max]; lia]. }
  destruct f as [|f0 [|]]; try discriminate L1. destruct d as [|d0 [|d1 [|]]]; try discriminate L2.
  assert (X : forall n, (2 <= n < 125)%nat -> symbol_at 127 ex_pattern 0 (n + 2) = f0 * symbol_at 127 ex_pattern 0 n - d0 * symbol_at 127 ex_pattern 0 (n + 1) - d1 * symbol_at 127 ex_pattern 0 n).
  { intros n Hn. specialize (Er n ltac:(lia)). unfold eq_error, sum_below in Er. cbn [length seq map fold_right] in Er. unfold at_ in Er. cbn [nth] in Er. unfold m, r in Er. rewrite !nth_map_seq in Er by lia. rewrite !Nat.add_0_l, !Sym, Av in Er by lia.
    replace (n + 1 - 1 - 0)%nat with n in Er by lia. replace (n - 1 - 0 + 2)%nat with (n + 1)%nat in Er by lia. replace (n - 1 - 1 + 2)%nat with n in Er by lia. revert Er. generalize (symbol_at 127 ex_pattern 0 n) (symbol_at 127 ex_pattern 0 (n + 1)) (symbol_at 127 ex_pattern 0 (n + 2)). intros u v w Er.
    transitivity (w + (f0 * u + 0 - (d0 * v + (d1 * u + 0)) - w)); [rewrite Er; ring|ring]. }
  assert (V : forall n, (In n [2; 3; 4; 5])%nat -> symbol_at 127 ex_pattern 0 n = - (1)) by (intros n [<-|[<-|[<-|[<-|[]]]]]; apply Qc_is_canon; vm_compute; reflexivity).
  assert (V6 : symbol_at 127 ex_pattern 0 6 = 1) by (apply Qc_is_canon; vm_compute; reflexivity).
  pose proof (X 2%nat ltac:(lia)) as X2. pose proof (X 4%nat ltac:(lia)) as X4. cbn [Nat.add] in X2, X4. rewrite V6 in X4. rewrite (V 2%nat), (V 3%nat), (V 4%nat) in X2 by (cbn; auto). rewrite (V 4%nat), (V 5%nat) in X4 by (cbn; auto). rewrite <- X2 in X4. discriminate X4.
Qed.
Print Assumptions C54_prbs_feedback_refuted.
Example C54_prbs_case : reference_pattern PRBS7 NRZ false false false false ex_pattern /\ length ex_two = (2 * period PRBS7)%nat /\ (3 + 1 + 1 < period PRBS7)%nat /\
  (forall n, (n < length ex_two)%nat -> at_ ex_two n = 1 * symbol_at (period PRBS7) ex_pattern 0 n) /\ exists s, locks ex_pattern ex_two s.
Proof.
  split; [exact ex_reference|]. split; [exact ex_two_length|]. split; [apply Nat.ltb_lt; reflexivity|]. split; [apply ex_two_at|]. pose proof ex_two_length as A. pose proof ex_pattern_length as B.
  apply locks_exists; intros C; [rewrite C in B; discriminate B|rewrite C in A; discriminate A].
Qed.
