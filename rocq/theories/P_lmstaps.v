(** Proofs for C91. *)
From Verif Require Import Py PyQ B_list B_qc M_slicer M_filter M_lms M_lmsloop S_rx S_filter S_estim S_lms S_lmsloop S_lmstaps P_slicer P_eq P_lms P_linalg P_estim P_lasso P_lmsalg P_lmsloop Prop_lmsloop.
Open Scope Qc_scope.

Definition difference (c w : list Qc) : list Qc := map2 Qcminus c w.
Lemma difference_length c w : length c = length w -> length (difference c w) = length w.
Proof. intros H. unfold difference. rewrite map2_length. lia. Qed.
Lemma difference_nth c w i : length c = length w -> (i < length w)%nat -> nth i (difference c w) 0 = nth i c 0 - nth i w 0.
Proof. intros H Hi. unfold difference. now rewrite (map2_nth _ _ _ _ 0 0) by lia. Qed.
Lemma difference_power c w : length c = length w -> total_power (difference c w) = apart c w.
Proof. intros H. rewrite power_sm, apart_sm, difference_length by lia. rewrite <- H. apply sm_ext. intros i Hi. now rewrite difference_nth by lia. Qed.
Lemma difference_output g c w y m : length c = length w ->
  taps_output (map g (instants (length w))) (difference c w) y m = taps_output (map g (instants (length w))) c y m - taps_output (map g (instants (length w))) w y m.
Proof.
  intros H. rewrite !taps_output_sm by (auto using difference_length). rewrite <- sm_sub. apply sm_ext. intros i Hi. rewrite difference_nth by auto. ring.
Qed.
Lemma error_zero I F G r : (forall m, In m I -> F m = G m) -> squared_error I F r = squared_error I G r.
Proof. intros H. unfold squared_error. f_equal. apply map_ext_in. intros m Hm. now rewrite H. Qed.
Lemma squares_mean I (F G : Z -> Qc) r : (forall m, In m I -> F m - signal r m = G m \/ F m - signal r m = - G m) -> squared_error I F r = meanQ (map (fun m => G m * G m) I).
Proof. intros H. unfold squared_error. f_equal. apply map_ext_in. intros m Hm. destruct (H m Hm) as [-> | ->]; ring. Qed.
Lemma mean_zero I : meanQ (map (fun _ : Z => 0 * 0) I) = 0.
Proof. unfold meanQ. replace (sumQ (map (fun _ : Z => 0 * 0) I)) with 0; [unfold Qcdiv; ring|]. induction I as [|m I IH]; [reflexivity|]. cbn [map]. rewrite sumQ_cons, <- IH. ring. Qed.
Lemma ffe_known y r w : equalises w y r -> ffe_error y r w = 0.
Proof. intros H. unfold ffe_error. rewrite (squares_mean _ _ (fun _ => 0)); [apply mean_zero|]. intros m Hm. left. rewrite H by auto. ring. Qed.
Lemma ffe_above y r w c lam : length y = length r -> length c = length w -> equalises w y r -> excites y (instants (length w)) lam -> lam * apart c w <= ffe_error y r c.
Proof.
  intros Ly Lc H X. unfold ffe_error. rewrite Lc. rewrite (squares_mean _ _ (fun m => taps_output (instants (length w)) (difference c w) y m)).
  - rewrite <- difference_power, <- Ly by auto. apply X. rewrite instants_length. now apply difference_length.
  - intros m Hm. left. pose proof (difference_output (fun i => i) c w y m Lc) as D. rewrite map_id in D. rewrite D, H by auto. ring.
Qed.
Lemma dfe_gap y r h c m : length c = length h -> postcursors h r y -> In m (instants (length r)) ->
  signal y m - taps_output (map Z.succ (instants (length h))) c r m - signal r m = - taps_output (map Z.succ (instants (length h))) (difference c h) r m.
Proof. intros Lc H Hm. rewrite difference_output, H by auto. ring. Qed.
Lemma dfe_known y r h : postcursors h r y -> dfe_error y r h = 0.
Proof. intros H. unfold dfe_error. rewrite (squares_mean _ _ (fun _ => 0)); [apply mean_zero|]. intros m Hm. left. rewrite H by auto. ring. Qed.
Lemma dfe_above y r h c lam : length c = length h -> postcursors h r y -> excites r (map Z.succ (instants (length h))) lam -> lam * apart c h <= dfe_error y r c.
Proof.
  intros Lc H X. unfold dfe_error. rewrite Lc. rewrite (squares_mean _ _ (fun m => taps_output (map Z.succ (instants (length h))) (difference c h) r m)).
  - rewrite <- difference_power by auto. apply X. rewrite map_length, instants_length. now apply difference_length.
  - intros m Hm. right. now apply dfe_gap.
Qed.
(** From the rate of the error to the rate of the taps. *)
Lemma learned pass error lr N b w lam : 0 < lr -> length b = length w -> descends pass error lr N b -> error w = 0 -> (forall c, length c = length w -> lam * apart c w <= error c) ->
  exists c, adapted pass N b c /\ (forall c', adapted pass N b c' -> c' = c) /\ length c = length w /\ ofZ (Z.of_nat N) * lr * (lam * apart c w) <= ofZ 2 * apart b w.
Proof.
  intros Hlr Lb (c & A & U & Lc & _ & R) E X. exists c. split; auto. split; auto. split; [congruence|]. specialize (R w ltac:(congruence)). rewrite E in R. eapply Qcle_trans; [|exact R]. rewrite !(Qcmult_comm (ofZ (Z.of_nat N) * lr)). apply Qcmult_le_compat_r.
  - replace (error c - 0) with (error c) by ring. apply X. congruence.
  - apply Qcmult_nonneg; [|now apply Qclt_le_weak]. change 0 with (ofZ 0). apply ofZ_le. lia.
Qed.
Lemma signal_power r m R : (forall v, In v r -> v * v <= R) -> 0 <= R -> sq (signal r m) <= R.
Proof. intros H P. destruct (Z.ltb_spec m 0); [rewrite signal_out by lia; unfold sq; now rewrite Qcmult_0_l|]. destruct (Z.ltb_spec m (Z.of_nat (length r))); [|rewrite signal_out by lia; unfold sq; now rewrite Qcmult_0_l]. rewrite signal_nth by lia. apply H. apply nth_In. lia. Qed.
Section Close.
  Context (y r h : list Qc) (n : nat) (lr d R : Qc) (Lr : length r = n) (Hlr : 0 < lr) (Hd : 0 < d) (Kn : (length h < n)%nat) (Hp : postcursors h r y) (HR : forall v, In v r -> v * v <= R) (PR : 0 <= R).
  Context (Sm : forall i, (i < length h)%nat -> 0 < dfe_wt n i /\ dfe_wt n i <= ofZ (Z.of_nat n) /\ lr * energy_of n (length h) (dfe_u r) <= dfe_wt n i + dfe_wt n i).
  Definition far (c : list Qc) : Qc := dist (length h) (dfe_wt n) (tap h) (tap c).
  Lemma far_above c : length c = length h -> ofZ (2 * Z.of_nat (n - length h)) * apart c h <= far c.
  Proof.
    intros Lc. rewrite apart_sm by auto. rewrite <- sm_scale, Lc. unfold far, dist. apply sm_le. intros i Hi. apply Qcmult_le_compat_r; [|apply sq_nonneg]. unfold dfe_wt. rewrite <- ofZ_add. apply ofZ_le. lia.
  Qed.
  Lemma far_below c : length c = length h -> far c <= ofZ (2 * Z.of_nat n) * apart c h.
  Proof.
    intros Lc. rewrite apart_sm by auto. rewrite <- sm_scale, Lc. unfold far, dist. apply sm_le. intros i Hi. apply Qcmult_le_compat_r; [|apply sq_nonneg]. unfold dfe_wt. rewrite <- ofZ_add. apply ofZ_le. lia.
  Qed.
  Lemma far_stepped c : far (stepped n (length h) (dfe_u r) (dfe_want y r) (dfe_wt n) lr c) <= far c.
  Proof.
    assert (Z0 : loss n (length h) (dfe_u r) (dfe_want y r) (tap h) = 0).
    { pose proof (dfe_mean y r n Lr h) as M. rewrite (dfe_known y r h Hp) in M. change (total n (length h) (dfe_u r) (dfe_want y r) h = 0). rewrite total_mean by lia. rewrite M. ring. }
    pose proof (approach n (length h) (dfe_u r) (dfe_want y r) (dfe_wt n) lr (fun i Hi => proj1 (Sm i Hi)) Hlr (fun i Hi => proj2 (proj2 (Sm i Hi))) (tap h) (tap c)) as A. rewrite Z0 in A.
    replace (far (stepped n (length h) (dfe_u r) (dfe_want y r) (dfe_wt n) lr c)) with (dist (length h) (dfe_wt n) (tap h) (next n (length h) (dfe_u r) (dfe_want y r) (dfe_wt n) lr (tap c))).
    - set (l := loss n (length h) (dfe_u r) (dfe_want y r) (next n (length h) (dfe_u r) (dfe_want y r) (dfe_wt n) lr (tap c))) in *. assert (P : 0 <= lr * (l - 0)). { apply Qcmult_nonneg; [now apply Qclt_le_weak|]. replace (l - 0) with l by ring. unfold l, loss. apply sm_sq_nonneg. }
      eapply Qcle_trans; [exact A|]. unfold far. set (p := lr * (l - 0)) in *. set (z := dist _ _ _ _) in *. clear - P. qlra.
    - unfold far, dist. apply sm_ext. intros i Hi. now rewrite tap_stepped.
  Qed.
  Lemma far_near a c : length a = length h -> length c = length h -> far c <= far a -> ofZ 4 * (ofZ (Z.of_nat (length h)) * R * (ofZ (Z.of_nat n) * apart a h)) < d * d * ofZ (Z.of_nat (n - length h)) ->
    near n d (err (length h) (dfe_u r) (dfe_want y r) (tap c)).
  Proof.
    intros La Lc F M m Hm. apply (single_error 1 (fun _ => err (length h) (dfe_u r) (dfe_want y r) (tap c) m) d 0); auto. unfold sm. cbn [seq map]. unfold sumQ. cbn [fold_right]. set (e := err _ _ _ _ _). rewrite Qcplus_0_r.
    assert (E : sq e <= apart c h * (ofZ (Z.of_nat (length h)) * R)).
    { unfold e. rewrite <- Lc, dfe_err, Lc. pose proof (dfe_gap y r h c (Z.of_nat m) Lc Hp) as G. rewrite taps_output_sm in G by auto. unfold instants in G at 1. rewrite G by (apply in_map_iff; exists m; split; auto; apply in_seq; lia). rewrite taps_output_sm by now apply difference_length.
      replace (sq (- sm (length h) (fun i => nth i (difference c h) 0 * signal r (Z.of_nat m - Z.succ (Z.of_nat i))))) with (sq (sm (length h) (fun i => nth i (difference c h) 0 * signal r (Z.of_nat m - Z.succ (Z.of_nat i))))) by (unfold sq; ring).
      eapply Qcle_trans; [apply cauchy_schwarz|]. replace (apart c h) with (sm (length h) (fun k => sq (nth k (difference c h) 0))).
      - rewrite !(Qcmult_comm (sm _ (fun k => sq (nth k _ 0)))). apply Qcmult_le_compat_r; [|apply sm_sq_nonneg]. rewrite <- sm_const. apply sm_le. intros i Hi. now apply signal_power.
      - rewrite apart_sm, Lc by auto. apply sm_ext. intros i Hi. now rewrite difference_nth. }
    assert (D : ofZ (Z.of_nat (n - length h)) * apart c h <= ofZ (Z.of_nat n) * apart a h).
    { pose proof (Qcle_trans _ _ _ (far_above c Lc) (Qcle_trans _ _ _ F (far_below a La))) as T. rewrite !ofZ_mul in T. change (ofZ 2) with (1 + 1) in T. set (p := ofZ (Z.of_nat (n - length h)) * apart c h) in *. set (q := ofZ (Z.of_nat n) * apart a h) in *.
      replace ((1 + 1) * ofZ (Z.of_nat (n - length h)) * apart c h) with (p + p) in T by (unfold p; ring). replace ((1 + 1) * ofZ (Z.of_nat n) * apart a h) with (q + q) in T by (unfold q; ring). clear - T. qlra. }
    assert (W : 0 < ofZ (Z.of_nat (n - length h))) by (change 0 with (ofZ 0); apply ofZ_lt; lia). assert (KR : 0 <= ofZ (Z.of_nat (length h)) * R) by (apply Qcmult_nonneg; auto; change 0 with (ofZ 0); apply ofZ_le; lia).
    apply Qcnot_le_lt. intros Y. apply (Qclt_not_le _ _ M). set (w := ofZ (Z.of_nat (n - length h))) in *. set (k := ofZ (Z.of_nat (length h)) * R) in *.
    apply Qcle_trans with (ofZ 4 * sq e * w); [apply Qcmult_le_compat_r; [exact Y|now apply Qclt_le_weak]|]. replace (ofZ 4 * sq e * w) with (sq e * w * ofZ 4) by ring. rewrite (Qcmult_comm (ofZ 4)). apply Qcmult_le_compat_r; [|discriminate].
    apply Qcle_trans with (apart c h * k * w); [apply Qcmult_le_compat_r; [exact E|now apply Qclt_le_weak]|]. replace (apart c h * k * w) with (w * apart c h * k) by ring. rewrite (Qcmult_comm k). now apply Qcmult_le_compat_r.
  Qed.
End Close.
