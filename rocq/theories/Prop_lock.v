(** C35-C38: pattern locking and PRBS checkers. *)
From Verif Require Import Py B_list M_aux M_prbs P_prbs P_prbs_gen PyQ B_qc M_lock S_lock P_lock P_checker S_aux P_linear.
Open Scope Z_scope.

(** C35: the result is the rotation with the largest antipodal correlation (the smallest such shift); the second
    result lists the correlations. *)
Theorem C35_lock_binary_argmax : forall (pattern signal : list Z),
  pattern <> [] -> signal <> [] ->
  let P := length pattern in let m := Nat.min P (length signal) in
  exists s xc, lock_pattern_to_signal_binary pattern signal = Ok (rotated 0 s pattern, xc) /\ (s < P)%nat /\
    length xc = (2 * P - m + 1)%nat /\ (forall k, (k < length xc)%nat -> nth k xc 0 = corr_bits pattern signal m k) /\
    (forall s', corr_bits pattern signal m s' <= corr_bits pattern signal m s) /\
    (forall s', (s' < s)%nat -> corr_bits pattern signal m s' < corr_bits pattern signal m s).
Proof.
  intros pattern signal NP NS P m. destruct (lock_binary_spec pattern signal NP NS) as (s & xc & E & L & -> & M & F). fold P m in E, L, M, F |- *.
  eexists s, _. split; [exact E|]. split; auto. rewrite map_length, seq_length. split; auto. split; [intros k Hk; now rewrite nth_map_seq|]. auto.
Qed.
Print Assumptions C35_lock_binary_argmax.
(** For binary data: no rotation is closer in Hamming distance to the start of the signal. *)
Theorem C35_lock_binary_nearest : forall (pattern signal : list Z),
  pattern <> [] -> signal <> [] -> bits pattern -> bits signal ->
  let m := Nat.min (length pattern) (length signal) in
  exists s xc, lock_pattern_to_signal_binary pattern signal = Ok (rotated 0 s pattern, xc) /\
    forall s', (hdist (firstn m (rotated 0%Z s pattern)) (firstn m signal) <= hdist (firstn m (rotated 0%Z s' pattern)) (firstn m signal))%nat.
Proof.
  intros pattern signal NP NS BP BS m. destruct (lock_binary_spec pattern signal NP NS) as (s & xc & E & _ & _ & M & _). exists s, xc. split; auto.
  intros s'. specialize (M s'). rewrite !corr_bits_hdist in M by (auto; lia). fold m in M. lia.
Qed.
Print Assumptions C35_lock_binary_nearest.
(** If the signal starts with a piece of some rotation, the result starts with that piece. *)
Theorem C35_lock_binary_prefix : forall (pattern signal : list Z) (s0 : nat),
  pattern <> [] -> signal <> [] -> bits pattern -> bits signal ->
  let m := Nat.min (length pattern) (length signal) in
  firstn m signal = firstn m (rotated 0 s0 pattern) ->
  exists out xc, lock_pattern_to_signal_binary pattern signal = Ok (out, xc) /\ firstn m out = firstn m signal.
Proof.
  intros pattern signal s0 NP NS BP BS m H. destruct (C35_lock_binary_nearest pattern signal NP NS BP BS) as (s & xc & E & M).
  fold m in M. exists (rotated 0 s pattern), xc. split; auto. specialize (M s0). rewrite <- H in M. rewrite hdist_refl in M.
  apply hdist_zero; [rewrite !firstn_length, rotated_length; lia|lia].
Qed.
Print Assumptions C35_lock_binary_prefix.
Theorem C35_lock_binary_empty : forall (pattern signal : list Z),
  pattern = [] \/ signal = [] -> lock_pattern_to_signal_binary pattern signal = Raise ValueError.
Proof.
  intros pattern signal [-> | ->]; unfold lock_pattern_to_signal_binary, correlate_valid; auto.
  rewrite firstn_nil. cbn [map length]. now rewrite orb_true_r.
Qed.
Print Assumptions C35_lock_binary_empty.
Example C35_case : lock_pattern_to_signal_binary [1; 1; 0; 1; 0] [0; 1; 0; 1] = Ok ([0; 1; 0; 1; 1], [2; -4; 4; -2; 0; 2; -4]) /\
  firstn 4 [0; 1; 0; 1] = firstn 4 (rotated 0 2 [1; 1; 0; 1; 0]).
Proof. split; vm_compute; reflexivity. Qed.

(** C36: multi-level patterns; full-length signals, any positive gain. *)
Theorem C36_lock_rotation : forall (pattern signal : list Qc) (s0 : nat) (g : Qc),
  pattern <> [] -> (0 < g)%Qc -> (length pattern <= length signal)%nat ->
  firstn (length pattern) signal = map (fun x => g * x)%Qc (rotated 0%Qc s0 pattern) ->
  exists xc, lock_pattern_to_signal pattern signal = Ok (rotated 0%Qc s0 pattern, xc).
Proof.
  intros pattern signal s0 g NP G L H. apply lock_samples_rotation with g; auto. intros i Hi.
  assert (E : nth i (firstn (length pattern) signal) 0%Qc = nth i signal 0%Qc) by (now apply nth_firstn). rewrite <- E, H.
  rewrite (map_nth_lt _ _ i 0%Qc) by (now rewrite rotated_length). now rewrite rotated_nth.
Qed.
Print Assumptions C36_lock_rotation.
Theorem C36_lock_argmax : forall (pattern signal : list Qc),
  pattern <> [] -> signal <> [] ->
  let P := length pattern in let m := Nat.min P (length signal) in
  exists s xc, lock_pattern_to_signal pattern signal = Ok (rotated 0%Qc s pattern, xc) /\ (s < P)%nat /\
    length xc = (2 * P - m + 1)%nat /\ (forall k, (k < length xc)%nat -> nth k xc 0%Qc = corr_samples pattern signal m k) /\
    (forall s', (corr_samples pattern signal m s' <= corr_samples pattern signal m s)%Qc) /\
    (forall s', (s' < s)%nat -> (corr_samples pattern signal m s' < corr_samples pattern signal m s)%Qc).
Proof.
  intros pattern signal NP NS P m. destruct (lock_samples_spec pattern signal NP NS) as (s & xc & E & L & -> & M & F). fold P m in E, L, M, F |- *.
  eexists s, _. split; [exact E|]. split; auto. rewrite map_length, seq_length. split; auto. split; [intros k Hk; now rewrite nth_map_seq|]. auto.
Qed.
Print Assumptions C36_lock_argmax.
(** Finding: a signal shorter than the pattern can be locked to the wrong place. *)
Theorem C36_lock_short_refuted : exists (pattern signal out xc : list Qc) (s0 : nat),
  (0 < length signal < length pattern)%nat /\ signal = firstn (length signal) (rotated 0%Qc s0 pattern) /\
  lock_pattern_to_signal pattern signal = Ok (out, xc) /\ firstn (length signal) out <> signal.
Proof.
  exists (map ofZ [1; 3]), (map ofZ [1]). eexists _, _, 0%nat. split; [cbn; lia|]. split; [qcompute|]. split; [vm_compute; reflexivity|].
  intros H. apply (f_equal (map this)) in H. vm_compute in H. discriminate.
Qed.
Print Assumptions C36_lock_short_refuted.
Definition pam_pattern := map ofZ [-3; 1; 3; 3; -1].
Definition pam_signal := map (fun x => Q2Qc (1 # 2) * ofZ x)%Qc [3; 3; -1; -3; 1; 3; 0].
Example C36_case : firstn 5 pam_signal = map (fun x => Q2Qc (1 # 2) * x)%Qc (rotated 0%Qc 2 pam_pattern) /\
  exists xc, lock_pattern_to_signal pam_pattern pam_signal = Ok (map ofZ [3; 3; -1; -3; 1], xc).
Proof.
  split; [qcompute|]. destruct (C36_lock_rotation pam_pattern pam_signal 2 (Q2Qc (1 # 2))) as [xc E]; [discriminate|reflexivity|cbn; lia|qcompute|].
  exists xc. rewrite E. reflexivity.
Qed.

(** C37, locked: errors are the differences from the stream of the all-ones seed. *)
Theorem C37_checker_init_lock : forall (t : prbs_type) (data : list Z) (loss_th : Z),
  exists ref sd err, prbs_generator (get_polynomial t) (repeat 1 (prbs_value t)) (Z.of_nat (length data)) = Ok (ref, sd) /\
    prbs_checker t data true loss_th None = Ok (loss_th <=? Z.of_nat (n_errors err), Z.of_nat (length data) - Z.of_nat (n_errors err), err) /\
    length err = length data /\ forall i, (i < length data)%nat -> nth i err false = negb (nth i data 0 =? nth i ref 0).
Proof. intros t data th. destruct (checker_init t data th) as (ref & sd & e & A & B & C & _ & F). exists ref, sd, e. auto. Qed.
Print Assumptions C37_checker_init_lock.
(** C37, not locked: any phase of the PRBS (any non-zero seed) with few enough errors in the first period is locked
    correctly and the reported error vector is the injected one. *)
Theorem C37_checker_finds_errors : forall (t : prbs_type) (seed clean sd : list Z) (err : list bool) (D : nat) (loss_th : Z),
  length seed = prbs_value t -> bits seed -> seed <> repeat 0 (prbs_value t) ->
  prbs_generator (get_polynomial t) seed (Z.of_nat D) = Ok (clean, sd) -> length err = D ->
  let P := (2 ^ prbs_value t - 1)%nat in
  (P <= D)%nat -> 4 * Z.of_nat (n_errors (firstn P err)) < 2 ^ Z.of_nat (prbs_value t) ->
  prbs_checker t (flipped clean err) false loss_th None = Ok (loss_th <=? Z.of_nat (n_errors err), Z.of_nat D - Z.of_nat (n_errors err), err).
Proof. intros t seed clean sd err D th L B N G Le P HD HE. rewrite gen_char in G by auto. injection G as <- _. apply checker_locks; auto. Qed.
Print Assumptions C37_checker_finds_errors.
(** Error-free data of any length, shorter than a period too. *)
Theorem C37_checker_clean : forall (t : prbs_type) (seed clean sd : list Z) (D : nat) (loss_th : Z),
  length seed = prbs_value t -> bits seed -> seed <> repeat 0 (prbs_value t) -> (0 < D)%nat ->
  prbs_generator (get_polynomial t) seed (Z.of_nat D) = Ok (clean, sd) ->
  prbs_checker t clean false loss_th None = Ok (loss_th <=? 0, Z.of_nat D, repeat false D).
Proof. intros t seed clean sd D th L B N HD G. rewrite gen_char in G by auto. injection G as <- _. apply checker_clean; auto. Qed.
Print Assumptions C37_checker_clean.
Example C37_case : exists clean sd, prbs_generator (get_polynomial PRBS7) [1; 0; 1; 1; 0; 0; 1] 130 = Ok (clean, sd) /\
  let err := map (fun i => (i mod 9 =? 3)%nat) (seq 0 130) in
  4 * Z.of_nat (n_errors (firstn 127 err)) < 2 ^ 7 /\ n_errors err = 15%nat /\
  prbs_checker PRBS7 (flipped clean err) false 20 None = Ok (false, 115, err).
Proof. do 2 eexists. split; [vm_compute; reflexivity|]. vm_compute. repeat split; reflexivity. Qed.

(** C38: when the first n bits are clean the reported errors are the injected ones. *)
Theorem C38_econ_finds_errors : forall (t : prbs_type) (seed clean sd : list Z) (err : list bool) (D : nat) (loss_th : Z),
  length seed = prbs_value t -> bits seed ->
  prbs_generator (get_polynomial t) seed (Z.of_nat D) = Ok (clean, sd) -> length err = D ->
  firstn (prbs_value t) err = repeat false (Nat.min (prbs_value t) D) -> Z.of_nat (n_errors err) < loss_th ->
  prbs_checker_econ t (flipped clean err) loss_th = Ok (false, Z.of_nat D - Z.of_nat (n_errors err), err).
Proof.
  intros t seed clean sd err D th L B G Le W T. rewrite gen_char in G by auto. injection G as <- _.
  assert (F : (th <=? Z.of_nat (n_errors err)) = false) by (apply Z.leb_gt; auto).
  apply econ_first; [|reflexivity]. rewrite (econ_try_clean t seed err 0 D) by (cbn [skipn]; rewrite ?Nat.sub_0_r; auto). cbn [skipn]. now rewrite F.
Qed.
Print Assumptions C38_econ_finds_errors.
Theorem C38_econ_clean : forall (t : prbs_type) (seed clean sd : list Z) (D : nat) (loss_th : Z),
  length seed = prbs_value t -> bits seed -> 0 < loss_th ->
  prbs_generator (get_polynomial t) seed (Z.of_nat D) = Ok (clean, sd) ->
  prbs_checker_econ t clean loss_th = Ok (false, Z.of_nat D, repeat false D).
Proof.
  intros t seed clean sd D th L B T G. assert (LC : length clean = D) by (rewrite gen_char in G by auto; injection G as <- _; apply outbits_length).
  assert (FE : flipped clean (repeat false D) = clean) by (rewrite <- LC; apply flipped_none). rewrite <- FE.
  rewrite (C38_econ_finds_errors t seed clean sd (repeat false D) D th L B G).
  - now rewrite n_errors_false, Z.sub_0_r.
  - apply repeat_length.
  - clear. generalize (prbs_value t). intros n. revert D. induction n as [|n IH]; intros [|D]; auto. cbn [repeat firstn Nat.min]. now rewrite IH.
  - rewrite n_errors_false. lia.
Qed.
Print Assumptions C38_econ_clean.
(** General behaviour: the checker always returns, using the first window (of n) below the threshold or the last
    one; the error vector covers only the data after the skipped bits but the count is relative to all of it. *)
Theorem C38_econ_general : forall (t : prbs_type) (data : list Z) (loss_th : Z), bits data ->
  exists skipped err, (skipped < prbs_value t)%nat /\
    prbs_checker_econ t data loss_th = Ok (loss_th <=? Z.of_nat (n_errors err), Z.of_nat (length data) - Z.of_nat (n_errors err), err) /\
    prediction_errors t data skipped err /\ ((skipped < prbs_value t - 1)%nat -> Z.of_nat (n_errors err) < loss_th) /\
    (forall j e, (j < skipped)%nat -> prediction_errors t data j e -> loss_th <= Z.of_nat (n_errors e)).
Proof.
  intros t data th B. destruct (econ_loop_spec t data th B (prbs_value t - 1) 0) as (j & e & J & R & N & Le & T & F).
  exists j, e. assert (X := value_gt1 t). split; [lia|]. split; [exact R|]. split; [now apply econ_prediction|]. split; [intros H; apply T; lia|].
  intros i e1 Hi P1. destruct (F i ltac:(lia)) as (e2 & E2 & T2). replace e1 with e2; auto. apply (prediction_unique t data i); auto. now apply econ_prediction.
Qed.
Print Assumptions C38_econ_general.
Example C38_case : exists clean sd, prbs_generator (get_polynomial PRBS7) [1; 0; 1; 1; 0; 0; 1] 40 = Ok (clean, sd) /\
  let err := repeat false 7 ++ repeat true 3 ++ repeat false 30 in
  prbs_checker_econ PRBS7 (flipped clean err) 5 = Ok (false, 37, err).
Proof. do 2 eexists. split; [vm_compute; reflexivity|]. vm_compute. reflexivity. Qed.
(** Finding: skipped bits (here the one erroneous bit) are counted as correct: the count equals the data length and
    the error vector is one short and all clear, although one of the bits is wrong. *)
Theorem C38_econ_skipped_refuted : exists (t : prbs_type) (seed clean sd : list Z) (err : list bool) (loss_th : Z),
  length seed = prbs_value t /\ bits seed /\ prbs_generator (get_polynomial t) seed 40 = Ok (clean, sd) /\ length err = 40%nat /\ n_errors err = 1%nat /\
  prbs_checker_econ t (flipped clean err) loss_th = Ok (false, 40, repeat false 39).
Proof.
  exists PRBS7, [1; 0; 1; 1; 0; 0; 1]. eexists _, _, (true :: repeat false 39), 3. split; [reflexivity|]. split; [apply bits_check; reflexivity|].
  split; [vm_compute; reflexivity|]. split; [reflexivity|]. split; [reflexivity|]. vm_compute. reflexivity.
Qed.
Print Assumptions C38_econ_skipped_refuted.
(** Finding: an all-zero stream (a dead input) is reported as an error-free PRBS. *)
Theorem C38_econ_dead_input_refuted : forall (t : prbs_type) (D : nat) (loss_th : Z), 0 < loss_th ->
  prbs_checker_econ t (repeat 0 D) loss_th = Ok (false, Z.of_nat D, repeat false D) /\
  ((prbs_value t <= D)%nat -> forall seed clean sd, length seed = prbs_value t -> bits seed -> seed <> repeat 0 (prbs_value t) ->
     prbs_generator (get_polynomial t) seed (Z.of_nat D) = Ok (clean, sd) -> clean <> repeat 0 D).
Proof.
  intros t D th T. split.
  - eapply C38_econ_clean; [apply repeat_length| |auto|apply zero_seed]. apply Forall_forall. intros x Hx. apply repeat_spec in Hx. subst. now left.
  - intros HD seed clean sd L B N G E. rewrite gen_char in G by auto. injection G as G1 _. rewrite E in G1. clear E.
    assert (X := value_gt1 t). assert (I := iter_register (get_polynomial t) seed D ltac:(lia)). rewrite G1 in I.
    assert (Z0 : Nat.iter D (lfsr_step (get_polynomial t)) seed = repeat 0 (prbs_value t)).
    { rewrite I, L, firstn_app, rev_length, repeat_length. replace (prbs_value t - D)%nat with 0%nat by lia. cbn [firstn]. rewrite app_nil_r.
      apply (nth_ext_def 0); [rewrite firstn_length, rev_length, !repeat_length; lia|]. intros i Hi. rewrite firstn_length, rev_length, repeat_length in Hi.
      rewrite nth_firstn by lia. rewrite rev_nth by (rewrite repeat_length; lia). rewrite repeat_length. rewrite !repeat_nth by lia. reflexivity. }
    apply (iter_nonzero _ _ _ (value_gt1 t) (P_prbs_cert.prbs_cert t) seed D) in Z0; auto. split; auto.
Qed.
Print Assumptions C38_econ_dead_input_refuted.
