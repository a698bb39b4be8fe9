(** C45, C47: LMS gradients and Mueller-Muller timing recovery. *)
From Verif Require Import Py B_list PyQ B_qc M_slicer P_slicer M_filter P_map M_lms S_rx S_lms P_lms.
Open Scope Z_scope.

(** C45: loss and gradients for any signals and any tap sets; [None] is nan.  The gradient entry of a tap is a
    quarter of the derivative of the squared error of the output to which [d] times the tapped sample is added. *)
Theorem C45_gradients : forall (y out ref : list Qc) levels (fi di : list Z),
  length y = length ref -> length out = length ref -> Forall (fun j => 0 <= j) di ->
  exists mse gf gd,
    ddlms_grad y out levels fi di (Some ref) =
      Ok (match fi, di with
          | [], [] => OnlyLoss mse | [], _ :: _ => LossDfe mse gd | _ :: _, [] => LossFfe mse gf | _ :: _, _ :: _ => LossBoth mse gf gd
          end) /\
    mse = (if (length ref =? 0)%nat then None else Some (squared_error (instants (length ref)) (signal out) ref)) /\
    length gf = length fi /\ length gd = length di /\
    (forall p, (p < length fi)%nat -> is_gradient (length ref) (nth p fi 0)
       (fun d m => signal out m + d * signal y (m - nth p fi 0%Z))%Qc ref (nth p gf None)) /\
    (forall p, (p < length di)%nat -> is_gradient (length ref) (nth p di 0)
       (fun d m => signal out m - d * signal ref (m - nth p di 0%Z))%Qc ref (nth p gd None)).
Proof.
  intros y out ref levels fi di Ly Lo Fd. rewrite (ddlms_eq y out ref levels fi di Lo Ly Fd). do 3 eexists. split; [destruct fi, di; reflexivity|].
  split; [|split; [apply map_length|split; [apply map_length|]]].
  - destruct (length ref =? 0)%nat eqn:E; [apply Nat.eqb_eq in E; destruct ref, out; try discriminate; reflexivity|]. apply Nat.eqb_neq in E.
    unfold squared_error. rewrite instants_map. replace (map (fun e => e * e)%Qc _) with
      (map (fun k => (signal out (Z.of_nat k) - signal ref (Z.of_nat k)) * (signal out (Z.of_nat k) - signal ref (Z.of_nat k)))%Qc (seq 0 (length ref))).
    + destruct (length ref); [congruence|reflexivity].
    + apply (nth_ext_def 0%Qc); [rewrite !map_length, seq_length, map2_length; lia|]. intros i Hi. rewrite map_length, seq_length in Hi. rewrite nth_map_seq by auto.
      rewrite (map_nth_lt _ _ _ 0%Qc) by (rewrite map2_length; lia). rewrite (map2_nth _ _ _ _ 0%Qc 0%Qc) by lia. rewrite !signal_nat. reflexivity.
  - assert (Le : length (map2 Qcminus out ref) = length ref) by (rewrite map2_length; lia). split; intros p Hp; rewrite (map_nth_lt _ _ _ 0) by auto.
    + pose proof (gradient_spec (length ref) (nth p fi 0) (fun d m => signal out m + d * signal y (m - nth p fi 0%Z))%Qc ref _ y 1%Qc Le Ly) as G.
      cbv beta in G. replace (1 * half)%Qc with half in G by ring. apply G. intros d m _. rewrite np_sub_signal by auto. ring.
    + pose proof (gradient_spec (length ref) (nth p di 0) (fun d m => signal out m - d * signal ref (m - nth p di 0%Z))%Qc ref _ ref (-(1))%Qc Le eq_refl) as G.
      cbv beta in G. replace (-(1) * half)%Qc with (- half)%Qc in G by ring. apply G. intros d m _. rewrite np_sub_signal by auto. ring.
Qed.
Print Assumptions C45_gradients.
(** The same entries for the equaliser of the docstring: they are the partial derivatives with respect to the
    coefficients [b] of the FFE taps and [a] of the DFE taps that produced the output. *)
Theorem C45_equaliser_gradients : forall (y out ref : list Qc) levels (fi di : list Z) (b a : list Qc),
  length y = length ref -> length out = length ref -> Forall (fun j => 0 <= j) di -> fi <> [] -> di <> [] ->
  length b = length fi -> length a = length di ->
  (forall m, 0 <= m < Z.of_nat (length ref) -> signal out m = equalised fi b di a y ref m) ->
  exists mse gf gd, ddlms_grad y out levels fi di (Some ref) = Ok (LossBoth mse gf gd) /\
    (forall p, (p < length fi)%nat -> is_gradient (length ref) (nth p fi 0) (fun d => equalised fi (bump p d b) di a y ref) ref (nth p gf None)) /\
    (forall p, (p < length di)%nat -> is_gradient (length ref) (nth p di 0) (fun d => equalised fi b di (bump p d a) y ref) ref (nth p gd None)).
Proof.
  intros y out ref levels fi di b a Ly Lo Fd Nf Nd Lb La HE. rewrite (ddlms_eq y out ref levels fi di Lo Ly Fd). do 3 eexists. split; [destruct fi, di; try congruence; reflexivity|].
  assert (Le : length (map2 Qcminus out ref) = length ref) by (rewrite map2_length; lia). split; intros p Hp; rewrite (map_nth_lt _ _ _ 0) by auto.
  - pose proof (gradient_spec (length ref) (nth p fi 0) (fun d => equalised fi (bump p d b) di a y ref) ref _ y 1%Qc Le Ly) as G.
    cbv beta in G. replace (1 * half)%Qc with half in G by ring. apply G. intros d m Hm. rewrite np_sub_signal, HE by auto. unfold equalised. rewrite taps_bump by auto. ring.
  - pose proof (gradient_spec (length ref) (nth p di 0) (fun d => equalised fi b di (bump p d a) y ref) ref _ ref (-(1))%Qc Le eq_refl) as G.
    cbv beta in G. replace (-(1) * half)%Qc with (- half)%Qc in G by ring. apply G. intros d m Hm. rewrite np_sub_signal, HE by auto. unfold equalised. rewrite taps_bump by auto. ring.
Qed.
Print Assumptions C45_equaliser_gradients.
(** The derivative used above is unique, so the reported numbers are determined. *)
Theorem C45_derivative_determined : forall f v w, derivative_at_zero f v -> derivative_at_zero f w -> v = w.
Proof. exact derivative_unique. Qed.
Print Assumptions C45_derivative_determined.
(** Without a reference the nearest levels are used; a reference of another length is refused. *)
Theorem C45_reference : forall (y out : list Qc) levels (fi di : list Z),
  (levels <> Some [] -> exists ref, length ref = length out /\
     (forall k, (k < length out)%nat -> nearest_level (slicer_levels levels) (nth k out 0%Qc) (nth k ref 0%Qc)) /\
     ddlms_grad y out levels fi di None = ddlms_grad y out levels fi di (Some ref)) /\
  (forall ref, length ref <> length out -> ddlms_grad y out levels fi di (Some ref) = Raise ValueError).
Proof.
  intros y out levels fi di. split.
  - intros Nl. assert (N : slicer_levels levels <> []) by (destruct levels as [[|]|]; [congruence|discriminate|discriminate]).
    exists (map (sliced (slicer_levels levels)) out). rewrite map_length. split; auto. split.
    + intros k Hk. rewrite (map_nth_lt _ _ _ 0%Qc) by auto. now apply sliced_nearest.
    + unfold ddlms_grad. rewrite slicer_12; [|unfold wf_nda, vec; cbn; lia|auto|left; exists (length out); reflexivity]. cbn [bind data vec]. rewrite map_length, Nat.eqb_refl. reflexivity.
  - intros ref H. unfold ddlms_grad. apply Nat.eqb_neq in H. now rewrite H.
Qed.
Print Assumptions C45_reference.
(** A negative DFE index (documented as not allowed) raises IndexError instead of wrapping around. *)
Theorem C45_negative_dfe : forall (y out ref : list Qc) levels (fi di : list Z),
  length y = length ref -> length out = length ref -> Exists (fun j => j < 0) di ->
  exists ex, ddlms_grad y out levels fi di (Some ref) = Raise ex /\ ex = IndexError.
Proof.
  intros y out ref levels fi di Ly Lo Ex. exists IndexError. split; auto. unfold ddlms_grad. rewrite Lo, Nat.eqb_refl. cbn [negb bind].
  unfold np_sub. rewrite Lo, Nat.eqb_refl. cbn [bind]. unfold compute_derivatives. rewrite Ly.
  assert (Le : length (map2 Qcminus out ref) = length ref) by (rewrite map2_length; lia).
  rewrite (map_res_ok _ (fun i => option_map (fun m => half * m)%Qc (np_mean (map (fun m => sig 0 (map2 Qcminus out ref) m * sig 0 y (m - i))%Qc (overlap (length ref) i)))));
    [|intros i _; apply (ffe_tap _ _ _ (fun x => x)); [exact Ly|rewrite Le; apply Nat.le_refl]]. cbn [bind].
  assert (Bad : forall j, j < 0 -> grad_dfe_tap Qcmult np_mean (fun m => - half * m)%Qc (length ref) ref (map2 Qcminus out ref) j = Raise IndexError).
  { intros j Hj. unfold grad_dfe_tap. rewrite arange_one. cbn [bind].
    set (M := map _ _). assert (I : In (Z.of_nat (length ref) - 1) M) by (apply in_map_iff; exists (Z.to_nat (Z.of_nat (length ref) - 1 - j)); rewrite in_seq; lia). clearbody M.
    destruct (np_take (map2 Qcminus out ref) M) as [e|x] eqn:E; cbn [bind].
    - rewrite np_take_out; auto. apply Exists_exists. exists (Z.of_nat (length ref) - 1 - j). rewrite in_map_iff. split; [eauto|lia].
    - clear - E. unfold np_take in E. revert x E. induction M as [|m M IH]; cbn [map_res]; intros x E; [discriminate|].
      destruct (np_get _ m) as [v|] eqn:G; cbn [bind] in E; [destruct (map_res _ M); cbn [bind] in E; [discriminate|injection E as <-; now rewrite IH by reflexivity]|].
      injection E as <-. unfold np_get in G. destruct (np_index _ _); [destruct (nth_error _ _); [discriminate|]|]; injection G as <-; reflexivity. }
  assert (R : forall l, Exists (fun j => j < 0) l -> map_res (grad_dfe_tap Qcmult np_mean (fun m => - half * m)%Qc (length ref) ref (map2 Qcminus out ref)) l = Raise IndexError).
  { induction l as [|j l IH]; intros H; [inversion H|]. cbn [map_res]. destruct (Z.lt_ge_cases j 0); [now rewrite Bad|].
    rewrite (dfe_tap _ _ (fun x => x) _ 0%Qc) by lia. cbn [bind]. rewrite IH by (inversion H; subst; auto; lia). reflexivity. }
  rewrite R by auto. reflexivity.
Qed.
Print Assumptions C45_negative_dfe.
Definition q (l : list Z) : list Qc := map ofZ l.
Definition opts (l : list (option Qc)) : list (option Q) := map (option_map this) l.
Definition show_lms (r : res (lms_result (option Qc) (list (option Qc)))) : option (option Q * list (option Q) * list (option Q)) :=
  match r with Ok (LossBoth l f d) => Some (option_map this l, opts f, opts d) | _ => None end.
(** Taps -1, 0, 2 and 7 (no data) of the FFE and taps 1, 2 of the DFE; 4 samples. *)
Example C45_case :
  show_lms (ddlms_grad (q [1; 2; -1; 3]) (q [2; 1; -2; 4]) None [-1; 0; 2; 7] [1; 2] (Some (q [1; 1; -3; 3]))) =
    Some (Some (3 # 4)%Q, [Some (5 # 6)%Q; Some (3 # 8)%Q; Some (3 # 4)%Q; None], [Some (1 # 3)%Q; Some (- 1 # 2)%Q]) /\
  overlap 4 (-1) = [0; 1; 2] /\ overlap 4 2 = [2; 3] /\ overlap 4 7 = [] /\
  show_lms (ddlms_grad (q [1; 2; -1; 3]) (q [2; 1; -2; 4]) (Some (q [1; 3; -3])) [0] [1] None) =
    show_lms (ddlms_grad (q [1; 2; -1; 3]) (q [2; 1; -2; 4]) None [0] [1] (Some (q [1; 1; -3; 3]))) /\
  ddlms_grad (q [1; 2; -1; 3]) (q [2; 1; -2; 4]) None [] [2; -1] (Some (q [1; 1; -3; 3])) = Raise IndexError.
Proof. repeat split; vm_compute; reflexivity. Qed.
(** An equaliser with three FFE taps and one DFE tap meeting the hypothesis of the second theorem. *)
Example C45_case_equaliser :
  map this (map (equalised [-1; 0; 1] (q [1; 2; -1]) [1] (q [1]) (q [1; 2; -1; 3]) (q [1; 1; -3; 3])) (instants 4)) = map this (q [4; 1; -2; 10]) /\
  show_lms (ddlms_grad (q [1; 2; -1; 3]) (q [4; 1; -2; 10]) None [-1; 0; 1] [1] (Some (q [1; 1; -3; 3]))) =
    Some (Some (59 # 4)%Q, [Some (3 # 2)%Q; Some (23 # 8)%Q; Some (- 5 # 6)%Q], Some (10 # 3)%Q :: []).
Proof. split; vm_compute; reflexivity. Qed.

(** C47: the step is the sign of the weighted difference of the post- and precursor estimates, 0 below the tolerance. *)
Theorem C47_step : forall (s r : list Qc) pre_w post_w tol, length s = length r -> (2 <= length r)%nat ->
  let d := (postcursor s r * post_w - precursor s r * pre_w)%Qc in
  exists k, mueller_muller_step s r pre_w post_w tol = Ok (Some k) /\ (k = -1 \/ k = 0 \/ k = 1) /\
    ((0 < tol)%Qc -> (k = 0 <-> (Qcabs d < tol)%Qc)) /\
    (k = 1 <-> (0 < d /\ tol <= Qcabs d)%Qc) /\ (k = -1 <-> (d < 0 /\ tol <= Qcabs d)%Qc).
Proof.
  intros s r pw qw tol L H d. rewrite mm_eq by auto. fold d. cbv zeta. clearbody d. eexists. split; [reflexivity|].
  unfold np_sign. destruct (Qcltb (Qcabs d) tol) eqn:A; [|destruct (Qcltb 0 d) eqn:B; [|destruct (Qcltb d 0) eqn:C]];
    rewrite ?Qcltb_spec, ?Qcltb_false in *; repeat split; intros; auto; try lia; repeat match goal with X : (_ < _)%Qc /\ _ |- _ => destruct X end; exfalso; qabs.
Qed.
Print Assumptions C47_step.
(** Time reversal exchanges the two estimates; negating both inputs changes nothing. *)
Theorem C47_symmetry : forall (s r : list Qc) pre_w post_w tol, length s = length r -> (2 <= length r)%nat ->
  mueller_muller_step (rev s) (rev r) pre_w post_w tol =
    match mueller_muller_step s r post_w pre_w tol with Ok (Some k) => Ok (Some (- k)) | x => x end /\
  mueller_muller_step (map Qcopp s) (map Qcopp r) pre_w post_w tol = mueller_muller_step s r pre_w post_w tol.
Proof.
  intros s r pw qw tol L H. split.
  - rewrite mm_eq, mm_eq; rewrite ?rev_length; auto. rewrite rev_post, rev_pre by auto. cbv zeta.
    replace (precursor s r * qw - postcursor s r * pw)%Qc with (- (postcursor s r * pw - precursor s r * qw))%Qc by ring.
    rewrite np_sign_opp, Qcabs_opp. destruct (Qcltb _ _); reflexivity.
  - rewrite !mm_eq; rewrite ?map_length; auto. cbv zeta.
    replace (postcursor (map Qcopp s) (map Qcopp r)) with (postcursor s r);
      [replace (precursor (map Qcopp s) (map Qcopp r)) with (precursor s r); [reflexivity|]|];
      unfold postcursor, precursor; rewrite map_length; f_equal; apply sumQ_map_ext; intros; rewrite !signal_opp; ring.
Qed.
Print Assumptions C47_symmetry.
(** Symbols through a channel with first postcursor [h1] and first precursor [hm], any main cursor, any symbol
    sequence whose first and last symbol have the same energy: the step never points the wrong way, and it is the
    sign of [h1 - hm] as soon as the estimated difference reaches the tolerance. *)
Theorem C47_direction : forall (r : list Qc) h0 h1 hm tol, (2 <= length r)%nat ->
  (signal r 0 * signal r 0 = signal r (Z.of_nat (length r) - 1) * signal r (Z.of_nat (length r) - 1))%Qc ->
  let gain := ((energy r - lag_two r) / ofZ (Z.of_nat (length r) - 1))%Qc in
  exists k, mueller_muller_step (isi_signal h0 h1 hm r) r 1 1 tol = Ok (Some k) /\ (0 <= gain)%Qc /\
    (k = 1 -> (hm < h1)%Qc) /\ (k = -1 -> (h1 < hm)%Qc) /\
    ((0 < tol)%Qc -> (tol <= Qcabs (h1 - hm) * gain)%Qc -> ((hm < h1)%Qc -> k = 1) /\ ((h1 < hm)%Qc -> k = -1)).
Proof.
  intros r h0 h1 hm tol H E gain. rewrite mm_eq by (auto; unfold isi_signal, instants; now rewrite !map_length, seq_length). cbv zeta.
  rewrite !Qcmult_1_r, isi_difference by auto. fold gain.
  assert (G : (0 <= gain)%Qc).
  { unfold gain, Qcdiv. pose proof (lag_le_energy r H E). apply Qcle_trans with ((energy r - lag_two r) * 0)%Qc; [rewrite Qcmult_0_r; apply Qcle_refl|].
    rewrite !(Qcmult_comm (energy r - lag_two r)). apply Qcmult_le_compat_r; [|qlra].
    assert (0 < ofZ (Z.of_nat (length r) - 1))%Qc by (change 0%Qc with (ofZ 0); apply ofZ_lt; lia).
    destruct (Qclt_le_dec (/ ofZ (Z.of_nat (length r) - 1)) 0) as [C|]; auto. exfalso.
    assert (M : (ofZ (Z.of_nat (length r) - 1) * / ofZ (Z.of_nat (length r) - 1) = 1)%Qc) by (apply Qcmult_inv_r; intros X; rewrite X in *; now apply Qclt_not_eq in H1).
    set (u := ofZ _) in *. set (w := (/ u)%Qc) in *. clearbody u w. assert ((0 - w) * u <= 0)%Qc by (rewrite Qcmult_comm; replace (u * (0 - w))%Qc with (- (u * w))%Qc by ring; rewrite M; qcompute || (intros X; discriminate)).
    assert (0 * u <= (0 - w) * u)%Qc by (apply Qcmult_le_compat_r; qlra). replace ((0 - w) * u)%Qc with (- (u * w))%Qc in * by ring. rewrite M in *. clear - H3. rewrite Qcmult_0_l in H3. qlra. }
  clearbody gain. eexists. split; [reflexivity|]. split; [exact G|].
  assert (D : gain = 0%Qc \/ (0 < gain)%Qc) by (destruct (Qcle_lt_or_eq _ _ G); auto).
  assert (AM : Qcabs ((h1 - hm) * gain) = (Qcabs (h1 - hm) * gain)%Qc) by (rewrite Qcabs_Qcmult; f_equal; now apply Qcabs_pos).
  assert (Sg : forall k, (0 < gain)%Qc -> np_sign ((h1 - hm) * gain)%Qc = k -> np_sign (h1 - hm)%Qc = k) by (intros k P <-; now rewrite sign_times).
  destruct D as [->|P].
  - rewrite !Qcmult_0_r. change (np_sign 0) with 0. destruct (Qcltb _ _); (split; [lia|split; [lia|]]); intros T C; exfalso; qlra.
  - rewrite sign_times, AM by auto. split; [|split]; destruct (Qcltb _ tol) eqn:T; try lia; rewrite ?Qcltb_spec, ?Qcltb_false in *.
    + unfold np_sign. destruct (Qcltb 0 (h1 - hm)) eqn:A; [rewrite Qcltb_spec in A; intros; qlra|destruct (Qcltb (h1 - hm) 0); lia].
    + unfold np_sign. destruct (Qcltb 0 (h1 - hm)) eqn:A; [lia|destruct (Qcltb (h1 - hm) 0) eqn:B; [rewrite Qcltb_spec in B; intros; qlra|lia]].
    + intros _ C. exfalso. now apply Qclt_not_le in T.
    + intros _ _. unfold np_sign. split; intros X.
      * replace (Qcltb 0 (h1 - hm)) with true; auto. symmetry. apply Qcltb_spec. qlra.
      * replace (Qcltb 0 (h1 - hm)) with false by (symmetry; apply Qcltb_false; qlra). replace (Qcltb (h1 - hm) 0) with true; auto. symmetry. apply Qcltb_spec. qlra.
Qed.
Print Assumptions C47_direction.
(** Unequal lengths are refused. *)
Theorem C47_lengths : forall (s r : list Qc) pre_w post_w tol, (length s - 1 <> length r - 1)%nat -> mueller_muller_step s r pre_w post_w tol = Raise ValueError.
Proof.
  intros s r pw qw tol H. unfold mueller_muller_step, np_dot. rewrite !slice_to_m1, tl_length, firstn_length.
  replace (_ =? _)%nat with false by (symmetry; apply Nat.eqb_neq; lia). reflexivity.
Qed.
Print Assumptions C47_lengths.
(** Finding: the docstring compares amplitudes, the code compares signed values: with precursor -1 and postcursor 0
    the precursor has the larger amplitude but the step goes to the postcursor side. *)
Theorem C47_amplitude_refuted : exists s r : list Qc, length s = length r /\ (2 <= length r)%nat /\
  (Qcabs (postcursor s r) < Qcabs (precursor s r))%Qc /\ mueller_muller_step s r 1 1 (Q2Qc (1 # 1000)) = Ok (Some 1).
Proof.
  exists (isi_signal (ofZ 0) (ofZ 0) (ofZ (-1)) (q [1; 1; -1; -1; 1; 1])), (q [1; 1; -1; -1; 1; 1]). repeat split; try (vm_compute; reflexivity).
  vm_compute; lia.
Qed.
Print Assumptions C47_amplitude_refuted.
Example C47_case :
  map this (isi_signal (ofZ 4) (ofZ 2) (ofZ 1) (q [1; -1; -1; 1; 1; -1])) = map this (q [3; -3; -5; 3; 5; -2]) /\
  mueller_muller_step (isi_signal (ofZ 4) (ofZ 2) (ofZ 1) (q [1; -1; -1; 1; 1; -1])) (q [1; -1; -1; 1; 1; -1]) 1 1 (Q2Qc (1 # 1000)) = Ok (Some 1) /\
  mueller_muller_step (isi_signal (ofZ 4) (ofZ 1) (ofZ 2) (q [1; -1; -1; 1; 1; -1])) (q [1; -1; -1; 1; 1; -1]) 1 1 (Q2Qc (1 # 1000)) = Ok (Some (-1)) /\
  mueller_muller_step (isi_signal (ofZ 4) (ofZ 1) (ofZ 1) (q [1; -1; -1; 1; 1; -1])) (q [1; -1; -1; 1; 1; -1]) 1 1 (Q2Qc (1 # 1000)) = Ok (Some 0) /\
  mueller_muller_step (q [1; 2; 3]) (q [1; 2]) 1 1 (Q2Qc (1 # 1000)) = Raise ValueError.
Proof. repeat split; vm_compute; reflexivity. Qed.
