(** Proofs for C90: the adaptation loops are gradient descent on the mean squared error. *)
From Verif Require Import Py PyQ B_list B_qc M_slicer M_filter M_lms M_lmsloop S_rx S_filter S_estim S_lms S_lmsloop P_slicer P_eq P_lms P_linalg P_estim P_lasso P_lmsalg Prop_filter.
Open Scope Qc_scope.

Lemma overlap_count n i : (i < n)%nat -> length (overlap n (Z.of_nat i)) = (n - i)%nat.
Proof. intros H. rewrite overlap_interval, map_length, seq_length. lia. Qed.
Lemma instants_sm n (F : Z -> Qc) : sumQ (map F (instants n)) = sm n (fun m => F (Z.of_nat m)).
Proof. rewrite instants_map. reflexivity. Qed.
Lemma grad_value n e past i s : length e = n -> length past = n -> (i < n)%nat ->
  option_map (fun m => s * m) (np_mean (map (fun m => sig 0 e m * sig 0 past (m - Z.of_nat i)%Z) (overlap n (Z.of_nat i)))) =
  Some (s * (sm n (fun m => signal e (Z.of_nat m) * signal past (Z.of_nat m - Z.of_nat i)) / ofZ (Z.of_nat (n - i)))).
Proof.
  intros Le Lp Hi. rewrite overlap_signal by auto. pose proof (overlap_count n i Hi) as Lo. destruct (overlap n (Z.of_nat i)) as [|m0 M0] eqn:E; [cbn in Lo; lia|]. rewrite <- E in *.
  assert (N : np_mean (map (fun m => signal e m * signal past (m - Z.of_nat i)) (overlap n (Z.of_nat i))) = Some (meanQ (map (fun m => signal e m * signal past (m - Z.of_nat i)) (overlap n (Z.of_nat i))))) by (rewrite E; reflexivity).
  rewrite N. cbn [option_map]. do 2 f_equal. unfold meanQ. rewrite map_length, Lo, <- (overlap_sum n) by auto. now rewrite instants_sm.
Qed.
Lemma moved_eq lr b : forall (G : nat -> Qc) s, moved lr b (map (fun i => Some (G i)) (seq s (length b))) = Some (map (fun i => nth i b 0 - G (s + i)%nat * lr) (seq 0 (length b))).
Proof.
  induction b as [|v b IH]; intros G s; [reflexivity|]. cbn [length seq map moved]. rewrite IH. cbn [option_map]. do 2 f_equal; [now rewrite Nat.add_0_r|]. rewrite <- seq_shift, map_map. apply map_ext. intros i. cbn [nth]. do 3 f_equal. lia.
Qed.

Lemma apart_sm b : forall w, length w = length b -> apart b w = sm (length b) (fun i => sq (nth i b 0 - nth i w 0)).
Proof.
  unfold apart, sm. induction b as [|v b IH]; intros [|x w] Lw; cbn [length] in *; try discriminate; [reflexivity|]. cbn [map2 seq map]. rewrite !sumQ_cons, IH by lia. rewrite <- seq_shift, map_map. reflexivity.
Qed.
(** * Any pass which is a step of the descent *)
Section Passes.
  Context (n K : nat) (u : nat -> nat -> Qc) (r : nat -> Qc) (wt : nat -> Qc) (lr : Qc).
  Context (Hn : (0 < n)%nat) (Hw : forall i, (i < K)%nat -> 0 < wt i) (Hwn : forall i, (i < K)%nat -> wt i <= ofZ (Z.of_nat n)) (Hlr : 0 < lr) (Hsmall : forall i, (i < K)%nat -> lr * energy_of n K u <= wt i + wt i).
  Definition tap (b : list Qc) (i : nat) : Qc := nth i b 0.
  Definition total (b : list Qc) : Qc := loss n K u r (tap b).
  Definition mean_of (b : list Qc) : Qc := total b / ofZ (Z.of_nat n).
  Definition stepped (b : list Qc) : list Qc := map (fun i => next n K u r wt lr (tap b) i) (seq 0 K).
  Lemma stepped_length b : length (stepped b) = K. Proof. unfold stepped. now rewrite map_length, seq_length. Qed.
  Lemma loss_ext b c : (forall i, (i < K)%nat -> b i = c i) -> loss n K u r b = loss n K u r c.
  Proof. intros H. unfold loss. apply sm_ext. intros m _. unfold err. do 2 f_equal. unfold lin. apply sm_ext. intros i Hi. now rewrite H. Qed.
  Lemma next_ext b c i : (forall i, (i < K)%nat -> b i = c i) -> (i < K)%nat -> next n K u r wt lr b i = next n K u r wt lr c i.
  Proof. intros H Hi. unfold next, grad, slope. rewrite (H i Hi). do 3 f_equal. apply sm_ext. intros m _. unfold err. do 2 f_equal. unfold lin. apply sm_ext. intros j Hj. now rewrite H. Qed.
  Lemma tap_stepped b i : (i < K)%nat -> tap (stepped b) i = next n K u r wt lr (tap b) i.
  Proof. intros H. unfold tap at 1, stepped. rewrite nth_map_seq by auto. reflexivity. Qed.
  Lemma total_stepped b : total (stepped b) <= total b.
  Proof. unfold total at 1. rewrite (loss_ext _ (next n K u r wt lr (tap b))) by apply tap_stepped. now apply next_lower. Qed.
  Lemma W : 0 < ofZ (Z.of_nat n). Proof. change 0 with (ofZ 0). apply ofZ_lt. lia. Qed.
  Lemma W0 : ofZ (Z.of_nat n) <> 0. Proof. intros E. pose proof W as H. rewrite E in H. now apply (Qclt_not_eq _ _ H). Qed.
  Lemma mean_total b c : total b <= total c <-> mean_of b <= mean_of c.
  Proof.
    assert (E : forall b, mean_of b * ofZ (Z.of_nat n) = total b) by (intros d; unfold mean_of; field; exact W0). split; intros H.
    - apply (Qcmult_lt_0_le_reg_r _ _ (ofZ (Z.of_nat n))); [apply W|]. now rewrite !E.
    - rewrite <- (E b), <- (E c). apply Qcmult_le_compat_r; auto. apply Qclt_le_weak, W.
  Qed.
  Lemma mean_nonneg b : 0 <= mean_of b.
  Proof.
    apply (Qcmult_lt_0_le_reg_r _ _ (ofZ (Z.of_nat n))); [apply W|]. rewrite Qcmult_0_l. replace (mean_of b * ofZ (Z.of_nat n)) with (total b) by (unfold mean_of; field; exact W0). apply sm_sq_nonneg.
  Qed.
  Context (pass : list Qc -> res (option (Qc * list Qc))) (good : list Qc -> Prop).
  Context (Hgood : forall b, length b = K -> good b -> good (stepped b)).
  Context (Hpass : forall b, length b = K -> good b -> pass b = Ok (Some (mean_of b, stepped b))).
  Fixpoint steps (N : nat) (b : list Qc) : list Qc := match N with O => b | S N => stepped (steps N b) end.
  Lemma steps_length N b : length b = K -> length (steps N b) = K. Proof. destruct N; cbn [steps]; auto. intros _. apply stepped_length. Qed.
  Lemma steps_tap N b i : (i < K)%nat -> tap (steps N b) i = iterate n K u r wt lr N (tap b) i.
  Proof. revert i. induction N as [|N IH]; intros i Hi; cbn [steps iterate]; auto. rewrite tap_stepped by auto. now apply next_ext. Qed.
  Lemma steps_total N b : total (steps N b) = loss n K u r (iterate n K u r wt lr N (tap b)). Proof. apply loss_ext. intros i Hi. now apply steps_tap. Qed.
  Lemma steps_lower N b : total (steps N b) <= total b. Proof. rewrite steps_total. now apply iterate_lower. Qed.
  Lemma steps_good N b : length b = K -> good b -> good (steps N b). Proof. intros L H. induction N as [|N IH]; cbn [steps]; auto. apply Hgood; auto. now apply steps_length. Qed.
  Lemma steps_adapted N b : length b = K -> good b -> adapted pass N b (steps N b).
  Proof. intros L H. induction N as [|N IH]; cbn [steps]; [constructor|]. econstructor; [exact IH|]. apply Hpass; [now apply steps_length|now apply steps_good]. Qed.
  Lemma adapted_det N b c : length b = K -> good b -> adapted pass N b c -> c = steps N b.
  Proof.
    intros L H A. induction A as [b|N b c d l A IH E]; [reflexivity|]. specialize (IH L H). subst c. cbn [steps]. rewrite Hpass in E; [now injection E|now apply steps_length|now apply steps_good].
  Qed.
  Lemma dist_apart b w : length b = K -> length w = K -> dist K wt (tap w) (tap b) <= (ofZ (Z.of_nat n) + ofZ (Z.of_nat n)) * apart b w.
  Proof.
    intros Lb Lw. assert (E : apart b w = sm K (fun i => sq (tap b i - tap w i))) by (rewrite <- Lb; apply apart_sm; lia).
    rewrite E, <- sm_scale. unfold dist. apply sm_le. intros i Hi. apply Qcmult_le_compat_r; [|apply sq_nonneg]. specialize (Hwn i Hi). clear - Hwn. qlra.
  Qed.
  Lemma steps_rate N b w : length b = K -> length w = K -> ofZ (Z.of_nat N) * lr * (mean_of (steps N b) - mean_of w) <= (1 + 1) * apart b w.
  Proof.
    intros Lb Lw. pose proof (rate n K u r wt lr Hw Hlr Hsmall (tap w) N (tap b)) as R. rewrite <- steps_total in R. fold (total w) in R. pose proof (dist_apart b w Lb Lw) as D. pose proof (Qcle_trans _ _ _ R D) as T.
    apply (Qcmult_lt_0_le_reg_r _ _ (ofZ (Z.of_nat n))); [apply W|]. replace (ofZ (Z.of_nat N) * lr * (mean_of (steps N b) - mean_of w) * ofZ (Z.of_nat n)) with (ofZ (Z.of_nat N) * lr * (total (steps N b) - total w)) by (unfold mean_of; field; exact W0).
    replace ((1 + 1) * apart b w * ofZ (Z.of_nat n)) with ((ofZ (Z.of_nat n) + ofZ (Z.of_nat n)) * apart b w) by ring. exact T.
  Qed.
  (** * The loop *)
  Lemma loop_from floor tol N last b : length b = K -> good b -> mean_of b <= last ->
    exists e M, lms_loop pass floor tol N last b = Ok (Some e) /\ (M <= N)%nat /\ le_taps e = steps M b /\ (le_stopped e = false -> ofZ (Z.of_nat N) * tol <= last).
  Proof.
    revert last b. induction N as [|N IH]; intros last b L G H; cbn [lms_loop].
    - destruct (Qcltb floor last); cbn [negb]; eexists _, 0%nat; split; try reflexivity; split; try lia; split; try reflexivity; cbn [le_stopped]; intros F; try discriminate. change (ofZ (Z.of_nat 0)) with 0. rewrite Qcmult_0_l. eapply Qcle_trans; [apply (mean_nonneg b)|exact H].
    - destruct (Qcltb floor last); cbn [negb]; [|eexists _, 0%nat; split; [reflexivity|]; split; [lia|]; split; [reflexivity|]; cbn [le_stopped]; discriminate]. rewrite Hpass by auto. cbn [bind].
      destruct (Qcltb (Qcabs (mean_of b - last)) tol) eqn:E; [eexists _, 1%nat; split; [reflexivity|]; split; [lia|]; split; [reflexivity|]; cbn [le_stopped]; discriminate|]. apply Qcltb_false in E.
      assert (Gs : good (stepped b)) by (now apply Hgood). assert (Ms : mean_of (stepped b) <= mean_of b) by (apply mean_total, total_stepped).
      destruct (IH (mean_of b) (stepped b) (stepped_length b) Gs Ms) as (e & M & Ee & LM & Te & F). exists e, (S M). split; [exact Ee|]. split; [lia|]. split.
      + rewrite Te. clear. induction M as [|M IH]; [reflexivity|]. cbn [steps] in *. now rewrite IH.
      + intros S0. specialize (F S0). replace (Z.of_nat (S N)) with (Z.of_nat N + 1)%Z by lia. rewrite ofZ_add. change (ofZ 1) with 1. replace ((ofZ (Z.of_nat N) + 1) * tol) with (ofZ (Z.of_nat N) * tol + tol) by ring.
        assert (A : tol <= last - mean_of b) by (destruct (abs_cases (mean_of b - last)) as [[X Y]|[X Y]]; rewrite Y in E; clear - E X H; qlra). set (z := ofZ (Z.of_nat N) * tol) in *. clear - A F. qlra.
  Qed.
  Lemma loop_spec floor tol N last b : length b = K -> good b -> 0 < tol ->
    exists e M, lms_loop pass floor tol (S N) last b = Ok (Some e) /\ (M <= S N)%nat /\ adapted pass M b (le_taps e) /\ (mean_of b < ofZ (Z.of_nat N) * tol -> le_stopped e = true).
  Proof.
    intros L G T. cbn [lms_loop]. destruct (Qcltb floor last); cbn [negb]; [|eexists _, 0%nat; split; [reflexivity|]; split; [lia|]; split; [constructor|reflexivity]]. rewrite Hpass by auto. cbn [bind].
    destruct (Qcltb (Qcabs (mean_of b - last)) tol); [eexists _, 1%nat; split; [reflexivity|]; split; [lia|]; split; [exact (steps_adapted 1 b L G)|reflexivity]|].
    assert (Gs : good (stepped b)) by (now apply Hgood). assert (Ms : mean_of (stepped b) <= mean_of b) by (apply mean_total, total_stepped).
    destruct (loop_from floor tol N (mean_of b) (stepped b) (stepped_length b) Gs Ms) as (e & M & Ee & LM & Te & F). exists e, (S M). split; [exact Ee|]. split; [lia|]. split.
    - rewrite Te. replace (steps M (stepped b)) with (steps (S M) b) by (clear; induction M as [|M IH]; [reflexivity|]; cbn [steps] in *; now rewrite IH). now apply steps_adapted.
    - intros H. destruct (le_stopped e); auto. exfalso. specialize (F eq_refl). now apply (Qclt_not_le _ _ H).
  Qed.
  Definition losses (last : Qc) (b : list Qc) (k : nat) : Qc := match k with O => last | S k => mean_of (steps k b) end.
  Lemma steps_shift M b : steps M (stepped b) = steps (S M) b.
  Proof. induction M as [|M IH]; [reflexivity|]. cbn [steps] in *. now rewrite IH. Qed.
  Lemma loop_exact floor tol N last b : length b = K -> good b ->
    exists e M, lms_loop pass floor tol N last b = Ok (Some e) /\ (M <= N)%nat /\ le_taps e = steps M b /\ (forall k, (k < M)%nat -> ~ halts floor tol (losses last b) k) /\
      (le_stopped e = true <-> halts floor tol (losses last b) M) /\ (le_stopped e = false -> M = N).
  Proof.
    revert last b. induction N as [|N IH]; intros last b L G; cbn [lms_loop]; destruct (Qcltb floor last) eqn:F; cbn [negb].
    - apply Qcltb_spec in F. eexists _, 0%nat. split; [reflexivity|]. split; [lia|]. split; [reflexivity|]. split; [lia|]. split; [|reflexivity]. split; [discriminate|]. intros [H|(k & H & _)]; [now apply Qcle_not_lt in H|discriminate].
    - apply Qcltb_false in F. eexists _, 0%nat. split; [reflexivity|]. split; [lia|]. split; [reflexivity|]. split; [lia|]. split; [|discriminate]. split; [now left|reflexivity].
    - apply Qcltb_spec in F. assert (H0 : ~ halts floor tol (losses last b) 0) by (intros [H|(k & H & _)]; [now apply Qcle_not_lt in H|discriminate]).
      rewrite Hpass by auto. cbn [bind]. destruct (Qcltb (Qcabs (mean_of b - last)) tol) eqn:E.
      + apply Qcltb_spec in E. eexists _, 1%nat. split; [reflexivity|]. split; [lia|]. split; [reflexivity|]. split; [intros k Hk; now replace k with 0%nat by lia|]. split; [|discriminate]. split; [|reflexivity]. intros _. right. now exists 0%nat.
      + apply Qcltb_false in E. assert (Gs : good (stepped b)) by (now apply Hgood).
        destruct (IH (mean_of b) (stepped b) (stepped_length b) Gs) as (e & M & Ee & LM & Te & Hk & Hs & Hf).
        assert (Q : forall k, halts floor tol (losses (mean_of b) (stepped b)) k <-> halts floor tol (losses last b) (S k)).
        { intros k. unfold halts. assert (Lk : losses (mean_of b) (stepped b) k = losses last b (S k)) by (destruct k; [reflexivity|]; cbn [losses]; now rewrite steps_shift). rewrite Lk. split; intros [H|(j & Hj & H)]; auto; right.
          - subst k. exists (S j). split; [reflexivity|]. rewrite <- Lk. replace (losses last b (S j)) with (losses (mean_of b) (stepped b) j); [exact H|]. destruct j; [reflexivity|]. cbn [losses]. now rewrite steps_shift.
          - injection Hj as <-. destruct k as [|k]; [exfalso; cbn [losses steps] in H; now apply Qcle_not_lt in E|]. exists k. split; [reflexivity|]. rewrite Lk. replace (losses (mean_of b) (stepped b) k) with (losses last b (S k)); [exact H|]. destruct k; [reflexivity|]. cbn [losses]. now rewrite steps_shift. }
        exists e, (S M). split; [exact Ee|]. split; [lia|]. split; [now rewrite Te, steps_shift|]. split; [intros [|k] H; [exact H0|]; rewrite <- Q; apply Hk; lia|]. split; [now rewrite <- Q|]. intros H. now rewrite Hf.
    - apply Qcltb_false in F. eexists _, 0%nat. split; [reflexivity|]. split; [lia|]. split; [reflexivity|]. split; [lia|]. split; [|discriminate]. split; [now left|reflexivity].
  Qed.
End Passes.

(** * Sums over lists *)
Lemma map2_sm {A} (d : A) (F : A -> Qc -> Qc) b : forall idx, length idx = length b -> sumQ (map2 F idx b) = sm (length b) (fun i => F (nth i idx d) (nth i b 0)).
Proof.
  unfold sm. induction b as [|v b IH]; intros [|i idx] L; cbn [length] in *; try discriminate; [reflexivity|]. cbn [map2 seq map nth]. rewrite !sumQ_cons, IH by lia. f_equal. rewrite <- (seq_shift (length b)), map_map. reflexivity.
Qed.
Lemma instants_nth K i : (i < K)%nat -> nth i (instants K) 0%Z = Z.of_nat i. Proof. intros H. unfold instants. now rewrite nth_map_seq. Qed.
Lemma instants_length K : length (instants K) = K. Proof. unfold instants. now rewrite map_length, seq_length. Qed.
Lemma taps_output_sm g K b y m : length b = K -> taps_output (map g (instants K)) b y m = sm K (fun i => nth i b 0 * signal y (m - g (Z.of_nat i))).
Proof.
  intros L. unfold taps_output. rewrite (map2_sm (g 0%Z)) by (rewrite map_length, instants_length; lia). rewrite L. apply sm_ext. intros i Hi. rewrite map_nth, instants_nth by auto. reflexivity.
Qed.
Lemma power_sm l : total_power l = sm (length l) (fun m => sq (nth m l 0)).
Proof. unfold total_power, sm. induction l as [|v l IH]; [reflexivity|]. cbn [length seq map nth]. rewrite !sumQ_cons, IH. f_equal. rewrite <- seq_shift, map_map. reflexivity. Qed.
Lemma delayed_power y i : (i <= length y)%nat -> sm (length y) (fun m => sq (signal y (Z.of_nat m - Z.of_nat i))) <= total_power y.
Proof.
  intros H. rewrite power_sm. replace (length y) with (i + (length y - i))%nat at 1 by lia. rewrite sm_app. rewrite (sm_0 i) by (intros k Hk; rewrite signal_out by lia; reflexivity). rewrite Qcplus_0_l.
  rewrite (sm_ext _ _ (fun k => sq (nth k y 0))). 2:{ intros k Hk. replace (Z.of_nat (i + k) - Z.of_nat i)%Z with (Z.of_nat k) by lia. now rewrite signal_nat. }
  replace (length y) with ((length y - i) + i)%nat at 2 by lia. rewrite sm_app. assert (P : 0 <= sm i (fun k => sq (nth (length y - i + k) y 0))) by apply sm_sq_nonneg. set (z := sm i _) in *. set (z2 := sm (length y - i) _). clear - P. qlra.
Qed.
Lemma mean_sm n F r : length r = n -> squared_error (instants n) F r = sm n (fun m => sq (F (Z.of_nat m) - signal r (Z.of_nat m))) / ofZ (Z.of_nat n).
Proof. intros L. unfold squared_error, meanQ. rewrite map_length, instants_length, instants_sm. reflexivity. Qed.
Lemma loss_value n out r : length out = n -> length r = n -> (0 < n)%nat -> np_mean (map (fun e => e * e) (map2 Qcminus out r)) = Some (sm n (fun m => sq (signal out (Z.of_nat m) - signal r (Z.of_nat m))) / ofZ (Z.of_nat n)).
Proof.
  intros Lo Lr Hn. assert (Lm : length (map2 Qcminus out r) = n) by (rewrite map2_length; lia). assert (E : map (fun e => e * e) (map2 Qcminus out r) <> []) by (intros X; apply (f_equal (@length Qc)) in X; rewrite map_length, Lm in X; cbn in X; lia).
  unfold np_mean. destruct (map (fun e => e * e) (map2 Qcminus out r)) as [|z l] eqn:Q; [congruence|]. rewrite <- Q. f_equal. unfold meanQ. rewrite map_length, Lm. f_equal. fold (total_power (map2 Qcminus out r)). rewrite power_sm, Lm. apply sm_ext. intros m Hm. rewrite <- signal_nat, np_sub_signal by lia. reflexivity.
Qed.
(** * Right decisions *)
Lemma single_error n (e : nat -> Qc) d m : (m < n)%nat -> ofZ 4 * sm n (fun k => sq (e k)) < d * d -> 0 < d -> Qcabs (e m) + Qcabs (e m) < d.
Proof.
  intros Hm H Hd. assert (L : sq (e m) <= sm n (fun k => sq (e k))).
  { replace (sq (e m)) with (sm n (fun k => if (k =? m)%nat then sq (e k) else 0)).
    - apply sm_le. intros k _. destruct (k =? m)%nat; [apply Qcle_refl|apply sq_nonneg].
    - rewrite (sm_single n _ m Hm); [now rewrite Nat.eqb_refl|]. intros i _ Ni. now rewrite (proj2 (Nat.eqb_neq i m) Ni). }
  set (S := sm n _) in *. set (v := Qcabs (e m)). assert (Ev : sq (e m) = v * v) by (unfold v, sq; destruct (abs_cases (e m)) as [[_ ->]|[_ ->]]; ring). assert (Pv : 0 <= v) by (unfold v; destruct (abs_cases (e m)) as [[X ->]|[X ->]]; clear - X; qlra).
  apply Qcnot_le_lt. intros X. assert (D2 : d * d <= (v + v) * (v + v)).
  { eapply Qcle_trans; [apply Qcmult_le_compat_r; [exact X|now apply Qclt_le_weak]|]. rewrite (Qcmult_comm (v + v) d). apply Qcmult_le_compat_r; [exact X|]. clear - Pv. qlra. }
  replace ((v + v) * (v + v)) with (ofZ 4 * (v * v)) in D2 by (change (ofZ 4) with (1 + 1 + 1 + 1); ring). rewrite <- Ev in D2. assert (D3 : ofZ 4 * sq (e m) <= ofZ 4 * S) by (rewrite !(Qcmult_comm (ofZ 4)); apply Qcmult_le_compat_r; [exact L|discriminate]).
  set (z := ofZ 4 * S) in *. set (z2 := ofZ 4 * sq (e m)) in *. clear - D2 D3 H. qlra.
Qed.
(** All errors are below half of the distance of the levels. *)
Definition near (n : nat) (d : Qc) (e : nat -> Qc) : Prop := forall m, (m < n)%nat -> Qcabs (e m) + Qcabs (e m) < d.
Lemma near_total n K u r d b : ofZ 4 * total n K u r b < d * d -> 0 < d -> near n d (err K u r (tap b)).
Proof. intros H Hd m Hm. now apply single_error with (n := n). Qed.
Lemma right_decision levels r d n (e : nat -> Qc) m : spaced levels r d -> (m < n)%nat -> length r = n -> near n d e ->
  forall l l', In l levels -> In l' levels -> l <> l' -> Qcabs (e m) + Qcabs (e m) < Qcabs (l - l').
Proof. intros [S _] Hm L H l l' A B N. eapply Qclt_le_trans; [now apply H|]. now apply S. Qed.
Lemma own_decisions y out r levels fi di d n : length out = n -> length r = n -> (0 < n)%nat -> spaced (slicer_levels levels) r d ->
  near n d (fun k => signal out (Z.of_nat k) - signal r (Z.of_nat k)) -> ddlms_grad y out levels fi di None = ddlms_grad y out levels fi di (Some r).
Proof.
  intros Lo Lr Hn Sp H. assert (In_r : forall m, (m < n)%nat -> In (nth m r 0) (slicer_levels levels)) by (intros m Hm; apply (Forall_nth_lt _ _ _ 0 (proj2 Sp)); lia).
  assert (N : slicer_levels levels <> []) by (intros Q; specialize (In_r 0%nat Hn); rewrite Q in In_r; destruct In_r).
  unfold ddlms_grad. rewrite slicer_12; [|unfold wf_nda, vec; cbn; lia|auto|left; exists (length out); reflexivity]. cbn [bind data vec]. replace (length r =? length out)%nat with true by (symmetry; apply Nat.eqb_eq; lia). cbn [negb bind].
  replace (map (sliced (slicer_levels levels)) out) with r; [reflexivity|]. apply (nth_ext_def 0); [rewrite map_length; lia|]. intros m Hm. rewrite (map_nth_lt _ _ _ 0) by lia. symmetry.
  apply (matched_decision (slicer_levels levels) (nth m r 0) (nth m out 0 - nth m r 0)); [apply In_r; lia| |].
  - intros l Hl Nl. pose proof (right_decision _ _ _ n (fun k => signal out (Z.of_nat k) - signal r (Z.of_nat k)) m Sp ltac:(lia) Lr H l (nth m r 0) Hl (In_r m ltac:(lia)) Nl) as R. cbv beta in R. now rewrite !signal_nat in R.
  - replace (nth m r 0 + (nth m out 0 - nth m r 0)) with (nth m out 0) by ring. now apply sliced_nearest.
Qed.

(** * Feed forward taps *)
Definition ffe_u (y : list Qc) (i m : nat) : Qc := signal y (Z.of_nat m - Z.of_nat i).
Definition want (r : list Qc) (m : nat) : Qc := signal r (Z.of_nat m).
Definition ffe_wt (n i : nat) : Qc := ofZ (Z.of_nat (n - i)).
Lemma ffe_output y b levels : y <> [] -> b <> [] -> exists o, ffe_dfe y b None levels 1 0 None None = Ok o /\ length (output_of o) = length y /\
  forall m, (m < length y)%nat -> signal (output_of o) (Z.of_nat m) = lin (length b) (ffe_u y) (tap b) m.
Proof.
  intros Ny Nb. destruct (Nat.eq_dec (length b) 1) as [L|L].
  - eexists. split; [unfold ffe_dfe; rewrite L; cbn [Nat.eqb]; reflexivity|]. cbn [output_of]. split; [now rewrite map_length|]. intros m Hm. rewrite signal_nat, (map_nth_lt _ _ _ 0) by auto. rewrite L. unfold lin, sm. cbn [seq map]. rewrite sumQ_cons. unfold ffe_u, tap. rewrite Z.sub_0_r, signal_nat. cbn [sumQ fold_right]. change (ofZ 0) with 0. ring.
  - eexists. split; [apply ffe_only_spec; auto; [destruct b as [|? [|? ?]]; cbn in *; try congruence; lia|discriminate]|]. cbn [output_of]. split; [now rewrite map_length, seq_length|]. intros m Hm. rewrite signal_nat, nth_map_seq by auto. cbn [past_ffe]. unfold tap_sum, lin, sm. rewrite Nat.sub_0_r. apply sumQ_map_ext. intros i _. unfold tap, ffe_u. f_equal. rewrite Nat.add_0_l. unfold at_time.
    destruct (Z.ltb_spec (Z.of_nat m - Z.of_nat i) 0) as [H|H]; [rewrite signal_out by lia; destruct (Z.to_nat _); reflexivity|]. rewrite signal_nth by lia. reflexivity.
Qed.
Lemma half_slope s w : w <> 0 -> half * (s / w) = s / (w + w).
Proof. intros H. assert (T : half * (1 + 1) = 1) by (apply Qc_decomp; vm_compute; reflexivity). assert (T2 : 1 + 1 <> 0) by (intros X; apply (f_equal this) in X; vm_compute in X; discriminate). assert (E : half = 1 / (1 + 1)) by (transitivity (half * (1 + 1) / (1 + 1)); [field; exact T2|now rewrite T]). assert (W2 : w + w <> 0).
  { intros X. apply H. replace w with ((w + w) * half) by (rewrite E; field; exact T2). rewrite X. ring. }
  rewrite E. field. repeat split; auto. Qed.
Lemma ofZ_pos_ne k : (0 < k)%nat -> ofZ (Z.of_nat k) <> 0.
Proof. intros H E. change 0 with (ofZ 0) in E. apply ofZ_inj in E. lia. Qed.
Section Ffe.
  Context (y r : list Qc) (n : nat) (Ly : length y = n) (Lr : length r = n) (Hn : (0 < n)%nat) (lr : Qc) (levels : option (list Qc)).
  Lemma ffe_mean b : mean_of n (length b) (ffe_u y) (want r) b = ffe_error y r b.
  Proof.
    unfold ffe_error. rewrite Lr, mean_sm by auto. unfold mean_of, total, loss. f_equal. apply sm_ext. intros m _. unfold err, lin, want. do 2 f_equal. rewrite <- (map_id (instants (length b))), taps_output_sm by reflexivity. reflexivity.
  Qed.
  Lemma ffe_trained b o : b <> [] -> (length b <= n)%nat -> ffe_dfe y b None levels 1 0 None None = Ok o -> length (output_of o) = n -> (forall m, (m < n)%nat -> signal (output_of o) (Z.of_nat m) = lin (length b) (ffe_u y) (tap b) m) ->
    exists l g, ddlms_grad y (output_of o) levels (map Z.of_nat (seq 0 (length b))) [] (Some r) = Ok (LossFfe (Some l) g) /\ l = ffe_error y r b /\ moved lr b g = Some (stepped n (length b) (ffe_u y) (want r) (ffe_wt n) lr b).
  Proof.
    intros Nb Lb Ho Lo So. rewrite ddlms_eq by (auto; lia || constructor). rewrite map_length, seq_length. unfold return_function. replace (length b =? 0)%nat with false by (symmetry; apply Nat.eqb_neq; destruct b; cbn in *; congruence). cbn [andb length Nat.eqb map]. rewrite (loss_value n) by auto. do 2 eexists. split; [reflexivity|]. split.
    - rewrite <- ffe_mean. unfold mean_of, total, loss. f_equal. apply sm_ext. intros m Hm. unfold err, want. now rewrite So.
    - rewrite map_map. assert (G : map (fun i => option_map (fun m => half * m) (np_mean (map (fun m => sig 0 (map2 Qcminus (output_of o) r) m * sig 0 y (m - Z.of_nat i)%Z) (overlap (length r) (Z.of_nat i))))) (seq 0 (length b)) = map (fun i => Some (grad n (length b) (ffe_u y) (want r) (ffe_wt n) (tap b) i)) (seq 0 (length b))).
      { apply map_ext_in. intros i Hi. apply in_seq in Hi. rewrite Lr, (grad_value n) by (rewrite ?map2_length; lia). f_equal. rewrite half_slope by (apply ofZ_pos_ne; lia). unfold grad, ffe_wt. f_equal. unfold slope. apply sm_ext. intros m Hm. unfold err, want, ffe_u. rewrite np_sub_signal, So by lia. reflexivity. }
      rewrite G, moved_eq. f_equal. unfold stepped. apply map_ext. intros i. unfold next, tap. rewrite Nat.add_0_l. ring.
  Qed.
  Lemma ffe_pass_trained b : b <> [] -> (length b <= n)%nat -> lms_ffe_pass y levels (Some r) lr b = Ok (Some (mean_of n (length b) (ffe_u y) (want r) b, stepped n (length b) (ffe_u y) (want r) (ffe_wt n) lr b)).
  Proof.
    intros Nb Lb. assert (Ny : y <> []) by (intros ->; cbn in Ly; lia). destruct (ffe_output y b levels Ny Nb) as (o & Eo & Lo & So). rewrite Ly in *. unfold lms_ffe_pass. rewrite Eo. cbn [bind].
    destruct (ffe_trained b o Nb Lb Eo Lo So) as (l & g & -> & -> & Mv). cbn [bind with_loss]. rewrite Mv, ffe_mean. reflexivity.
  Qed.
  Lemma ffe_pass_own b d : b <> [] -> (length b <= n)%nat -> spaced (slicer_levels levels) r d -> near n d (err (length b) (ffe_u y) (want r) (tap b)) -> lms_ffe_pass y levels None lr b = lms_ffe_pass y levels (Some r) lr b.
  Proof.
    intros Nb Lb Sp H. assert (Ny : y <> []) by (intros ->; cbn in Ly; lia). destruct (ffe_output y b levels Ny Nb) as (o & Eo & Lo & So). rewrite Ly in *. unfold lms_ffe_pass. rewrite Eo. cbn [bind].
    rewrite (own_decisions y (output_of o) r levels _ _ d n); auto. intros m Hm. specialize (H m Hm). unfold err, want in H. now rewrite So.
  Qed.
  Context (b0 : list Qc) (Nb : b0 <> []) (Lb : (length b0 <= n)%nat) (Hlr : 0 < lr) (Hs : lr * (ofZ (Z.of_nat (length b0)) * total_power y) <= ofZ (2 * Z.of_nat (n - length b0 + 1))).
  Lemma ffe_small i : (i < length b0)%nat -> 0 < ffe_wt n i /\ ffe_wt n i <= ofZ (Z.of_nat n) /\ lr * energy_of n (length b0) (ffe_u y) <= ffe_wt n i + ffe_wt n i.
  Proof.
    intros Hi. unfold ffe_wt. split; [change 0 with (ofZ 0); apply ofZ_lt; lia|]. split; [apply ofZ_le; lia|]. eapply Qcle_trans; [|eapply Qcle_trans; [exact Hs|rewrite <- ofZ_add; apply ofZ_le; lia]].
    rewrite !(Qcmult_comm lr). apply Qcmult_le_compat_r; [|now apply Qclt_le_weak]. unfold energy_of. rewrite sm_swap. rewrite <- sm_const. apply sm_le. intros j Hj. rewrite <- Ly. apply delayed_power. lia.
  Qed.
End Ffe.

(** * Feedback taps *)
Definition dfe_u (r : list Qc) (j m : nat) : Qc := - signal r (Z.of_nat m - Z.of_nat (S j)).
Definition dfe_want (y r : list Qc) (m : nat) : Qc := signal r (Z.of_nat m) - signal y (Z.of_nat m).
Definition dfe_wt (n j : nat) : Qc := ofZ (Z.of_nat (n - S j)).
Section Dfe.
  Context (y r : list Qc) (n : nat) (Ly : length y = n) (Lr : length r = n) (Hn : (0 < n)%nat) (lr d : Qc) (levels : option (list Qc)) (Sp : spaced (slicer_levels levels) r d).
  Lemma dfe_err a m : err (length a) (dfe_u r) (dfe_want y r) (tap a) m = signal y (Z.of_nat m) - sm (length a) (fun j => nth j a 0 * signal r (Z.of_nat m - Z.succ (Z.of_nat j))) - signal r (Z.of_nat m).
  Proof.
    unfold err, lin, dfe_want. replace (sm (length a) (fun i => tap a i * dfe_u r i m)) with (- (1) * sm (length a) (fun j => nth j a 0 * signal r (Z.of_nat m - Z.succ (Z.of_nat j)))); [ring|]. rewrite <- sm_scale. apply sm_ext. intros j _. unfold tap, dfe_u. rewrite Nat2Z.inj_succ. ring.
  Qed.
  Lemma dfe_mean a : mean_of n (length a) (dfe_u r) (dfe_want y r) a = dfe_error y r a.
  Proof.
    unfold dfe_error. rewrite Lr, mean_sm by auto. unfold mean_of, total, loss. f_equal. apply sm_ext. intros m _. rewrite dfe_err. f_equal. rewrite taps_output_sm by reflexivity. reflexivity.
  Qed.
  Lemma dfe_output a : a <> [] -> near n d (err (length a) (dfe_u r) (dfe_want y r) (tap a)) ->
    exists o, ffe_dfe y [ofZ 1] (Some a) levels 1 0 None None = Ok o /\ length (output_of o) = n /\
      forall m, (m < n)%nat -> signal (output_of o) (Z.of_nat m) - signal r (Z.of_nat m) = err (length a) (dfe_u r) (dfe_want y r) (tap a) m.
  Proof.
    intros Na H. assert (Ny : y <> []) by (intros ->; cbn in Ly; lia). set (e := err (length a) (dfe_u r) (dfe_want y r) (tap a)).
    destruct (C44_matched_dfe r (map e (seq 0 n)) a y levels 0) as (zd & E & _); auto; try congruence.
    - rewrite map_length, seq_length. congruence.
    - intros m Hm. rewrite Ly in Hm. rewrite nth_map_seq, Nat.add_0_l by auto. unfold e. rewrite dfe_err, !signal_nat. unfold tap_sum. cbn [length]. rewrite Nat.sub_0_r. cbn [seq map]. rewrite sumQ_cons. cbn [nth]. rewrite <- seq_shift, map_map. 
      replace (at_time [] r (Z.of_nat m - Z.of_nat 0)) with (nth m r 0).
      2:{ unfold at_time. destruct (Z.ltb_spec (Z.of_nat m - Z.of_nat 0) 0); [lia|]. f_equal. lia. }
      change (ofZ 1) with 1. unfold sm.
      replace (map (fun x => nth x a 0 * at_time [] r (Z.of_nat m - Z.of_nat (S x))) (seq 0 (length a))) with (map (fun j => nth j a 0 * signal r (Z.of_nat m - Z.succ (Z.of_nat j))) (seq 0 (length a))); [change (fold_right Qcplus (Q2Qc 0)) with sumQ; ring|].
      apply map_ext. intros j. cbn [nth]. f_equal. rewrite Nat2Z.inj_succ. unfold at_time. destruct (Z.ltb_spec (Z.of_nat m - Z.succ (Z.of_nat j)) 0); [rewrite signal_out by lia; destruct (Z.to_nat _); reflexivity|]. now rewrite signal_nth by lia.
    - apply Sp.
    - intros m l l' Hm Il Il' Ne. rewrite Ly in Hm. rewrite nth_map_seq by auto. apply Qclt_le_trans with d; [now apply H|now apply Sp].
    - eexists. split; [exact E|]. cbn [output_of]. split; [rewrite map2_length, map_length, seq_length; lia|]. intros m Hm. rewrite !signal_nat, (map2_nth _ _ _ _ 0 0) by (rewrite ?map_length, ?seq_length; lia). rewrite nth_map_seq, Nat.add_0_l by auto. change (e m) with (err (length a) (dfe_u r) (dfe_want y r) (tap a) m). ring.
  Qed.
  Lemma dfe_pass_trained a : a <> [] -> (length a < n)%nat -> near n d (err (length a) (dfe_u r) (dfe_want y r) (tap a)) ->
    lms_dfe_pass y levels (Some r) lr a = Ok (Some (mean_of n (length a) (dfe_u r) (dfe_want y r) a, stepped n (length a) (dfe_u r) (dfe_want y r) (dfe_wt n) lr a)).
  Proof.
    intros Na La H. destruct (dfe_output a Na H) as (o & Eo & Lo & So). unfold lms_dfe_pass. rewrite Eo. cbn [bind].
    rewrite ddlms_eq; [|congruence|congruence|apply Forall_forall; intros z Hz; apply in_map_iff in Hz; destruct Hz as (k & <- & _); lia].
    rewrite map_length, seq_length. unfold return_function. replace (length a =? 0)%nat with false by (symmetry; apply Nat.eqb_neq; destruct a; cbn in *; congruence). cbn [andb length Nat.eqb map bind]. rewrite (loss_value n) by auto.
    rewrite map_map. assert (G : map (fun i => option_map (fun m => - half * m) (np_mean (map (fun m => sig 0 (map2 Qcminus (output_of o) r) m * sig 0 r (m - Z.of_nat i)%Z) (overlap (length r) (Z.of_nat i))))) (seq 1 (length a)) = map (fun i => Some (grad n (length a) (dfe_u r) (dfe_want y r) (dfe_wt n) (tap a) (i - 1))) (seq 1 (length a))).
    { apply map_ext_in. intros i Hi. apply in_seq in Hi. rewrite Lr, (grad_value n) by (rewrite ?map2_length; lia). f_equal. replace (n - i)%nat with (n - S (i - 1))%nat by lia. fold (dfe_wt n (i - 1)). assert (Wn : dfe_wt n (i - 1) <> 0) by (apply ofZ_pos_ne; lia).
      unfold grad. rewrite <- half_slope by exact Wn.
      replace (slope n (length a) (dfe_u r) (dfe_want y r) (tap a) (i - 1)) with (- (1) * sm n (fun m => signal (map2 Qcminus (output_of o) r) (Z.of_nat m) * signal r (Z.of_nat m - Z.of_nat i))); [field; exact Wn|].
      unfold slope. rewrite <- sm_scale. apply sm_ext. intros m Hm. rewrite np_sub_signal by lia. rewrite So by auto. unfold dfe_u. replace (S (i - 1))%nat with i by lia. ring. }
    rewrite G, (moved_eq lr a (fun i => grad n (length a) (dfe_u r) (dfe_want y r) (dfe_wt n) (tap a) (i - 1))). cbn [with_loss]. do 3 f_equal.
    - unfold mean_of, total, loss. f_equal. apply sm_ext. intros m Hm. now rewrite So.
    - unfold stepped. apply map_ext. intros i. unfold next, tap. replace (1 + i - 1)%nat with i by lia. ring.
  Qed.
  Lemma dfe_pass_own a : a <> [] -> near n d (err (length a) (dfe_u r) (dfe_want y r) (tap a)) -> lms_dfe_pass y levels None lr a = lms_dfe_pass y levels (Some r) lr a.
  Proof.
    intros Na H. destruct (dfe_output a Na H) as (o & Eo & Lo & So). unfold lms_dfe_pass. rewrite Eo. cbn [bind].
    rewrite (own_decisions y (output_of o) r levels _ _ d n); auto. intros m Hm. rewrite So by auto. now apply H.
  Qed.
  Context (a0 : list Qc) (Na : a0 <> []) (La : (length a0 < n)%nat) (Hlr : 0 < lr) (Hs : lr * (ofZ (Z.of_nat (length a0)) * total_power r) <= ofZ (2 * Z.of_nat (n - length a0))).
  Lemma dfe_small i : (i < length a0)%nat -> 0 < dfe_wt n i /\ dfe_wt n i <= ofZ (Z.of_nat n) /\ lr * energy_of n (length a0) (dfe_u r) <= dfe_wt n i + dfe_wt n i.
  Proof.
    intros Hi. unfold dfe_wt. split; [change 0 with (ofZ 0); apply ofZ_lt; lia|]. split; [apply ofZ_le; lia|]. eapply Qcle_trans; [|eapply Qcle_trans; [exact Hs|rewrite <- ofZ_add; apply ofZ_le; lia]].
    rewrite !(Qcmult_comm lr). apply Qcmult_le_compat_r; [|now apply Qclt_le_weak]. unfold energy_of. rewrite sm_swap. rewrite <- sm_const. apply sm_le. intros j Hj. rewrite <- Lr. apply Qcle_trans with (sm (length r) (fun m => sq (signal r (Z.of_nat m - Z.of_nat (S j))))); [|apply delayed_power; lia].
    apply sm_le. intros m Hm. unfold dfe_u, sq. match goal with |- ?x <= ?y => replace x with y by ring; apply Qcle_refl end.
  Qed.
End Dfe.

(** * All together *)
Section All.
  Context (n K : nat) (u : nat -> nat -> Qc) (r : nat -> Qc) (wt : nat -> Qc) (lr : Qc) (Hn : (0 < n)%nat) (Hlr : 0 < lr).
  Context (Hs : forall i, (i < K)%nat -> 0 < wt i /\ wt i <= ofZ (Z.of_nat n) /\ lr * energy_of n K u <= wt i + wt i).
  Context (pass : list Qc -> res (option (Qc * list Qc))) (good : list Qc -> Prop) (error : list Qc -> Qc).
  Context (Hgood : forall b, length b = K -> good b -> good (stepped n K u r wt lr b)).
  Context (Hpass : forall b, length b = K -> good b -> pass b = Ok (Some (mean_of n K u r b, stepped n K u r wt lr b))).
  Context (Herr : forall b, length b = K -> mean_of n K u r b = error b).
  Lemma all_descends N b : length b = K -> good b -> descends pass error lr N b.
  Proof.
    intros L G. pose proof (fun i Hi => proj1 (Hs i Hi)) as H1. pose proof (fun i Hi => proj1 (proj2 (Hs i Hi))) as H2. pose proof (fun i Hi => proj2 (proj2 (Hs i Hi))) as H3. pose proof (steps_length n K u r wt lr N b L) as Lc.
    exists (steps n K u r wt lr N b). split; [now apply steps_adapted with good|]. split; [intros c'; now apply (adapted_det n K u r wt lr pass good Hgood Hpass)|]. split; [now rewrite L|]. split.
    - rewrite <- !Herr by auto. apply mean_total with wt lr; auto. now apply steps_lower.
    - intros w Lw. rewrite <- !Herr by (auto; congruence). change (ofZ 2) with (1 + 1). apply steps_rate with pass good; auto. congruence.
  Qed.
  Lemma all_loop floor tol N last b l : length b = K -> good b -> 0 < tol -> l 0%nat = last -> (forall k c, adapted pass k b c -> l (S k) = error c) ->
    exists e M, lms_loop pass floor tol (S N) last b = Ok (Some e) /\ (M <= S N)%nat /\ adapted pass M b (le_taps e) /\
      (forall k, (k < M)%nat -> ~ halts floor tol l k) /\ (le_stopped e = true <-> halts floor tol l M) /\ (le_stopped e = false -> M = S N) /\ (error b < ofZ (Z.of_nat N) * tol -> le_stopped e = true).
  Proof.
    intros L G T L0 LS. pose proof (fun i Hi => proj1 (Hs i Hi)) as H1. pose proof (fun i Hi => proj1 (proj2 (Hs i Hi))) as H2. pose proof (fun i Hi => proj2 (proj2 (Hs i Hi))) as H3.
    rewrite <- (Herr b) by auto. destruct (loop_spec n K u r wt lr Hn H1 H2 Hlr H3 pass good Hgood Hpass floor tol N last b L G T) as (e & _ & Ee & _ & _ & S0).
    destruct (loop_exact n K u r wt lr Hn H1 H2 H3 pass good Hgood Hpass floor tol (S N) last b L G) as (e' & M & Ee' & LM & Te & Hk & Hst & Hf). rewrite Ee in Ee'. injection Ee' as <-.
    assert (Ll : forall k, losses n K u r wt lr last b k = l k).
    { intros [|k]; [now rewrite L0|]. cbn [losses]. rewrite Herr by now apply steps_length. symmetry. apply LS. now apply steps_adapted with good. }
    assert (Lh : forall k, halts floor tol (losses n K u r wt lr last b) k <-> halts floor tol l k).
    { intros k. unfold halts. rewrite Ll. split; intros [H|(j & Hj & H)]; auto; right; exists j; rewrite ?Ll in *; auto. }
    exists e, M. split; [exact Ee|]. split; [exact LM|]. split; [rewrite Te; now apply steps_adapted with good|]. split; [intros k H; rewrite <- Lh; auto|]. split; [now rewrite <- Lh|]. split; auto.
  Qed.
End All.
Lemma margin_good n K u r d b c : ofZ 4 * total n K u r b < d * d -> total n K u r c <= total n K u r b -> ofZ 4 * total n K u r c < d * d.
Proof. intros H T. clear - H T. change (ofZ 4) with (1 + 1 + 1 + 1) in *. qlra. Qed.
Lemma total_mean n K u r b : (0 < n)%nat -> total n K u r b = ofZ (Z.of_nat n) * mean_of n K u r b.
Proof. intros Hn. unfold mean_of. field. now apply ofZ_pos_ne. Qed.

(** * One sample and one tap *)
Lemma one_error v s c : ffe_error [v] [s] [c] = sq (c * v - s).
Proof.
  rewrite <- (ffe_mean [v] [s] 1 eq_refl [c]). unfold mean_of, total, loss, err, lin, sm. cbn [length seq map]. unfold sumQ. cbn [fold_right]. unfold tap, ffe_u, want. cbn [nth]. change (signal [v] (Z.of_nat 0 - Z.of_nat 0)) with v. change (signal [s] (Z.of_nat 0)) with s. change (ofZ (Z.of_nat 1)) with 1. unfold sq. field. discriminate.
Qed.
Lemma one_pass v s c levels lr : lms_ffe_pass [v] levels (Some [s]%list) lr [c] = Ok (Some (sq (c * v - s), [c - lr * (half * ((c * v - s) * v))]%list)).
Proof.
  rewrite (ffe_pass_trained [v] [s] 1) by (auto; discriminate). rewrite ffe_mean, one_error by reflexivity. do 4 f_equal. unfold stepped. cbn [length seq map]. f_equal. unfold next, grad. rewrite <- half_slope by (apply ofZ_pos_ne; lia). unfold slope, err, lin, sm. cbn [seq map]. unfold sumQ. cbn [fold_right]. unfold tap, ffe_u, want. cbn [nth]. change (signal [v] (Z.of_nat 0 - Z.of_nat 0)) with v. change (signal [s] (Z.of_nat 0)) with s. change (ffe_wt 1 0) with 1. field. discriminate.
Qed.
