(** Proofs for C87: the phase search and the equalisers behind it. *)
From Verif Require Import Py PyQ B_list B_qc M_aux M_prbs M_symbol M_levels M_estim M_estimfs M_rxsearch S_aux S_lock S_chanest S_estimfs S_rxsearch P_aux P_coding P_buffer P_lock P_chanest P_chanref P_linalgR P_estimfs P_estimsc P_estimls.
From Coq Require Import Reals Lra Lia.
Import List ListNotations.
Open Scope R_scope.

(** * Alignment *)
Lemma argmaxR_from_spec l : forall best bi i, exists k, argmaxR_from best bi i l = k /\
  ((k = bi /\ forall j, (j < length l)%nat -> atR l j <= best) \/
   exists j, (j < length l)%nat /\ k = (i + j)%nat /\ best < atR l j /\ (forall j', (j' < length l)%nat -> atR l j' <= atR l j) /\ (forall j', (j' < j)%nat -> atR l j' < atR l j)).
Proof.
  induction l as [|x l IH]; intros best bi i; cbn [argmaxR_from]; eexists; (split; [reflexivity|]). { left. split; auto. intros j Hj. cbn in Hj. lia. }
  destruct (Rlt_dec best x) as [B|B].
  - destruct (IH x i (S i)) as (k & -> & [(-> & H)|(j & Hj & -> & G & M & F)]); right.
    + exists 0%nat. unfold atR in *; cbn [nth length]. split; [lia|]. split; [lia|]. split; auto. split; [|intros; lia]. intros [|j'] Hj'; unfold atR in *; cbn [nth length]; [lra|]. apply H. lia.
    + exists (S j). unfold atR in *; cbn [nth length]. split; [lia|]. split; [lia|]. split; [lra|]. split; [intros [|j'] Hj'; unfold atR in *; cbn [nth length]; [lra|apply M; lia]|intros [|j'] Hj'; unfold atR in *; cbn [nth length]; [lra|apply F; lia]].
  - destruct (IH best bi (S i)) as (k & -> & [(-> & H)|(j & Hj & -> & G & M & F)]).
    + left. split; auto. intros [|j'] Hj'; unfold atR in *; cbn [nth length]; [lra|]. apply H. cbn in Hj'. lia.
    + right. exists (S j). unfold atR in *; cbn [nth length]. split; [lia|]. split; [lia|]. split; [lra|]. split; [intros [|j'] Hj'; unfold atR in *; cbn [nth length]; [lra|apply M; lia]|intros [|j'] Hj'; unfold atR in *; cbn [nth length]; [lra|apply F; lia]].
Qed.
Lemma argmaxR_spec l : l <> [] -> exists k, argmaxR l = Ok k /\ (k < length l)%nat /\ (forall j, (j < length l)%nat -> atR l j <= atR l k) /\ (forall j, (j < k)%nat -> atR l j < atR l k).
Proof.
  destruct l as [|x l]; [congruence|]. intros _. cbn [argmaxR]. destruct (argmaxR_from_spec l x 0%nat 1%nat) as (k & -> & [(-> & H)|(j & Hj & -> & G & M & F)]); eexists; (split; [reflexivity|]); cbn [length].
  - split; [lia|]. split; [|intros; lia]. intros [|j] Hj; unfold atR in *; cbn [nth length]; [lra|apply H; lia].
  - change (1 + j)%nat with (S j). split; [lia|]. unfold atR in *. cbn [nth]. split; intros [|j'] Hj'; cbn [nth]; try lra; [apply M; lia|apply F; lia].
Qed.
Lemma correlation_mod pc s m j : pc <> [] -> correlation pc s m (j mod length pc) = correlation pc s m j.
Proof. intros N. apply smR_ext. intros i _. do 2 f_equal. apply Nat.add_mod_idemp_l. destruct pc; [congruence|unfold atR in *; cbn [nth length]; lia]. Qed.
Lemma lockR_spec pc s : pc <> [] -> s <> [] -> exists start xc, lock_pattern_to_signal_R pc s = Ok (rotated 0 start pc, xc) /\ aligned_at pc s start.
Proof.
  intros NP NS. set (P := length pc). set (m := Nat.min P (length s)). assert (HP : (0 < P)%nat) by (unfold P; destruct pc; [congruence|cbn; lia]).
  assert (Hm : (0 < m <= P)%nat) by (unfold m; destruct s; [congruence|cbn [length]; lia]). set (xc := map (correlation pc s m) (seq 0 (2 * P - m + 1))).
  assert (E : correlate_validR (tile 2 pc) (firstn m s) = xc).
  { unfold correlate_validR. rewrite tile_length, firstn_length. fold P. replace (Nat.min m (length s)) with m by lia.
    replace ((2 * P =? 0)%nat || (m =? 0)%nat)%bool with false by (symmetry; apply Bool.orb_false_iff; split; apply Nat.eqb_neq; lia).
    apply map_ext_in. intros k Hk. apply in_seq in Hk. rewrite (dotR_at _ _ m) by (rewrite firstn_length, ?skipn_length, ?tile_length; fold P; lia). apply smR_ext. intros i Hi.
    rewrite !atR_firstn, atR_skipn by auto. unfold atR. rewrite tile_nth by (fold P; lia). reflexivity. }
  destruct (argmaxR_spec xc) as (k & Ek & Lk & Mk & Fk). { intros Q. apply (f_equal (@length R)) in Q. unfold xc in Q. rewrite map_length, seq_length in Q. cbn [length] in Q. lia. }
  unfold xc in Lk, Mk, Fk. rewrite map_length, seq_length in Lk, Mk.
  assert (X : forall j, (j < 2 * P - m + 1)%nat -> atR (map (correlation pc s m) (seq 0 (2 * P - m + 1))) j = correlation pc s m j) by (intros; now rewrite atR_mapseq).
  assert (KP : (k < P)%nat).
  { destruct (Nat.lt_ge_cases k P) as [H|H]; auto. exfalso. assert (B : (k mod P < P)%nat) by (apply Nat.mod_upper_bound; lia).
    specialize (Fk (k mod P)%nat ltac:(lia)). rewrite !X in Fk by lia. unfold P in Fk at 1. rewrite correlation_mod in Fk by auto. lra. }
  exists k, xc. split.
  - unfold lock_pattern_to_signal_R. fold P m. rewrite E, Ek. cbn [bind]. do 2 f_equal. now apply slice_rotated.
  - split; [exact KP|]. fold P m. split; intros j.
    + rewrite <- (correlation_mod _ _ _ j) by auto. fold P. assert (B : (j mod P < P)%nat) by (apply Nat.mod_upper_bound; lia). specialize (Mk (j mod P)%nat ltac:(lia)). rewrite !X in Mk by lia. auto.
    + intros Hj. specialize (Fk j Hj). rewrite !X in Fk by lia. auto.
Qed.
Lemma aligned_unique pc s a b : aligned_at pc s a -> aligned_at pc s b -> a = b.
Proof.
  intros (_ & M1 & F1) (_ & M2 & F2). destruct (Nat.lt_trichotomy a b) as [Q|[->|Q]]; auto; exfalso; [specialize (F2 a Q); specialize (M1 b)|specialize (F1 b Q); specialize (M2 a)]; lra.
Qed.
(** * The reference *)
Definition unit_of (c : constellation) (fs : bool) : R := if fs then level_rms c else 1.
Lemma unit_pos c fs : 0 < unit_of c fs. Proof. destruct fs; cbn; [apply level_rms_pos|lra]. Qed.
Lemma levels_unit c fs : get_levels_R c fs = map (fun z => IZR z * / unit_of c fs) (get_levels c).
Proof. destruct fs; [apply levels_scaled|]. cbn. apply map_ext. intros; field. Qed.
Lemma codedR_spec t c fs : c <> PAM3 -> exists pc, prbs_coded_R t c fs false false false false = Ok pc /\ reference_levels t c fs pc /\ (length pc = plen t \/ length pc = (2 * plen t)%nat) /\
  forall n, (n < length pc)%nat -> atR pc n = atR pc (n mod plen t).
Proof.
  intros Hc. destruct (coded_spec t c false false false false Hc) as (q & E & L & Per). destruct (coded_reference t c false false false false Hc) as (q' & E' & Rf). rewrite E in E'. injection E' as <-.
  exists (map (fun x => real x * / unit_of c fs) q). rewrite (coded_map (/ unit_of c fs)) by apply levels_unit. rewrite E. cbn [on_ok]. split; auto. split; [exists q; split; auto|]. rewrite map_length. split; auto.
  intros n Hn. assert (n mod plen t < length q)%nat by (pose proof (plen_pos t); pose proof (Nat.mod_upper_bound n (plen t)); lia).
  unfold atR. rewrite !(map_nth_lt _ q _ 0%Qc) by auto. now rewrite (Per n Hn).
Qed.
Lemma reference_levels_unique t c fs pc pc' : c <> PAM3 -> reference_levels t c fs pc -> reference_levels t c fs pc' -> pc = pc'.
Proof. intros Hc (q & H & ->) (q' & H' & ->). f_equal. eapply reference_unique; eauto. Qed.
(** * The estimate at one phase *)
Lemma equalised_ext m m' r r' f d n P : (forall i, (i < P)%nat -> m i = m' i) -> (forall i, (i < P)%nat -> r i = r' i) -> (n + length f - 1 < P)%nat -> (n < P)%nat -> equalised m r f d n = equalised m' r' f d n.
Proof. intros Hm Hr H1 H2. unfold equalised. apply (f_equal2 Rminus); apply smR_ext; intros k Hk; f_equal; [apply Hm|apply Hr]; lia. Qed.
Section Phase.
Context (st : settings) (lasso : list (list R) -> list R -> R -> list R).
Let P := period (st_prbs st).
Let w := st_ffe_len st.
Let sh := Nat.max (st_post st) (st_dfe st).
Let rows := (P - (sh + st_pre st + 1))%nat.
Context (Hc : st_const st <> PAM3) (Long : (sh + st_pre st + 1 < P)%nat) (Few : (Nat.min (st_post st) (st_dfe st) < 2)%nat).
Definition fitted (pc s : list R) (start : nat) (f d : list R) (mse : option R) : Prop :=
  let m := averaged P s in let r := fun n => pattern_symbol P pc start (n + sh) in
  best_taps m r w (st_dfe st) (st_dfe st) rows f d /\
  (forall v, mse = Some v <-> normalised_error m r f d (st_dfe st) rows v) /\
  (forall f' d' v, best_taps m r w (st_dfe st) (st_dfe st) rows f' d' -> normalised_error m r f' d' (st_dfe st) rows v -> mse = Some v).
Lemma averageR_at s n : (n < P)%nat -> atR (average_periodsR P s) n = averaged P s n.
Proof.
  intros Hn. unfold average_periodsR. cbv zeta. rewrite atR_mapseq by auto. unfold averaged, meanR. rewrite map_length, seq_length, INR_IZR_INZ. reflexivity.
Qed.
Lemma estimate_spec s pc : (P <= length s)%nat -> reference_levels (st_prbs st) (st_const st) (st_full_scale st) pc ->
  exists start f d e mse, aligned_at pc s start /\ st_estimate lasso st s = Ok (mk_estR (TapsR f) (if (0 <? st_dfe st)%nat then TapsR d else NoTapsR) 1 e mse) /\ fitted pc s start f d mse.
Proof.
  intros Ls Rf. pose proof (plen_pos (st_prbs st)) as PP. fold P in PP. destruct (codedR_spec (st_prbs st) (st_const st) (st_full_scale st) Hc) as (pc' & E & Rf' & Lp & Per). assert (pc' = pc) by (eapply reference_levels_unique; eauto). subst pc'. fold P in Lp, Per.
  destruct (lockR_spec pc s) as (start & xc & El & Al). { intros ->. cbn in Lp. lia. } { intros ->. cbn in Ls. lia. }
  exists start. unfold st_estimate, equalization_estimation_prbs_R. cbv zeta. rewrite E. cbn [bind]. rewrite El. cbn [bind fst]. rewrite plen_Z, Nat2Z.id. fold P sh.
  assert (Tk : np_take (rotated 0 start pc) (shift_idx sh P) = Ok (map (fun n => pattern_symbol P pc start (n + sh)) (seq 0 P))).
  { unfold shift_idx. rewrite (np_take_map _ 0). 2:{ apply Forall_forall. intros z Hz. apply in_map_iff in Hz as (i & <- & Hi). rewrite rotated_length. apply in_app_iff in Hi as [Hi|Hi]; apply in_seq in Hi; lia. }
    f_equal. rewrite map_map. apply (nth_ext_def 0); [rewrite !map_length, app_length, !seq_length; lia|]. intros i Hi. rewrite map_length, app_length, !seq_length in Hi.
    rewrite (nth_map_seq (fun n => pattern_symbol P pc start (n + sh))) by lia. rewrite (map_nth_lt _ _ _ 0%nat) by (rewrite app_length, !seq_length; lia). rewrite Nat2Z.id. cbn [Nat.add].
    assert (Rs : forall j, (j < P)%nat -> nth j (rotated 0 start pc) 0 = pattern_symbol P pc start j).
    { intros j Hj. rewrite rotated_nth by lia. unfold pattern_symbol. change (atR pc ((start + j) mod length pc) = atR pc ((start + j) mod P)). rewrite Per by (apply Nat.mod_upper_bound; lia). f_equal. destruct Lp as [-> | ->]; [now rewrite Nat.mod_mod by lia|].
      rewrite (Nat.mul_comm 2). rewrite Nat.mod_mul_r by lia. rewrite (Nat.mul_comm P), Nat.mod_add by lia. now rewrite Nat.mod_mod by lia. }
    assert (W : forall j, pattern_symbol P pc start (j mod P) = pattern_symbol P pc start j) by (intros j; unfold pattern_symbol; f_equal; now rewrite Nat.add_mod_idemp_r by lia).
    destruct (Nat.lt_ge_cases i (P - sh)) as [Q|Q].
    - rewrite app_nth1 by (rewrite seq_length; auto). rewrite seq_nth by auto. rewrite Rs by lia. f_equal. lia.
    - rewrite app_nth2 by (rewrite seq_length; auto). rewrite seq_length, seq_nth by lia. cbn [Nat.add]. rewrite Rs by lia. rewrite <- (W (i + sh)%nat). f_equal. apply (Nat.mod_unique _ _ 1); lia. }
  rewrite Tk. cbn [bind]. replace (length s / P =? 0)%nat with false by (symmetry; apply Nat.eqb_neq; intros Z; apply Nat.div_small_iff in Z; lia).
  set (r := map _ (seq 0 P)). set (m := average_periodsR P s). assert (Lm : length m = P) by (unfold m, average_periodsR; now rewrite map_length, seq_length). assert (Lr : length r = length m) by (unfold r; rewrite map_length, seq_length; auto).
  destruct (estimR_spec m r (st_post st) (st_pre st) (st_dfe st) Lr ltac:(rewrite Lm; exact Long) Few lasso) as (e & Ee).
  set (f := fR m r (st_post st) (st_pre st) (st_dfe st)) in *. set (d := dR m r (st_post st) (st_pre st) (st_dfe st)) in *.
  exists f, d, e, (ratioR m r (st_post st) (st_pre st) (st_dfe st) f d). split; auto. split; [exact Ee|].
  assert (Hm : forall i, (i < P)%nat -> averaged P s i = atR m i) by (intros; symmetry; now apply averageR_at). assert (Hr : forall i, (i < P)%nat -> pattern_symbol P pc start (i + sh) = atR r i) by (intros; unfold r; now rewrite atR_mapseq).
  assert (Eq : forall f' d' i, length f' = w -> (i < rows)%nat -> equalised (averaged P s) (fun n => pattern_symbol P pc start (n + sh)) f' d' (st_dfe st + i) = equalised (atR m) (atR r) f' d' (st_dfe st + i)).
  { intros f' d' i Lf Hi. apply (equalised_ext _ _ _ _ _ _ _ P); auto; rewrite ?Lf; unfold w, st_ffe_len, rows, sh in *; lia. }
  assert (Es : forall f' d', length f' = w -> squared_error (averaged P s) (fun n => pattern_symbol P pc start (n + sh)) f' d' (st_dfe st) rows = squared_error (atR m) (atR r) f' d' (st_dfe st) rows).
  { intros f' d' Lf. apply smR_ext. intros i Hi. rewrite Eq by auto. rewrite (Hr (st_dfe st + i)%nat) by (unfold rows, sh in *; lia). reflexivity. }
  assert (Eo : forall f' d', length f' = w -> output_power (averaged P s) (fun n => pattern_symbol P pc start (n + sh)) f' d' (st_dfe st) rows = output_power (atR m) (atR r) f' d' (st_dfe st) rows).
  { intros f' d' Lf. apply smR_ext. intros i Hi. now rewrite Eq by auto. }
  assert (Rw : (length m - (Nat.max (st_post st) (st_dfe st) + st_pre st + 1))%nat = rows) by (rewrite Lm; reflexivity).
  pose proof (fR_best m r (st_post st) (st_pre st) (st_dfe st) Lr ltac:(rewrite Lm; exact Long) Few) as B. fold f d in B. rewrite Rw in B. destruct B as (Lf & Ld & B).
  assert (Bt : forall f' d', best_taps (averaged P s) (fun n => pattern_symbol P pc start (n + sh)) w (st_dfe st) (st_dfe st) rows f' d' -> best_taps (atR m) (atR r) w (st_dfe st) (st_dfe st) rows f' d').
  { intros f' d' (L1 & L2 & O). split; auto. split; auto. intros f1 d1 L3 L4. rewrite <- !Es by auto. auto. }
  assert (Nv : forall f' d' v, length f' = w -> (ratioR m r (st_post st) (st_pre st) (st_dfe st) f' d' = Some v <-> normalised_error (averaged P s) (fun n => pattern_symbol P pc start (n + sh)) f' d' (st_dfe st) rows v)).
  { intros f' d' v L1. unfold ratioR, normalised_error. rewrite Rw, Es, Eo by auto. destruct (Req_EM_T _ 0) as [Z|Z]; split; try tauto; try discriminate; intros H; [injection H as <-; auto|]. now destruct H as (_ & ->). }
  split. { split; auto. split; auto. intros f' d' L1 L2. rewrite !Es by auto. auto. } split; [intros v; now apply Nv|].
  intros f' d' v Bf Hv. assert (Lf' : length f' = w) by apply Bf. apply Nv in Hv; auto. rewrite <- Hv. symmetry. apply best_ratio; auto; [rewrite Lm; exact Long|]. rewrite Rw. now apply Bt.
Qed.
End Phase.
(** * The search *)
Lemma search_loop_ok est cols : (forall s, In s cols -> exists e, est s = Ok e) -> forall ii best, exists r, search_loop est cols ii best = Ok r.
Proof.
  induction cols as [|s cols IH]; intros H ii best; cbn [search_loop]; [eauto|]. destruct (H s (or_introl eq_refl)) as (e & ->). cbn [bind]. apply IH. intros; apply H; now right.
Qed.
Lemma below_trans a b c : below a b = true -> below b c = true -> below a c = true.
Proof. destruct a, b, c; cbn; try congruence. repeat destruct (Rlt_dec _ _); auto; intros; exfalso; lra. Qed.
Lemma below_irr a : below a a = false.
Proof. destruct a; cbn; auto. destruct (Rlt_dec _ _); auto. lra. Qed.
Lemma below_cases a b c : below a b = false -> below c b = true -> below c a = true.
Proof. destruct a, b, c; cbn; try congruence. repeat destruct (Rlt_dec _ _); auto; intros; exfalso; lra. Qed.
Lemma below_not a b c : below a b = false -> below c b = true -> below a c = false.
Proof. destruct a, b, c; cbn; try congruence. repeat destruct (Rlt_dec _ _); auto; intros; exfalso; lra. Qed.
Definition kept (i : nat) (e : estimateR) : found := mk_found (r_ffe e) (r_dfe e) (r_mse e) (Z.of_nat i).
Lemma search_loop_spec est cols (E : nat -> estimateR) : (forall i, (i < length cols)%nat -> est (nth i cols []) = Ok (E i)) -> forall ii best r, search_loop est cols ii best = Ok r ->
  (r = best /\ forall i, (i < length cols)%nat -> below (r_mse (E i)) (fd_err best) = false) \/
  exists j, (j < length cols)%nat /\ r = kept (ii + j) (E j) /\ below (r_mse (E j)) (fd_err best) = true /\
    (forall i, (i < length cols)%nat -> below (r_mse (E i)) (r_mse (E j)) = false) /\ (forall i, (i < j)%nat -> below (r_mse (E j)) (r_mse (E i)) = true).
Proof.
  revert E. induction cols as [|s cols IH]; intros E HE ii best r; cbn [search_loop length] in *. { intros H. injection H as <-. left. split; auto. intros; lia. }
  pose proof (HE 0%nat ltac:(lia)) as E0. cbn [nth] in E0. rewrite E0. cbn [bind]. intros H. apply (IH (fun i => E (S i))) in H. 2:{ intros i Hi. apply (HE (S i)). lia. }
  unfold consider in H. destruct (below (r_mse (E 0%nat)) (fd_err best)) eqn:B.
  - right. destruct H as [(-> & H)|(j & Hj & -> & Bj & M & F)]; cbn [fd_err] in *.
    + exists 0%nat. split; [lia|]. split; [unfold kept; now rewrite Nat.add_0_r|]. split; auto. split; [|intros; lia]. intros [|i] Hi; [apply below_irr|]. apply H. lia.
    + exists (S j). split; [lia|]. split; [f_equal; lia|]. split; [eapply below_trans; eauto|]. split.
      * intros [|i] Hi; [|apply M; lia]. destruct (below (r_mse (E 0%nat)) (r_mse (E (S j)))) eqn:C; auto. pose proof (below_trans _ _ _ C Bj) as D. now rewrite below_irr in D.
      * intros [|i] Hi; auto. apply F. lia.
  - destruct H as [(-> & H)|(j & Hj & -> & Bj & M & F)].
    + left. split; auto. intros [|i] Hi; auto. apply H. lia.
    + right. exists (S j). split; [lia|]. split; [f_equal; lia|]. split; auto. split.
      * intros [|i] Hi; [|apply M; lia]. eapply below_not; eauto.
      * intros [|i] Hi; [|apply F; lia]. eapply below_cases; eauto.
Qed.

(** * Columns *)
Lemma sample_at_phase osr p x n : (0 < osr)%nat -> sample (at_phase osr p x) n = sample x (n * osr + p).
Proof.
  intros Ho. destruct (Nat.lt_ge_cases n (symbols osr x)) as [H|H]; [exact (atR_mapseq (fun n => sample x (n * osr + p)) _ _ H)|]. unfold sample at 1. rewrite nth_overflow by (unfold at_phase; now rewrite map_length, seq_length). unfold sample. rewrite nth_overflow; auto.
  unfold symbols in H. pose proof (Nat.div_mod (length x + osr - 1) osr ltac:(lia)). pose proof (Nat.mod_upper_bound (length x + osr - 1) osr ltac:(lia)). nia.
Qed.
Lemma at_phase_length osr p x : length (at_phase osr p x) = symbols osr x. Proof. unfold at_phase. now rewrite map_length, seq_length. Qed.
Lemma symbols_ceil osr (x : list R) : (0 < osr)%nat -> ceil_div (Z.of_nat 0 + Z.of_nat (length x) - Z.max 0 0)%Z (Z.of_nat osr - 0)%Z = symbols osr x.
Proof.
  intros H. unfold ceil_div, symbols. change (Z.max 0 0) with 0%Z. rewrite !Z.sub_0_r. change (Z.of_nat 0) with 0%Z. rewrite Z.add_0_l. replace (Z.of_nat (length x) + Z.of_nat osr - 1)%Z with (Z.of_nat (length x + osr - 1)) by lia. rewrite <- Nat2Z.inj_div. apply Nat2Z.id.
Qed.
Lemma delayed0 (s : list R) i : delayed 0 0 s i = sample s i.
Proof. unfold delayed. cbn [Nat.ltb Nat.leb]. rewrite Nat.sub_0_r. reflexivity. Qed.
Lemma buffer_rows osr (x : list R) : (0 < osr)%nat -> x <> [] -> buffer 0 Reqb x (Z.of_nat osr) 0 0 false = Ok (map (fun j => map (fun p => sample x (j * osr + p)) (seq 0 osr)) (seq 0 (symbols osr x))).
Proof.
  intros Ho Nx. etransitivity; [apply (buffer_noclip 0 Reqb x osr 0 0%Z); auto; lia|]. rewrite symbols_ceil by auto. f_equal. apply map_ext. intros j. unfold frame. apply map_ext. intros p. rewrite delayed0. f_equal. rewrite Z.sub_0_r, Nat2Z.id. lia.
Qed.
Lemma columns_spec osr (x : list R) : columnsR (Z.of_nat osr) (map (fun j => map (fun p => sample x (j * osr + p)) (seq 0 osr)) (seq 0 (symbols osr x))) = map (fun p => at_phase osr p x) (seq 0 osr).
Proof.
  unfold columnsR. rewrite Nat2Z.id. apply map_ext_in. intros p Hp. apply in_seq in Hp. rewrite map_map. unfold at_phase. apply map_ext. intros j. now apply (atR_mapseq (fun p => sample x (j * osr + p))).
Qed.
Section Search.
Context (st : settings) (lasso : list (list R) -> list R -> R -> list R) (osr : nat) (x : list R).
Let P := period (st_prbs st).
Context (Hc : st_const st <> PAM3) (Ho : st_osr st = Z.of_nat osr) (O0 : (0 < osr)%nat) (Enough : (P <= symbols osr x)%nat)
  (Long : (Nat.max (st_post st) (st_dfe st) + st_pre st + 1 < P)%nat) (Few : (Nat.min (st_post st) (st_dfe st) < 2)%nat).
Definition fitsS := best_fit P (st_post st) (st_pre st) (st_dfe st).
Definition errS := fit_error P (st_post st) (st_pre st) (st_dfe st).
Definition silentS := fit_silent P (st_post st) (st_pre st) (st_dfe st).
Lemma x_some : x <> [].
Proof. intros ->. pose proof (plen_pos (st_prbs st)) as PP. fold P in PP. unfold symbols in Enough. cbn [length] in Enough. rewrite (Nat.div_small (0 + osr - 1)) in Enough by lia. lia. Qed.
Lemma phase_estimates pc : reference_levels (st_prbs st) (st_const st) (st_full_scale st) pc -> forall p, exists start f d e, st_estimate lasso st (at_phase osr p x) = Ok e /\
  r_ffe e = TapsR f /\ r_dfe e = (if (0 <? st_dfe st)%nat then TapsR d else NoTapsR) /\ fitsS pc (at_phase osr p x) start f d /\ (forall v, r_mse e = Some v <-> errS pc (at_phase osr p x) start f d v) /\
  (forall start' f' d' v, fitsS pc (at_phase osr p x) start' f' d' -> errS pc (at_phase osr p x) start' f' d' v -> r_mse e = Some v).
Proof.
  intros Rf p. destruct (estimate_spec st lasso Hc Long Few (at_phase osr p x) pc) as (start & f & d & e & mse & A & E & B & N & O); auto. { now rewrite at_phase_length. }
  exists start, f, d. eexists. split; [exact E|]. cbn [r_ffe r_dfe r_mse]. split; auto. split; auto. split; [split; auto|]. split; [exact N|].
  intros start' f' d' v (A' & B') N'. rewrite (aligned_unique _ _ _ _ A' A) in *. eapply O; eauto.
Qed.
Theorem phase_search_spec pc : reference_levels (st_prbs st) (st_const st) (st_full_scale st) pc -> exists fd, phase_search lasso st x = Ok (map (fun p => at_phase osr p x) (seq 0 osr), fd) /\
  ((exists p start f d v, (p < osr)%nat /\ fd = mk_found (TapsR f) (if (0 <? st_dfe st)%nat then TapsR d else NoTapsR) (Some v) (Z.of_nat p) /\
      fitsS pc (at_phase osr p x) start f d /\ errS pc (at_phase osr p x) start f d v /\
      forall p' start' f' d' v', (p' < osr)%nat -> fitsS pc (at_phase osr p' x) start' f' d' -> errS pc (at_phase osr p' x) start' f' d' v' -> v <= v' /\ ((p' < p)%nat -> v < v')) \/
   (fd = mk_found (TapsR (repeat 0 (st_ffe_len st))) (TapsR (repeat 0 (st_dfe st))) None (-1) /\
      forall p start f d, (p < osr)%nat -> fitsS pc (at_phase osr p x) start f d -> silentS pc (at_phase osr p x) start f d)).
Proof.
  intros Rf. pose proof (phase_estimates pc Rf) as Es. unfold phase_search. rewrite Ho, buffer_rows by (auto; apply x_some). cbn [bind]. rewrite columns_spec. set (cols := map _ (seq 0 osr)). assert (Lc : length cols = osr) by (unfold cols; now rewrite map_length, seq_length).
  assert (Nc : forall i, (i < osr)%nat -> nth i cols [] = at_phase osr i x) by (intros; unfold cols; now rewrite nth_map_seq).
  assert (exists E : nat -> estimateR, forall p, (p < osr)%nat -> st_estimate lasso st (at_phase osr p x) = Ok (E p)) as (E & HE).
  { exists (fun p => match st_estimate lasso st (at_phase osr p x) with Ok e => e | Raise _ => mk_estR NoTapsR NoTapsR 0 [] None end). intros p Hp. destruct (Es p) as (start & f & d & e & -> & _). reflexivity. }
  set (best := mk_found (TapsR (repeat 0 (st_ffe_len st))) _ _ _).
  destruct (search_loop_ok (st_estimate lasso st) cols) with (ii := 0%nat) (best := best) as (fd & Ef). { intros s Hs. unfold cols in Hs. apply in_map_iff in Hs as (p & <- & Hp). destruct (Es p) as (start & f & d & e & Ee & _). eauto. }
  rewrite Ef. cbn [bind]. exists fd. split; auto. apply (search_loop_spec _ _ E) in Ef. 2:{ intros i Hi. rewrite Lc in Hi. rewrite Nc by auto. auto. }
  assert (At : forall p, (p < osr)%nat -> exists start f d, r_ffe (E p) = TapsR f /\ r_dfe (E p) = (if (0 <? st_dfe st)%nat then TapsR d else NoTapsR) /\ fitsS pc (at_phase osr p x) start f d /\ (forall v, r_mse (E p) = Some v <-> errS pc (at_phase osr p x) start f d v) /\
    (forall start' f' d' v, fitsS pc (at_phase osr p x) start' f' d' -> errS pc (at_phase osr p x) start' f' d' v -> r_mse (E p) = Some v)).
  { intros p Hp. destruct (Es p) as (start & f & d & e & Ee & H). rewrite HE in Ee by auto. injection Ee as <-. exists start, f, d. exact H. }
  destruct Ef as [(-> & H)|(j & Hj & -> & Bj & M & F)]; [right; split; auto|left].
  - intros p start f d Hp Fi. destruct (At p Hp) as (start' & f' & d' & _ & _ & _ & _ & U). specialize (H p ltac:(lia)). cbn [fd_err best] in H. unfold silentS, fit_silent, fitted_on.
    set (o := output_power _ _ _ _ _ _). destruct (Req_EM_T o 0) as [Z|Z]; auto. exfalso. rewrite (U _ _ _ _ Fi (conj Z eq_refl)) in H. discriminate.
  - rewrite Lc in *. destruct (At j Hj) as (start & f & d & Ef & Ed & Fi & N & U). cbn [fd_err best] in Bj. destruct (r_mse (E j)) as [v|] eqn:Ev; [|discriminate]. cbn [Nat.add]. exists j, start, f, d, v. split; auto. split; [unfold kept; now rewrite Ef, Ed, Ev|]. split; auto. split; [now apply N|].
    intros p' start' f' d' v' Hp' Fi' Er'. destruct (At p' Hp') as (_ & _ & _ & _ & _ & _ & _ & U'). pose proof (U' _ _ _ _ Fi' Er') as E'. split.
    + specialize (M p' Hp'). rewrite E' in M. cbn in M. destruct (Rlt_dec v' v); [discriminate|lra].
    + intros Lt. specialize (F p' Lt). rewrite E' in F. cbn in F. destruct (Rlt_dec v v'); [lra|discriminate].
Qed.
End Search.
(** * The oversampled feed forward filter *)
Lemma smR_zero n f : (forall i, (i < n)%nat -> f i = 0) -> smR n f = 0.
Proof. intros H. rewrite (smR_ext n f (fun _ => 0)) by auto. clear H. induction (seq 0 n) as [|a l IH]; cbn; [reflexivity|]. unfold sumR in IH. cbn in IH. rewrite IH. lra. Qed.
Lemma smR_step W r (g : nat -> R) : (0 < r)%nat -> (forall i, (i < W * r)%nat -> (i mod r)%nat <> 0%nat -> g i = 0) -> smR (W * r) g = smR W (fun k => g (k * r)%nat).
Proof.
  intros Hr. induction W as [|W IH]; intros H; [reflexivity|]. replace (S W * r)%nat with (W * r + r)%nat by lia. rewrite (smR_split (W * r)), IH by (intros; apply H; auto; lia). replace (S W) with (W + 1)%nat by lia. rewrite (smR_split W). f_equal.
  destruct r as [|r]; [lia|]. replace (S r) with (1 + r)%nat at 1 by lia. rewrite (smR_split 1). rewrite (smR_zero r). 2:{ intros i Hi. apply H; [lia|]. replace (W * S r + (1 + i))%nat with (1 + i + W * S r)%nat by lia. rewrite Nat.mod_add by lia. rewrite Nat.mod_small; lia. }
  cbn [seq map sumR fold_right]. rewrite !Nat.add_0_r. unfold sumR. cbn. lra.
Qed.
Lemma fir_upsampled osr f x y N p : (0 < osr)%nat -> (p < osr)%nat -> length y = (length f * osr)%nat -> (forall i, (i < length f * osr)%nat -> nth i y 0 = if (i mod osr =? 0)%nat then nth (i / osr) f 0 else 0) ->
  (N * osr + p < length x)%nat -> atR (firR y x) (N * osr + p) = filtered f (at_phase osr p x) N.
Proof.
  intros Ho Hp Ly Ny Hn. unfold firR. rewrite atR_mapseq by auto. rewrite Ly. rewrite (smR_step _ _ _ Ho).
  2:{ intros i Hi Hm. destruct (Nat.leb_spec i (N * osr + p)); auto. change (vec_atR y i) with (nth i y 0). rewrite Ny by auto. destruct (Nat.eqb_spec (i mod osr) 0); [lia|]. lra. }
  apply smR_ext. intros k Hk. replace (k * osr <=? N * osr + p)%nat with (k <=? N)%nat by (apply Bool.eq_iff_eq_true; rewrite !Nat.leb_le; split; nia). destruct (Nat.leb_spec k N) as [Q|Q]; auto.
  change (vec_atR y (k * osr)) with (nth (k * osr) y 0). rewrite Ny by nia. rewrite Nat.mod_mul, Nat.div_mul by lia. cbn [Nat.eqb]. rewrite sample_at_phase by auto. f_equal. unfold vec_atR, sample. f_equal. nia.
Qed.
Lemma filtered_zero n s N : filtered (repeat 0 n) s N = 0.
Proof. unfold filtered. apply smR_zero. intros k Hk. destruct (k <=? N)%nat; auto. unfold sample. rewrite nth_repeat. lra. Qed.
Lemma symbols_skip osr w (x : list R) : (0 < osr)%nat -> symbols osr (skipn (w * osr) x) = (symbols osr x - w)%nat.
Proof.
  intros Ho. unfold symbols. rewrite skipn_length. destruct (Nat.le_gt_cases (w * osr) (length x)) as [Q|Q].
  - replace (length x + osr - 1)%nat with (length x - w * osr + osr - 1 + w * osr)%nat by lia. rewrite Nat.div_add by lia. lia.
  - replace (length x - w * osr + osr - 1)%nat with (osr - 1)%nat by lia. rewrite Nat.div_small by lia. assert ((length x + osr - 1) / osr < S w)%nat by (apply Nat.div_lt_upper_bound; nia). lia.
Qed.
Lemma firR_length b x : length (firR b x) = length x. Proof. unfold firR. now rewrite map_length, seq_length. Qed.
(** The column at phase [p] behind the oversampled filter and the dropped samples. *)
Lemma filter_column osr f x w p (q : Z) : (0 < osr)%nat -> (p < osr)%nat -> (w * osr < length x)%nat -> (q = Z.of_nat p \/ q = (Z.of_nat p - Z.of_nat osr)%Z) -> exists y, upsample 0 f (Z.of_nat osr) = Ok y /\
  exists m out, buffer 0 Reqb (skipn (w * osr) (firR y x)) (Z.of_nat osr) 0 0 false = Ok m /\ map_res (fun row => np_get row q) m = Ok out /\
  length out = (symbols osr x - w)%nat /\ forall j, (j < length out)%nat -> sample out j = if ((j + w) * osr + p <? length x)%nat then filtered f (at_phase osr p x) (j + w) else 0.
Proof.
  intros Ho Hp Lx Hq. destruct (upsample_spec 0 f osr ltac:(lia)) as (y & Ey & Ly & Ny). exists y. split; auto. set (z := skipn (w * osr) (firR y x)). assert (Lz : length z = (length x - w * osr)%nat) by (unfold z; now rewrite skipn_length, firR_length).
  rewrite buffer_rows; auto. 2:{ intros Z. rewrite Z in Lz. cbn in Lz. lia. }
  assert (Sz : symbols osr z = (symbols osr x - w)%nat) by (unfold z; rewrite symbols_skip by auto; f_equal; unfold symbols; now rewrite firR_length).
  eexists. exists (map (fun j => sample z (j * osr + p)) (seq 0 (symbols osr z))). split; [reflexivity|]. split.
  - rewrite (map_res_ok _ (fun row => nth p row 0)). 2:{ intros row Hr. apply in_map_iff in Hr as (j & <- & _). destruct Hq as [-> | ->]; [rewrite (np_get_nth _ _ 0)|rewrite (np_get_neg _ _ 0)]; rewrite ?map_length, ?seq_length; auto; try lia. do 2 f_equal. lia. }
    f_equal. rewrite map_map. apply map_ext. intros j. now rewrite nth_map_seq.
  - rewrite map_length, seq_length. split; auto. intros j Hj. change (atR (map (fun j => sample z (j * osr + p)) (seq 0 (symbols osr z))) j = if ((j + w) * osr + p <? length x)%nat then filtered f (at_phase osr p x) (j + w) else 0).
    rewrite atR_mapseq by auto. change (sample z (j * osr + p)) with (atR (skipn (w * osr) (firR y x)) (j * osr + p)). rewrite atR_skipn. replace (w * osr + (j * osr + p))%nat with ((j + w) * osr + p)%nat by lia.
    destruct (Nat.ltb_spec ((j + w) * osr + p) (length x)) as [Q|Q]; [now apply fir_upsampled|]. unfold atR. apply nth_overflow. now rewrite firR_length.
Qed.
(** * The equaliser with feedback *)
Lemma argminR_from_spec l : forall best bi i, (argminR_from best bi i l = bi /\ forall j, (j < length l)%nat -> best <= atR l j) \/
  exists j, (j < length l)%nat /\ argminR_from best bi i l = (i + j)%nat /\ atR l j < best /\ forall j', (j' < length l)%nat -> atR l j <= atR l j'.
Proof.
  induction l as [|x l IH]; intros best bi i; cbn [argminR_from]. { left. split; auto. intros j Hj. cbn in Hj. lia. }
  destruct (Rlt_dec x best) as [B|B].
  - right. destruct (IH x i (S i)) as [(-> & H)|(j & Hj & -> & G & M)].
    + exists 0%nat. split; [cbn; lia|]. split; [lia|]. split; auto. intros [|j'] Hj'; [unfold atR; cbn; lra|]. apply H. cbn in Hj'. lia.
    + exists (S j). split; [cbn; lia|]. split; [lia|]. change (atR (x :: l) (S j)) with (atR l j). split; [lra|]. intros [|j'] Hj'; [change (atR (x :: l) 0) with x; lra|]. apply M. cbn in Hj'. lia.
  - destruct (IH best bi (S i)) as [(-> & H)|(j & Hj & -> & G & M)].
    + left. split; auto. intros [|j'] Hj'; [unfold atR; cbn; lra|]. apply H. cbn in Hj'. lia.
    + right. exists (S j). split; [cbn; lia|]. split; [lia|]. change (atR (x :: l) (S j)) with (atR l j). split; [lra|]. intros [|j'] Hj'; [change (atR (x :: l) 0) with x; lra|]. apply M. cbn in Hj'. lia.
Qed.
Lemma slice_spec levels x : levels <> [] -> exists v, slice_oneR levels x = Ok v /\ decided levels x v.
Proof.
  intros N. destruct levels as [|l0 ls]; [congruence|]. unfold slice_oneR. cbn [map]. eexists. split; [reflexivity|].
  set (ds := map _ ls). assert (Ld : length ds = length ls) by apply map_length. assert (Nd : forall j, (j < length ls)%nat -> atR ds j = Rabs (x - nth j ls 0)) by (intros j Hj; unfold atR, ds; now rewrite (map_nth_lt _ _ _ 0) by auto).
  destruct (argminR_from_spec ds (Rabs (x - l0)) 0 1) as [(-> & H)|(j & Hj & -> & G & M)]; rewrite Ld in *.
  - split; [now left|]. intros l [<-|Hl]; [apply Rle_refl|]. apply (In_nth _ _ 0) in Hl as (j & Hj & <-). rewrite <- Nd by auto. now apply H.
  - change (1 + j)%nat with (S j). change (vec_atR (l0 :: ls) (S j)) with (nth j ls 0). rewrite Nd in G, M by auto. split; [right; apply nth_In; auto|]. intros l [<-|Hl]; [lra|]. apply (In_nth _ _ 0) in Hl as (j' & Hj' & <-). specialize (M j' Hj'). rewrite Nd in M by auto. exact M.
Qed.
Lemma decided_self levels x v : In x levels -> decided levels x v -> v = x.
Proof. intros I (_ & H). specialize (H x I). replace (x - x) with 0 in H by lra. rewrite Rabs_R0 in H. destruct (Req_dec (x - v) 0) as [Q|Q]; [lra|]. apply Rabs_pos_lt in Q. lra. Qed.
Lemma loop_spec ffe dfe levels : (0 < length dfe)%nat -> levels <> [] -> forall rows mem, (forall row, In row rows -> length row = length ffe) -> length mem = length dfe -> exists ys vs, ffe_dfe_loopR ffe dfe levels rows mem = Ok ys /\
  length ys = length rows /\ length vs = length rows /\ forall n, (n < length rows)%nat -> decided levels (atR ys n) (atR vs n) /\
  atR ys n = smR (length ffe) (fun i => atR (nth n rows []) (length ffe - 1 - i) * atR ffe i) - smR (length dfe) (fun k => atR dfe k * if (k <? n)%nat then atR vs (n - 1 - k) else atR mem (k - n)).
Proof.
  intros B0 NL. induction rows as [|row rows IH]; intros mem HR LM; cbn [ffe_dfe_loopR]. { exists [], []. cbn [length]. do 3 (split; [reflexivity|]). intros; lia. }
  unfold np_dotR. rewrite rev_length, (HR row (or_introl eq_refl)), Nat.eqb_refl. cbn [bind]. rewrite LM, Nat.eqb_refl. cbn [bind]. set (x := dotR row (rev ffe) - dotR mem dfe). destruct (slice_spec levels x NL) as (v & -> & Dv). cbn [bind].
  assert (Em : (if (1 <? length dfe)%nat then v :: slice_to mem (-1) else [v]) = v :: firstn (length dfe - 1) mem).
  { unfold slice_to, slice_bound. rewrite LM. cbn [Z.ltb Z.compare]. destruct (Nat.ltb_spec 1 (length dfe)); [do 2 f_equal; lia|]. replace (length dfe - 1)%nat with 0%nat by lia. reflexivity. }
  rewrite Em. destruct (IH (v :: firstn (length dfe - 1) mem)) as (ys & vs & -> & Ly & Lv & H). { intros; apply HR; now right. } { cbn [length]. rewrite firstn_length. lia. }
  cbn [bind]. exists (x :: ys), (v :: vs). cbn [length]. split; [reflexivity|]. split; [now f_equal|]. split; [now f_equal|]. intros [|n] Hn; (split; [first [exact Dv|apply (H n); lia]|]).
  - change (atR (x :: ys) 0) with x. unfold x. apply (f_equal2 Rminus).
    + rewrite (dotR_at row (rev ffe) (length ffe)) by (rewrite ?rev_length; auto; apply HR; now left). rewrite smR_rev. apply smR_ext. intros i Hi. rewrite atR_rev by lia. cbn [nth]. f_equal. f_equal. lia.
    + rewrite (dotR_at mem dfe (length dfe)) by auto. apply smR_ext. intros k Hk. rewrite Nat.sub_0_r. cbn [Nat.ltb Nat.leb]. lra.
  - change (atR (x :: ys) (S n)) with (atR ys n). destruct (H n ltac:(lia)) as (_ & ->). cbn [nth]. apply (f_equal2 Rminus); [reflexivity|]. apply smR_ext. intros k Hk. f_equal. destruct (Nat.ltb_spec k n) as [Q|Q], (Nat.ltb_spec k (S n)) as [Q'|Q']; try lia.
    + replace (S n - 1 - k)%nat with (S (n - 1 - k)) by lia. reflexivity.
    + replace (k - n)%nat with 0%nat by lia. replace (S n - 1 - k)%nat with 0%nat by lia. reflexivity.
    + replace (k - n)%nat with (S (k - S n)) by lia. change (atR (v :: firstn (length dfe - 1) mem) (S (k - S n))) with (atR (firstn (length dfe - 1) mem) (k - S n)). apply atR_firstn. lia.
Qed.
Lemma eq_rowsR F (x : list R) : (0 < F)%nat -> x <> [] ->
  buffer 0 Reqb (repeat 0 (F - 1) ++ x) (Z.of_nat F) (Z.of_nat F - 1) 0 false = Ok (map (fun n => map (fun j => nth (n + j) (repeat 0 (F - 1) ++ x) 0) (seq 0 F)) (seq 0 (length x))).
Proof.
  intros HF Nx. assert (0 < length x)%nat by (destruct x; [congruence|cbn; lia]). etransitivity; [apply (buffer_noclip 0 Reqb _ F 0 (Z.of_nat F - 1)); auto; [|lia]|].
  { intros Z. apply (f_equal (@length R)) in Z. rewrite app_length in Z. cbn in Z. lia. }
  f_equal. rewrite app_length, repeat_length. unfold ceil_div. replace (Z.of_nat F - (Z.of_nat F - 1))%Z with 1%Z by lia. rewrite Z.div_1_r. match goal with |- map _ (seq 0 ?q) = _ => replace q with (length x) by lia end. apply map_ext. intros n. change (Z.to_nat 1) with 1%nat. rewrite Nat.mul_1_r. unfold frame.
  apply map_ext. intros j. unfold delayed. rewrite Nat.sub_0_r. reflexivity.
Qed.
Lemma ffe_dfe_spec ffe dfe levels x : (0 < length ffe)%nat -> (0 < length dfe)%nat -> levels <> [] -> x <> [] -> exists ys vs, ffe_dfe_R x ffe dfe levels = Ok ys /\ length ys = length x /\ length vs = length x /\
  forall n, (n < length x)%nat -> decided levels (atR ys n) (atR vs n) /\ atR ys n = filtered ffe x n - smR (length dfe) (fun k => atR dfe k * if (k <? n)%nat then atR vs (n - 1 - k) else 0).
Proof.
  intros F0 B0 NL Nx. unfold ffe_dfe_R. replace (length ffe =? 0)%nat with false by (symmetry; apply Nat.eqb_neq; lia). rewrite eq_rowsR by auto. cbn [bind]. set (rows := map _ (seq 0 (length x))). assert (Lr : length rows = length x) by (unfold rows; now rewrite map_length, seq_length).
  destruct (loop_spec ffe dfe levels B0 NL rows (repeat 0 (length dfe))) as (ys & vs & -> & Ly & Lv & H). { intros row Hr. apply in_map_iff in Hr as (n & <- & _). now rewrite map_length, seq_length. } { apply repeat_length. }
  rewrite Lr in *. exists ys, vs. split; [reflexivity|]. split; auto. split; auto. intros n Hn. split; [now apply H|]. destruct (H n ltac:(auto)) as (_ & ->). apply (f_equal2 Rminus); apply smR_ext; intros k Hk.
  - unfold rows. rewrite nth_map_seq by auto. unfold atR at 1. rewrite nth_map_seq by lia. cbn [Nat.add]. rewrite Rmult_comm. destruct (Nat.leb_spec k n) as [Q|Q].
    + rewrite app_nth2 by (rewrite repeat_length; lia). rewrite repeat_length. unfold atR, sample. f_equal. f_equal. lia.
    + rewrite app_nth1 by (rewrite repeat_length; lia). rewrite nth_repeat. lra.
  - destruct (k <? n)%nat; auto. f_equal. unfold atR. apply nth_repeat.
Qed.
(** * An exact fit *)
Lemma smR_nonneg n f : (forall i, (i < n)%nat -> 0 <= f i) -> 0 <= smR n f.
Proof. induction n as [|n IH]; intros H; [unfold sumR; cbn; lra|]. replace (S n) with (n + 1)%nat by lia. rewrite smR_split. unfold sumR at 2. cbn. rewrite Nat.add_0_r. specialize (H n ltac:(lia)) as Hn. specialize (IH ltac:(intros; apply H; lia)). lra. Qed.
Lemma smR_null n f : (forall i, (i < n)%nat -> 0 <= f i) -> smR n f = 0 -> forall i, (i < n)%nat -> f i = 0.
Proof.
  induction n as [|n IH]; intros H E i Hi; [lia|]. replace (S n) with (n + 1)%nat in E by lia. rewrite smR_split in E. unfold sumR at 2 in E. cbn in E. rewrite Nat.add_0_r in E. pose proof (H n ltac:(lia)) as Hn. pose proof (smR_nonneg n f ltac:(intros; apply H; lia)) as Z.
  destruct (Nat.eq_dec i n) as [->|D]; [lra|]. apply IH; [intros; apply H; lia|lra|lia].
Qed.
Lemma se_nonneg m r f d a c : 0 <= squared_error m r f d a c. Proof. apply smR_nonneg. intros. apply Rle_0_sqr. Qed.
Lemma op_nonneg m r f d a c : 0 <= output_power m r f d a c. Proof. apply smR_nonneg. intros. apply Rle_0_sqr. Qed.
Lemma se_null m r f d a c : squared_error m r f d a c = 0 -> forall i, (i < c)%nat -> equalised m r f d (a + i) = r (a + i)%nat.
Proof. intros E i Hi. pose proof (smR_null _ _ (fun j Hj => Rle_0_sqr (equalised m r f d (a + j) - r (a + j)%nat)) E i Hi) as Z. apply Rsqr_0_uniq in Z. lra. Qed.
Lemma ne_zero m r f d a c : normalised_error m r f d a c 0 -> squared_error m r f d a c = 0.
Proof. intros (Z & E). assert (squared_error m r f d a c = 0 * output_power m r f d a c) by (rewrite E; field; auto). lra. Qed.
Lemma ne_nonneg m r f d a c v : normalised_error m r f d a c v -> 0 <= v.
Proof. intros (Z & ->). pose proof (se_nonneg m r f d a c). pose proof (op_nonneg m r f d a c). apply Rmult_le_pos; auto. left. apply Rinv_0_lt_compat. lra. Qed.
Lemma best_exact m r w b a c f d f0 d0 : length f0 = w -> length d0 = b -> normalised_error m r f0 d0 a c 0 -> best_taps m r w b a c f d -> normalised_error m r f d a c 0.
Proof.
  intros L1 L2 N (_ & _ & B). pose proof (ne_zero _ _ _ _ _ _ N) as Z0. assert (Z : squared_error m r f d a c = 0) by (pose proof (se_nonneg m r f d a c); specialize (B f0 d0 L1 L2); lra).
  assert (O : output_power m r f d a c = output_power m r f0 d0 a c) by (apply smR_ext; intros i Hi; now rewrite (se_null _ _ _ _ _ _ Z _ Hi), (se_null _ _ _ _ _ _ Z0 _ Hi)). split; [rewrite O; apply N|]. rewrite Z. unfold Rdiv. lra.
Qed.
Lemma pattern_in t c fs pc start n : c <> PAM3 -> reference_levels t c fs pc -> In (pattern_symbol (period t) pc start n) (get_levels_R c fs).
Proof.
  intros Hc Rf. destruct (codedR_spec t c fs Hc) as (pc' & E & Rf' & Lp & _). assert (pc' = pc) by (eapply reference_levels_unique; eauto). subst pc'. pose proof (plen_pos t) as PP.
  unfold pattern_symbol. set (i := ((start + n) mod plen t)%nat). assert (Hi : (i < length pc)%nat) by (pose proof (Nat.mod_upper_bound (start + n) (plen t)); lia). assert (HI : In (sample pc i) pc) by now apply nth_In.
  revert E HI. unfold prbs_coded_R. cbv zeta. destruct (prbs_generator _ _ _) as [[g g']|]; [|discriminate]. cbn [bind]. destruct (bin2symbol _ _ _) as [sy|]; [|discriminate]. cbn [bind]. unfold mapping. cbn [bind]. destruct (np_take _ _) as [l|] eqn:T; [|discriminate]. cbn [bind data].
  intros E HI. injection E as ->. unfold np_take in T. clear Hi Rf Rf' Lp. revert HI T. generalize (sample pc i). generalize (data (vec sy)). clear. intros zs. revert pc. induction zs as [|z zs IH]; cbn [map_res]; intros pc v HI T. { injection T as <-. destruct HI. }
  destruct (np_get _ z) as [a|] eqn:G; [|discriminate]. cbn [bind] in T. destruct (map_res _ zs) as [l|]; [|discriminate]. cbn [bind] in T. injection T as <-. destruct HI as [<-|HI]; [|eapply IH; eauto].
  unfold np_get in G. destruct (np_index _ z); [|discriminate]. destruct (nth_error _ _) eqn:NE; [|discriminate]. injection G as <-. eapply nth_error_In; eauto.
Qed.
Lemma levels_some c fs : get_levels_R c fs <> [].
Proof. unfold get_levels_R, get_levels_fs. destruct fs, c; cbn; discriminate. Qed.
Lemma periodic_back P (s : list R) : (0 < P)%nat -> (forall i, (i + P < length s)%nat -> sample s (i + P) = sample s i) -> forall n, (n < length s)%nat -> sample s n = sample s (n mod P).
Proof.
  intros HP H n. induction n as [n IH] using lt_wf_ind. intros Hn. destruct (Nat.lt_ge_cases n P) as [Q|Q]; [now rewrite Nat.mod_small|]. replace n with (n - P + P)%nat at 1 by lia. rewrite H by lia. rewrite IH by lia. f_equal. replace n with (n - P + 1 * P)%nat at 2 by lia. now rewrite Nat.mod_add by lia.
Qed.
Lemma periodic_average P (s : list R) : (0 < P)%nat -> (P <= length s)%nat -> (forall i, (i + P < length s)%nat -> sample s (i + P) = sample s i) -> forall n, (n < length s)%nat -> sample s n = averaged P s (n mod P).
Proof.
  intros HP L H n Hn. rewrite (periodic_back P) by auto. pose proof (Nat.mod_upper_bound n P ltac:(lia)) as U. set (i := (n mod P)%nat) in *. unfold averaged. set (k := (length s / P)%nat). assert (Hk : (0 < k)%nat) by (apply Nat.div_str_pos; lia).
  assert (T : total k (fun j => sample s (j * P + i)) = INR k * sample s i).
  { transitivity (smR k (fun _ => sample s i)).
    - apply smR_ext. intros j Hj. assert ((j * P + i) < length s)%nat by (pose proof (Nat.mul_div_le (length s) P ltac:(lia)); fold k in H0; nia). rewrite (periodic_back P) by auto. f_equal. rewrite Nat.add_comm, Nat.mod_add by lia. now apply Nat.mod_small.
    - clear. generalize (sample s i). intros v. induction k as [|k IH]; [unfold sumR; cbn; lra|]. rewrite S_INR. replace (S k) with (k + 1)%nat by lia. rewrite smR_split, IH. unfold sumR. cbn. lra. }
  rewrite T. field. apply not_0_INR. lia.
Qed.
Lemma filtered_periodic P f (s : list R) n : (0 < P)%nat -> (P <= length s)%nat -> (forall i, (i + P < length s)%nat -> sample s (i + P) = sample s i) -> (0 < length f)%nat -> (n + length f - 1 < length s)%nat -> (n mod P + length f - 1 < P)%nat ->
  filtered f s (n + length f - 1) = total (length f) (fun k => sample f k * averaged P s (n mod P + length f - 1 - k)%nat).
Proof.
  intros HP L H F0 Hn Hm. apply smR_ext. intros k Hk. pose proof (Nat.div_mod n P ltac:(lia)) as D. set (q := (P * (n / P))%nat) in *. destruct (Nat.leb_spec k (n + length f - 1)) as [K|K]; [|lia]. rewrite (periodic_average P s) by (auto; lia). f_equal. f_equal. symmetry. apply (Nat.mod_unique _ _ (n / P)); fold q; lia.
Qed.
Lemma pattern_mod P pc start n m : (0 < P)%nat -> ((n mod P = m mod P)%nat) -> pattern_symbol P pc start n = pattern_symbol P pc start m.
Proof. intros HP E. unfold pattern_symbol. f_equal. rewrite <- (Nat.add_mod_idemp_r _ n), <- (Nat.add_mod_idemp_r _ m) by lia. now rewrite E. Qed.
(** * The receivers *)
Section Receivers.
Context (st : settings) (lasso : list (list R) -> list R -> R -> list R) (osr : nat) (x pc : list R).
Let P := period (st_prbs st).
Let sh := Nat.max (st_post st) (st_dfe st).
Let w := st_ffe_len st.
Let rows := (P - (sh + st_pre st + 1))%nat.
Context (Hc : st_const st <> PAM3) (Ho : st_osr st = Z.of_nat osr) (O0 : (0 < osr)%nat) (Enough : (P <= symbols osr x)%nat)
  (Long : (Nat.max (st_post st) (st_dfe st) + st_pre st + 1 < P)%nat) (Few : (Nat.min (st_post st) (st_dfe st) < 2)%nat)
  (Rf : reference_levels (st_prbs st) (st_const st) (st_full_scale st) pc).
Lemma w_short : (w * osr < length x)%nat.
Proof.
  assert (w < symbols osr x)%nat by (unfold w, st_ffe_len; lia). unfold symbols in H. destruct (Nat.lt_ge_cases (w * osr) (length x)) as [Q|Q]; auto. assert ((length x + osr - 1) / osr < S w)%nat by (apply Nat.div_lt_upper_bound; nia). lia.
Qed.
Theorem rx_example_spec : exists fd f out, phase_search lasso st x = Ok (map (fun p => at_phase osr p x) (seq 0 osr), fd) /\ fd_ffe fd = TapsR f /\ rx_example lasso st x = Ok out /\ length out = (symbols osr x - w)%nat /\
  ((exists p, (p < osr)%nat /\ fd_phase fd = Z.of_nat p /\ forall j, (j < length out)%nat -> sample out j = if ((j + w) * osr + p <? length x)%nat then filtered f (at_phase osr p x) (j + w) else 0) \/
   (fd_phase fd = (-1)%Z /\ forall j, sample out j = 0)).
Proof.
  destruct (phase_search_spec st lasso osr x Hc Ho O0 Enough Long Few pc Rf) as (fd & E & H).
  assert (Q : exists f p, fd_ffe fd = TapsR f /\ (p < osr)%nat /\ ((fd_phase fd = Z.of_nat p) \/ (f = repeat 0 w /\ fd_phase fd = (-1)%Z /\ p = (osr - 1)%nat))).
  { destruct H as [(p & start & f & d & v & Hp & -> & _)|(-> & _)]; [exists f, p|exists (repeat 0 w), (osr - 1)%nat]; cbn [fd_ffe fd_phase]; (split; [reflexivity|]); (split; [lia|]); auto. }
  clear H. destruct Q as (f & p & Ef & Hp & Q). exists fd, f. destruct (filter_column osr f x w p (fd_phase fd) O0 Hp w_short) as (y & Ey & m & out & Eb & Eo & Lo & No). { destruct Q as [Q|(_ & Q & ->)]; [auto|right; lia]. }
  exists out. split; auto. split; auto. unfold rx_example. rewrite E. cbn [bind]. rewrite Ef. cbn [tap_list]. rewrite Ho, Ey. cbn [bind]. rewrite Nat2Z.id. fold w. rewrite Eb. cbn [bind]. split; auto. split; auto.
  destruct Q as [Q|(Zf & Q & _)]; [left; eauto|right]. split; auto. intros j. destruct (Nat.lt_ge_cases j (length out)) as [L|L]; [|now apply nth_overflow]. rewrite No by auto. destruct (_ <? _)%nat; auto. rewrite Zf. apply filtered_zero.
Qed.
(** If the samples at some phase can be equalised exactly, so are those at the phase which is found. *)
Theorem exact_found p0 start0 f0 d0 : (p0 < osr)%nat -> length f0 = w -> length d0 = st_dfe st -> aligned_at pc (at_phase osr p0 x) start0 -> errS st pc (at_phase osr p0 x) start0 f0 d0 0 ->
  exists fd p start f d, phase_search lasso st x = Ok (map (fun p => at_phase osr p x) (seq 0 osr), fd) /\ (p < osr)%nat /\ fd = mk_found (TapsR f) (if (0 <? st_dfe st)%nat then TapsR d else NoTapsR) (Some 0) (Z.of_nat p) /\
  fitsS st pc (at_phase osr p x) start f d /\ errS st pc (at_phase osr p x) start f d 0.
Proof.
  intros Hp0 Lf0 Ld0 A0 E0. destruct (phase_estimates st lasso osr x Hc Enough Long Few pc Rf p0) as (start1 & f1 & d1 & _ & _ & _ & _ & (A1 & B1) & _). rewrite <- (aligned_unique _ _ _ _ A0 A1) in *. clear A1 start1.
  assert (E1 : errS st pc (at_phase osr p0 x) start0 f1 d1 0) by (eapply best_exact; [| |exact E0|exact B1]; auto).
  destruct (phase_search_spec st lasso osr x Hc Ho O0 Enough Long Few pc Rf) as (fd & E & [(p & start & f & d & v & Hp & Ef & Fi & Er & M)|(_ & S)]).
  - destruct (M p0 start0 f1 d1 0 Hp0 (conj A0 B1) E1) as (V & _). assert (V0 : 0 <= v) by (eapply ne_nonneg; exact Er). assert (v = 0) by lra. subst v. exists fd, p, start, f, d. auto.
  - exfalso. specialize (S p0 start0 f1 d1 Hp0 (conj A0 B1)). destruct E1 as (N & _). now apply N.
Qed.
Context (count : nat) (Lx : length x = (count * osr)%nat) (Per : forall i, (i + P * osr < length x)%nat -> sample x (i + P * osr) = sample x i).
Lemma symbols_count : symbols osr x = count.
Proof. unfold symbols. rewrite Lx. replace (count * osr + osr - 1)%nat with (osr - 1 + count * osr)%nat by lia. rewrite Nat.div_add, Nat.div_small by lia. lia. Qed.
Lemma phase_periodic p : (p < osr)%nat -> forall i, (i + P < length (at_phase osr p x))%nat -> sample (at_phase osr p x) (i + P) = sample (at_phase osr p x) i.
Proof.
  intros Hp i Hi. rewrite at_phase_length, symbols_count in Hi. rewrite !sample_at_phase by auto. replace ((i + P) * osr + p)%nat with (i * osr + p + P * osr)%nat by lia. apply Per. rewrite Lx. nia.
Qed.
(** The output of exactly fitting taps when the right symbols are fed back. *)
Lemma exact_output p start f d n : (p < osr)%nat -> fitsS st pc (at_phase osr p x) start f d -> errS st pc (at_phase osr p x) start f d 0 -> (n + w - 1 < count)%nat -> (st_dfe st <= n mod P < st_dfe st + rows)%nat ->
  filtered f (at_phase osr p x) (n + w - 1) - smR (st_dfe st) (fun k => sample d k * pattern_symbol P pc start (n - 1 - k + sh)) = pattern_symbol P pc start (n + sh).
Proof.
  intros Hp (A & B) E Hn Hm. assert (PP : (0 < P)%nat) by apply plen_pos. assert (Lf : length f = w) by apply B. assert (Ld : length d = st_dfe st) by apply B. apply ne_zero in E. pose proof (Nat.div_mod n P ltac:(lia)) as D. pose proof (Nat.mod_le n P ltac:(lia)) as Le. set (n0 := (n mod P)%nat) in *.
  pose proof (se_null _ _ _ _ _ _ E (n0 - st_dfe st)%nat ltac:(unfold rows, sh in Hm; fold P; lia)) as Z. replace (st_dfe st + (n0 - st_dfe st))%nat with n0 in Z by lia. fold sh in Z. fold P in Z.
  rewrite (pattern_mod P pc start (n + sh) (n0 + sh)) by (auto; unfold n0; now rewrite Nat.add_mod_idemp_l by lia). rewrite <- Z. unfold equalised. rewrite Ld. apply (f_equal2 Rminus).
  - rewrite Lf. rewrite <- Lf at 1. rewrite filtered_periodic with (P := P); rewrite ?at_phase_length, ?symbols_count, ?Lf; auto; try (now apply phase_periodic); try (unfold w, st_ffe_len, rows, sh in *; lia). { rewrite <- symbols_count. exact Enough. } intros i Hi. apply phase_periodic; auto. now rewrite at_phase_length, symbols_count.
  - apply smR_ext. intros k Hk. f_equal. apply pattern_mod; auto. replace (n - 1 - k + sh)%nat with (n0 - 1 - k + sh + (n / P) * P)%nat by lia. now rewrite Nat.mod_add by lia.
Qed.
End Receivers.
