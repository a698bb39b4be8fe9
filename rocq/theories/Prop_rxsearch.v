(** C87: receivers which search the sampling phase with a known PRBS. *)
From Verif Require Import Py PyQ B_list B_qc M_aux M_prbs M_symbol M_levels M_estim M_estimfs M_rxsearch S_chanest S_estimfs S_rxsearch P_chanest P_linalgR P_estimls P_rxsearch.
From Coq Require Import Reals Lra Lia.
Import List ListNotations.
Open Scope R_scope.

(** The stream holds a period of the PRBS; a period is longer than the equaliser; the regression does not stop at its own reference (C84). *)
Definition usable (st : settings) (osr : nat) (x : list R) : Prop :=
  st_const st <> PAM3 /\ st_osr st = Z.of_nat osr /\ (0 < osr)%nat /\ (period (st_prbs st) <= symbols osr x)%nat /\
  (Nat.max (st_post st) (st_dfe st) + st_pre st + 1 < period (st_prbs st))%nat /\ (Nat.min (st_post st) (st_dfe st) < 2)%nat.
Definition known_pattern (st : settings) (pc : list R) : Prop := reference_levels (st_prbs st) (st_const st) (st_full_scale st) pc.
(** [x] has [count] whole symbols and repeats with the PRBS. *)
Definition repeating (st : settings) (osr count : nat) (x : list R) : Prop :=
  length x = (count * osr)%nat /\ forall i, (i + period (st_prbs st) * osr < length x)%nat -> sample x (i + period (st_prbs st) * osr) = sample x i.
Definition fits (st : settings) := best_fit (period (st_prbs st)) (st_post st) (st_pre st) (st_dfe st).
Definition error_of (st : settings) := fit_error (period (st_prbs st)) (st_post st) (st_pre st) (st_dfe st).
Definition silent (st : settings) := fit_silent (period (st_prbs st)) (st_post st) (st_pre st) (st_dfe st).
(** Some phase can be equalised without error. *)
Definition equalisable (st : settings) (osr : nat) (x pc : list R) : Prop := exists p start f d, (p < osr)%nat /\ length f = (st_post st + st_pre st + 1)%nat /\ length d = st_dfe st /\
  aligned_at pc (at_phase osr p x) start /\ error_of st pc (at_phase osr p x) start f d 0.

(** * A stream meeting the hypotheses: PRBS7 with two samples per symbol, silent at phase 0 *)
Definition demo (dfe : nat) : settings := mk_set PRBS7 NRZ false 2 1 0 dfe.
Definition demo_stream (pc : list R) : list R := map (fun i => if Nat.even i then 0 else sample pc (i / 2)) (seq 0 (length pc * 2)).
Lemma demo_length pc : length (demo_stream pc) = (length pc * 2)%nat. Proof. unfold demo_stream. now rewrite map_length, seq_length. Qed.
Lemma demo_symbols pc : symbols 2 (demo_stream pc) = length pc.
Proof. unfold symbols. rewrite demo_length. replace (length pc * 2 + 2 - 1)%nat with (1 + length pc * 2)%nat by lia. rewrite Nat.div_add by lia. reflexivity. Qed.
Lemma demo_phase pc : at_phase 2 1 (demo_stream pc) = pc.
Proof.
  apply (nth_ext_def 0); [rewrite at_phase_length; apply demo_symbols|]. intros n Hn. rewrite at_phase_length, demo_symbols in Hn. change (sample (at_phase 2 1 (demo_stream pc)) n = nth n pc 0). rewrite sample_at_phase by lia.
  change (atR (demo_stream pc) (n * 2 + 1) = nth n pc 0). unfold demo_stream. rewrite atR_mapseq by lia. replace (Nat.even (n * 2 + 1)) with false by (symmetry; rewrite Nat.add_comm, Nat.mul_comm, Nat.even_add_mul_2; reflexivity). unfold sample. f_equal. replace (n * 2 + 1)%nat with (1 + n * 2)%nat by lia. rewrite Nat.div_add by lia. reflexivity.
Qed.
Lemma demo_square pc start n : known_pattern (demo 0) pc -> pattern_symbol 127 pc start n * pattern_symbol 127 pc start n = 1.
Proof. intros Rf. assert (H : In (pattern_symbol 127 pc start n) (get_levels_R NRZ false)) by (apply (pattern_in PRBS7); [discriminate|exact Rf]). cbn in H. destruct H as [<-|[<-|[]]]; lra. Qed.
Lemma aligned_self pc : pc <> [] -> aligned_at pc pc 0.
Proof.
  intros N. unfold aligned_at. rewrite Nat.min_id. assert (0 < length pc)%nat by (destruct pc; [congruence|cbn; lia]). split; auto. split; [|intros; lia]. intros j.
  assert (Q : forall k, total (length pc) (fun i => sample pc ((k + i) mod length pc) * sample pc ((k + i) mod length pc)) = total (length pc) (fun i => sample pc i * sample pc i)).
  { intros k. set (g := fun i => sample pc i * sample pc i). assert (Step : forall k, smR (length pc) (fun i => g ((S k + i) mod length pc)%nat) = smR (length pc) (fun i => g ((k + i) mod length pc)%nat)).
    { clear k. intros k. destruct (length pc) as [|m] eqn:Em; [lia|]. replace (S m) with (m + 1)%nat at 1 by lia. rewrite smR_split. replace (S m) with (1 + m)%nat at 4 by lia. rewrite (smR_split 1 m). rewrite Rplus_comm. apply (f_equal2 Rplus).
      - unfold sumR. cbn [seq map fold_right]. do 2 f_equal. replace (S k + (m + 0))%nat with (k + 0 + 1 * S m)%nat by lia. now rewrite Nat.mod_add by lia.
      - apply smR_ext. intros i Hi. f_equal. f_equal. lia. }
    induction k as [|k IH]; [apply smR_ext; intros i Hi; cbn [Nat.add]; now rewrite Nat.mod_small by auto|]. etransitivity; [apply (Step k)|exact IH]. }
  assert (T : forall n f g h, (forall i, (i < n)%nat -> f i <= / 2 * (g i + h i)) -> total n f <= / 2 * (total n g + total n h)).
  { clear. intros n f g h H. induction n as [|n IH]; [unfold total; cbn; lra|]. unfold total in *. replace (S n) with (n + 1)%nat by lia. change (smR (n + 1) f <= / 2 * (smR (n + 1) g + smR (n + 1) h)). rewrite !smR_split. specialize (IH ltac:(intros; apply H; lia)). specialize (H n ltac:(lia)). unfold sumR in *. cbn [seq map fold_right]. rewrite !Nat.add_0_r. lra. }
  unfold correlation. eapply Rle_trans; [apply (T _ _ (fun i => sample pc ((j + i) mod length pc) * sample pc ((j + i) mod length pc)) (fun i => sample pc i * sample pc i))|].
  { intros i Hi. generalize (sample pc ((j + i) mod length pc)) (sample pc i). intros u v. pose proof (Rle_0_sqr (u - v)). unfold Rsqr in *. lra. }
  rewrite Q. match goal with |- / 2 * (?a + ?a) <= ?b => replace b with a; [lra|] end. apply smR_ext. intros i Hi. cbn [Nat.add]. now rewrite Nat.mod_small by auto.
Qed.
Lemma demo_ok dfe : (dfe <= 1)%nat -> exists pc, known_pattern (demo dfe) pc /\ usable (demo dfe) 2 (demo_stream pc) /\ repeating (demo dfe) 2 (length pc) (demo_stream pc) /\ equalisable (demo dfe) 2 (demo_stream pc) pc.
Proof.
  intros Hd. destruct (codedR_spec PRBS7 NRZ false ltac:(discriminate)) as (pc & _ & Rf & Lp & Per). change (plen PRBS7) with 127%nat in *. exists pc. split; [exact Rf|].
  assert (U : usable (demo dfe) 2 (demo_stream pc)).
  { unfold usable. cbn [demo st_const st_osr st_prbs st_post st_pre st_dfe]. rewrite demo_symbols. change (plen PRBS7) with 127%nat. repeat split; try discriminate; try reflexivity; lia. }
  assert (Per' : forall i, (i + 127 < length pc)%nat -> sample pc (i + 127) = sample pc i).
  { intros i Hi. change (atR pc (i + 127) = atR pc i). rewrite (Per (i + 127)%nat) by auto. rewrite (Per i) by lia. f_equal. replace (i + 127)%nat with (i + 1 * 127)%nat by lia. now rewrite Nat.mod_add. }
  split; auto. split.
  { split; [apply demo_length|]. cbn [demo st_prbs]. change (plen PRBS7) with 127%nat. rewrite demo_length. intros i Hi. change (atR (demo_stream pc) (i + 127 * 2) = atR (demo_stream pc) i). unfold demo_stream. rewrite !atR_mapseq by lia.
    replace (Nat.even (i + 127 * 2)) with (Nat.even i) by (symmetry; rewrite (Nat.mul_comm 127); apply Nat.even_add_mul_2). destruct (Nat.even i); auto. rewrite Nat.div_add by lia. apply Per'. pose proof (Nat.div_mod i 2). lia. }
  exists 1%nat, 0%nat, [1; 0], (repeat 0 dfe). cbn [demo st_post st_pre st_dfe]. split; [lia|]. split; [reflexivity|]. split; [apply repeat_length|]. rewrite demo_phase. split; [apply aligned_self; intros ->; cbn in Lp; lia|].
  unfold error_of, fit_error, fitted_on. cbn [demo st_prbs st_post st_pre st_dfe]. change (plen PRBS7) with 127%nat. replace (Nat.max 1 dfe) with 1%nat by lia. change (127 - (1 + 0 + 1))%nat with 125%nat.
  assert (Eq : forall i, (i < 125)%nat -> equalised (averaged 127 pc) (fun n => pattern_symbol 127 pc 0 (n + 1)) [1; 0] (repeat 0 dfe) (dfe + i) = pattern_symbol 127 pc 0 (dfe + i + 1)).
  { intros i Hi. unfold equalised. replace (total (length (repeat 0 dfe)) _) with 0 by (symmetry; apply smR_zero; intros k Hk; unfold sample; rewrite nth_repeat; lra). cbn [length]. unfold total. cbn [seq map fold_right]. unfold sample at 1 2. cbn [nth].
    replace (dfe + i + 2 - 1 - 0)%nat with ((dfe + i + 1) mod 127)%nat by (rewrite Nat.mod_small; lia). rewrite <- (periodic_average 127 pc) by (auto; lia). unfold pattern_symbol. cbn [Nat.add]. rewrite (Nat.mod_small (dfe + i + 1)) by lia. lra. }
  split.
  - intros Z. assert (T : total 125 (fun _ => 1) = 0) by (rewrite <- Z; apply smR_ext; intros i Hi; rewrite Eq by auto; symmetry; now apply demo_square). unfold total in T. cbn in T. lra.
  - assert (Z : squared_error (averaged 127 pc) (fun n => pattern_symbol 127 pc 0 (n + 1)) [1; 0] (repeat 0 dfe) dfe 125 = 0) by (apply smR_zero; intros i Hi; rewrite Eq by auto; lra). rewrite Z. unfold Rdiv. lra.
Qed.

(** There is one reference pattern. *)
Theorem C87_pattern : forall st, st_const st <> PAM3 -> exists pc, known_pattern st pc /\ forall pc', known_pattern st pc' -> pc' = pc.
Proof. intros st H. destruct (codedR_spec (st_prbs st) (st_const st) (st_full_scale st) H) as (pc & _ & Rf & _). exists pc. split; auto. intros pc' Rf'. eapply reference_levels_unique; eauto. Qed.
Print Assumptions C87_pattern.

(** The search returns the samples at every phase, and: the first phase whose best taps have the least normalised error, with such taps; or, when
    the best taps of every phase give a silent output, phase -1 and zero taps. *)
Theorem C87_search : forall lasso st osr x pc, usable st osr x -> known_pattern st pc -> exists fd, phase_search lasso st x = Ok (map (fun p => at_phase osr p x) (seq 0 osr), fd) /\
  ((exists p start f d v, (p < osr)%nat /\ fd = mk_found (TapsR f) (if (0 <? st_dfe st)%nat then TapsR d else NoTapsR) (Some v) (Z.of_nat p) /\
      fits st pc (at_phase osr p x) start f d /\ error_of st pc (at_phase osr p x) start f d v /\
      forall p' start' f' d' v', (p' < osr)%nat -> fits st pc (at_phase osr p' x) start' f' d' -> error_of st pc (at_phase osr p' x) start' f' d' v' -> v <= v' /\ ((p' < p)%nat -> v < v')) \/
   (fd = mk_found (TapsR (repeat 0 (st_post st + st_pre st + 1))) (TapsR (repeat 0 (st_dfe st))) None (-1) /\
      forall p start f d, (p < osr)%nat -> fits st pc (at_phase osr p x) start f d -> silent st pc (at_phase osr p x) start f d)).
Proof. intros lasso st osr x pc (Hc & Ho & O0 & En & Lo & Fe) Rf. exact (phase_search_spec st lasso osr x Hc Ho O0 En Lo Fe pc Rf). Qed.
Print Assumptions C87_search.
Example C87_search_case : exists pc, known_pattern (demo 0) pc /\ usable (demo 0) 2 (demo_stream pc).
Proof. destruct (demo_ok 0 ltac:(lia)) as (pc & K & U & _). eauto. Qed.

(** rx_example filters the oversampled stream with upsampled taps; the samples it returns are those of the symbol-rate filter on the samples at the
    phase found, without the first ones, and zero when no phase was found.  (The sample missing in an incomplete last symbol counts as zero output.) *)
Theorem C87_symbol_rate : forall lasso st osr x pc, usable st osr x -> known_pattern st pc -> let w := (st_post st + st_pre st + 1)%nat in
  exists cols fd f out, phase_search lasso st x = Ok (cols, fd) /\ fd_ffe fd = TapsR f /\ rx_example lasso st x = Ok out /\ length out = (symbols osr x - w)%nat /\
  ((exists p, (p < osr)%nat /\ fd_phase fd = Z.of_nat p /\ forall j, (j < length out)%nat -> sample out j = if ((j + w) * osr + p <? length x)%nat then filtered f (at_phase osr p x) (j + w) else 0) \/
   (fd_phase fd = (-1)%Z /\ forall j, sample out j = 0)).
Proof. intros lasso st osr x pc (Hc & Ho & O0 & En & Lo & Fe) Rf w. destruct (rx_example_spec st lasso osr x pc Hc Ho O0 En Lo Fe Rf) as (fd & f & out & H). eexists. exists fd, f, out. exact H. Qed.
Print Assumptions C87_symbol_rate.
Example C87_symbol_rate_case : exists pc, known_pattern (demo 1) pc /\ usable (demo 1) 2 (demo_stream pc).
Proof. destruct (demo_ok 1 ltac:(lia)) as (pc & K & U & _). eauto. Qed.

(** A repeating stream which can be equalised exactly at some phase: a phase with error zero is found, and rx_example returns the symbols of the PRBS,
    where the stretch used for the fit recurs. *)
Theorem C87_exact : forall lasso st osr x pc count, usable st osr x -> known_pattern st pc -> repeating st osr count x -> st_dfe st = 0%nat -> equalisable st osr x pc ->
  let P := period (st_prbs st) in let w := (st_post st + st_pre st + 1)%nat in
  exists cols fd p start f out, phase_search lasso st x = Ok (cols, fd) /\ fd = mk_found (TapsR f) NoTapsR (Some 0) (Z.of_nat p) /\ (p < osr)%nat /\ aligned_at pc (at_phase osr p x) start /\
  rx_example lasso st x = Ok out /\ length out = (count - w)%nat /\
  forall j, (j < length out)%nat -> ((j + 1) mod P < P - w)%nat -> sample out j = pattern_symbol P pc start (j + 1 + st_post st).
Proof.
  intros lasso st osr x pc count (Hc & Ho & O0 & En & Lo & Fe) Rf (Lx & Per) D0 (p0 & start0 & f0 & d0 & Hp0 & Lf0 & Ld0 & A0 & E0) P w.
  destruct (exact_found st lasso osr x pc Hc Ho O0 En Lo Fe Rf p0 start0 f0 d0 Hp0 Lf0 Ld0 A0 E0) as (fd & p & start & f & d & E & Hp & Ef & Fi & Er).
  destruct (rx_example_spec st lasso osr x pc Hc Ho O0 En Lo Fe Rf) as (fd' & f' & out & E' & Ef' & Eo & Lout & H). rewrite E in E'. injection E' as <-. rewrite Ef in Ef', H. rewrite D0 in Ef. cbn [fd_ffe fd_phase] in *. injection Ef' as <-.
  pose proof (symbols_count st lasso osr x pc Ho O0 En Lo Fe count Lx Per) as Sc.
  eexists. exists fd, p, start, f, out. split; [exact E|]. split; [exact Ef|]. split; auto. split; [apply Fi|]. split; auto. split; [now rewrite Lout, Sc|].
  destruct H as [(p' & Hp' & Ep & H)|(Z & _)]; [|lia]. apply Nat2Z.inj in Ep. subst p'. intros j Hj Hm. rewrite H by auto. rewrite Lout, Sc in Hj. assert (Q : ((j + st_ffe_len st) * osr + p < length x)%nat) by (rewrite Lx; nia). apply Nat.ltb_lt in Q. rewrite Q.
  pose proof (exact_output st lasso osr x pc Ho O0 En Lo Fe count Lx Per p start f d (j + 1) Hp Fi Er) as X. rewrite D0 in X. rewrite Nat.max_0_r in X. specialize (X ltac:(lia) ltac:(unfold P, w in *; lia)). cbn [seq map sumR fold_right] in X. unfold sumR in X. cbn [fold_right] in X.
  replace (j + st_ffe_len st)%nat with (j + 1 + st_ffe_len st - 1)%nat by lia. fold P in X. lra.
Qed.
Print Assumptions C87_exact.
(** One stretch of the symbols comes out of this stream. *)
Example C87_exact_case : forall lasso, exists pc start out, known_pattern (demo 0) pc /\ rx_example lasso (demo 0) (demo_stream pc) = Ok out /\ (125 <= length out)%nat /\
  forall j, (j < 124)%nat -> sample out j = pattern_symbol 127 pc start (j + 1 + 1) /\ sample out j * sample out j = 1.
Proof.
  intros lasso. destruct (demo_ok 0 ltac:(lia)) as (pc & K & U & Rp & Eq). destruct (C87_exact lasso _ _ _ _ _ U K Rp eq_refl Eq) as (cols & fd & p & start & f & out & _ & _ & _ & _ & Eo & Lo & H). cbn [demo st_prbs st_post st_pre] in Lo, H. change (plen PRBS7) with 127%nat in H.
  assert (L : (127 <= length pc)%nat) by (destruct U as (_ & _ & _ & L & _); now rewrite demo_symbols in L). exists pc, start, out. split; auto. split; auto. split; [lia|]. intros j Hj. rewrite H by (rewrite ?Nat.mod_small; lia). split; auto. now apply demo_square.
Qed.

(** rx_example2: its output and decisions.  Under the same conditions, once the decisions fed back are right the outputs are exactly the right symbols,
    and the decisions stay right, to the end of the stretch used for the fit. *)
Theorem C87_feedback : forall lasso st osr x pc count, usable st osr x -> known_pattern st pc -> repeating st osr count x -> (0 < st_dfe st)%nat -> equalisable st osr x pc ->
  let P := period (st_prbs st) in let w := (st_post st + st_pre st + 1)%nat in let sh := Nat.max (st_post st) (st_dfe st) in
  exists cols fd p start f d out dec, phase_search lasso st x = Ok (cols, fd) /\ fd = mk_found (TapsR f) (TapsR d) (Some 0) (Z.of_nat p) /\ (p < osr)%nat /\ aligned_at pc (at_phase osr p x) start /\
  rx_example2 lasso st x = Ok out /\ length out = (count - w)%nat /\ (forall j, (j < length out)%nat -> decided (get_levels_R (st_const st) (st_full_scale st)) (sample out j) (dec j)) /\
  forall j n, (j + n <= length out)%nat -> (st_dfe st <= j)%nat -> (st_dfe st <= (j + 1) mod P)%nat -> ((j + 1) mod P + n <= st_dfe st + (P - (sh + st_pre st + 1)))%nat ->
    (forall k, (k < st_dfe st)%nat -> dec (j - 1 - k)%nat = pattern_symbol P pc start (j - k + sh)) ->
    forall i, (i < n)%nat -> sample out (j + i) = pattern_symbol P pc start (j + i + 1 + sh) /\ dec (j + i)%nat = pattern_symbol P pc start (j + i + 1 + sh).
Proof.
  intros lasso st osr x pc count (Hc & Ho & O0 & En & Lo & Fe) Rf (Lx & Per) D0 (p0 & start0 & f0 & d0 & Hp0 & Lf0 & Ld0 & A0 & E0) P w sh.
  destruct (exact_found st lasso osr x pc Hc Ho O0 En Lo Fe Rf p0 start0 f0 d0 Hp0 Lf0 Ld0 A0 E0) as (fd & p & start & f & d & E & Hp & Ef & Fi & Er).
  pose proof (symbols_count st lasso osr x pc Ho O0 En Lo Fe count Lx Per) as Sc. assert (Lf : length f = w) by apply Fi. assert (Ld : length d = st_dfe st) by apply Fi. set (s := at_phase osr p x) in *. assert (Ls : length s = count) by (unfold s; now rewrite at_phase_length).
  replace (0 <? st_dfe st)%nat with true in Ef by (symmetry; apply Nat.ltb_lt; auto).
  destruct (ffe_dfe_spec f d (get_levels_R (st_const st) (st_full_scale st)) s) as (ys & vs & Ey & Ly & Lv & H); try lia; [apply levels_some| |]. { intros Z. rewrite Z in Ls. cbn in Ls. lia. }
  eexists. exists fd, p, start, f, d, (skipn w ys), (fun j => sample vs (j + w)). split; [exact E|]. split; auto. split; auto. split; [apply Fi|].
  assert (Lout : length (skipn w ys) = (count - w)%nat) by (rewrite skipn_length; lia).
  assert (So : forall j, sample (skipn w ys) j = atR ys (j + w)) by (intros j; change (atR (skipn w ys) j = atR ys (j + w)); rewrite atR_skipn; f_equal; lia).
  split. { unfold rx_example2. rewrite E. cbn [bind]. rewrite Ef. cbn [fd_ffe fd_dfe fd_phase tap_list]. rewrite (np_get_nth _ _ []) by (now rewrite map_length, seq_length). cbn [bind]. rewrite nth_map_seq by auto. cbn [Nat.add]. fold s. rewrite Ey. cbn [bind]. now rewrite Lf. }
  split; auto. split. { intros j Hj. rewrite So. rewrite Lout in Hj. apply H. lia. }
  intros j n Hn J0 M0 Mn Right. assert (PP : (0 < P)%nat) by apply plen_pos.
  assert (Md : forall i, (i < n)%nat -> ((j + i + 1) mod P = (j + 1) mod P + i)%nat).
  { intros i Hi. replace (j + i + 1)%nat with (j + 1 + i)%nat by lia. rewrite <- Nat.add_mod_idemp_l by lia. apply Nat.mod_small. unfold sh, P in *. lia. }
  assert (All : forall i, (i <= n)%nat -> forall k, (k < i + st_dfe st)%nat -> sample vs (j + i - 1 - k + w) = pattern_symbol P pc start (j + i - k + sh) /\ (k < i -> sample (skipn w ys) (j + i - 1 - k) = pattern_symbol P pc start (j + i - k + sh))%nat).
  { induction i as [|i IH]; intros Hi k Hk; [rewrite Nat.add_0_r; split; [apply Right; lia|lia]|]. destruct k as [|k].
    2:{ destruct (IH ltac:(lia) k ltac:(lia)) as (X & Y). replace (j + S i - 1 - S k)%nat with (j + i - 1 - k)%nat by lia. replace (j + S i - S k)%nat with (j + i - k)%nat by lia. split; auto. intros; apply Y; lia. }
    replace (j + S i - 1 - 0)%nat with (j + i)%nat by lia. replace (j + S i - 0)%nat with (j + i + 1)%nat by lia. rewrite Lout in Hn. destruct (H (j + i + w)%nat ltac:(lia)) as (Dv & Ev).
    assert (X : atR ys (j + i + w) = pattern_symbol P pc start (j + i + 1 + sh)).
    { rewrite Ev. pose proof (exact_output st lasso osr x pc Ho O0 En Lo Fe count Lx Per p start f d (j + i + 1) Hp Fi Er) as X. fold P sh s in X. change (st_ffe_len st) with w in X. specialize (X ltac:(lia) ltac:(rewrite Md by lia; unfold sh in *; lia)). rewrite <- X. replace (j + i + 1 + w - 1)%nat with (j + i + w)%nat by lia. apply (f_equal2 Rminus); [reflexivity|]. rewrite Ld. apply smR_ext. intros k Hk'. f_equal.
      destruct (Nat.ltb_spec k (j + i + w)); [|lia]. destruct (IH ltac:(lia) k ltac:(lia)) as (Y & _). change (atR vs (j + i + w - 1 - k)) with (sample vs (j + i + w - 1 - k)). replace (j + i + w - 1 - k)%nat with (j + i - 1 - k + w)%nat by lia. rewrite Y. f_equal. lia. }
    split; [|intros _; now rewrite So]. change (sample vs (j + i + w)) with (atR vs (j + i + w)). rewrite X in Dv. eapply decided_self; [|exact Dv]. now apply pattern_in. }
  intros i Hi. destruct (All (S i) ltac:(lia) 0%nat ltac:(lia)) as (X & Y). replace (j + S i - 1 - 0)%nat with (j + i)%nat in * by lia. replace (j + S i - 0)%nat with (j + i + 1)%nat in * by lia. split; [apply Y; lia|exact X].
Qed.
Print Assumptions C87_feedback.
Example C87_feedback_case : exists pc, usable (demo 1) 2 (demo_stream pc) /\ known_pattern (demo 1) pc /\ repeating (demo 1) 2 (length pc) (demo_stream pc) /\ (0 < st_dfe (demo 1))%nat /\ equalisable (demo 1) 2 (demo_stream pc) pc.
Proof. destruct (demo_ok 1 ltac:(lia)) as (pc & K & U & Rp & Eq). exists pc. repeat (split; auto). Qed.

(** (Finding.) A receiver which cannot lock does not say so: for a stream of zeros the search keeps its initial phase -1, which is a valid index
    (the last phase), and rx_example returns zeros as samples of the symbols, without an exception. *)
Theorem C87_lost_refuted : forall lasso st osr n, usable st osr (repeat 0 n) -> st_dfe st = 0%nat -> exists cols fd out, phase_search lasso st (repeat 0 n) = Ok (cols, fd) /\ fd_phase fd = (-1)%Z /\
  rx_example lasso st (repeat 0 n) = Ok out /\ out = repeat 0 (length out) /\ (0 < length out)%nat.
Proof.
  intros lasso st osr n U D. destruct (C87_pattern st (proj1 U)) as (pc & Rf & _). destruct (C87_search lasso st osr _ pc U Rf) as (fd & E & H). destruct (C87_symbol_rate lasso st osr _ pc U Rf) as (cols & fd' & f & out & E' & _ & Eo & Lo & H').
  rewrite E in E'. injection E' as <- <-. assert (Ph : fd_phase fd = (-1)%Z).
  { destruct H as [(p & start & f' & d & v & Hp & -> & Fi & Er & _)|(-> & _)]; [exfalso|reflexivity]. destruct Er as (N & _). apply N. apply smR_zero. intros i _. assert (Ld : length d = 0%nat) by (rewrite <- D; apply Fi).
    assert (Z : forall m r, (forall k, m k = 0) -> equalised m r f' d (st_dfe st + i) = 0). { intros m r Hm. unfold equalised. rewrite Ld. unfold total at 2. cbn [seq map fold_right]. replace (total (length f') _) with 0; [lra|]. symmetry. apply smR_zero. intros k _. rewrite Hm. lra. }
    rewrite Z; [lra|]. intros k. destruct U as (_ & _ & O0 & _). unfold averaged. replace (total _ _) with 0; [unfold Rdiv; lra|]. symmetry. apply smR_zero. intros j _. rewrite sample_at_phase by auto. unfold sample. apply nth_repeat. }
  eexists. exists fd, out. split; [exact E|]. split; auto. split; auto. split. 2:{ destruct U as (_ & _ & _ & L & M & _). rewrite Lo. lia. }
  destruct H' as [(p & Hp & Ep & _)|(_ & H')]; [lia|]. apply (nth_ext_def 0); [now rewrite repeat_length|]. intros i Hi. rewrite nth_repeat. apply H'.
Qed.
Print Assumptions C87_lost_refuted.
Example C87_lost_case : usable (demo 0) 2 (repeat 0 254) /\ st_dfe (demo 0) = 0%nat.
Proof. split; [|reflexivity]. unfold usable, symbols. rewrite repeat_length. repeat split; try discriminate; try reflexivity; cbn [demo st_prbs st_post st_pre st_dfe]; change (plen PRBS7) with 127%nat; try lia; vm_compute; lia. Qed.
