(** Proofs about the control loop of the receiver of the example link. *)
From Coq Require Import String.
From Verif Require Import Py PyQ B_list B_qc M_aux M_symbol M_slicer M_filter M_lms M_estim M_sim M_rxloop S_rxloop.
Import List.
Open Scope Z_scope.

Lemma obind_ok {A B} (o : outcome A) (f : A -> outcome B) b : obind o f = Done (Ok b) -> exists a, o = Done (Ok a) /\ f a = Done (Ok b).
Proof. destruct o as [[a|e]|]; cbn [obind]; intros H; try discriminate H. eauto. Qed.
Lemma bind_ok {A B} (o : res A) (f : A -> res B) b : bind o f = Ok b -> exists a, o = Ok a /\ f a = Ok b.
Proof. destruct o as [a|e]; cbn [bind]; intros H; try discriminate H. eauto. Qed.

(** What every stage leaves alone. *)
Lemma input_keeps r c r' : input_stage r c = Ok r' ->
  rx_converge r' = rx_converge r /\ rx_conv_lms r' = rx_conv_lms r /\ rx_conv_cdr r' = rx_conv_cdr r /\ rx_done r' = rx_done r /\
  rx_phase r' = rx_phase r /\ rx_max_phase r' = rx_max_phase r /\ rx_adc r' = rx_adc r /\ rx_gain r' = rx_gain r /\ rx_lr r' = rx_lr r /\ rx_levels r' = rx_levels r /\
  rx_adc_last r' = rx_adc_out r /\ e_pre (rx_eq r') = e_pre (rx_eq r).
Proof. unfold input_stage. intros H. apply bind_ok in H. destruct H as (o & _ & H). injection H as <-. repeat split; reflexivity. Qed.
Lemma eq_call_pre e c s e' : eq_call e c = Ok (s, e') -> e_pre e' = e_pre e /\ e_post e' = e_post e /\ e_dfe e' = e_dfe e /\
  e_ffe_vec e' = e_ffe_vec e /\ e_dfe_vec e' = e_dfe_vec e /\ e_levels e' = e_levels e.
Proof.
  unfold eq_call. destruct (_ && _); [|destruct (_ =? 1)%nat; [|destruct (_ =? 0)%nat]]; intros H; apply bind_ok in H; destruct H as (o & _ & H);
  destruct o; try discriminate H; injection H as _ <-; repeat split; reflexivity.
Qed.
Lemma slice_keeps r r' : slice_stage r = Ok r' ->
  rx_converge r' = rx_converge r /\ rx_conv_lms r' = rx_conv_lms r /\ rx_conv_cdr r' = rx_conv_cdr r /\ rx_done r' = rx_done r /\
  rx_phase r' = rx_phase r /\ rx_max_phase r' = rx_max_phase r /\ rx_adc r' = rx_adc r /\ rx_gain r' = rx_gain r /\ rx_lr r' = rx_lr r /\ rx_levels r' = rx_levels r /\
  rx_adc_last r' = rx_adc_last r /\ rx_adc_out r' = rx_adc_out r /\ e_pre (rx_eq r') = e_pre (rx_eq r).
Proof.
  unfold slice_stage. intros H. apply bind_ok in H. destruct H as ((s & e') & E & H). apply bind_ok in H. destruct H as (o & _ & H). injection H as <-.
  apply eq_call_pre in E. repeat split; try reflexivity. cbn. apply E.
Qed.
Lemma gain_keeps r r' : gain_stage r = Done (Ok r') ->
  rx_converge r' = rx_converge r /\ rx_conv_lms r' = rx_conv_lms r /\ rx_conv_cdr r' = rx_conv_cdr r /\ rx_done r' = rx_done r /\
  rx_phase r' = rx_phase r /\ rx_max_phase r' = rx_max_phase r /\ rx_adc r' = rx_adc r /\ rx_lr r' = rx_lr r /\ rx_levels r' = rx_levels r /\
  rx_slicer_in r' = rx_slicer_in r /\ rx_slicer_out r' = rx_slicer_out r /\ rx_adc_out r' = rx_adc_out r /\ rx_adc_last r' = rx_adc_last r /\ rx_eq r' = rx_eq r /\
  rx_gain r' = (rx_gain r + ofZ 100 * rx_lr r * (mean_square (rx_levels r) - mean_square (rx_slicer_in r)))%Qc.
Proof.
  unfold gain_stage, power. destruct (rx_levels r) as [|a l] eqn:E1; [discriminate|]. destruct (rx_slicer_in r) as [|b m] eqn:E2; [discriminate|].
  intros H. injection H as <-. cbn [rx_converge rx_conv_lms rx_conv_cdr rx_done rx_phase rx_max_phase rx_adc rx_lr rx_levels rx_slicer_in rx_slicer_out rx_adc_out rx_adc_last rx_eq rx_gain].
  repeat split; try reflexivity; try (symmetry; assumption). unfold mean_square, meanQ; cbn [map Datatypes.length]; rewrite ?map_length; reflexivity.
Qed.
Lemma np_sign_step x : is_step (np_sign x).
Proof. unfold np_sign, is_step. destruct (Qcltb 0%Qc x); auto. destruct (Qcltb x 0%Qc); auto. Qed.
Lemma mm_step_range s r a b t x : mueller_muller_step s r a b t = Ok (Some x) -> is_step x.
Proof.
  unfold mueller_muller_step. intros H. apply bind_ok in H. destruct H as (u & _ & H). apply bind_ok in H. destruct H as (v & _ & H).
  destruct (_ =? 1)%nat; [discriminate H|]. destruct (Qcltb _ t); injection H as <-; [unfold is_step; auto|apply np_sign_step].
Qed.
Lemma cdr_step r r' : cdr_stage r = Done (Ok r') ->
  rx_converge r' = rx_converge r /\ rx_conv_lms r' = rx_conv_lms r /\ rx_done r' = rx_done r /\ rx_max_phase r' = rx_max_phase r /\
  rx_gain r' = rx_gain r /\ rx_lr r' = rx_lr r /\ rx_levels r' = rx_levels r /\ rx_slicer_in r' = rx_slicer_in r /\ rx_slicer_out r' = rx_slicer_out r /\ rx_adc_out r' = rx_adc_out r /\ rx_adc_last r' = rx_adc_last r /\ rx_eq r' = rx_eq r /\
  ((rx_conv_cdr r = false /\ r' = r) \/
   (rx_conv_cdr r = true /\ exists s, is_step s /\ mueller_muller_step (adc_vec r) (rx_slicer_out r) (ofZ 1) (ofZ 1) (ofZ 1 / ofZ 1000)%Qc = Ok (Some s) /\
      rx_max_phase r <> 0 /\ rx_phase r' = (rx_phase r + s) mod rx_max_phase r /\ a_phase (rx_adc r') = rx_phase r' /\ rx_conv_cdr r' = negb (s =? 0))).
Proof.
  unfold cdr_stage. destruct (rx_conv_cdr r) eqn:E.
  - intros H. apply obind_ok in H. destruct H as ([s|] & Hs & H); [|discriminate H]. injection Hs as Hs. destruct (Z.eqb_spec (rx_max_phase r) 0) as [|N]; [discriminate H|].
    injection H as <-. cbn [rx_converge rx_conv_lms rx_conv_cdr rx_done rx_phase rx_max_phase rx_adc rx_lr rx_levels rx_slicer_in rx_slicer_out rx_adc_out rx_adc_last rx_eq rx_gain a_phase].
    do 12 (split; [reflexivity|]). right. split; [reflexivity|]. exists s. split; [exact (mm_step_range _ _ _ _ _ _ Hs)|]. split; [exact Hs|]. split; [exact N|].
    split; [reflexivity|]. split; [reflexivity|]. now destruct (s =? 0).
  - intros H. injection H as <-. do 12 (split; [reflexivity|]). auto.
Qed.
Lemma mse_moved_self m : mse_moved m m = false.
Proof.
  unfold mse_moved. destruct m as [a|]; [|reflexivity]. replace (a - a)%Qc with 0%Qc by ring. unfold Qcltb. reflexivity.
Qed.
Lemma lms_keeps f r r' : lms_stage f r = Ok r' ->
  rx_converge r' = rx_converge r /\ rx_conv_lms r' = rx_conv_lms r /\ rx_conv_cdr r' = rx_conv_cdr r /\ rx_done r' = rx_done r /\
  rx_phase r' = rx_phase r /\ rx_max_phase r' = rx_max_phase r /\ rx_adc r' = rx_adc r /\ rx_gain r' = rx_gain r /\ rx_lr r' = rx_lr r /\ rx_levels r' = rx_levels r /\
  rx_slicer_in r' = rx_slicer_in r /\ rx_slicer_out r' = rx_slicer_out r /\ rx_adc_out r' = rx_adc_out r /\ rx_adc_last r' = rx_adc_last r /\ e_pre (rx_eq r') = e_pre (rx_eq r).
Proof.
  unfold lms_stage. destruct (rx_conv_lms r) eqn:E.
  - destruct f as [f|]; [|discriminate]. intros H. apply bind_ok in H. destruct H as (fi & _ & H). apply bind_ok in H. destruct H as (di & _ & H).
    apply bind_ok in H. destruct H as (((m & gf) & gd) & _ & H). apply bind_ok in H. destruct H as (fv & _ & H). apply bind_ok in H. destruct H as (dv & _ & H).
    injection H as <-. rewrite mse_moved_self.
    cbn [rx_converge rx_conv_lms rx_conv_cdr rx_done rx_phase rx_max_phase rx_adc rx_lr rx_levels rx_slicer_in rx_slicer_out rx_adc_out rx_adc_last rx_eq rx_gain e_pre].
    repeat split; reflexivity.
  - intros H. injection H as <-. repeat split; reflexivity || assumption.
Qed.
Lemma finish_keeps r : rx_conv_lms r = true -> finish_stage r = r.
Proof. intros H. unfold finish_stage. rewrite H. now rewrite andb_false_r. Qed.
Lemma finish_fields r : let r' := finish_stage r in rx_conv_lms r' = rx_conv_lms r /\ rx_conv_cdr r' = rx_conv_cdr r /\
  rx_phase r' = rx_phase r /\ rx_max_phase r' = rx_max_phase r /\ rx_adc r' = rx_adc r /\ rx_gain r' = rx_gain r /\ rx_slicer_in r' = rx_slicer_in r /\ rx_slicer_out r' = rx_slicer_out r /\
  rx_converge r' = rx_converge r && (rx_conv_cdr r || rx_conv_lms r) /\ rx_done r' = rx_done r || (negb (rx_conv_cdr r) && negb (rx_conv_lms r)).
Proof.
  unfold finish_stage. destruct (rx_conv_cdr r) eqn:E1, (rx_conv_lms r) eqn:E2; cbn [negb andb orb];
  cbn [rx_converge rx_conv_lms rx_conv_cdr rx_done rx_phase rx_max_phase rx_adc rx_lr rx_levels rx_slicer_in rx_slicer_out rx_adc_out rx_adc_last rx_eq rx_gain];
  rewrite ?andb_true_r, ?andb_false_r, ?orb_false_r, ?orb_true_r; repeat split; reflexivity || assumption.
Qed.

(** One digital stage. *)
Lemma digital_spec f r r' : digital_stage f r = Done (Ok r') ->
  exists r1, slice_stage r = Ok r1 /\ rx_slicer_in r' = rx_slicer_in r1 /\ rx_slicer_out r' = rx_slicer_out r1 /\ rx_max_phase r' = rx_max_phase r /\
  (rx_converge r = false -> r' = r1) /\
  (rx_converge r = true ->
     rx_conv_lms r' = rx_conv_lms r /\
     rx_converge r' = rx_conv_cdr r' || rx_conv_lms r' /\
     rx_done r' = rx_done r || (negb (rx_conv_cdr r') && negb (rx_conv_lms r')) /\
     rx_gain r' = (rx_gain r + ofZ 100 * rx_lr r * (mean_square (rx_levels r) - mean_square (rx_slicer_in r')))%Qc /\
     (rx_conv_lms r = true -> f <> None) /\
     ((rx_conv_cdr r = false /\ rx_conv_cdr r' = false /\ rx_phase r' = rx_phase r /\ rx_adc r' = rx_adc r) \/
      (rx_conv_cdr r = true /\ exists s, is_step s /\
         mueller_muller_step (adc_vec r) (rx_slicer_out r') (ofZ 1) (ofZ 1) (ofZ 1 / ofZ 1000)%Qc = Ok (Some s) /\
         rx_max_phase r <> 0 /\ rx_phase r' = (rx_phase r + s) mod rx_max_phase r /\ a_phase (rx_adc r') = rx_phase r' /\ rx_conv_cdr r' = negb (s =? 0)))).
Proof.
  unfold digital_stage. intros H. apply obind_ok in H. destruct H as (r1 & H1 & H). injection H1 as H1. exists r1. split; [exact H1|].
  destruct (slice_keeps _ _ H1) as (K1 & K2 & K3 & K4 & K5 & K6 & K7 & K8 & K9 & K10 & K11 & K12 & K13). rewrite K1 in H.
  destruct (rx_converge r) eqn:EC.
  - apply obind_ok in H. destruct H as (r2 & H2 & H). apply obind_ok in H. destruct H as (r3 & H3 & H). apply obind_ok in H. destruct H as (r4 & H4 & H). injection H4 as H4. injection H as <-.
    destruct (gain_keeps _ _ H2) as (G1 & G2 & G3 & G4 & G5 & G6 & G7 & G8 & G9 & G10 & G11 & G12 & G13 & G14 & G15).
    destruct (cdr_step _ _ H3) as (C1 & C2 & C3 & C4 & C5 & C6 & C7 & C8 & C9 & C10 & C11 & C12 & CC).
    destruct (lms_keeps _ _ _ H4) as (L1 & L2 & L3 & L4 & L5 & L6 & L7 & L8 & L9 & L10 & L11 & L12 & L13 & L14 & L15).
    destruct (finish_fields r4) as (F1 & F2 & F3 & F4 & F5 & F6 & F7 & F8 & F9 & F10).
    split; [congruence|]. split; [congruence|]. split; [congruence|]. split; [discriminate|]. intros _.
    split; [congruence|]. split; [rewrite F9, F1, F2; replace (rx_converge r4) with true by congruence; reflexivity|]. split; [rewrite F10, F1, F2; congruence|].
    split; [rewrite F6, L8, C5, G15, F7, L11, C8, G10; congruence|]. split.
    { intros E. unfold lms_stage in H4. assert (E3 : rx_conv_lms r3 = true) by congruence. rewrite E3 in H4. destruct f; [discriminate|discriminate H4]. }
    assert (AV : adc_vec r2 = adc_vec r) by (unfold adc_vec; rewrite G14, K13, G13, G12, K11, K12; reflexivity).
    destruct CC as [(Z1 & ->) | (Z1 & s & S1 & S2 & S3 & S4 & S5 & S6)].
    + left. repeat split; congruence.
    + right. split; [congruence|]. exists s. split; [exact S1|]. rewrite AV in S2. rewrite F8, L12, C9. split; [exact S2|].
      split; [congruence|]. split; [rewrite F3, L5, S4; congruence|]. split; [rewrite F5, F3, L7, L5; exact S5|]. congruence.
  - injection H as <-. repeat split; auto; try discriminate; congruence.
Qed.
Lemma receive_ok f r c p : receive f r c = Done (Ok p) -> exists r1, input_stage r c = Ok r1 /\ digital_stage f r1 = Done (Ok (fst p)) /\ extract_data (fst p) = Done (Ok (snd p)).
Proof.
  unfold receive. intros H. apply obind_ok in H. destruct H as (r1 & H1 & H). injection H1 as H1. apply obind_ok in H. destruct H as (r2 & H2 & H).
  apply obind_ok in H. destruct H as (d & H3 & H). injection H as <-. exists r1. cbn [fst snd]. auto.
Qed.

(** *** Never finished *)
Lemma receive_waiting f r c p : receive f r c = Done (Ok p) -> rx_converge r = true -> rx_conv_lms r = true -> rx_done r = false ->
  rx_converge (fst p) = true /\ rx_conv_lms (fst p) = true /\ rx_done (fst p) = false /\ f <> None.
Proof.
  intros H C L D. destruct (receive_ok _ _ _ _ H) as (r1 & H1 & H2 & _). destruct (input_keeps _ _ _ H1) as (K1 & K2 & K3 & K4 & _).
  destruct (digital_spec _ _ _ H2) as (r2 & _ & _ & _ & _ & _ & T). destruct T as (T1 & T2 & T3 & _ & T5 & _); [congruence|].
  assert (L' : rx_conv_lms (fst p) = true) by congruence. split; [rewrite T2, L'; apply orb_true_r|]. split; [exact L'|]. split; [rewrite T3, L', andb_false_r, orb_false_r; congruence|]. apply T5. congruence.
Qed.
Lemma loop_waiting f : forall k c i r, rx_converge r = true -> rx_conv_lms r = true -> rx_done r = false -> forall r', converge_loop f k c i r <> Finished r'.
Proof.
  induction k as [|k IH]; intros c i r C L D r'; cbn [converge_loop]; rewrite D; [discriminate|].
  destruct (receive f r (c i)) as [[[r1 d]|e]|] eqn:E; try discriminate. destruct (receive_waiting _ _ _ _ E C L D) as (C1 & L1 & D1 & _). now apply IH.
Qed.
Lemma receive_idle f r c p : receive f r c = Done (Ok p) -> rx_converge r = false -> rx_done (fst p) = rx_done r /\ rx_converge (fst p) = false.
Proof.
  intros H C. destruct (receive_ok _ _ _ _ H) as (r1 & H1 & H2 & _). destruct (input_keeps _ _ _ H1) as (K1 & K2 & K3 & K4 & _).
  destruct (digital_spec _ _ _ H2) as (r2 & S & _ & _ & _ & T & _). rewrite T in * by congruence. destruct (slice_keeps _ _ S) as (J1 & J2 & J3 & J4 & _). split; congruence.
Qed.
Lemma never_finished f k c r : rx_converge r = false -> rx_done r = false -> forall r', perform_convergence f k c r <> Finished r'.
Proof.
  intros C D r'. unfold perform_convergence. destruct (receive f r (c 0%nat)) as [[[r1 d]|e]|] eqn:E; try discriminate.
  destruct (receive_idle _ _ _ _ E C) as [D1 _]. cbn [fst] in D1. apply loop_waiting; try reflexivity. cbn [start_convergence rx_done]. congruence.
Qed.
Lemma missing_stops k c r r' : rx_converge r = false -> rx_done r = false -> perform_convergence None (S k) c r <> Running r'.
Proof.
  intros C D. unfold perform_convergence. destruct (receive None r (c 0%nat)) as [[[r1 d]|e]|] eqn:E; try discriminate.
  destruct (receive_idle _ _ _ _ E C) as [D1 _]. cbn [fst] in D1. cbn [converge_loop].
  change (rx_done (start_convergence r1)) with (rx_done r1). rewrite D1, D.
  destruct (receive None (start_convergence r1) (c 1%nat)) as [[[r2 d2]|e]|] eqn:E2; try discriminate. exfalso.
  apply (receive_waiting _ _ _ _ E2); try reflexivity. cbn [start_convergence rx_done]. congruence.
Qed.

(** *** The sampling phase *)
Lemma receive_phase f r c p : receive f r c = Done (Ok p) -> phase_ok r -> exists s, is_step s /\ rx_max_phase (fst p) = rx_max_phase r /\
  rx_phase (fst p) = (rx_phase r + s) mod rx_max_phase r /\ phase_ok (fst p) /\ (rx_converge r = false \/ rx_conv_cdr r = false -> s = 0 /\ rx_conv_cdr (fst p) = rx_conv_cdr r /\ (rx_converge r = false -> rx_converge (fst p) = false)).
Proof.
  intros H [P1 P2]. destruct (receive_ok _ _ _ _ H) as (r1 & H1 & H2 & _). destruct (input_keeps _ _ _ H1) as (K1 & K2 & K3 & K4 & K5 & K6 & K7 & _).
  destruct (digital_spec _ _ _ H2) as (r2 & S & _ & _ & M & T0 & T). unfold phase_ok. destruct (rx_converge r) eqn:EC.
  - destruct T as (T1 & T2 & T3 & T4 & T5 & [(Z1 & Z2 & Z3 & Z4)|(Z1 & s & S1 & S2 & S3 & S4 & S5 & S6)]); [congruence| |].
    + exists 0. split; [unfold is_step; auto|]. rewrite Z.add_0_r, Z.mod_small by lia. rewrite M, Z3, Z4, K5, K6, K7. repeat split; auto; try lia; congruence.
    + exists s. split; [exact S1|]. rewrite M, K6. split; [reflexivity|]. rewrite S4, K5, K6. split; [reflexivity|].
      split; [split; [rewrite S5, S4, K5, K6; reflexivity|apply Z.mod_pos_bound; lia]|]. intros [?|?]; congruence.
  - rewrite T0 in * by congruence. destruct (slice_keeps _ _ S) as (J1 & J2 & J3 & J4 & J5 & J6 & J7 & _).
    exists 0. split; [unfold is_step; auto|]. rewrite Z.add_0_r, Z.mod_small by lia. rewrite J5, J6, J7, K5, K6, K7. repeat split; auto; try lia; congruence.
Qed.
Lemma history_phase f : forall chunks r r', after f r chunks = Done (Ok r') -> phase_ok r ->
  phase_ok r' /\ rx_max_phase r' = rx_max_phase r /\
  exists steps, length steps = length chunks /\ Forall is_step steps /\ rx_phase r' = (rx_phase r + sumZ steps) mod rx_max_phase r.
Proof.
  induction chunks as [|c chunks IH]; intros r r' H P; cbn [after] in H.
  - injection H as <-. split; [exact P|]. split; [reflexivity|]. exists []. repeat split; auto. change (sumZ []) with 0. destruct P. rewrite Z.add_0_r, Z.mod_small by lia. reflexivity.
  - apply obind_ok in H. destruct H as (p & H1 & H2). destruct (receive_phase _ _ _ _ H1 P) as (s & S & M & E & P1 & _).
    destruct (IH _ _ H2 P1) as (Q1 & Q2 & st & L & F & E2). split; [exact Q1|]. split; [congruence|]. exists (s :: st). split; [cbn [length]; lia|]. split; [now constructor|].
    rewrite E2, M, E. change (sumZ (s :: st)) with (s + sumZ st). rewrite Zplus_mod_idemp_l. f_equal. lia.
Qed.
Lemma history_frozen f : forall chunks r r', after f r chunks = Done (Ok r') -> phase_ok r -> rx_converge r = false \/ rx_conv_cdr r = false -> rx_phase r' = rx_phase r.
Proof.
  induction chunks as [|c chunks IH]; intros r r' H P F; cbn [after] in H; [now injection H as <-|].
  apply obind_ok in H. destruct H as (p & H1 & H2). destruct (receive_phase _ _ _ _ H1 P) as (s & S & M & E & P1 & G). destruct (G F) as (-> & G2 & G3).
  rewrite (IH _ _ H2 P1); [rewrite E, Z.add_0_r; apply Z.mod_small, P|]. destruct F as [F|F]; [left; auto|right; congruence].
Qed.

(** *** The vector compared with the decisions *)
Lemma adc_vec_delay r : (0 < e_pre (rx_eq r))%nat -> (e_pre (rx_eq r) <= length (rx_adc_last r))%nat -> (e_pre (rx_eq r) <= length (rx_adc_out r))%nat ->
  length (adc_vec r) = length (rx_adc_out r) /\
  forall i, (i < length (rx_adc_out r))%nat -> nth i (adc_vec r) (ofZ 0) = nth (length (rx_adc_last r) + i - e_pre (rx_eq r)) (rx_adc_last r ++ rx_adc_out r) (ofZ 0).
Proof.
  intros H0 H1 H2. set (d := e_pre (rx_eq r)) in *. set (u := rx_adc_last r) in *. set (v := rx_adc_out r) in *.
  assert (E : adc_vec r = skipn (length u - d) u ++ firstn (length v - d) v).
  { unfold adc_vec. fold d u v. destruct (Z.ltb_spec 0 (Z.of_nat d)); [|lia]. unfold slice_from, slice_to, slice_bound. f_equal; f_equal.
    - destruct (Z.ltb_spec (-1 * Z.of_nat d) 0); lia.
    - destruct (Z.ltb_spec (-1 * Z.of_nat d) 0); lia. }
  rewrite E. split; [rewrite app_length, skipn_length, firstn_length; lia|]. intros i Hi.
  destruct (Nat.lt_ge_cases i d) as [C|C].
  - rewrite app_nth1 by (rewrite skipn_length; lia). rewrite nth_skipn. rewrite app_nth1 by lia. f_equal. lia.
  - rewrite app_nth2 by (rewrite skipn_length; lia). rewrite skipn_length. rewrite nth_firstn by lia. rewrite app_nth2 by lia. f_equal. lia.
Qed.

(** *** The equaliser taps *)
Lemma np_add_step u c w t : np_add u (map (fun x => ofZ (-1) * c * x)%Qc w) = Ok t ->
  length w = length u /\ length t = length u /\ forall i, (i < length u)%nat -> nth i t (ofZ 0) = (nth i u (ofZ 0) - c * nth i w (ofZ 0))%Qc.
Proof.
  unfold np_add. rewrite map_length. destruct (Nat.eqb_spec (length u) (length w)) as [L|]; [|discriminate]. intros H. injection H as <-. split; [auto|]. split; [rewrite map2_length, map_length; lia|].
  intros i Hi. rewrite (map2_nth _ _ _ _ (ofZ 0) (ofZ 0)) by (rewrite ?map_length; lia). rewrite (map_nth_lt _ _ _ (ofZ 0)) by lia. replace (ofZ (-1)) with (- (1))%Qc by (apply Qc_is_canon; reflexivity). ring.
Qed.
Lemma arange_unit a b : arange a b 1 = Ok (map (fun k => a + Z.of_nat k) (seq 0 (Z.to_nat (b - a)))).
Proof. unfold arange. cbn [Z.eqb]. f_equal. replace (Z.to_nat _) with (Z.to_nat (b - a)) by (rewrite Z.div_1_r; lia). apply map_ext. intros. lia. Qed.
Lemma tap_step g r r' : digital_stage (Some g) r = Done (Ok r') -> rx_converge r = true -> rx_conv_lms r = true ->
  let e := rx_eq r in exists mse gf gd,
  g (adc_vec r) (map (fun v => rx_gain r' * v)%Qc (rx_slicer_in r')) (rx_levels r)
    (map (fun k => Z.of_nat k - Z.of_nat (e_pre e)) (seq 0 (e_pre e + e_post e + 1))) (map Z.of_nat (seq 1 (e_dfe e))) = Ok (mse, gf, gd) /\
  rx_mse r' = mse /\ length gf = length (e_ffe_vec e) /\ length gd = length (e_dfe_vec e) /\
  length (e_ffe_vec (rx_eq r')) = length (e_ffe_vec e) /\ length (e_dfe_vec (rx_eq r')) = length (e_dfe_vec e) /\
  (forall i, (i < length (e_ffe_vec e))%nat -> nth i (e_ffe_vec (rx_eq r')) (ofZ 0) = (nth i (e_ffe_vec e) (ofZ 0) - rx_lr r * nth i gf (ofZ 0))%Qc) /\
  (forall i, (i < length (e_dfe_vec e))%nat -> nth i (e_dfe_vec (rx_eq r')) (ofZ 0) = (nth i (e_dfe_vec e) (ofZ 0) - rx_lr r * nth i gd (ofZ 0))%Qc).
Proof.
  intros H EC EL. cbv zeta. unfold digital_stage in H. apply obind_ok in H. destruct H as (r1 & H1 & H). injection H1 as H1.
  destruct (slice_keeps _ _ H1) as (K1 & K2 & K3 & K4 & K5 & K6 & K7 & K8 & K9 & K10 & K11 & K12 & K13). rewrite K1, EC in H.
  assert (EQ : e_post (rx_eq r1) = e_post (rx_eq r) /\ e_dfe (rx_eq r1) = e_dfe (rx_eq r) /\ e_ffe_vec (rx_eq r1) = e_ffe_vec (rx_eq r) /\ e_dfe_vec (rx_eq r1) = e_dfe_vec (rx_eq r)).
  { unfold slice_stage in H1. apply bind_ok in H1. destruct H1 as ((s & e') & E & H1). apply bind_ok in H1. destruct H1 as (o & _ & H1). injection H1 as <-. apply eq_call_pre in E. cbn. tauto. }
  destruct EQ as (Q1 & Q2 & Q3 & Q4).
  apply obind_ok in H. destruct H as (r2 & H2 & H). apply obind_ok in H. destruct H as (r3 & H3 & H). apply obind_ok in H. destruct H as (r4 & H4 & H). injection H4 as H4. injection H as <-.
  destruct (gain_keeps _ _ H2) as (G1 & G2 & G3 & G4 & G5 & G6 & G7 & G8 & G9 & G10 & G11 & G12 & G13 & G14 & G15).
  destruct (cdr_step _ _ H3) as (C1 & C2 & C3 & C4 & C5 & C6 & C7 & C8 & C9 & C10 & C11 & C12 & CC).
  destruct (lms_keeps _ _ _ H4) as (L1 & L2 & L3 & L4 & L5 & L6 & L7 & L8 & L9 & L10 & L11 & L12 & L13 & L14 & L15).
  assert (E3 : rx_conv_lms r3 = true) by congruence. rewrite finish_keeps by congruence.
  assert (A : adc_vec r3 = adc_vec r) by (unfold adc_vec; rewrite C12, G14, K13, C11, G13, K11, C10, G12, K12; reflexivity).
  unfold lms_stage in H4. rewrite E3 in H4. apply bind_ok in H4. destruct H4 as (fi & Hfi & H). apply bind_ok in H. destruct H as (di & Hdi & H).
  apply bind_ok in H. destruct H as (((m & gf) & gd) & Hg & H). apply bind_ok in H. destruct H as (fv & Hf & H). apply bind_ok in H. destruct H as (dv & Hd & H).
  assert (X3 : rx_eq r3 = rx_eq r1) by congruence. rewrite X3, ?Q1, ?Q2, ?Q3, ?Q4, ?K13 in *.
  apply np_add_step in Hf. apply np_add_step in Hd. destruct Hf as (F1 & F2 & F3). destruct Hd as (D1 & D2 & D3).
  assert (LR : rx_lr r3 = rx_lr r) by congruence. rewrite LR in *.
  exists m, gf, gd.
  assert (I1 : fi = map (fun k => Z.of_nat k - Z.of_nat (e_pre (rx_eq r))) (seq 0 (e_pre (rx_eq r) + e_post (rx_eq r) + 1))).
  { rewrite arange_unit in Hfi. assert (Hfi' := f_equal (fun r => match r with Ok v => v | Raise _ => [] end) Hfi). cbv beta iota in Hfi'. rewrite <- Hfi'. replace (Z.to_nat _) with (e_pre (rx_eq r) + e_post (rx_eq r) + 1)%nat by lia. apply map_ext. intros. lia. }
  assert (I2 : di = map Z.of_nat (seq 1 (e_dfe (rx_eq r)))).
  { rewrite arange_unit in Hdi. assert (Hdi' := f_equal (fun r => match r with Ok v => v | Raise _ => [] end) Hdi). cbv beta iota in Hdi'. rewrite <- Hdi'. replace (Z.to_nat _) with (e_dfe (rx_eq r)) by lia. rewrite <- seq_shift, map_map. apply map_ext. intros. lia. }
  split; [rewrite <- I1, <- I2, <- A; replace (rx_gain r4) with (rx_gain r3) by congruence; replace (rx_slicer_in r4) with (rx_slicer_in r3) by congruence; replace (rx_levels r) with (rx_levels r3) by congruence; exact Hg|].
  injection H as <-. cbn [rx_mse rx_eq e_ffe_vec e_dfe_vec]. repeat split; auto.
Qed.
