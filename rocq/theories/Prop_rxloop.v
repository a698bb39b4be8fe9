(** C59: control loop of the receiver of the example link.  Theorems only; proofs are in P_rxloop.v. *)
From Coq Require Import String.
From Verif Require Import Py PyQ B_list B_qc M_aux M_symbol M_slicer M_filter M_lms M_estim M_sim M_rxloop S_rxloop P_rxloop.
From Coq Require Import QArith Qcanon Lqa.
Import List.
Open Scope Z_scope.

(** *** The sampling phase, over any history of chunks *)
(** Whatever the chunks and whatever the gradient function: every call moves the phase by -1, 0 or +1, modulo the
    oversampling ratio; it stays in [0, osr) and is the one the ADC samples with. *)
Theorem C59_phase_history : forall f chunks r r', after f r chunks = Done (Ok r') -> phase_ok r ->
  phase_ok r' /\ rx_max_phase r' = rx_max_phase r /\
  exists steps, length steps = length chunks /\ Forall is_step steps /\ rx_phase r' = (rx_phase r + sumZ steps) mod rx_max_phase r.
Proof. exact history_phase. Qed.
Print Assumptions C59_phase_history.
(** Outside convergence, and after the clock recovery has stopped, the phase never moves again. *)
Theorem C59_phase_frozen : forall f chunks r r', after f r chunks = Done (Ok r') -> phase_ok r -> rx_converge r = false \/ rx_conv_cdr r = false -> rx_phase r' = rx_phase r.
Proof. exact history_frozen. Qed.
Print Assumptions C59_phase_frozen.
(** A converging call: the phase moves by the step of the Mueller-Muller detector on the delayed ADC output and the
    decisions of this call; a zero step stops the clock recovery, any other keeps it on. *)
Theorem C59_clock_step : forall f r r', digital_stage f r = Done (Ok r') -> rx_converge r = true -> rx_conv_cdr r = true ->
  exists s, is_step s /\ mueller_muller_step (adc_vec r) (rx_slicer_out r') (ofZ 1) (ofZ 1) (ofZ 1 / ofZ 1000)%Qc = Ok (Some s) /\
    rx_phase r' = (rx_phase r + s) mod rx_max_phase r /\ a_phase (rx_adc r') = rx_phase r' /\ (rx_conv_cdr r' = false <-> s = 0).
Proof.
  intros f r r' H C D. destruct (digital_spec _ _ _ H) as (r1 & _ & _ & _ & _ & _ & T). destruct (T C) as (_ & _ & _ & _ & _ & [(Z1 & _)|(_ & s & S1 & S2 & S3 & S4 & S5 & S6)]); [congruence|].
  exists s. split; [exact S1|]. split; [exact S2|]. split; [exact S4|]. split; [exact S5|]. rewrite S6. destruct (Z.eqb_spec s 0); cbn [negb]; split; congruence.
Qed.
Print Assumptions C59_clock_step.
(** The samples compared with the decisions are the ADC output delayed by the number of precursors, running over the
    chunk boundary. *)
Theorem C59_delayed_samples : forall r, (0 < e_pre (rx_eq r))%nat -> (e_pre (rx_eq r) <= length (rx_adc_last r))%nat -> (e_pre (rx_eq r) <= length (rx_adc_out r))%nat ->
  length (adc_vec r) = length (rx_adc_out r) /\
  forall i, (i < length (rx_adc_out r))%nat -> nth i (adc_vec r) (ofZ 0) = nth (length (rx_adc_last r) + i - e_pre (rx_eq r)) (rx_adc_last r ++ rx_adc_out r) (ofZ 0).
Proof. exact adc_vec_delay. Qed.
Print Assumptions C59_delayed_samples.

(** *** The digital gain *)
(** Every converging call adds 100 * learning rate * (power of the levels - power of the slicer input). *)
Theorem C59_gain_step : forall f r r', digital_stage f r = Done (Ok r') -> rx_converge r = true ->
  rx_gain r' = (rx_gain r + ofZ 100 * rx_lr r * (mean_square (rx_levels r) - mean_square (rx_slicer_in r')))%Qc.
Proof. intros f r r' H C. destruct (digital_spec _ _ _ H) as (r1 & _ & _ & _ & _ & _ & T). apply (T C). Qed.
Print Assumptions C59_gain_step.
Theorem C59_gain_direction : forall f r r', digital_stage f r = Done (Ok r') -> rx_converge r = true -> (0 < rx_lr r)%Qc ->
  ((rx_gain r < rx_gain r')%Qc <-> (mean_square (rx_slicer_in r') < mean_square (rx_levels r))%Qc) /\
  ((rx_gain r' < rx_gain r)%Qc <-> (mean_square (rx_levels r) < mean_square (rx_slicer_in r'))%Qc).
Proof.
  intros f r r' H C L. rewrite (C59_gain_step _ _ _ H C). set (a := mean_square (rx_levels r)). set (b := mean_square (rx_slicer_in r')).
  assert (K : (0 < ofZ 100 * rx_lr r)%Qc) by (replace 0%Qc with (0 * rx_lr r)%Qc by ring; apply Qcmult_lt_compat_r; [exact L|reflexivity]).
  set (k := (ofZ 100 * rx_lr r)%Qc) in *. clearbody a b k. unfold Qclt in *. cbn [Qcplus Qcmult Qcminus Qcopp this Q2Qc] in *. rewrite !Qred_correct. change (Qlt (this 0%Qc) k) in K. cbn in K.
  split; split; intros Hl; nra.
Qed.
Print Assumptions C59_gain_direction.

(** *** The equaliser taps *)
(** Were the gradient function there: a converging call hands it the delayed ADC output, the slicer input times the new gain
    (a second time: the slicer input already contains the gain), the levels and the positions -precursors .. postcursors and
    1 .. feedback taps, and moves every tap by minus the learning rate times its derivative. *)
Theorem C59_tap_step : forall g r r', digital_stage (Some g) r = Done (Ok r') -> rx_converge r = true -> rx_conv_lms r = true ->
  let e := rx_eq r in exists mse gf gd,
  g (adc_vec r) (map (fun v => rx_gain r' * v)%Qc (rx_slicer_in r')) (rx_levels r)
    (map (fun k => Z.of_nat k - Z.of_nat (e_pre e)) (seq 0 (e_pre e + e_post e + 1))) (map Z.of_nat (seq 1 (e_dfe e))) = Ok (mse, gf, gd) /\
  rx_mse r' = mse /\ length gf = length (e_ffe_vec e) /\ length gd = length (e_dfe_vec e) /\
  length (e_ffe_vec (rx_eq r')) = length (e_ffe_vec e) /\ length (e_dfe_vec (rx_eq r')) = length (e_dfe_vec e) /\
  (forall i, (i < length (e_ffe_vec e))%nat -> nth i (e_ffe_vec (rx_eq r')) (ofZ 0) = (nth i (e_ffe_vec e) (ofZ 0) - rx_lr r * nth i gf (ofZ 0))%Qc) /\
  (forall i, (i < length (e_dfe_vec e))%nat -> nth i (e_dfe_vec (rx_eq r')) (ofZ 0) = (nth i (e_dfe_vec e) (ofZ 0) - rx_lr r * nth i gd (ofZ 0))%Qc).
Proof. exact tap_step. Qed.
Print Assumptions C59_tap_step.

(** *** Convergence never ends *)
(** (Finding.)  Whatever gradient function is called, whatever the received signal and the number of turns: a receiver
    that is not converging yet never gets [converge_done] from perform_convergence. *)
Theorem C59_never_done_refuted : forall f k c r, rx_converge r = false -> rx_done r = false -> forall r', perform_convergence f k c r <> Finished r'.
Proof. exact never_finished. Qed.
Print Assumptions C59_never_done_refuted.
(** In particular every receiver just built. *)
Theorem C59_never_done_new_refuted : forall f k c osr a e m cd lr gain r', perform_convergence f k c (receiver_init osr a e m cd lr gain) <> Finished r'.
Proof. intros. now apply never_finished. Qed.
Print Assumptions C59_never_done_new_refuted.
(** The equaliser adaptation is never switched off. *)
Theorem C59_adaptation_stays_on_refuted : forall f r c p, receive f r c = Done (Ok p) -> rx_converge r = true -> rx_conv_lms r = true -> rx_done r = false ->
  rx_converge (fst p) = true /\ rx_conv_lms (fst p) = true /\ rx_done (fst p) = false.
Proof. intros f r c p H A B C. destruct (receive_waiting _ _ _ _ H A B C) as (X & Y & Z & _). auto. Qed.
Print Assumptions C59_adaptation_stays_on_refuted.
(** (Finding.)  The function called, CommDspy.rx.lms_grad, does not exist: no converging turn completes. *)
Theorem C59_missing_gradient_refuted : forall g k c r r', rx_converge r = false -> rx_done r = false -> perform_convergence (rx_attr "lms_grad" g) (S k) c r <> Running r'.
Proof. intros g k c r r' H1 H2. change (@rx_attr lms_fun "lms_grad" g) with (@None lms_fun). now apply missing_stops. Qed.
Print Assumptions C59_missing_gradient_refuted.

(** *** Cases *)
Definition ex_cd := mk_cd PAM4 2 4 (mk_flags false false false false) false false false false false false false false false GNone.
Definition ex_levels : list Qc := map ofZ [-3; -1; 1; 3].
Definition ex_rx : option receiver :=
  match mapping_data_init PAM4 ex_levels (ofZ 2) (ofZ 3), eq_init 1 1 1 None None (Some ex_levels) None None with
  | Done (Ok m), Ok e => Some (receiver_init 2 (adc_init 8 0 "ss" 2 1 (Some 1)) e m ex_cd (ofZ 1 / ofZ 1024)%Qc (ofZ 1))
  | _, _ => None
  end.
(** Chunks of ideal PAM4, eight samples each. *)
Definition ex_chunk (i : nat) : list Qc := map ofZ (if Nat.even i then [0; 3; 2; 1; 0; -1; -2; -3] else [0; -1; 2; 3; 1; 1; 2; -3]).
(** A gradient function that does nothing. *)
Definition ex_lms : lms_fun := fun _ _ _ fi di => Ok (Some (ofZ 0), map (fun _ => ofZ 0) fi, map (fun _ => ofZ 0) di).
Definition ex_run (f : option lms_fun) (k : nat) : option run := option_map (perform_convergence f k ex_chunk) ex_rx.
Example C59_case_package : ex_run (rx_attr "lms_grad" ex_lms) 5 = Some (Failed AttributeError).
Proof. vm_compute. reflexivity. Qed.
Example C59_case_running : exists r, ex_run (Some ex_lms) 5 = Some (Running r) /\ rx_converge r = true /\ rx_done r = false /\ rx_phase r = a_phase (rx_adc r).
Proof. eexists. vm_compute. repeat split. Qed.
(** One converging call with derivatives 1 for the feed forward taps and 2 for the feedback tap, learning rate 1/1024. *)
Definition ex_push : lms_fun := fun _ _ _ fi di => Ok (Some (ofZ 0), map (fun _ => ofZ 1) fi, map (fun _ => ofZ 2) di).
Example C59_case_taps : match ex_run (Some ex_push) 1 with Some (Running r) => Some (map this (e_ffe_vec (rx_eq r)), map this (e_dfe_vec (rx_eq r))) | _ => None end = Some ([-1 # 1024; 1023 # 1024; -1 # 1024]%Q, [-1 # 512]%Q).
Proof. vm_compute. reflexivity. Qed.
