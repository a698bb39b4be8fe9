(** C86: estimation with prbs_full_scale. *)
From Verif Require Import Py PyQ B_list B_qc M_aux M_prbs M_estim M_estimfs S_estim S_estimfs P_linalgR P_estimfs P_estimsc.
From Coq Require Import Reals Lra Lia Qreals.
From Coq Require Import QArith Qcanon.
Import List.
Import ListNotations.
Open Scope R_scope.

(** On rational captures with prbs_full_scale=False the real model is the rational one. *)
Theorem C86_agree : forall lr lq t signal c post pre dfe nrm reg lam a b g i reference, (forall A y al, lr (map (map real) A) (map real y) (real al) = map real (lq A y al)) ->
  channel_estimation_prbs_R t (map real signal) c false post pre nrm a b g i =
    on_ok (option_map (fun te => (real_taps (fst te), map real (snd te)))) (channel_estimation_prbs t signal c post pre nrm a b g i) /\
  equalization_estimation_prbs_R lr t (map real signal) c post pre dfe nrm reg (real lam) false a b g i = on_ok real_estimate (equalization_estimation_prbs lq t signal c post pre dfe nrm reg lam a b g i) /\
  equalization_estimation_R lr (map real reference) (map real signal) post pre dfe nrm reg (real lam) = on_ok real_estimate (equalization_estimation lq reference signal post pre dfe nrm reg lam).
Proof. intros lr lq t signal c post pre dfe nrm reg lam a b g i reference E. split; [apply q_channel|]. split; [now apply q_estim_prbs|now apply q_estim]. Qed.
Print Assumptions C86_agree.
(** With prbs_full_scale=True the estimated channel is multiplied by the RMS of the levels; a normalised channel, the residual and the exceptions stay. *)
Theorem C86_channel : forall t signal c post pre nrm a b g i,
  channel_estimation_prbs_R t signal c true post pre nrm a b g i =
  on_ok (option_map (fun te => (if nrm : bool then fst te else times_taps (level_rms c) (fst te), snd te))) (channel_estimation_prbs_R t signal c false post pre nrm a b g i).
Proof. exact channel_scaled. Qed.
Print Assumptions C86_channel.
(** A reference multiplied by k > 0: the same exceptions; the residual is multiplied by k^2 and the mse stays; without feedback taps, or when numpy
    reports a residual (independent columns), the feed forward taps are multiplied by k and the feedback taps stay. *)
Theorem C86_reference : forall lasso reference signal post pre dfe nrm reg lam k, 0 < k -> reg = RegNone \/ lam <= 0 ->
  match equalization_estimation_R lasso reference signal post pre dfe nrm reg lam with
  | Raise x => equalization_estimation_R lasso (times k reference) signal post pre dfe nrm reg lam = Raise x
  | Ok e => exists e', equalization_estimation_R lasso (times k reference) signal post pre dfe nrm reg lam = Ok e' /\ r_err e' = times (k * k) (r_err e) /\ r_mse e' = r_mse e /\
      (r_err e <> [] \/ dfe = 0%nat -> e' = rescaled k nrm e)
  end.
Proof. intros. now apply estim_scaled. Qed.
Print Assumptions C86_reference.
(** Ridge regression without feedback taps. *)
Theorem C86_reference_ridge : forall lasso reference signal post pre nrm reg lam k, 0 < k -> reg <> RegLasso \/ lam <= 0 ->
  equalization_estimation_R lasso (times k reference) signal post pre 0 nrm reg lam = on_ok (rescaled k nrm) (equalization_estimation_R lasso reference signal post pre 0 nrm reg lam).
Proof. intros. now apply estim_ridge_scaled. Qed.
Print Assumptions C86_reference_ridge.
(** The same for prbs_full_scale: the factor is one over the RMS of the levels. *)
Theorem C86_equaliser : forall lasso t signal c post pre dfe nrm reg lam a b g i, reg = RegNone \/ lam <= 0 -> let k := / level_rms c in
  match equalization_estimation_prbs_R lasso t signal c post pre dfe nrm reg lam false a b g i with
  | Raise x => equalization_estimation_prbs_R lasso t signal c post pre dfe nrm reg lam true a b g i = Raise x
  | Ok e => exists e', equalization_estimation_prbs_R lasso t signal c post pre dfe nrm reg lam true a b g i = Ok e' /\ r_err e' = times (k * k) (r_err e) /\ r_mse e' = r_mse e /\
      (r_err e <> [] \/ dfe = 0%nat -> e' = rescaled k nrm e)
  end.
Proof.
  intros lasso t signal c post pre dfe nrm reg lam a b g i PL k. pose proof (level_rms_pos c) as P.
  apply (estim_prbs_cases lasso t signal c post pre dfe nrm reg lam a b g i (fun u v => match u with Raise x => v = Raise x | Ok e => exists e', v = Ok e' /\ r_err e' = times (k * k) (r_err e) /\ r_mse e' = r_mse e /\ (r_err e <> [] \/ dfe = 0%nat -> e' = rescaled k nrm e) end)); auto.
  intros r u. apply estim_scaled; auto. now apply Rinv_0_lt_compat.
Qed.
Print Assumptions C86_equaliser.
Theorem C86_equaliser_ridge : forall lasso t signal c post pre nrm reg lam a b g i, reg <> RegLasso \/ lam <= 0 ->
  equalization_estimation_prbs_R lasso t signal c post pre 0 nrm reg lam true a b g i = on_ok (rescaled (/ level_rms c) nrm) (equalization_estimation_prbs_R lasso t signal c post pre 0 nrm reg lam false a b g i).
Proof.
  intros lasso t signal c post pre nrm reg lam a b g i NL. pose proof (level_rms_pos c) as P.
  apply (estim_prbs_cases lasso t signal c post pre 0 nrm reg lam a b g i (fun u v => v = on_ok (rescaled (/ level_rms c) nrm) u)); auto. intros r u. apply estim_ridge_scaled; auto. now apply Rinv_0_lt_compat.
Qed.
Print Assumptions C86_equaliser_ridge.
(** With any regularisation, also the lasso: exceptions do not depend on prbs_full_scale, nor on the values of a reference. *)
Theorem C86_raises : forall lasso t signal c post pre dfe nrm reg lam a b g i, sized lasso ->
  raises (equalization_estimation_prbs_R lasso t signal c post pre dfe nrm reg lam true a b g i) = raises (equalization_estimation_prbs_R lasso t signal c post pre dfe nrm reg lam false a b g i) /\
  forall r r', length r = length r' -> raises (equalization_estimation_R lasso r signal post pre dfe nrm reg lam) = raises (equalization_estimation_R lasso r' signal post pre dfe nrm reg lam).
Proof.
  intros lasso t signal c post pre dfe nrm reg lam a b g i Z. split; [|intros; now apply estim_raises]. apply (estim_prbs_cases lasso t signal c post pre dfe nrm reg lam a b g i (fun u v => raises v = raises u)); auto.
  intros r u. apply estim_raises; auto. apply map_length.
Qed.
Print Assumptions C86_raises.
(** The factor: full-scale levels are the levels divided by their RMS, which is 1 for NRZ only. *)
Theorem C86_factor : forall c, get_levels_R c true = map (fun z => IZR z / level_rms c) (get_levels c) /\ level_rms c * level_rms c = fold_right Rplus 0 (map (fun z => IZR z * IZR z) (get_levels c)) / INR (length (get_levels c)) /\ (level_rms c = 1 <-> c = NRZ).
Proof.
  intros c. split; [apply levels_scaled|]. assert (S : forall x, 0 <= x -> sqrt x * sqrt x = x) by (intros; now apply sqrt_sqrt).
  split; [destruct c; cbn [level_rms get_levels map fold_right length INR]; rewrite ?S by lra; field|]. split; [|now intros ->]. intros H. assert (Q : level_rms c * level_rms c = 1) by (rewrite H; ring).
  destruct c; auto; cbn [level_rms] in Q; rewrite S in Q by lra; lra.
Qed.
Print Assumptions C86_factor.

(** ISI channel 1 + z^-1/2: twelve symbols and the received samples, one symbol late and on time. *)
Definition fs_ref : list Qc := map ofZ [1; 1; -1; 1; -1; -1; -1; 1; 1; -1; 1; 1]%Z.
Definition fs_late : list Qc := map (fun n => if (n =? 0)%nat then 0%Qc else (at_ fs_ref (n - 1) + Q2Qc (1 # 2) * (if (n =? 1)%nat then 0 else at_ fs_ref (n - 2)))%Qc) (seq 0 12).
Definition fs_time : list Qc := skipn 1 fs_late ++ [0%Qc].
Definition no_lasso {A} (_ : list (list A)) (_ : list A) (_ : A) : list A := [].
Definition twice (l : list Qc) : list Qc := map (fun v => (ofZ 2 * v)%Qc) l.
Lemma twice_real l : map real (twice l) = times 2 (map real l).
Proof. unfold twice, times. rewrite !map_map. apply map_ext. intros x. rewrite real_mul, real_Z. reflexivity. Qed.
Lemma run_real r s post pre dfe nrm reg lam : equalization_estimation_R no_lasso (map real r) (map real s) post pre dfe nrm reg (real lam) = on_ok real_estimate (equalization_estimation no_lasso r s post pre dfe nrm reg lam).
Proof. apply q_estim. intros a b al. reflexivity. Qed.
(** Feed forward taps, feedback taps and residual as fractions. *)
Definition shown (r : res estimate) : option (list Q * list Q * list Q) := match r with Ok e => match e_ffe e, e_dfe e with Taps f, Taps d => Some (map this f, map this d, map this (e_err e)) | _, _ => None end | Raise _ => None end.
Lemma shown_ok r f d e : shown r = Some (f, d, e) -> exists x f' d', r = Ok x /\ e_ffe x = Taps f' /\ e_dfe x = Taps d' /\ map this f' = f /\ map this d' = d /\ map this (e_err x) = e.
Proof. destruct r as [x|]; [|discriminate]. unfold shown. destruct (e_ffe x) as [f'| |] eqn:F; try discriminate. destruct (e_dfe x) as [d'| |] eqn:D; try discriminate. intros H. injection H as H1 H2 H3. exists x, f', d'. repeat split; auto. Qed.
Lemma run_overlap : shown (equalization_estimation no_lasso fs_ref fs_late 1 0 2 false RegNone 0%Qc) = Some ([1; -2 # 9]%Q, [5 # 18; -1 # 9]%Q, []).
Proof. vm_compute. reflexivity. Qed.
Lemma run_overlap2 : shown (equalization_estimation no_lasso (twice fs_ref) fs_late 1 0 2 false RegNone 0%Qc) = Some ([2; -4 # 21]%Q, [17 # 42; -1 # 21]%Q, []).
Proof. vm_compute. reflexivity. Qed.
Lemma run_ridge : shown (equalization_estimation no_lasso fs_ref fs_time 0 0 1 false RegRidge 1%Qc) = Some ([42 # 47]%Q, [20 # 47]%Q, [280 # 2209]%Q).
Proof. vm_compute. reflexivity. Qed.
Lemma run_ridge2 : shown (equalization_estimation no_lasso (twice fs_ref) fs_time 0 0 1 false RegRidge 1%Qc) = Some ([1572 # 871]%Q, [400 # 871]%Q, [281440 # 758641]%Q).
Proof. vm_compute. reflexivity. Qed.
Lemma run_time : shown (equalization_estimation no_lasso fs_ref fs_time 0 0 1 false RegNone 0%Qc) = Some ([1]%Q, [1 # 2]%Q, [0]%Q).
Proof. vm_compute. reflexivity. Qed.
Lemma reals l : map real l = map Q2R (map this l). Proof. rewrite map_map. reflexivity. Qed.
(** (Finding.) When the feed forward and feedback taps overlap the columns are dependent, numpy reports no residual, and the taps depend on the scale of the
    reference by more than a factor: the channel 1 + z^-1/2 with two feed forward and two feedback taps gives the feed forward taps (1, -2/9), and (2, -4/21) for the doubled reference. *)
Theorem C86_overlap_refuted : ~ forall lasso reference signal post pre dfe k e, 0 < k -> equalization_estimation_R lasso reference signal post pre dfe false RegNone 0 = Ok e ->
  equalization_estimation_R lasso (times k reference) signal post pre dfe false RegNone 0 = Ok (rescaled k false e).
Proof.
  intros H. specialize (H no_lasso (map real fs_ref) (map real fs_late) 1%nat 0%nat 2%nat 2). rewrite <- twice_real, <- real_0, !run_real in H.
  destruct (shown_ok _ _ _ _ run_overlap) as (e1 & f1 & d1 & E1 & F1 & _ & G1 & _). destruct (shown_ok _ _ _ _ run_overlap2) as (e2 & f2 & d2 & E2 & F2 & _ & G2 & _). rewrite E1, E2 in H. cbn [on_ok] in H.
  specialize (H (real_estimate e1)). rewrite real_0 in H. specialize (H ltac:(lra) eq_refl). injection H as H _ _ _ _. cbn [real_estimate r_ffe] in H. rewrite F1, F2 in H. cbn [real_taps times_taps] in H. injection H as H.
  rewrite !reals, G1, G2 in H. cbn in H. injection H as _ H. unfold Q2R in H. cbn in H. lra.
Qed.
Print Assumptions C86_overlap_refuted.
(** (Finding.) Ridge regression shrinks the feedback taps of a scaled reference differently, also when the columns are independent. *)
Theorem C86_ridge_feedback_refuted : ~ forall lasso reference signal post pre dfe lam k e, 0 < k -> 0 < lam -> equalization_estimation_R lasso reference signal post pre dfe false RegRidge lam = Ok e ->
  equalization_estimation_R lasso (times k reference) signal post pre dfe false RegRidge lam = Ok (rescaled k false e).
Proof.
  intros H. specialize (H no_lasso (map real fs_ref) (map real fs_time) 0%nat 0%nat 1%nat 1 2). rewrite <- twice_real, <- real_1, !run_real in H.
  destruct (shown_ok _ _ _ _ run_ridge) as (e1 & f1 & d1 & E1 & _ & F1 & _ & G1 & _). destruct (shown_ok _ _ _ _ run_ridge2) as (e2 & f2 & d2 & E2 & _ & F2 & _ & G2 & _). rewrite E1, E2 in H. cbn [on_ok] in H.
  specialize (H (real_estimate e1)). rewrite real_1 in H. specialize (H ltac:(lra) ltac:(lra) eq_refl). injection H as _ H _ _ _. cbn [real_estimate r_dfe] in H. rewrite F1, F2 in H. cbn [real_taps] in H. injection H as H.
  rewrite !reals, G1, G2 in H. cbn in H. injection H as H. unfold Q2R in H. cbn in H. lra.
Qed.
Print Assumptions C86_ridge_feedback_refuted.
(** Concrete: one feed forward and one feedback tap invert the channel; numpy reports the residual 0, so the hypothesis of [C86_reference] holds; the
    PAM4 RMS is the root of 5. *)
Example C86_case_reference : exists e, equalization_estimation_R no_lasso (map real fs_ref) (map real fs_time) 0 0 1 false RegNone 0 = Ok e /\ r_err e = [0] /\ r_ffe e = TapsR [1] /\ r_dfe e = TapsR [1 / 2] /\
  equalization_estimation_R no_lasso (times (/ sqrt 5) (map real fs_ref)) (map real fs_time) 0 0 1 false RegNone 0 = Ok (rescaled (/ sqrt 5) false e).
Proof.
  destruct (shown_ok _ _ _ _ run_time) as (e1 & f1 & d1 & E1 & F1 & D1 & G1 & G2 & G3). pose proof (run_real fs_ref fs_time 0 0 1 false RegNone 0%Qc) as E. rewrite E1, real_0 in E. cbn [on_ok] in E.
  assert (N : r_err (real_estimate e1) = [0]). { cbn [real_estimate r_err]. rewrite reals, G3. cbn. unfold Q2R. cbn. f_equal. lra. }
  exists (real_estimate e1). split; [exact E|]. split; [exact N|].
  split. { cbn [real_estimate r_ffe]. rewrite F1. cbn [real_taps]. rewrite reals, G1. cbn. unfold Q2R. cbn. do 2 f_equal. lra. }
  split. { cbn [real_estimate r_dfe]. rewrite D1. cbn [real_taps]. rewrite reals, G2. cbn. unfold Q2R. cbn. do 2 f_equal. }
  assert (K : 0 < / sqrt 5) by (apply Rinv_0_lt_compat, sqrt_lt_R0; lra). pose proof (C86_reference no_lasso (map real fs_ref) (map real fs_time) 0 0 1 false RegNone 0 (/ sqrt 5) K ltac:(auto)) as C.
  rewrite E in C. destruct C as (e' & E' & _ & _ & H). rewrite E', H; auto. left. rewrite N. discriminate.
Qed.
(** A solver of the right size, and a reference that is too short for it. *)
Example C86_case_sized : sized (fun A _ _ => map (fun _ => 0) (hd [] A)) /\ raises (equalization_estimation_R no_lasso [1] [1; 1; 1; 1] 0 0 1 false RegRidge 1) = Some ValueError.
Proof.
  split; [|reflexivity]. intros A b al n N W. destruct A as [|r A]; [contradiction|]. inversion W. cbn. now rewrite map_length.
Qed.
