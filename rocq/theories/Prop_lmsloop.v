(** C90: adaptation of the taps lowers the mean squared error down to that of the best taps. *)
From Verif Require Import Py PyQ B_list B_qc M_slicer M_filter M_lms M_lmsloop S_rx S_filter S_estim S_lms S_lmsloop P_slicer P_eq P_lms P_linalg P_estim P_lasso P_lmsalg P_lmsloop.
Open Scope Qc_scope.

(** One pass with a reference reports the error of the taps it started with. *)
Theorem C90_pass : forall (y r b : list Qc) (levels : option (list Qc)) (lr : Qc),
  length y = length r -> b <> [] -> (length b <= length r)%nat ->
  exists c, lms_ffe_pass y levels (Some r) lr b = Ok (Some (ffe_error y r b, c)) /\ length c = length b.
Proof.
  intros y r b levels lr Ly Nb Lb. assert (Hn : (0 < length r)%nat) by (destruct b; cbn in *; [congruence|lia]).
  eexists. split; [rewrite (ffe_pass_trained y r (length r)) by auto; rewrite ffe_mean by auto; reflexivity|apply stepped_length].
Qed.
Print Assumptions C90_pass.

(** Feed forward taps with a reference, and with the decisions of the slicer. *)
Theorem C90_ffe : forall (y r b : list Qc) (levels : option (list Qc)) (lr : Qc) (N : nat),
  length y = length r -> b <> [] -> (length b <= length r)%nat -> 0 < lr ->
  lr * (ofZ (Z.of_nat (length b)) * total_power y) <= ofZ (2 * Z.of_nat (length r - length b + 1)) ->
  descends (lms_ffe_pass y levels (Some r) lr) (ffe_error y r) lr N b.
Proof.
  intros y r b levels lr N Ly Nb Lb Hlr Hs. assert (Hn : (0 < length r)%nat) by (destruct b; cbn in *; [congruence|lia]).
  apply all_descends with (length r) (length b) (ffe_u y) (want r) (ffe_wt (length r)) (fun _ => True); auto.
  - intros i Hi. now apply ffe_small with r.
  - intros c Lc _. rewrite <- Lc. apply ffe_pass_trained; auto; [|congruence]. intros ->. destruct b; [congruence|discriminate].
  - intros c Lc. rewrite <- Lc. now apply ffe_mean.
Qed.
Print Assumptions C90_ffe.
Theorem C90_ffe_decisions : forall (y r b : list Qc) (levels : option (list Qc)) (lr d : Qc) (N : nat),
  length y = length r -> b <> [] -> (length b <= length r)%nat -> 0 < lr ->
  lr * (ofZ (Z.of_nat (length b)) * total_power y) <= ofZ (2 * Z.of_nat (length r - length b + 1)) ->
  spaced (slicer_levels levels) r d -> 0 < d -> ofZ 4 * (ofZ (Z.of_nat (length r)) * ffe_error y r b) < d * d ->
  descends (lms_ffe_pass y levels None lr) (ffe_error y r) lr N b /\
  forall c, adapted (lms_ffe_pass y levels None lr) N b c <-> adapted (lms_ffe_pass y levels (Some r) lr) N b c.
Proof.
  intros y r b levels lr d N Ly Nb Lb Hlr Hs Sp Hd Hm. assert (Hn : (0 < length r)%nat) by (destruct b; cbn in *; [congruence|lia]).
  set (good := fun c => ofZ 4 * total (length r) (length b) (ffe_u y) (want r) c < d * d).
  assert (Nc : forall c : list Qc, length c = length b -> c <> []) by (intros c Lc ->; destruct b; [congruence|discriminate]).
    assert (G0 : good b) by (unfold good; rewrite total_mean, ffe_mean by auto; exact Hm).
  assert (Sm : forall i, (i < length b)%nat -> 0 < ffe_wt (length r) i /\ ffe_wt (length r) i <= ofZ (Z.of_nat (length r)) /\ lr * energy_of (length r) (length b) (ffe_u y) <= ffe_wt (length r) i + ffe_wt (length r) i) by (intros i Hi; now apply ffe_small with r).
  assert (Hg : forall c, length c = length b -> good c -> good (stepped (length r) (length b) (ffe_u y) (want r) (ffe_wt (length r)) lr c)) by (intros c Lc G; exact (margin_good _ _ _ _ _ c _ G (total_stepped _ _ _ _ _ _ (fun i Hi => proj1 (Sm i Hi)) Hlr (fun i Hi => proj2 (proj2 (Sm i Hi))) c))).
  assert (P1 : forall c, length c = length b -> good c -> lms_ffe_pass y levels (Some r) lr c = Ok (Some (mean_of (length r) (length b) (ffe_u y) (want r) c, stepped (length r) (length b) (ffe_u y) (want r) (ffe_wt (length r)) lr c))).
  { intros c Lc _. rewrite <- Lc. apply ffe_pass_trained; auto. congruence. }
  assert (P2 : forall c, length c = length b -> good c -> lms_ffe_pass y levels None lr c = Ok (Some (mean_of (length r) (length b) (ffe_u y) (want r) c, stepped (length r) (length b) (ffe_u y) (want r) (ffe_wt (length r)) lr c))).
  { intros c Lc Gc. rewrite <- P1 by auto. apply ffe_pass_own with (length r) d; auto; [congruence|]. rewrite Lc; now apply near_total. }
  assert (D2 : descends (lms_ffe_pass y levels None lr) (ffe_error y r) lr N b).
  { apply all_descends with (length r) (length b) (ffe_u y) (want r) (ffe_wt (length r)) good; auto. intros c Lc. rewrite <- Lc. now apply ffe_mean. }
  split; [exact D2|]. pose proof (fun i Hi => proj1 (Sm i Hi)) as H1. pose proof (fun i Hi => proj2 (proj2 (Sm i Hi))) as H3. intros c. split; intros A.
  - rewrite (adapted_det _ _ _ _ _ _ _ good Hg P2 N b c eq_refl G0 A). now apply steps_adapted with good.
  - rewrite (adapted_det _ _ _ _ _ _ _ good Hg P1 N b c eq_refl G0 A). now apply steps_adapted with good.
Qed.
Print Assumptions C90_ffe_decisions.

(** Feedback taps, with a reference or with the decisions of the slicer, while the decisions start right. *)
Theorem C90_dfe : forall (y r a : list Qc) (levels : option (list Qc)) (lr d : Qc) (N : nat),
  length y = length r -> a <> [] -> (length a < length r)%nat -> 0 < lr ->
  lr * (ofZ (Z.of_nat (length a)) * total_power r) <= ofZ (2 * Z.of_nat (length r - length a)) ->
  spaced (slicer_levels levels) r d -> 0 < d -> ofZ 4 * (ofZ (Z.of_nat (length r)) * dfe_error y r a) < d * d ->
  descends (lms_dfe_pass y levels None lr) (dfe_error y r) lr N a /\ descends (lms_dfe_pass y levels (Some r) lr) (dfe_error y r) lr N a /\
  forall c, adapted (lms_dfe_pass y levels None lr) N a c <-> adapted (lms_dfe_pass y levels (Some r) lr) N a c.
Proof.
  intros y r a levels lr d N Ly Na La Hlr Hs Sp Hd Hm. assert (Hn : (0 < length r)%nat) by lia.
  set (good := fun c => ofZ 4 * total (length r) (length a) (dfe_u r) (dfe_want y r) c < d * d).
  assert (Nc : forall c : list Qc, length c = length a -> c <> []) by (intros c Lc ->; destruct a; [congruence|discriminate]).
    assert (G0 : good a) by (unfold good; rewrite total_mean, dfe_mean by auto; exact Hm).
  assert (Sm : forall i, (i < length a)%nat -> 0 < dfe_wt (length r) i /\ dfe_wt (length r) i <= ofZ (Z.of_nat (length r)) /\ lr * energy_of (length r) (length a) (dfe_u r) <= dfe_wt (length r) i + dfe_wt (length r) i) by (intros i Hi; now apply dfe_small with y).
  assert (Hg : forall c, length c = length a -> good c -> good (stepped (length r) (length a) (dfe_u r) (dfe_want y r) (dfe_wt (length r)) lr c)) by (intros c Lc G; exact (margin_good _ _ _ _ _ c _ G (total_stepped _ _ _ _ _ _ (fun i Hi => proj1 (Sm i Hi)) Hlr (fun i Hi => proj2 (proj2 (Sm i Hi))) c))).
  assert (P1 : forall c, length c = length a -> good c -> lms_dfe_pass y levels (Some r) lr c = Ok (Some (mean_of (length r) (length a) (dfe_u r) (dfe_want y r) c, stepped (length r) (length a) (dfe_u r) (dfe_want y r) (dfe_wt (length r)) lr c))).
  { intros c Lc Gc. rewrite <- Lc. apply dfe_pass_trained with d; auto; [congruence|]. rewrite Lc; now apply near_total. }
  assert (P2 : forall c, length c = length a -> good c -> lms_dfe_pass y levels None lr c = Ok (Some (mean_of (length r) (length a) (dfe_u r) (dfe_want y r) c, stepped (length r) (length a) (dfe_u r) (dfe_want y r) (dfe_wt (length r)) lr c))).
  { intros c Lc Gc. rewrite <- P1 by auto. apply dfe_pass_own with (length r) d; auto. rewrite Lc; now apply near_total. }
  assert (E : forall c, length c = length a -> mean_of (length r) (length a) (dfe_u r) (dfe_want y r) c = dfe_error y r c) by (intros c Lc; rewrite <- Lc; now apply dfe_mean).
  split; [now apply all_descends with (length r) (length a) (dfe_u r) (dfe_want y r) (dfe_wt (length r)) good|]. split; [now apply all_descends with (length r) (length a) (dfe_u r) (dfe_want y r) (dfe_wt (length r)) good|].
  pose proof (fun i Hi => proj1 (Sm i Hi)) as H1. pose proof (fun i Hi => proj2 (proj2 (Sm i Hi))) as H3. intros c. split; intros A.
  - rewrite (adapted_det _ _ _ _ _ _ _ good Hg P2 N a c eq_refl G0 A). now apply steps_adapted with good.
  - rewrite (adapted_det _ _ _ _ _ _ _ good Hg P1 N a c eq_refl G0 A). now apply steps_adapted with good.
Qed.
Print Assumptions C90_dfe.

(** The loops end with the taps of the first number of passes at which the stopping rule holds for the losses [l] (the start value, then the error before each pass),
    or of all passes; they end by themselves if the start error is below the allowed passes times the tolerance. *)
Theorem C90_loop : forall (y r b : list Qc) (levels : option (list Qc)) (lr floor tol last : Qc) (N : nat) (l : nat -> Qc),
  length y = length r -> b <> [] -> (length b <= length r)%nat -> 0 < lr -> 0 < tol ->
  lr * (ofZ (Z.of_nat (length b)) * total_power y) <= ofZ (2 * Z.of_nat (length r - length b + 1)) ->
  l 0%nat = last -> (forall k c, adapted (lms_ffe_pass y levels (Some r) lr) k b c -> l (S k) = ffe_error y r c) ->
  exists e M, lms_loop (lms_ffe_pass y levels (Some r) lr) floor tol (S N) last b = Ok (Some e) /\ (M <= S N)%nat /\
    adapted (lms_ffe_pass y levels (Some r) lr) M b (le_taps e) /\
    (forall k, (k < M)%nat -> ~ halts floor tol l k) /\ (le_stopped e = true <-> halts floor tol l M) /\ (le_stopped e = false -> M = S N) /\
    (ffe_error y r b < ofZ (Z.of_nat N) * tol -> le_stopped e = true).
Proof.
  intros y r b levels lr floor tol last N l Ly Nb Lb Hlr Ht Hs L0 LS. assert (Hn : (0 < length r)%nat) by (destruct b; cbn in *; [congruence|lia]).
  apply all_loop with (length r) (length b) (ffe_u y) (want r) (ffe_wt (length r)) lr (fun _ => True); auto.
  - intros i Hi. now apply ffe_small with r.
  - intros c Lc _. rewrite <- Lc. apply ffe_pass_trained; auto; [|congruence]. intros ->. destruct b; [congruence|discriminate].
  - intros c Lc. rewrite <- Lc. now apply ffe_mean.
Qed.
Print Assumptions C90_loop.


Theorem C90_dfe_loop : forall (y r a : list Qc) (levels : option (list Qc)) (reference_vec : option (list Qc)) (lr d floor tol last : Qc) (N : nat) (l : nat -> Qc),
  length y = length r -> a <> [] -> (length a < length r)%nat -> 0 < lr -> 0 < tol -> reference_vec = None \/ reference_vec = Some r ->
  lr * (ofZ (Z.of_nat (length a)) * total_power r) <= ofZ (2 * Z.of_nat (length r - length a)) ->
  spaced (slicer_levels levels) r d -> 0 < d -> ofZ 4 * (ofZ (Z.of_nat (length r)) * dfe_error y r a) < d * d ->
  l 0%nat = last -> (forall k c, adapted (lms_dfe_pass y levels reference_vec lr) k a c -> l (S k) = dfe_error y r c) ->
  exists e M, lms_loop (lms_dfe_pass y levels reference_vec lr) floor tol (S N) last a = Ok (Some e) /\ (M <= S N)%nat /\
    adapted (lms_dfe_pass y levels reference_vec lr) M a (le_taps e) /\
    (forall k, (k < M)%nat -> ~ halts floor tol l k) /\ (le_stopped e = true <-> halts floor tol l M) /\ (le_stopped e = false -> M = S N) /\
    (dfe_error y r a < ofZ (Z.of_nat N) * tol -> le_stopped e = true).
Proof.
  intros y r a levels ref lr d floor tol last N l Ly Na La Hlr Ht Hr Hs Sp Hd Hm L0 LS. assert (Hn : (0 < length r)%nat) by lia.
  set (good := fun c => ofZ 4 * total (length r) (length a) (dfe_u r) (dfe_want y r) c < d * d).
  assert (Nc : forall c : list Qc, length c = length a -> c <> []) by (intros c Lc ->; destruct a; [congruence|discriminate]).
  assert (P1 : forall c, length c = length a -> good c -> lms_dfe_pass y levels (Some r) lr c = Ok (Some (mean_of (length r) (length a) (dfe_u r) (dfe_want y r) c, stepped (length r) (length a) (dfe_u r) (dfe_want y r) (dfe_wt (length r)) lr c))).
  { intros c Lc Gc. rewrite <- Lc. apply dfe_pass_trained with d; auto; [congruence|]. rewrite Lc; now apply near_total. }
  apply all_loop with (length r) (length a) (dfe_u r) (dfe_want y r) (dfe_wt (length r)) lr good; auto.
  - intros i Hi. now apply dfe_small with y.
  - intros c Lc G. exact (margin_good _ _ _ _ _ c _ G (total_stepped _ _ _ _ _ _ (fun i Hi => proj1 (dfe_small y r _ Ly eq_refl Hn lr a La Hlr Hs i Hi)) Hlr (fun i Hi => proj2 (proj2 (dfe_small y r _ Ly eq_refl Hn lr a La Hlr Hs i Hi))) c)).
  - intros c Lc Gc. destruct Hr as [-> | ->]; [|now apply P1]. rewrite <- P1 by auto. apply dfe_pass_own with (length r) d; auto. rewrite Lc; now apply near_total.
  - intros c Lc. rewrite <- Lc. now apply dfe_mean.
  - unfold good. rewrite total_mean, dfe_mean by auto. exact Hm.
Qed.
Print Assumptions C90_dfe_loop.

Definition cq (n : Z) (d : positive) : Qc := Q2Qc (n # d).
(** (Finding.) The step size of the feed forward test, 0.001, fits captures of amplitude about one: on a sample of 100 (the same signal in millivolts or in codes)
    the error grows by the factor 16 with every pass, though the tap 1/100 has no error. *)
Theorem C90_large_refuted : ffe_error [ofZ 100] [ofZ 1] [cq 1 100] = 0 /\
  forall N, exists c, adapted (lms_ffe_pass [ofZ 100] None (Some [ofZ 1]%list) (cq 1 1000)) N [ofZ 1] [c] /\ ffe_error [ofZ 100] [ofZ 1] [c] = ofZ (9801 * 16 ^ Z.of_nat N).
Proof.
  split; [rewrite one_error; qcompute|]. assert (S0 : forall N, exists c, adapted (lms_ffe_pass [ofZ 100] None (Some [ofZ 1]%list) (cq 1 1000)) N [ofZ 1] [c] /\ c * ofZ 100 - ofZ 1 = ofZ (99 * (-4) ^ Z.of_nat N)).
  { induction N as [|N (c & A & E)]; [exists (ofZ 1); split; [constructor|qcompute]|]. eexists. split; [econstructor; [exact A|]; apply one_pass|]. replace (Z.of_nat (S N)) with (Z.succ (Z.of_nat N)) by lia. rewrite Z.pow_succ_r by lia. replace (99 * (-4 * (-4) ^ Z.of_nat N))%Z with ((99 * (-4) ^ Z.of_nat N) + (99 * (-4) ^ Z.of_nat N) * (-5))%Z by ring. set (p := (99 * (-4) ^ Z.of_nat N)%Z) in *. rewrite ofZ_add, ofZ_mul, <- E.
    assert (H : cq 1 1000 * half * ofZ 100 * ofZ 100 = ofZ 5) by qcompute. replace (ofZ (-5)) with (- ofZ 5) by qcompute. rewrite <- H. ring. }
  intros N. destruct (S0 N) as (c & A & E). exists c. split; [exact A|]. rewrite one_error, E. unfold sq. rewrite <- ofZ_mul. f_equal. replace (16 ^ Z.of_nat N)%Z with ((-4) ^ Z.of_nat N * (-4) ^ Z.of_nat N)%Z by (rewrite <- Z.pow_mul_l; reflexivity). ring.
Qed.
Print Assumptions C90_large_refuted.
(** (Finding.) The same constants stop too early on weak captures: on a sample of 1/1000 the loop of the test ends by itself in its second pass with an error
    above 0.99, though the tap 1000 has no error.  The loop therefore reports convergence that did not happen. *)
Theorem C90_stop_refuted : ffe_error [cq 1 1000] [ofZ 1] [ofZ 1000] = 0 /\
  forall N, exists e, lms_loop (lms_ffe_pass [cq 1 1000] None (Some [ofZ 1]%list) (cq 1 1000)) (cq 1 1000000) (cq 2 1000000000) (S (S N)) (ofZ 1000) [ofZ 1] = Ok (Some e) /\
    le_stopped e = true /\ cq 99 100 < ffe_error [cq 1 1000] [ofZ 1] (le_taps e).
Proof.
  split; [rewrite one_error; qcompute|]. intros N. cbn [lms_loop].
  replace (Qcltb (cq 1 1000000) (ofZ 1000)) with true by (vm_compute; reflexivity). cbn [negb]. rewrite one_pass. cbn [bind].
  match goal with |- context [if Qcltb ?a ?b then _ else _] => replace (Qcltb a b) with false by (vm_compute; reflexivity) end.
  match goal with |- context [negb (Qcltb ?a ?b)] => replace (Qcltb a b) with true by (vm_compute; reflexivity) end. cbn [negb]. rewrite one_pass. cbn [bind].
  match goal with |- context [if Qcltb ?a ?b then _ else _] => replace (Qcltb a b) with true by (vm_compute; reflexivity) end.
  eexists. split; [reflexivity|]. split; [reflexivity|]. cbn [le_taps]. rewrite one_error. unfold Qclt. vm_compute. reflexivity.
Qed.
Print Assumptions C90_stop_refuted.

Definition shown_pass (x : res (option (Qc * list Qc))) : option (Q * list Q) := match x with Ok (Some (l, t)) => Some (this l, map this t) | _ => None end.
Example C90_ffe_case : let y := map ofZ [2; 1; -3; 1]%Z in let r := map ofZ [1; 1; -1; -1]%Z in let b := [cq 1 2; 0] in
  length y = length r /\ cq 1 10 * (ofZ 2 * total_power y) <= ofZ (2 * Z.of_nat (length r - length b + 1)) /\
  shown_pass (lms_ffe_pass y None (Some r) (cq 1 10) b) = Some (11 # 16, [15 # 32; 1 # 10])%Q.
Proof. cbv zeta. split; [reflexivity|]. split; [unfold Qcle; vm_compute; discriminate|vm_compute; reflexivity]. Qed.
Example C90_dfe_case : let y := [ofZ 1; cq 5 4; cq (-3) 4; cq (-5) 4] in let r := map ofZ [1; 1; -1; -1]%Z in let a := [cq 1 8]%list in
  length y = length r /\ cq 1 10 * (ofZ 1 * total_power r) <= ofZ (2 * Z.of_nat (length r - length a)) /\
  ofZ 4 * (ofZ 4 * dfe_error y r a) < ofZ 2 * ofZ 2 /\
  shown_pass (lms_dfe_pass y (Some (map ofZ [-1; 1]%Z)) None (cq 1 10) a) = Some (3 # 256, [21 # 160]%list)%Q.
Proof. cbv zeta. split; [reflexivity|]. split; [unfold Qcle; vm_compute; discriminate|]. split; [unfold Qclt; vm_compute; reflexivity|vm_compute; reflexivity]. Qed.
