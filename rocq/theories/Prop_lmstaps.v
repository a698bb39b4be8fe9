(** C91: adaptation learns the taps themselves. *)
From Verif Require Import Py PyQ B_list B_qc M_slicer M_filter M_lms M_lmsloop S_rx S_filter S_estim S_lms S_lmsloop S_lmstaps P_slicer P_eq P_lms P_linalg P_estim P_lasso P_lmsalg P_lmsloop Prop_lmsloop P_lmstaps.
Open Scope Qc_scope.

(** Feed forward: if [w] equalises the capture exactly, the taps come as close to [w] as wanted. *)
Theorem C91_ffe : forall (y r b w : list Qc) (levels : option (list Qc)) (lr lam : Qc) (N : nat),
  length y = length r -> b <> [] -> length b = length w -> (length b <= length r)%nat -> 0 < lr ->
  lr * (ofZ (Z.of_nat (length b)) * total_power y) <= ofZ (2 * Z.of_nat (length r - length b + 1)) ->
  equalises w y r -> excites y (instants (length w)) lam ->
  exists c, adapted (lms_ffe_pass y levels (Some r) lr) N b c /\ (forall c', adapted (lms_ffe_pass y levels (Some r) lr) N b c' -> c' = c) /\
    length c = length w /\ ofZ (Z.of_nat N) * lr * (lam * apart c w) <= ofZ 2 * apart b w.
Proof.
  intros y r b w levels lr lam N Ly Nb Lw Lb Hlr Hs He Hx. apply learned with (ffe_error y r); auto; [now apply C90_ffe|now apply ffe_known|]. intros c Lc. now apply ffe_above.
Qed.
Print Assumptions C91_ffe.

(** Feedback: the start may be off by as much as one wrong decision needs, whatever the length of the capture; every decision of every pass is right. *)
Theorem C91_dfe : forall (y r a h : list Qc) (levels : option (list Qc)) (lr lam d R : Qc) (N : nat),
  length y = length r -> a <> [] -> length a = length h -> (length h < length r)%nat -> 0 < lr ->
  lr * (ofZ (Z.of_nat (length h)) * total_power r) <= ofZ (2 * Z.of_nat (length r - length h)) ->
  spaced (slicer_levels levels) r d -> 0 < d -> (forall v, In v r -> v * v <= R) ->
  ofZ 4 * (ofZ (Z.of_nat (length h)) * R * (ofZ (Z.of_nat (length r)) * apart a h)) < d * d * ofZ (Z.of_nat (length r - length h)) ->
  postcursors h r y -> excites r (map Z.succ (instants (length h))) lam ->
  exists c, adapted (lms_dfe_pass y levels None lr) N a c /\ (forall c', adapted (lms_dfe_pass y levels None lr) N a c' -> c' = c) /\
    adapted (lms_dfe_pass y levels (Some r) lr) N a c /\
    length c = length h /\ ofZ (Z.of_nat N) * lr * (lam * apart c h) <= ofZ 2 * apart a h.
Proof.
  intros y r a h levels lr lam d R N Ly Na La Kn Hlr Hs Sp Hd HR Hm Hp Hx. assert (Hn : (0 < length r)%nat) by lia.
  assert (PR : 0 <= R). { destruct r as [|v r']; [cbn in Hn; lia|]. apply Qcle_trans with (sq v); [apply sq_nonneg|]. apply HR. now left. }
  assert (Sm : forall i, (i < length h)%nat -> 0 < dfe_wt (length r) i /\ dfe_wt (length r) i <= ofZ (Z.of_nat (length r)) /\ lr * energy_of (length r) (length h) (dfe_u r) <= dfe_wt (length r) i + dfe_wt (length r) i) by (intros i Hi; exact (dfe_small y r _ Ly eq_refl Hn lr h Kn Hlr Hs i Hi)).
  set (good := fun c => far h (length r) c <= far h (length r) a).
  assert (Nc : forall c : list Qc, length c = length h -> c <> []) by (intros c Lc ->; destruct a; [congruence|cbn in *; lia]).
  assert (Hg : forall c, length c = length h -> good c -> good (stepped (length r) (length h) (dfe_u r) (dfe_want y r) (dfe_wt (length r)) lr c)).
  { intros c Lc G. unfold good. eapply Qcle_trans; [|exact G]. exact (far_stepped y r h (length r) lr R eq_refl Hlr Kn Hp HR Sm c). }
  assert (Nr : forall c, length c = length h -> good c -> near (length r) d (err (length h) (dfe_u r) (dfe_want y r) (tap c))).
  { intros c Lc G. now apply (far_near y r h (length r) lr d R eq_refl Hd Kn Hp HR PR Sm a c La Lc). }
  assert (P1 : forall c, length c = length h -> good c -> lms_dfe_pass y levels (Some r) lr c = Ok (Some (mean_of (length r) (length h) (dfe_u r) (dfe_want y r) c, stepped (length r) (length h) (dfe_u r) (dfe_want y r) (dfe_wt (length r)) lr c))).
  { intros c Lc Gc. rewrite <- Lc. apply dfe_pass_trained with d; auto; [congruence|]. rewrite Lc. now apply Nr. }
  assert (P2 : forall c, length c = length h -> good c -> lms_dfe_pass y levels None lr c = Ok (Some (mean_of (length r) (length h) (dfe_u r) (dfe_want y r) c, stepped (length r) (length h) (dfe_u r) (dfe_want y r) (dfe_wt (length r)) lr c))).
  { intros c Lc Gc. rewrite <- P1 by auto. apply dfe_pass_own with (length r) d; auto. rewrite Lc. now apply Nr. }
  assert (Ga : good a) by (unfold good; apply Qcle_refl).
  assert (E : forall c, length c = length h -> mean_of (length r) (length h) (dfe_u r) (dfe_want y r) c = dfe_error y r c) by (intros c Lc; rewrite <- Lc; now apply dfe_mean).
  destruct (learned (lms_dfe_pass y levels None lr) (dfe_error y r) lr N a h lam) as (c & A & U & Lc & X); auto.
  - exact (all_descends (length r) (length h) (dfe_u r) (dfe_want y r) (dfe_wt (length r)) lr Hn Hlr Sm _ good (dfe_error y r) Hg P2 E N a La Ga).
  - now apply dfe_known.
  - intros c Lc. now apply dfe_above.
  - exists c. split; auto. split; auto. split; auto. rewrite (adapted_det _ _ _ _ _ _ _ good Hg P2 N a c La Ga A). now apply steps_adapted with good.
Qed.
Print Assumptions C91_dfe.

(** A case for each: one tap, excited by the mean power of the samples. *)
Lemma one_tap y g : excites y [g] (meanQ (map (fun m => signal y (m - g) * signal y (m - g)) (instants (length y)))).
Proof.
  intros [|v [|]] Lv; try discriminate. unfold total_power. cbn [map]. unfold sumQ at 1. cbn [fold_right]. rewrite Qcplus_0_r. unfold meanQ. rewrite !map_length. unfold Qcdiv.
  match goal with |- ?s * ?i * ?p <= ?t * ?i => replace t with (p * s); [replace (p * s * i) with (s * i * p) by ring; apply Qcle_refl|] end.
  rewrite <- sumQ_map_scale. apply sumQ_map_ext. intros m _. unfold taps_output, sumQ. cbn [map2 fold_right]. rewrite !Qcplus_0_r. ring.
Qed.
Example C91_ffe_case : let y := map ofZ [2; 1; -3; 1]%Z in let r := [ofZ 1; cq 1 2; cq (-3) 2; cq 1 2] in let w := [cq 1 2]%list in
  equalises w y r /\ excites y (instants (length w)) (cq 15 4) /\ cq 1 10 * (ofZ 1 * total_power y) <= ofZ (2 * Z.of_nat (length r - 1 + 1)).
Proof.
  cbv zeta. split; [|split].
  - intros m Hm. apply in_map_iff in Hm as (k & <- & Hk). apply in_seq in Hk. cbn in Hk. destruct k as [|[|[|[|k]]]]; [qcompute..|lia].
  - replace (cq 15 4) with (meanQ (map (fun m => signal (map ofZ [2; 1; -3; 1]%Z) (m - 0) * signal (map ofZ [2; 1; -3; 1]%Z) (m - 0)) (instants (length (map ofZ [2; 1; -3; 1]%Z))))) by qcompute. exact (one_tap _ 0%Z).
  - unfold Qcle; vm_compute; discriminate.
Qed.
Example C91_dfe_case : let y := [ofZ 1; cq 5 4; cq (-3) 4; cq (-5) 4] in let r := map ofZ [1; 1; -1; -1]%Z in let h := [cq 1 4]%list in let a := [ofZ 0]%list in
  postcursors h r y /\ excites r (map Z.succ (instants (length h))) (cq 3 4) /\
  ofZ 4 * (ofZ (Z.of_nat (length h)) * 1 * (ofZ (Z.of_nat (length r)) * apart a h)) < ofZ 2 * ofZ 2 * ofZ (Z.of_nat (length r - length h)).
Proof.
  cbv zeta. split; [|split].
  - intros m Hm. apply in_map_iff in Hm as (k & <- & Hk). apply in_seq in Hk. cbn in Hk. destruct k as [|[|[|[|k]]]]; [qcompute..|lia].
  - replace (cq 3 4) with (meanQ (map (fun m => signal (map ofZ [1; 1; -1; -1]%Z) (m - 1) * signal (map ofZ [1; 1; -1; -1]%Z) (m - 1)) (instants (length (map ofZ [1; 1; -1; -1]%Z))))) by qcompute. exact (one_tap _ 1%Z).
  - unfold Qclt; vm_compute; reflexivity.
Qed.
