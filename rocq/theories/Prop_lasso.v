(** C63 (ols_manual) and C72: the gradient descent of lasso_regression_manual. *)
From Verif Require Import Py PyQ B_list B_qc M_estim S_estim P_linalg P_estim M_lasso S_lasso P_lasso.
Open Scope Qc_scope.

(** * C63: ols_manual *)
(** It returns the vector of least_squares without regularisation, which is the least squares solution of smallest norm,
    and its sum of squared residuals; a right hand side of another length is refused. *)
Theorem C63_ols_manual : forall n a b, matrix (length a) n a ->
  (length b = length a -> exists x, ols_manual n a b = Ok (x, cost n a b x) /\
     (forall lasso lambda, exists e, least_squares lasso n a b RegNone lambda = Ok (x, e)) /\
     least_squares_solution n a b x /\ forall y, least_squares_solution n a b y -> norm2 n x <= norm2 n y) /\
  (length b <> length a -> ols_manual n a b = Raise ValueError).
Proof.
  intros n a b M. unfold ols_manual. split; intros L.
  - rewrite L, Nat.eqb_refl. cbn [negb]. rewrite pinv_apply by auto. exists (min_norm_vec n a b). split; [|split; [|split]].
    + do 2 f_equal. apply ssr_cost; auto. apply min_norm_length.
    + intros lasso lambda. cbn [least_squares]. destruct (lstsq_eq n a b (eq_sym L)) as (r & E & _). exists r. exact E.
    + now apply min_norm_least.
    + intros y Hy. now apply min_norm_min.
  - now rewrite (proj2 (Nat.eqb_neq (length a) (length b))) by congruence.
Qed.
Print Assumptions C63_ols_manual.
Example C63_ols_manual_case : show_list (r <- ols_manual 2 [[1; 0]; [1; 1]; [1; ofZ 2]] [0; 0; 1] ;; Ok (fst r ++ snd r :: [])) = Ok [(- (1 # 6))%Q; (1 # 2)%Q; (1 # 6)%Q].
Proof. vm_compute. reflexivity. Qed.
(** (Finding.) "same as numpy function" fails for the residual: numpy returns an empty one for systems without more rows than
    independent columns, ols_manual a number. *)
Theorem C63_ols_manual_same_refuted : ~ forall lasso n a b x e, matrix (length a) n a -> length b = length a ->
  ols_manual n a b = Ok (x, e) -> least_squares lasso n a b RegNone 0 = Ok (x, e :: []).
Proof.
  intros H. destruct (ols_manual 2 ([1; ofZ 2] :: []) (ofZ 5 :: [])) as [[x e]|ex] eqn:E; [|vm_compute in E; discriminate].
  assert (M : matrix 1 2 ([1; ofZ 2] :: [])) by (split; auto). specialize (H (fun _ _ _ => []) 2%nat ([1; ofZ 2] :: []) (ofZ 5 :: []) x e M eq_refl E).
  apply (f_equal (fun r => match r with Ok v => length (snd v) | Raise _ => 7%nat end)) in H. vm_compute in H. discriminate H.
Qed.
Print Assumptions C63_ols_manual_same_refuted.

(** * C72: lasso_regression_manual *)
(** The path: it starts at the drawn vector; every point follows from the previous one by the descent step; it stops at the
    first step which moves no weight by [tol] or more, or after max_steps - 1 steps; the result is its last point, with the
    sum of squared residuals; reached_tol says whether it stopped before the last allowed step. *)
Theorem C72_path : forall omega0 n a b lambda mu tol steps, matrix (length a) n a -> length b = length a -> length omega0 = n -> (0 < n)%nat -> (2 <= steps)%Z ->
  exists x reached p, lasso_regression_manual omega0 n a b lambda mu tol steps = Ok (x, cost n a b x, reached, p) /\
  (2 <= length p)%nat /\ (Z.of_nat (length p) <= steps)%Z /\ nth 0 p [] = omega0 /\ nth (length p - 1) p [] = x /\
  (forall t, (S t < length p)%nat -> descent_step n a b lambda mu (nth t p []) (nth (S t) p [])) /\
  (forall t, (S (S t) < length p)%nat -> ~ close n tol (nth (S t) p []) (nth t p [])) /\
  ((Z.of_nat (length p) < steps)%Z -> close n tol x (nth (length p - 2) p [])) /\
  (reached = true <-> (Z.of_nat (length p) < steps)%Z).
Proof.
  intros omega0 n a b lambda mu tol steps M Lb L0 Hn Hs. rewrite lasso_call by auto. set (p := omega0 :: lasso_steps n a b lambda mu tol (Z.to_nat steps - 1)%nat omega0).
  destruct (path_spec n a b lambda mu tol Lb (Z.to_nat steps - 1)%nat omega0 L0) as (P1 & P2 & P3 & P4 & P5 & P6). fold p in P1, P2, P3, P4, P5, P6. specialize (P2 ltac:(lia)).
  exists (nth (length p - 1) p []), (negb (Z.of_nat (length p) - 1 =? steps - 1)%Z), p.
  assert (Lp : forall t, (t < length p)%nat -> length (nth t p []) = n) by (intros t Ht; rewrite Forall_forall in P3; apply P3; now apply nth_In).
  split; [rewrite (ssr_cost n) by (auto; apply Lp; lia); reflexivity|]. split; auto. split; [lia|]. split; auto. split; auto. split; [|split; [|split]]; auto.
  - intros t Ht. rewrite P4 by auto. apply update_step; auto. apply Lp. lia.
  - intros H. apply P6. lia.
  - rewrite negb_true_iff, Z.eqb_neq. lia.
Qed.
Print Assumptions C72_path.
Example C72_path_case : show_list (r <- lasso_regression_manual (1 :: []) 1 [1 :: []] (ofZ 2 :: []) (Q2Qc (1 # 2)) (Q2Qc (1 # 2)) (Q2Qc (1 # 5)) 10 ;;
    let '(x, e, reached, p) := r in Ok (x ++ (if reached : bool then 1 else 0) :: e :: concat p)) = Ok [11 # 8; 1 # 1; 25 # 64; 1 # 1; 5 # 4; 11 # 8]%Q.
Proof. vm_compute. reflexivity. Qed.
(** (Finding.) A run whose last allowed step meets the tolerance is reported as not having reached it. *)
Theorem C72_reached_refuted : ~ forall omega0 n a b lambda mu tol steps x e reached p, matrix (length a) n a -> length b = length a -> length omega0 = n -> (0 < n)%nat -> (2 <= steps)%Z ->
  lasso_regression_manual omega0 n a b lambda mu tol steps = Ok (x, e, reached, p) -> close n tol x (nth (length p - 2) p []) -> reached = true.
Proof.
  intros H. destruct (lasso_regression_manual (1 :: []) 1 [1 :: []] (1 :: []) 0 1 1 2) as [[[[x e] r] p]|ex] eqn:E; [|vm_compute in E; discriminate].
  specialize (H (1 :: []) 1%nat ((1 :: []) :: []) (1 :: []) 0 1 1 2%Z x e r p ltac:(split; auto) eq_refl eq_refl ltac:(lia) ltac:(lia) E).
  apply lasso_result in E as (Ep & Ex & Er); [|lia|lia|reflexivity]. rewrite Ep in Er. cbn in Er. subst r. assert (K : false = true); [|discriminate K]. apply H. rewrite Ex, Ep. intros j Hj. assert (j = 0)%nat by lia. subst j. vm_compute. reflexivity.
Qed.
Print Assumptions C72_reached_refuted.
(** Arguments without a result: a negative number of steps, none, one (the loop variable is unbound), a matrix without
    columns, a right hand side which is neither as long as the matrix nor a single value. *)
Theorem C72_errors : forall omega0 n a b lambda mu tol steps,
  ((steps < 0)%Z -> lasso_regression_manual omega0 n a b lambda mu tol steps = Raise ValueError) /\
  (steps = 0%Z -> lasso_regression_manual omega0 n a b lambda mu tol steps = Raise IndexError) /\
  (steps = 1%Z -> lasso_regression_manual omega0 n a b lambda mu tol steps = Raise UnboundLocalError) /\
  ((2 <= steps)%Z -> n = 0%nat -> lasso_regression_manual omega0 n a b lambda mu tol steps = Raise ZeroDivisionError) /\
  ((2 <= steps)%Z -> (0 < n)%nat -> length b <> length a -> length b <> 1%nat -> lasso_regression_manual omega0 n a b lambda mu tol steps = Raise ValueError) /\
  forall v, (2 <= steps)%Z -> (0 < n)%nat -> length a <> 1%nat -> lasso_regression_manual omega0 n a (v :: []) lambda mu tol steps = lasso_regression_manual omega0 n a (repeat v (length a)) lambda mu tol steps.
Proof.
  intros omega0 n a b lambda mu tol steps. unfold lasso_regression_manual. repeat split.
  - intros H. now rewrite (proj2 (Z.ltb_lt _ _) H).
  - intros ->. reflexivity.
  - intros ->. reflexivity.
  - intros H ->. rewrite (proj2 (Z.ltb_ge _ _)), (proj2 (Z.eqb_neq steps 0)), (proj2 (Z.eqb_neq steps 1)) by lia. reflexivity.
  - intros H Hn L1 L2. rewrite (proj2 (Z.ltb_ge _ _)), (proj2 (Z.eqb_neq steps 0)), (proj2 (Z.eqb_neq steps 1)), (proj2 (Nat.eqb_neq n 0)) by lia.
    unfold broadcast1. now rewrite (proj2 (Nat.eqb_neq _ _) L1), (proj2 (Nat.eqb_neq _ _) L2).
  - intros v H Hn L1. rewrite (proj2 (Z.ltb_ge _ _)), (proj2 (Z.eqb_neq steps 0)), (proj2 (Z.eqb_neq steps 1)), (proj2 (Nat.eqb_neq n 0)) by lia.
    unfold broadcast1. rewrite repeat_length, Nat.eqb_refl. change (length (v :: [])) with 1%nat. rewrite (proj2 (Nat.eqb_neq 1 (length a))) by auto. rewrite Nat.eqb_refl. reflexivity.
Qed.
Print Assumptions C72_errors.
Example C72_errors_case : lasso_regression_manual (1 :: []) 1 [1 :: []; 1 :: []] (1 :: []) 0 1 1 2 = lasso_regression_manual (1 :: []) 1 [1 :: []; 1 :: []] [1; 1] 0 1 1 2 /\
  lasso_regression_manual (1 :: []) 1 [1 :: []; 1 :: []] [1; 1; 1] 0 1 1 2 = Raise ValueError.
Proof. split; reflexivity. Qed.
(** When the tolerance stops the run, the result is within [tol] of a point whose objective ||b - Aw||^2/(2n) + lambda ||w||_1
    exceeds that of any other vector by at most tol/mu times their distance plus lambda*n*5e-5. *)
Theorem C72_accuracy : forall omega0 n a b lambda mu tol steps x e p, matrix (length a) n a -> length b = length a -> length omega0 = n -> (0 < n)%nat -> (2 <= steps)%Z -> 0 <= lambda -> 0 < mu ->
  lasso_regression_manual omega0 n a b lambda mu tol steps = Ok (x, e, true, p) ->
  exists w, length w = n /\ close n tol x w /\ forall y,
    lasso_cost n a b lambda w <= lasso_cost n a b lambda y + tol / mu * dist1 n w y + lambda * (ofZ (Z.of_nat n) * margin).
Proof.
  intros omega0 n a b lambda mu tol steps x e p M Lb L0 Hn Hs Hl Hm E. rewrite lasso_call in E by auto.
  destruct (path_spec n a b lambda mu tol Lb (Z.to_nat steps - 1)%nat omega0 L0) as (P1 & P2 & P3 & P4 & P5 & P6).
  set (q := omega0 :: lasso_steps n a b lambda mu tol (Z.to_nat steps - 1)%nat omega0) in *. clearbody q. injection E as Ex _ Er _. specialize (P2 ltac:(lia)). rewrite negb_true_iff, Z.eqb_neq in Er. specialize (P6 ltac:(lia)).
  assert (Lw : length (nth (length q - 2) q []) = n) by (rewrite Forall_forall in P3; apply P3, nth_In; lia).
  exists (nth (length q - 2) q []). split; [exact Lw|]. split; [now rewrite <- Ex|]. intros y. set (w := nth (length q - 2) q []) in *. apply near_optimal; auto.
  intros j Hj. specialize (P6 j Hj). specialize (P4 (length q - 2)%nat ltac:(lia)). replace (S (length q - 2)) with (length q - 1)%nat in P4 by lia. fold w in P4. rewrite P4, update_at in P6 by auto.
  set (g := gradient_at n a b lambda w j) in *. replace (at_ w j - mu * g - at_ w j) with (- (mu * g)) in P6 by ring. rewrite Qcabs_opp, Qcabs_Qcmult, (Qcabs_pos mu) in P6 by now apply Qclt_le_weak.
  apply Qclt_le_weak in P6. pose proof (Qcmult_le_compat_r _ _ (/ mu) P6 (Qclt_le_weak _ _ (Qcinv_pos mu Hm))) as K. unfold Qcdiv. replace (Qcabs g) with (mu * Qcabs g * / mu); [exact K|]. field. intros Z. rewrite Z in Hm. discriminate.
Qed.
Print Assumptions C72_accuracy.
Example C72_accuracy_case : let run := lasso_regression_manual (1 :: []) 1 [1 :: []] (ofZ 2 :: []) (Q2Qc (1 # 2)) (Q2Qc (1 # 2)) (Q2Qc (1 # 5)) 10 in
  exists x e p w, run = Ok (x, e, true, p) /\ close 1 (Q2Qc (1 # 5)) x w /\ forall y, lasso_cost 1 [1 :: []] (ofZ 2 :: []) (Q2Qc (1 # 2)) w <= lasso_cost 1 [1 :: []] (ofZ 2 :: []) (Q2Qc (1 # 2)) y + Q2Qc (1 # 5) / Q2Qc (1 # 2) * dist1 1 w y + Q2Qc (1 # 2) * (ofZ 1 * margin).
Proof.
  intros run. assert (R : exists x e p, run = Ok (x, e, true, p)).
  { unfold run. rewrite lasso_call by (auto; lia). do 3 eexists. apply f_equal. apply (f_equal (fun b => (_, _, b, _))). vm_compute. reflexivity. }
  destruct R as (x & e & p & E). assert (M : matrix (length [1 :: []]) 1 [1 :: []]) by (split; auto). assert (H2 : (2 <= 10)%Z) by lia. assert (L : 0 <= Q2Qc (1 # 2)) by discriminate. assert (P : 0 < Q2Qc (1 # 2)) by reflexivity.
  destruct (C72_accuracy (1 :: []) 1 _ (ofZ 2 :: []) (Q2Qc (1 # 2)) (Q2Qc (1 # 2)) (Q2Qc (1 # 5)) 10 x e p M eq_refl eq_refl (Nat.lt_0_succ 0) H2 L P E) as (w & _ & C & B). exists x, e, p, w. split; [exact E|]. split; [exact C|exact B].
Qed.
(** Without regularisation and with a step of at most 2n/||A||_F^2 the residual never grows along the path ... *)
Theorem C72_descent : forall omega0 n a b mu tol steps x e reached p, matrix (length a) n a -> length b = length a -> length omega0 = n -> (0 < n)%nat -> (2 <= steps)%Z -> 0 < mu ->
  mu * frobenius2 n a <= ofZ 2 * ofZ (Z.of_nat n) -> lasso_regression_manual omega0 n a b 0 mu tol steps = Ok (x, e, reached, p) ->
  forall t, (S t < length p)%nat -> cost n a b (nth (S t) p []) <= cost n a b (nth t p []).
Proof.
  intros omega0 n a b mu tol steps x e reached p M Lb L0 Hn Hs Hm Sm E t Ht. rewrite lasso_call in E by auto. injection E as _ _ _ Ep.
  destruct (path_spec n a b 0 mu tol Lb (Z.to_nat steps - 1)%nat omega0 L0) as (P1 & P2 & P3 & P4 & P5 & P6). rewrite Ep in *. now apply (path_monotone n a b mu tol p).
Qed.
Print Assumptions C72_descent.
Example C72_descent_case : show_list (r <- lasso_regression_manual [0; 0] 2 [[1; 1]; [0; 1]] [ofZ 2; 1] 0 1 (Q2Qc (1 # 10)) 4 ;; Ok (map (cost 2 [[1; 1]; [0; 1]] [ofZ 2; 1]) (snd r))) = Ok [5 # 1; 1 # 2; 1 # 16; 1 # 64]%Q /\
  1 * frobenius2 2 [[1; 1]; [0; 1]] <= ofZ 2 * ofZ 2.
Proof. split; vm_compute; [reflexivity|congruence]. Qed.
(** ... and the tolerance is reached when the steps allowed exceed mu*||b - A omega0||^2 / (tol^2 (2n - mu ||A||_F^2)). *)
Theorem C72_terminates : forall omega0 n a b mu tol steps, matrix (length a) n a -> length b = length a -> length omega0 = n -> (0 < n)%nat -> (2 <= steps)%Z -> 0 < mu -> 0 < tol ->
  mu * frobenius2 n a <= ofZ 2 * ofZ (Z.of_nat n) ->
  mu * cost n a b omega0 < ofZ (steps - 2) * ((ofZ 2 * ofZ (Z.of_nat n) - mu * frobenius2 n a) * sq tol) ->
  exists x e p, lasso_regression_manual omega0 n a b 0 mu tol steps = Ok (x, e, true, p).
Proof.
  intros omega0 n a b mu tol steps M Lb L0 Hn Hs Hm Ht Sm H. rewrite lasso_call by auto.
  destruct (path_spec n a b 0 mu tol Lb (Z.to_nat steps - 1)%nat omega0 L0) as (P1 & P2 & P3 & P4 & P5 & P6). set (p := omega0 :: lasso_steps n a b 0 mu tol (Z.to_nat steps - 1)%nat omega0) in *. specialize (P2 ltac:(lia)).
  destruct (Z.eqb_spec (Z.of_nat (length p) - 1) (steps - 1)) as [E|E]; [exfalso|do 3 eexists; reflexivity].
  pose proof (path_sum n a b mu tol p M Lb Hn Hm Sm P3 P4 P5 (length p - 2) (Qclt_le_weak _ _ Ht) ltac:(lia)) as K. change (nth 0 p []) with omega0 in K.
  replace (Z.of_nat (length p - 2)) with (steps - 2)%Z in K by lia.
  assert (N : 0 <= mu * cost n a b (nth (length p - 2) p [])) by (apply Qcmult_nonneg; [now apply Qclt_le_weak|apply sm_sq_nonneg]).
  revert H K N. generalize (mu * cost n a b omega0) (mu * cost n a b (nth (length p - 2) p [])) (ofZ (steps - 2) * ((ofZ 2 * ofZ (Z.of_nat n) - mu * frobenius2 n a) * sq tol)). intros. qlra.
Qed.
Print Assumptions C72_terminates.
Example C72_terminates_case : exists x e p, lasso_regression_manual [0; 0] 2 [[1; 0]; [0; 1]] [1; 1] 0 1 (Q2Qc (1 # 2)) 7 = Ok (x, e, true, p).
Proof. apply C72_terminates; auto; try lia; try reflexivity; try (split; auto); vm_compute; congruence. Qed.
(** (Finding.) The default step 1e-3 has no such guarantee: with a matrix entry of 100 (a signal in mV) the residual grows. *)
Theorem C72_default_step_refuted : ~ forall omega0 n a b steps x e reached p, matrix (length a) n a -> length b = length a -> length omega0 = n -> (0 < n)%nat -> (2 <= steps)%Z ->
  lasso_regression_manual omega0 n a b 0 default_mu default_tol steps = Ok (x, e, reached, p) -> cost n a b x <= cost n a b omega0.
Proof.
  intros H. destruct (lasso_regression_manual (1 :: []) 1 [ofZ 100 :: []] (0 :: []) 0 default_mu default_tol 2) as [[[[x e] r] p]|ex] eqn:E; [|vm_compute in E; discriminate].
  specialize (H (1 :: []) 1%nat ((ofZ 100 :: []) :: []) (0 :: []) 2%Z x e r p ltac:(split; auto) eq_refl eq_refl ltac:(lia) ltac:(lia) E). apply lasso_result in E as (Ep & Ex & _); [|lia|lia|reflexivity]. rewrite Ep in Ex. rewrite Ex in H. vm_compute in H. congruence.
Qed.
Print Assumptions C72_default_step_refuted.
(** (Finding.) Zero weights are not kept: also where the zero vector is the minimiser, a run starting there leaves it. *)
Theorem C72_sparse_refuted : ~ forall n a b lambda mu tol steps x e reached p, matrix (length a) n a -> length b = length a -> (0 < n)%nat -> (2 <= steps)%Z -> 0 < lambda -> 0 < mu -> 0 < tol ->
  (forall y, lasso_cost n a b lambda (repeat 0 n) <= lasso_cost n a b lambda y) ->
  lasso_regression_manual (repeat 0 n) n a b lambda mu tol steps = Ok (x, e, reached, p) -> x = repeat 0 n.
Proof.
  intros H. destruct (lasso_regression_manual (repeat 0 1) 1 [1 :: []] (1 :: []) (ofZ 2) default_mu default_tol 2) as [[[[x e] r] p]|ex] eqn:E; [|vm_compute in E; discriminate].
  specialize (H 1%nat ((1 :: []) :: []) (1 :: []) (ofZ 2) default_mu default_tol 2%Z x e r p ltac:(split; auto) eq_refl ltac:(lia) ltac:(lia) ltac:(reflexivity) ltac:(reflexivity) ltac:(reflexivity)).
  assert (K : x = repeat 0 1).
  { apply H; auto. intros y. unfold lasso_cost, cost, norm1, sum_below. cbn [length seq map fold_right]. unfold entry, at_. cbn [nth repeat]. generalize (nth 0 y 0). intros v.
    replace (Qcabs 0) with 0 by (apply Qc_is_canon; reflexivity). replace (ofZ 2 * ofZ (Z.of_nat 1)) with (1 + 1) by (apply Qc_is_canon; reflexivity). replace (ofZ 2) with (1 + 1) by (apply Qc_is_canon; reflexivity). unfold sq.
    replace (((1 * 0 + 0 - 1) * (1 * 0 + 0 - 1) + 0) / (1 + 1) + (1 + 1) * (0 + 0)) with (/ (1 + 1)) by (unfold Qcdiv; ring).
    replace (((1 * v + 0 - 1) * (1 * v + 0 - 1) + 0) / (1 + 1) + (1 + 1) * (Qcabs v + 0)) with (/ (1 + 1) + (v * v / (1 + 1) + ((1 + 1) * Qcabs v - v))) by (field; discriminate).
    assert (S1 : 0 <= v * v / (1 + 1)) by (apply Qcmult_nonneg; [apply (sq_nonneg v)|discriminate]). revert S1. generalize (v * v / (1 + 1)) (/ (1 + 1)). intros s h S1. replace ((1 + 1) * Qcabs v) with (Qcabs v + Qcabs v) by ring. qabs. }
  apply lasso_result in E as (Ep & Ex & _); [|lia|lia|reflexivity]. rewrite Ep in Ex. rewrite Ex in K. apply (f_equal (map this)) in K. vm_compute in K. discriminate K.
Qed.
Print Assumptions C72_sparse_refuted.
(** (Finding.) A run which has come to rest (its last step changes nothing) minimises neither the objective documented for
    lasso_regression, ||b - Aw||^2 + lambda ||w||_1, ... *)
Theorem C72_documented_refuted : ~ forall omega0 n a b lambda mu tol steps x e p, matrix (length a) n a -> length b = length a -> length omega0 = n -> (0 < n)%nat -> (2 <= steps)%Z -> 0 < lambda -> 0 < mu -> 0 < tol ->
  lasso_regression_manual omega0 n a b lambda mu tol steps = Ok (x, e, true, p) -> x = nth (length p - 2) p [] ->
  forall y, length y = n -> cost n a b x + lambda * norm1 n x <= cost n a b y + lambda * norm1 n y.
Proof.
  intros H. destruct (lasso_regression_manual (Q2Qc (1 # 2) :: []) 1 [1 :: []; 1 :: []] [1; 1] 1 default_mu default_tol 3) as [[[[x e] r] p]|ex] eqn:E; [|vm_compute in E; discriminate].
  pose proof E as E0. apply lasso_result in E as (Ep & Ex & Er); [|lia|lia|reflexivity]. rewrite Ep in Er. vm_compute in Er. subst r.
  assert (Hx : x = Q2Qc (1 # 2) :: []) by (rewrite Ex, Ep; apply list_this_eq; vm_compute; reflexivity).
  specialize (H (Q2Qc (1 # 2) :: []) 1%nat [1 :: []; 1 :: []] [1; 1] 1 default_mu default_tol 3%Z x e p ltac:(split; auto) eq_refl eq_refl ltac:(lia) ltac:(lia) ltac:(reflexivity) ltac:(reflexivity) ltac:(reflexivity) E0).
  assert (K : x = nth (length p - 2) p []) by (rewrite Ex, Ep; apply list_this_eq; vm_compute; reflexivity). specialize (H K (Q2Qc (3 # 4) :: []) eq_refl). rewrite Hx in H. vm_compute in H. congruence.
Qed.
Print Assumptions C72_documented_refuted.
(** ... nor the objective of sklearn's Lasso, of which it is said to be a slower version: that one has an intercept and divides by
    the number of rows instead of columns. *)
Theorem C72_sklearn_refuted : ~ forall omega0 n a b lambda mu tol steps x e p, matrix (length a) n a -> length b = length a -> length omega0 = n -> (0 < n)%nat -> (2 <= steps)%Z -> 0 < lambda -> 0 < mu -> 0 < tol ->
  lasso_regression_manual omega0 n a b lambda mu tol steps = Ok (x, e, true, p) -> x = nth (length p - 2) p [] ->
  exists c, forall y d, lasso_objective n a b lambda x c <= lasso_objective n a b lambda y d.
Proof.
  intros H. destruct (lasso_regression_manual (Q2Qc (1 # 2) :: []) 1 [1 :: []; 1 :: []] [1; 1] 1 default_mu default_tol 3) as [[[[x e] r] p]|ex] eqn:E; [|vm_compute in E; discriminate].
  pose proof E as E0. apply lasso_result in E as (Ep & Ex & Er); [|lia|lia|reflexivity]. rewrite Ep in Er. vm_compute in Er. subst r.
  assert (Hx : x = Q2Qc (1 # 2) :: []) by (rewrite Ex, Ep; apply list_this_eq; vm_compute; reflexivity).
  specialize (H (Q2Qc (1 # 2) :: []) 1%nat [1 :: []; 1 :: []] [1; 1] 1 default_mu default_tol 3%Z x e p ltac:(split; auto) eq_refl eq_refl ltac:(lia) ltac:(lia) ltac:(reflexivity) ltac:(reflexivity) ltac:(reflexivity) E0).
  assert (K : x = nth (length p - 2) p []) by (rewrite Ex, Ep; apply list_this_eq; vm_compute; reflexivity). destruct (H K) as (c & Hc). specialize (Hc (0 :: []) 1). rewrite Hx in Hc. clear - Hc.
  unfold lasso_objective in Hc. assert (P : 0 <= affine_cost 1 [1 :: []; 1 :: []] [1; 1] (Q2Qc (1 # 2) :: []) c / (ofZ 2 * ofZ (Z.of_nat (length [1; 1])))) by (apply Qcmult_nonneg; [apply sm_sq_nonneg|discriminate]).
  revert P Hc. generalize (affine_cost 1 [1 :: []; 1 :: []] [1; 1] (Q2Qc (1 # 2) :: []) c / (ofZ 2 * ofZ (Z.of_nat (length [1; 1])))). intros z P Hc.
  replace (1 * norm1 1 (Q2Qc (1 # 2) :: [])) with (Q2Qc (1 # 2)) in Hc by (apply Qc_is_canon; reflexivity).
  replace (affine_cost 1 [1 :: []; 1 :: []] [1; 1] (0 :: []) 1 / (ofZ 2 * ofZ (Z.of_nat (length [1; 1]))) + 1 * norm1 1 (0 :: [])) with 0 in Hc by (apply Qc_is_canon; reflexivity). qlra.
Qed.
Print Assumptions C72_sklearn_refuted.
