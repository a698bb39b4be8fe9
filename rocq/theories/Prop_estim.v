(** C54, C63: least squares and equaliser estimation. *)
From Verif Require Import Py PyQ B_list B_qc M_aux M_lock M_estim S_estim P_linalg P_estim.
Open Scope Qc_scope.

(** * C63: least_squares *)
(** Ordinary least squares: the solution of smallest norm, unique, with its residual. *)
Theorem C63_ols : forall lasso n a b lambda, matrix (length a) n a -> length b = length a -> exists x e,
  least_squares lasso n a b RegNone lambda = Ok (x, e) /\ least_squares_solution n a b x /\
  (forall y, least_squares_solution n a b y -> norm2 n x <= norm2 n y /\ (norm2 n y <= norm2 n x -> y = x)) /\
  (independent n a /\ (n < length a)%nat -> e = cons (cost n a b x) nil) /\ (~ (independent n a /\ (n < length a)%nat) -> e = []).
Proof.
  intros lasso n a b lambda M L. destruct (lstsq_eq n a b (eq_sym L)) as (e & E & _). exists (min_norm_vec n a b), e. split; [exact E|]. split; [now apply min_norm_least|]. split.
  - intros y Hy. split; [now apply min_norm_min|now apply min_norm_unique].
  - destruct (lstsq_residual _ _ _ _ _ E) as (R1 & R2). split; auto. intros H. rewrite R1 by auto. f_equal. apply ssr_cost; auto. apply comb_length.
Qed.
Print Assumptions C63_ols.
(** Three points on a line with an outlier. *)
Example C63_ols_case : show_list (r <- least_squares (fun _ _ _ => []) 2 [[1; 0]; [1; 1]; [1; ofZ 2]] [0; 0; 1] RegNone 0 ;; Ok (fst r ++ snd r)) = Ok [(- (1 # 6))%Q; (1 # 2)%Q; (1 # 6)%Q].
Proof. vm_compute. reflexivity. Qed.
(** A wide system: the documented smallest norm. *)
Example C63_ols_wide : show_list (r <- least_squares (fun _ _ _ => []) 2 [[1; ofZ 2]] [ofZ 5] RegNone 0 ;; Ok (fst r ++ snd r)) = Ok [(1 # 1)%Q; (2 # 1)%Q].
Proof. vm_compute. reflexivity. Qed.
(** Without dependent columns the least squares solution is unique. *)
Theorem C63_ols_unique : forall lasso n a b lambda x e y, matrix (length a) n a -> length b = length a -> independent n a ->
  least_squares lasso n a b RegNone lambda = Ok (x, e) -> least_squares_solution n a b y -> y = x.
Proof.
  intros lasso n a b lambda x e y M L I E (Ly & H). destruct (lstsq_eq n a b (eq_sym L)) as (e' & E' & _). unfold least_squares in E. rewrite E' in E. injection E as <- <-.
  apply (independent_unique n a); auto; [apply comb_length|]. apply (normal_same n a b); auto; [now apply min_norm_normal|]. apply H, comb_length.
Qed.
Print Assumptions C63_ols_unique.
(** 'ridge' minimises squared error plus lambda times the squared norm over all taps AND all constant offsets. *)
Theorem C63_ridge_offset : forall lasso n a b lambda, matrix (length a) n a -> length b = length a -> (0 < length a)%nat -> 0 < lambda ->
  exists x c, least_squares lasso n a b RegRidge lambda = Ok (x, cons (cost n a b x) nil) /\ length x = n /\
  forall y d, affine_cost n a b x c + lambda * norm2 n x <= affine_cost n a b y d + lambda * norm2 n y.
Proof.
  intros lasso n a b lambda M L P H. unfold least_squares, ridge_regression. rewrite L, Nat.eqb_refl. replace (length a =? 0)%nat with false by (symmetry; apply Nat.eqb_neq; lia). cbn [negb orb].
  destruct (ridge_affine n a b lambda L P H) as (c & Hc). exists (ridge_solve n (centre_rows n a) (centre b) lambda), c. split; [|split; auto; apply ridge_length]. do 3 f_equal. apply ssr_cost; auto. apply ridge_length.
Qed.
Print Assumptions C63_ridge_offset.
Example C63_ridge_case : show_list (r <- least_squares (fun _ _ _ => []) 1 [0 :: []; 1 :: []; ofZ 2 :: []] [ofZ 3; ofZ 5; ofZ 7] RegRidge (ofZ 2) ;; Ok (fst r ++ snd r)) = Ok [(1 # 1)%Q; (50 # 1)%Q].
Proof. vm_compute. reflexivity. Qed.
(** Finding: it does not minimise the documented ||b - Ax||^2 + lambda ||x||^2: for A = (1,1)', b = (1,1) the result is 0. *)
Theorem C63_ridge_documented_refuted : ~ forall lasso n a b lambda x e, matrix (length a) n a -> length b = length a -> 0 < lambda ->
  least_squares lasso n a b RegRidge lambda = Ok (x, e) -> forall y, length y = n -> ridge_cost n a b lambda x <= ridge_cost n a b lambda y.
Proof.
  intros H. destruct (least_squares (fun _ _ _ => []) 1 [1 :: []; 1 :: []] [1; 1] RegRidge 1) as [[x e]|ex] eqn:E; [|vm_compute in E; discriminate].
  specialize (H (fun _ _ _ => []) 1%nat [1 :: []; 1 :: []] [1; 1] 1 x e). assert (M : matrix 2 1 [1 :: []; 1 :: []]) by (split; auto). specialize (H M eq_refl ltac:(reflexivity) E (1 :: []) eq_refl).
  assert (Ex : x = 0 :: []). { apply list_this_eq. assert (K : show_list (r <- least_squares (fun _ _ _ => []) 1 [1 :: []; 1 :: []] [1; 1] RegRidge 1 ;; Ok (fst r)) = Ok (0%Q :: [])) by (vm_compute; reflexivity). rewrite E in K. cbn in K. now injection K as K. }
  subst x. vm_compute in H. congruence.
Qed.
Print Assumptions C63_ridge_documented_refuted.
(** The unused manual version is the documented objective's unique minimiser. *)
Theorem C63_ridge_manual : forall n a b lambda, matrix (length a) n a -> length b = length a -> 0 < lambda ->
  exists x, ridge_regression_manual n a b lambda = Ok (x, cons (cost n a b x) nil) /\ length x = n /\
  (forall y, ridge_cost n a b lambda x <= ridge_cost n a b lambda y) /\
  forall y, length y = n -> (forall z, length z = n -> ridge_cost n a b lambda y <= ridge_cost n a b lambda z) -> y = x.
Proof.
  intros n a b lambda M L H. unfold ridge_regression_manual. rewrite L, Nat.eqb_refl. cbn [negb]. exists (ridge_solve n a b lambda). split; [|split; [apply ridge_length|split]].
  - do 3 f_equal. apply ssr_cost; auto. apply ridge_length.
  - intros y. now apply ridge_minimal.
  - intros y Ly Hy. now apply ridge_unique.
Qed.
Print Assumptions C63_ridge_manual.
(** Finding: it is not "same as sklearn function". *)
Theorem C63_ridge_manual_same_refuted : ~ forall lasso n a b lambda, matrix (length a) n a -> length b = length a -> 0 < lambda -> least_squares lasso n a b RegRidge lambda = ridge_regression_manual n a b lambda.
Proof.
  intros H. specialize (H (fun _ _ _ => []) 1%nat [1 :: []; 1 :: []] [1; 1] 1 ltac:(split; auto) eq_refl ltac:(reflexivity)).
  apply (f_equal (fun r => show_list (x <- r ;; Ok (fst x)))) in H. vm_compute in H. discriminate H.
Qed.
Print Assumptions C63_ridge_manual_same_refuted.
Example C63_ridge_manual_case : show_list (r <- ridge_regression_manual 1 [1 :: []; 1 :: []] [1; 1] 1 ;; Ok (fst r ++ snd r)) = Ok [(2 # 3)%Q; (2 # 9)%Q].
Proof. vm_compute. reflexivity. Qed.
(** Finding: whatever minimiser of its own objective sklearn's Lasso returns, 'lasso' does not minimise the documented
    ||b - Ax||^2 + lambda ||x||_1. *)
Theorem C63_lasso_documented_refuted : ~ exists lasso, forall n a b lambda, matrix (length a) n a -> length b = length a -> (0 < length a)%nat -> 0 < lambda ->
  (exists c, forall y d, lasso_objective n a b lambda (lasso a b lambda) c <= lasso_objective n a b lambda y d) /\
  exists x e, least_squares lasso n a b RegLasso lambda = Ok (x, e) /\ forall y, length y = n -> cost n a b x + lambda * norm1 n x <= cost n a b y + lambda * norm1 n y.
Proof.
  intros (lasso & H). specialize (H 1%nat [1 :: []; 1 :: []] [1; 1] 1 ltac:(split; auto) eq_refl ltac:(cbn; lia) ltac:(reflexivity)). destruct H as ((c & Hc) & x & e & E & Hx).
  cbn [least_squares length Nat.eqb negb orb] in E. injection E as <- _. set (w := lasso [1 :: []; 1 :: []] [1; 1] 1) in *. specialize (Hc (0 :: []) 1). specialize (Hx (1 :: []) eq_refl).
  unfold lasso_objective, affine_cost, norm1, cost, sum_below in Hc, Hx. cbn [length seq map fold_right Z.of_nat Pos.of_succ_nat Pos.succ entry at_ nth] in Hc, Hx.
  unfold entry, at_ in Hc, Hx. cbn [nth] in Hc, Hx. set (v := nth 0 w 0) in *. clearbody v. clear - Hc Hx.
  assert (A : Qcabs v <= 0). { destruct (abs_cases v) as [(P & Ev)|(P & Ev)]; rewrite Ev in *; clear Ev; unfold sq in *; revert Hc. all: replace (Qcabs 0) with 0 by (apply Qc_is_canon; reflexivity).
    all: replace ((1 * 0 + 0 + 1 - 1) * (1 * 0 + 0 + 1 - 1) + ((1 * 0 + 0 + 1 - 1) * (1 * 0 + 0 + 1 - 1) + 0)) with 0 by ring.
    all: replace (0 / (ofZ 2 * ofZ 2) + 1 * (0 + 0)) with 0 by (unfold Qcdiv; ring). all: intros Hc; assert (N : 0 <= ((1 * v + 0 + c - 1) * (1 * v + 0 + c - 1) + ((1 * v + 0 + c - 1) * (1 * v + 0 + c - 1) + 0)) / (ofZ 2 * ofZ 2)).
    1,3: apply quarter_nonneg; pose proof (sq_nonneg (1 * v + 0 + c - 1)) as S; unfold sq in S; revert S; generalize ((1 * v + 0 + c - 1) * (1 * v + 0 + c - 1)); intros z S; qlra.
    all: revert N Hc; generalize (((1 * v + 0 + c - 1) * (1 * v + 0 + c - 1) + ((1 * v + 0 + c - 1) * (1 * v + 0 + c - 1) + 0)) / (ofZ 2 * ofZ 2)); intros z N Hc; rewrite Qcmult_1_l, Qcplus_0_r in Hc; qlra. }
  destruct (abs_cases v) as [(P & Ev)|(P & Ev)]; rewrite Ev in A; assert (Z : v = 0) by (apply Qcle_antisym; qlra). all: subst v; vm_compute in Hx; congruence.
Qed.
Print Assumptions C63_lasso_documented_refuted.
(** Unknown names and mismatched sizes. *)
Theorem C63_refusals : forall lasso n a b lambda,
  least_squares lasso n a b RegOther lambda = Raise ValueError /\
  (length b <> length a -> forall reg, least_squares lasso n a b reg lambda = Raise ValueError).
Proof.
  intros lasso n a b lambda. split; auto. intros H reg. apply not_eq_sym, Nat.eqb_neq in H. destruct reg; cbn [least_squares]; unfold lstsq, ridge_regression; rewrite ?H; auto.
Qed.
Print Assumptions C63_refusals.
Example C63_refusal_case : least_squares (fun _ _ _ => []) 1 [1 :: []; 1 :: []] (1 :: []) RegNone 0 = Raise ValueError. Proof. reflexivity. Qed.

(** * C54: equalization_estimation *)
Definition eq_sizes (s r : list Qc) (post pre dfe : nat) : Prop := length r = length s /\ (Nat.max post dfe + pre + 1 < length s)%nat.
Definition eq_rows (s : list Qc) (post pre dfe : nat) : nat := (length s - (Nat.max post dfe + pre + 1))%nat.
(** Without regularisation the returned taps minimise the squared error over all taps of the requested lengths. *)
Theorem C54_optimal : forall lasso s r post pre dfe reg lambda, eq_sizes s r post pre dfe -> (Nat.min post dfe < 2)%nat -> reg = RegNone \/ lambda <= 0 ->
  exists f d err mse, equalization_estimation lasso r s post pre dfe false reg lambda = Ok (mk_est (Taps f) (if (0 <? dfe)%nat then Taps d else NoTaps) 1 err mse) /\
  length f = (post + pre + 1)%nat /\ length d = dfe /\
  (forall f' d', length f' = (post + pre + 1)%nat -> length d' = dfe -> eq_cost s r f d dfe (eq_rows s post pre dfe) <= eq_cost s r f' d' dfe (eq_rows s post pre dfe)) /\
  (err = [] \/ err = cons (eq_cost s r f d dfe (eq_rows s post pre dfe)) nil) /\
  match mse with
  | Some v => eq_output2 s r f d dfe (eq_rows s post pre dfe) <> 0 /\ v = eq_cost s r f d dfe (eq_rows s post pre dfe) / eq_output2 s r f d dfe (eq_rows s post pre dfe)
  | None => eq_output2 s r f d dfe (eq_rows s post pre dfe) = 0
  end.
Proof.
  intros lasso s r post pre dfe reg lambda (Lr & Long) Hm Pl. assert (Wide : (post + pre + 1 <= length s - dfe)%nat) by lia.
  destruct (estim_spec lasso s r post pre dfe false reg lambda Lr Long Wide Pl) as (g & err & mse & Els & Eg & Herr & Emse & E). cbv zeta in *. set (x := found s r post pre dfe) in *.
  assert (Lx : length x = (post + pre + 1 + dfe)%nat) by apply found_length.
  eexists _, _, err, mse. split; [exact E|]. split; [rewrite rev_length, firstn_length; lia|]. split; [rewrite rev_length, skipn_length; lia|]. split.
  - intros f' d' Lf Ld. apply found_optimal; auto.
  - split; [destruct Herr as [-> | ->]; auto; right; f_equal; now apply cost_eq_cost|]. rewrite Emse. now apply mse_spec.
Qed.
Print Assumptions C54_optimal.

Definition ex_s : list Qc := map ofZ [1; -2; 3; 1; 0; 2; -1; 4]%Z.
Definition ex_r : list Qc := map ofZ [0; 1; 2; -1; 1; 3; 1; -1]%Z.
Example C54_optimal_case : eq_sizes ex_s ex_r 1 0 1 /\ exists f d e m, equalization_estimation (fun _ _ _ => []) ex_r ex_s 1 0 1 false RegNone 0 = Ok (mk_est (Taps f) (Taps d) 1 (cons e nil) (Some m)) /\ eq_error ex_s ex_r f d 1 <> 0.
Proof.
  split; [split; cbn; lia|]. destruct (equalization_estimation (fun _ _ _ => []) ex_r ex_s 1 0 1 false RegNone 0) as [[[f| |] [d| |] g [|e [|]] [m|]]|] eqn:E; try (vm_compute in E; discriminate E).
  assert (G : g = 1) by (vm_compute in E; injection E as _ _ E _ _; rewrite <- E; apply Qc_is_canon; reflexivity). exists f, d, e, m. split; [now rewrite G|].
  intros Z. vm_compute in E. injection E as <- <- _ _ _. vm_compute in Z. discriminate Z.
Qed.
(** If taps of these lengths reproduce the reference from the signal, the returned ones do. *)
Theorem C54_exact : forall lasso s r post pre dfe reg lambda f' d', eq_sizes s r post pre dfe -> (Nat.min post dfe < 2)%nat -> reg = RegNone \/ lambda <= 0 ->
  length f' = (post + pre + 1)%nat -> length d' = dfe -> (forall n, (dfe <= n < dfe + eq_rows s post pre dfe)%nat -> eq_error s r f' d' n = 0) ->
  exists f d err mse, equalization_estimation lasso r s post pre dfe false reg lambda = Ok (mk_est (Taps f) (if (0 <? dfe)%nat then Taps d else NoTaps) 1 err mse) /\
  length f = (post + pre + 1)%nat /\ length d = dfe /\ (forall n, (dfe <= n < dfe + eq_rows s post pre dfe)%nat -> eq_error s r f d n = 0) /\ (err = [] \/ err = cons 0 nil) /\ (forall v, mse = Some v -> v = 0).
Proof.
  intros lasso s r post pre dfe reg lambda f' d' Sz Hm Pl Lf Ld Ex. destruct (C54_optimal lasso s r post pre dfe reg lambda Sz Hm Pl) as (f & d & err & mse & E & L1 & L2 & Opt & He & Hq).
  specialize (Opt f' d' Lf Ld). rewrite (eq_cost_exact _ _ f' d') in Opt by auto. assert (Z : eq_cost s r f d dfe (eq_rows s post pre dfe) = 0) by (apply Qcle_antisym; auto; apply sm_sq_nonneg).
  exists f, d, err, mse. split; auto. split; auto. split; auto. split; [now apply eq_cost_zero|]. rewrite Z in He, Hq. split; auto. intros v ->. destruct Hq as (Nz & ->). field. auto.
Qed.
Print Assumptions C54_exact.
Local Ltac below := let n := fresh "n" in let H := fresh in intros n H; cbn in H; do 12 (destruct n as [|n]; [first [lia|apply Qc_is_canon; vm_compute; reflexivity]|]); lia.
Definition ex_t : list Qc := map2 (fun a b => b / ofZ 2 - ofZ 2 * a) ex_s (tl ex_s ++ cons 0 nil).
Example C54_exact_case : eq_sizes ex_s ex_t 1 0 1 /\ forall n, (1 <= n < 1 + eq_rows ex_s 1 0 1)%nat -> eq_error ex_s ex_t (Q2Qc (1 # 2)%Q :: Q2Qc (-2 # 1)%Q :: nil) (0 :: nil) n = 0.
Proof. split; [split; cbn; lia|below]. Qed.
Example C54_exact_taps : (r <- equalization_estimation (fun _ _ _ => []) ex_t ex_s 1 0 1 false RegNone 0 ;; match e_ffe r with Taps l => Ok (map this l) | _ => Raise ValueError end) = Ok [(1 # 2)%Q; (-2 # 1)%Q].
Proof. vm_compute. reflexivity. Qed.
(** Finding: with two or more postcursors and two or more feedback taps the last rows use mirrored samples (a window s[9], s[10], s[9] at
    the end), so taps which are exact at every time whose samples were captured are not found. *)
Theorem C54_mirrored_refuted : ~ forall lasso s r post pre dfe f' d', eq_sizes s r post pre dfe -> (post + pre + 1 <= length s - dfe)%nat ->
  length f' = (post + pre + 1)%nat -> length d' = dfe -> (forall n, (dfe <= n <= length s - (post + pre + 1))%nat -> eq_error s r f' d' n = 0) ->
  exists f d err mse, equalization_estimation lasso r s post pre dfe false RegNone 0 = Ok (mk_est (Taps f) (Taps d) 1 err mse) /\
    forall n, (dfe <= n <= length s - (post + pre + 1))%nat -> eq_error s r f d n = 0.
Proof.
  intros H. set (s := map ofZ [1; -2; 3; 1; 0; 2; -1; 4; 2; -3; 1]%Z). set (r := map ofZ [3; 1; 0; 2; -1; 4; 2; -3; 1; 5; 5]%Z).
  destruct (H (fun _ _ _ => []) s r 2%nat 0%nat 2%nat (1 :: 0 :: 0 :: nil) (0 :: 0 :: nil)) as (f & d & err & mse & E & Z); try reflexivity; try (split; cbn; lia); try (cbn; lia).
  { change (length s) with 11%nat. below. }
  specialize (Z 8%nat ltac:(cbn; lia)). vm_compute in E. injection E as <- <- _ _. vm_compute in Z. discriminate Z.
Qed.
Print Assumptions C54_mirrored_refuted.
(** normalize=True divides all taps by the largest feed forward tap and returns it as the gain. *)
Theorem C54_normalised : forall lasso s r post pre dfe reg lambda, eq_sizes s r post pre dfe -> (post + pre + 1 <= length s - dfe)%nat -> (0 < dfe)%nat -> reg = RegNone \/ lambda <= 0 ->
  exists f d err mse g, equalization_estimation lasso r s post pre dfe false reg lambda = Ok (mk_est (Taps f) (Taps d) 1 err mse) /\ In g f /\ (forall v, In v f -> v <= g) /\
  (g <> 0 -> equalization_estimation lasso r s post pre dfe true reg lambda = Ok (mk_est (Taps (map (fun v => v / g) f)) (Taps (map (fun v => v / g) d)) g err mse)) /\
  (g = 0 -> equalization_estimation lasso r s post pre dfe true reg lambda = Ok (mk_est NotFinite NotFinite 0 err mse)) /\
  (0 < g -> In 1 (map (fun v => v / g) f) /\ forall v, In v (map (fun v => v / g) f) -> v <= 1).
Proof.
  intros lasso s r post pre dfe reg lambda (Lr & Long) Wide Pd Pl. apply Nat.ltb_lt in Pd.
  destruct (estim_spec lasso s r post pre dfe false reg lambda Lr Long Wide Pl) as (g & err & mse & Els & Eg & _ & Em & E). destruct (estim_spec lasso s r post pre dfe true reg lambda Lr Long Wide Pl) as (g' & err' & mse' & Els' & Eg' & _ & Em' & E').
  cbv zeta in *. rewrite Eg in Eg'. injection Eg' as <-. rewrite <- Em in Em'. subst mse'. rewrite Pd in E, E'. rewrite Els in Els'. injection Els' as <-.
  set (f := rev (firstn (post + pre + 1) (found s r post pre dfe))) in *. exists f, (rev (skipn (post + pre + 1) (found s r post pre dfe))), err, mse, g. split; auto.
  destruct (maxQ_spec f) as (g0 & E0 & I0 & M0). { intros C. rewrite C in Eg. discriminate Eg. } rewrite Eg in E0. injection E0 as <-. split; auto. split; auto. unfold div_taps in E'. repeat split.
  - intros Nz. destruct (Qceqb g 0) eqn:Z; [apply Qceqb_spec in Z; contradiction|auto].
  - intros ->. exact E'.
  - apply in_map_iff. exists g. split; auto. field. intros ->. discriminate.
  - intros v Hv. apply in_map_iff in Hv as (w & <- & Hw). specialize (M0 w Hw). assert (Gi : 0 <= / g) by (now apply Qcinv_nonneg). pose proof (Qcmult_le_compat_r _ _ _ M0 Gi) as K. rewrite Qcmult_inv_r in K; auto. intros ->. discriminate.
Qed.
Print Assumptions C54_normalised.

Example C54_normalised_case : (r <- equalization_estimation (fun _ _ _ => []) ex_t ex_s 1 0 1 true RegNone 0 ;; match e_ffe r with Taps l => Ok (map this l, this (e_gain r)) | _ => Raise ValueError end) = Ok ([(1 # 1)%Q; (-4 # 1)%Q], (1 # 2)%Q).
Proof. vm_compute. reflexivity. Qed.
(** Finding: the peak does not become 1 when the tap of largest magnitude is negative (previous example: the taps 1/2, -2 become 1, -4). *)
Theorem C54_peak_refuted : ~ forall lasso s r post pre dfe f d g err mse, eq_sizes s r post pre dfe -> equalization_estimation lasso r s post pre dfe true RegNone 0 = Ok (mk_est (Taps f) d g err mse) ->
  forall v, In v f -> Qcabs v <= 1.
Proof.
  intros H. destruct (equalization_estimation (fun _ _ _ => []) ex_t ex_s 1 0 1 true RegNone 0) as [[[f| |] d g e m]|] eqn:E; try (vm_compute in E; discriminate E).
  specialize (H (fun _ _ _ => []) ex_s ex_t 1%nat 0%nat 1%nat f d g e m ltac:(split; cbn; lia) E (nth 1 f 0)). vm_compute in E. injection E as <- _ _ _ _. specialize (H ltac:(right; left; reflexivity)). vm_compute in H. apply H. reflexivity.
Qed.
Print Assumptions C54_peak_refuted.
(** Finding: normalize=True without feedback taps always raises TypeError (None / gain). *)
Theorem C54_normalise_without_dfe_refuted : forall lasso s r post pre reg lambda, eq_sizes s r post pre 0 -> reg = RegNone \/ lambda <= 0 -> equalization_estimation lasso r s post pre 0 true reg lambda = Raise TypeError.
Proof. intros lasso s r post pre reg lambda (Lr & Long) Pl. destruct (estim_spec lasso s r post pre 0 true reg lambda Lr Long ltac:(lia) Pl) as (g & err & mse & _ & _ & _ & _ & E). exact E. Qed.
Print Assumptions C54_normalise_without_dfe_refuted.
Example C54_no_dfe_case : eq_sizes ex_s ex_r 1 0 0. Proof. split; cbn; lia. Qed.
(** regularization is used only for reg_lambda > 0; then 'ridge' minimises the squared error plus lambda times the squared norm of
    all taps, over all taps and constant offsets, and other names raise ValueError. *)
Theorem C54_regularisation : forall lasso s r post pre dfe reg lambda, eq_sizes s r post pre dfe -> (post + pre + 1 <= length s - dfe)%nat -> forall nrm : bool,
  (lambda <= 0 -> equalization_estimation lasso r s post pre dfe nrm reg lambda = equalization_estimation lasso r s post pre dfe nrm RegNone 0) /\
  (0 < lambda -> equalization_estimation lasso r s post pre dfe nrm RegOther lambda = Raise ValueError).
Proof.
  intros lasso s r post pre dfe reg lambda (Lr & Long) Wide nrm. rewrite !(estim_call lasso s r post pre dfe nrm) by auto. cbv zeta. split; intros H.
  - f_equal. unfold ls_call. destruct reg; auto; now replace (Qcltb 0 lambda) with false by (symmetry; now apply Qcltb_false).
  - unfold ls_call. apply Qcltb_spec in H. rewrite H. reflexivity.
Qed.
Print Assumptions C54_regularisation.
Theorem C54_ridge : forall lasso s r post pre dfe lambda, eq_sizes s r post pre dfe -> (Nat.min post dfe < 2)%nat -> 0 < lambda ->
  exists f d c err mse, equalization_estimation lasso r s post pre dfe false RegRidge lambda = Ok (mk_est (Taps f) (if (0 <? dfe)%nat then Taps d else NoTaps) 1 err mse) /\
  length f = (post + pre + 1)%nat /\ length d = dfe /\ err = cons (eq_cost s r f d dfe (eq_rows s post pre dfe)) nil /\
  forall f' d' c', length f' = (post + pre + 1)%nat -> length d' = dfe ->
    eq_cost_offset s r f d c dfe (eq_rows s post pre dfe) + lambda * (norm2 (length f) f + norm2 (length d) d) <=
    eq_cost_offset s r f' d' c' dfe (eq_rows s post pre dfe) + lambda * (norm2 (length f') f' + norm2 (length d') d').
Proof.
  intros lasso s r post pre dfe lambda (Lr & Long) Hm Hl. assert (Wide : (post + pre + 1 <= length s - dfe)%nat) by lia. set (n := (post + pre + 1 + dfe)%nat). set (A := eq_matrix s r post pre dfe). set (b := eq_target s r post pre dfe).
  assert (MA : matrix (length A) n A) by (apply eq_matrix_wf; auto). assert (Lb : length b = length A) by (unfold A, b; rewrite eq_matrix_length, eq_target_length by auto; reflexivity). assert (PA : (0 < length A)%nat) by (unfold A; rewrite eq_matrix_length by auto; lia).
  destruct (C63_ridge_offset lasso n A b lambda MA Lb PA Hl) as (x & c & E & Lx & Opt). assert (C : ls_call lasso n A b RegRidge lambda = Ok (x, cons (cost n A b x) nil)) by (unfold ls_call; apply Qcltb_spec in Hl; now rewrite Hl).
  destruct (estim_from lasso s r post pre dfe false RegRidge lambda x _ Lr Long Wide C Lx) as (g & mse & _ & _ & Ee). cbv zeta in Ee.
  assert (L1 : length (rev (firstn (post + pre + 1) x)) = (post + pre + 1)%nat) by (rewrite rev_length, firstn_length; lia). assert (L2 : length (rev (skipn (post + pre + 1) x)) = dfe) by (rewrite rev_length, skipn_length; lia).
  eexists _, _, c, _, mse. split; [exact Ee|]. split; auto. split; auto. split; [f_equal; now apply cost_eq_cost|].
  intros f' d' c' Lf Ld. set (y := rev f' ++ rev d'). specialize (Opt y c'). assert (Ly : length y = n) by (unfold y, n; rewrite app_length, !rev_length; lia). unfold A, b, n in Opt.
  rewrite !cost_eq_cost_offset in Opt by auto. rewrite !(norm2_split (post + pre + 1 + dfe) _ (post + pre + 1)) in Opt by (auto; lia). replace (post + pre + 1 + dfe - (post + pre + 1))%nat with dfe in Opt by lia. rewrite L1, L2, Lf, Ld.
  assert (Y1 : rev (firstn (post + pre + 1) y) = f') by (unfold y; rewrite <- Lf, <- (rev_length f'), firstn_app, Nat.sub_diag, firstn_all, firstn_O, app_nil_r; apply rev_involutive).
  assert (Y2 : rev (skipn (post + pre + 1) y) = d') by (unfold y; rewrite <- Lf, <- (rev_length f'), skipn_app, Nat.sub_diag, skipn_all, skipn_O, app_nil_l; apply rev_involutive). rewrite Y1, Y2 in Opt. exact Opt.
Qed.
Print Assumptions C54_ridge.
Example C54_ridge_case : exists f d e m, equalization_estimation (fun _ _ _ => []) ex_t ex_s 1 0 1 false RegRidge 1 = Ok (mk_est (Taps f) (Taps d) 1 e m) /\ map this f <> [(1 # 2)%Q; (-2 # 1)%Q].
Proof.
  destruct (equalization_estimation (fun _ _ _ => []) ex_t ex_s 1 0 1 false RegRidge 1) as [[[f| |] [d| |] g e m]|] eqn:E; try (vm_compute in E; discriminate E).
  assert (G : g = 1) by (vm_compute in E; injection E as _ _ E _ _; rewrite <- E; apply Qc_is_canon; reflexivity). exists f, d, e, m. split; [now rewrite G|]. vm_compute in E. injection E as <- _ _ _ _. vm_compute. discriminate.
Qed.
(** Finding: signal and reference must not be synchronised, as documented, but the reference must be early by ffe_postcursor: an
    equaliser with that many postcursors which is exact on the synchronised pair is not found. *)
Theorem C54_synchronised_refuted : ~ forall lasso s r post pre f', eq_sizes s r post pre 0 -> length f' = (post + pre + 1)%nat ->
  (forall n, (post <= n < length s - pre)%nat -> sum_below (length f') (fun k => at_ f' k * at_ s (n + pre - k)) = at_ r n) ->
  exists f d g err, equalization_estimation lasso r s post pre 0 false RegNone 0 = Ok (mk_est (Taps f) d g err (Some 0)).
Proof.
  intros H. set (r := map2 Qcplus ex_s (0 :: ex_s)). destruct (H (fun _ _ _ => []) ex_s r 1%nat 0%nat (1 :: 1 :: nil)) as (f & d & g & err & E); [split; cbn; lia|reflexivity|change (length ex_s) with 8%nat; below|].
  vm_compute in E. discriminate E.
Qed.
Print Assumptions C54_synchronised_refuted.
(** ... and with the reference advanced by ffe_postcursor it is. *)
Theorem C54_advanced : forall lasso s r post pre f', eq_sizes s r post pre 0 -> length f' = (post + pre + 1)%nat ->
  (forall n, (post <= n < length s - pre)%nat -> sum_below (length f') (fun k => at_ f' k * at_ s (n + pre - k)) = at_ r (n - post)) ->
  exists f err mse, equalization_estimation lasso r s post pre 0 false RegNone 0 = Ok (mk_est (Taps f) NoTaps 1 err mse) /\ (mse = Some 0 \/ mse = None) /\
  length f = (post + pre + 1)%nat /\ forall n, (post <= n < length s - pre - 1)%nat -> sum_below (length f) (fun k => at_ f k * at_ s (n + pre - k)) = at_ r (n - post).
Proof.
  intros lasso s r post pre f' Sz Lf Ex. assert (Rw : eq_rows s post pre 0 = (length s - post - pre - 1)%nat) by (unfold eq_rows; lia).
  assert (Err : forall f n, length f = (post + pre + 1)%nat -> (post <= n)%nat -> eq_error s r f [] (n - post) = sum_below (length f) (fun k => at_ f k * at_ s (n + pre - k)) - at_ r (n - post)).
  { intros f n L Hn. unfold eq_error, sum_below at 2. cbn [length seq map fold_right]. rewrite (sm_ext (length f) _ (fun k => at_ f k * at_ s (n + pre - k))); [ring|]. intros k Hk. do 2 f_equal. lia. }
  destruct (C54_exact lasso s r post pre 0 RegNone 0 f' [] Sz ltac:(lia) (or_introl eq_refl) Lf eq_refl) as (f & d & err & mse & E & L1 & L2 & Z & _ & Q).
  { intros n Hn. rewrite Rw in Hn. destruct Sz as (_ & Long). replace n with (n + post - post)%nat by lia. rewrite Err by (auto; lia). rewrite Ex by lia. ring. }
  exists f, err, mse. split; [exact E|]. split; [destruct mse as [v|]; auto; left; f_equal; now apply Q|]. split; auto. intros n Hn. specialize (Z (n - post)%nat ltac:(rewrite Rw; lia)). destruct d; [|discriminate L2]. rewrite Err in Z by (auto; lia).
  transitivity (sum_below (length f) (fun k => at_ f k * at_ s (n + pre - k)) - at_ r (n - post) + at_ r (n - post)); [ring|rewrite Z; ring].
Qed.
Print Assumptions C54_advanced.
Example C54_advanced_case : let r := map2 Qcplus ex_s (tl ex_s) in eq_sizes ex_s (r ++ cons 0 nil) 1 0 0 /\
  forall n, (1 <= n < length ex_s - 0)%nat -> sum_below 2 (fun k => at_ (1 :: 1 :: nil) k * at_ ex_s (n + 0 - k)) = at_ (r ++ cons 0 nil) (n - 1).
Proof. split; [split; cbn; lia|]. change (length ex_s) with 8%nat. below. Qed.
(** Finding: the mse is relative to the power of the equaliser output, not to the variance of the constellation. *)
Theorem C54_mse_refuted : ~ forall lasso s r post pre dfe f d g err v, eq_sizes s r post pre dfe -> equalization_estimation lasso r s post pre dfe false RegNone 0 = Ok (mk_est (Taps f) (Taps d) g err (Some v)) ->
  v * variance (length r) (at_ r) = eq_cost s r f d dfe (eq_rows s post pre dfe) / ofZ (Z.of_nat (eq_rows s post pre dfe)).
Proof.
  intros H. destruct (equalization_estimation (fun _ _ _ => []) ex_r ex_s 1 0 1 false RegNone 0) as [[[f| |] [d| |] g e [v|]]|] eqn:E; try (vm_compute in E; discriminate E).
  specialize (H (fun _ _ _ => []) ex_s ex_r 1%nat 0%nat 1%nat f d g e v ltac:(split; cbn; lia) E). vm_compute in E. injection E as <- <- _ _ <-. vm_compute in H. discriminate H.
Qed.
Print Assumptions C54_mse_refuted.
