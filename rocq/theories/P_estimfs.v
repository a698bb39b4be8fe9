(** Proofs for C86: the real model on rational inputs, and scaled references. *)
From Verif Require Import Py PyQ B_list B_qc M_aux M_prbs M_symbol M_coding M_levels M_lock M_estim M_estimfs S_estimfs P_linalgR P_levels.
From Coq Require Import Reals Lra Lia Qreals.
From Coq Require Import QArith Qcanon.
Import List.
Open Scope R_scope.

(** * Rationals as reals *)
Lemma real_0 : real 0 = 0. Proof. unfold real. cbn. unfold Q2R. cbn. lra. Qed.
Lemma real_1 : real 1 = 1. Proof. unfold real. cbn. unfold Q2R. cbn. lra. Qed.
Lemma real_add x y : real (x + y)%Qc = real x + real y. Proof. unfold real. rewrite <- Q2R_plus. apply Qeq_eqR. apply Qred_correct. Qed.
Lemma real_mul x y : real (x * y)%Qc = real x * real y. Proof. unfold real. rewrite <- Q2R_mult. apply Qeq_eqR. apply Qred_correct. Qed.
Lemma real_opp x : real (- x)%Qc = - real x. Proof. unfold real. rewrite <- Q2R_opp. apply Qeq_eqR. apply Qred_correct. Qed.
Lemma real_sub x y : real (x - y)%Qc = real x - real y. Proof. unfold Qcminus. rewrite real_add, real_opp. lra. Qed.
Lemma real_inj x y : real x = real y -> x = y. Proof. intros H. apply Qc_is_canon. now apply eqR_Qeq. Qed.
Lemma real_div x y : y <> 0%Qc -> real (x / y)%Qc = real x / real y.
Proof.
  intros N. assert (real y <> 0) by (intros Z; apply N, real_inj; now rewrite real_0). apply (Rmult_eq_reg_r (real y)); auto. rewrite <- real_mul.
  replace (x / y * y)%Qc with x by (field; auto). field. auto.
Qed.
Lemma real_lt x y : real x < real y <-> (x < y)%Qc. Proof. split; intros H; [now apply Rlt_Qlt|now apply Qlt_Rlt]. Qed.
Lemma real_Z z : real (ofZ z) = IZR z.
Proof. unfold real, ofZ. cbn [this Q2Qc]. rewrite (Qeq_eqR _ _ (Qred_correct _)). unfold Q2R, inject_Z. cbn [Qnum Qden]. field. Qed.
Lemma real_eqb x : (if Req_EM_T (real x) 0 then true else false) = Qceqb x 0%Qc.
Proof. destruct (Req_EM_T _ _) as [E|N]; symmetry. - apply Qceqb_spec, real_inj. now rewrite real_0. - destruct (Qceqb x 0%Qc) eqn:E; auto. apply Qceqb_spec in E. subst. now rewrite real_0 in N. Qed.
Lemma real_if {A} x (u v : A) : (if Req_EM_T (real x) 0 then u else v) = if Qceqb x 0%Qc then u else v.
Proof. rewrite <- real_eqb. now destruct (Req_EM_T _ _). Qed.
Notation q := (map real).
Notation qq := (map (map real)).
Lemma q_at u i : vec_atR (q u) i = real (vec_at u i). Proof. unfold vec_atR, vec_at. rewrite <- real_0. apply map_nth. Qed.
Lemma q_sum l : sumR (q l) = real (sumQ l).
Proof. unfold sumR, sumQ. induction l as [|a l IH]; cbn [map fold_right]; [now rewrite real_Z|]. now rewrite IH, real_add. Qed.
Lemma q_map2 (f : Qc -> Qc -> Qc) g u v : (forall x y, real (f x y) = g (real x) (real y)) -> map2 g (q u) (q v) = q (map2 f u v).
Proof. intros H. revert v. induction u as [|a u IH]; intros [|b v]; cbn; auto. now rewrite IH, H. Qed.
Lemma q_dot u v : dotR (q u) (q v) = real (dotQ u v). Proof. unfold dotR, dotQ. rewrite (q_map2 Qcmult Rmult) by apply real_mul. apply q_sum. Qed.
Lemma q_mean_ne l : l <> [] -> meanR (q l) = real (meanQ l).
Proof. intros N. unfold meanR, meanQ. rewrite q_sum, map_length, real_div, real_Z; auto. intros Z. change 0%Qc with (ofZ 0) in Z. apply ofZ_inj in Z. destruct l; [auto|cbn in Z; lia]. Qed.
Lemma q_mean l : meanR (q l) = real (meanQ l).
Proof. destruct l as [|a l]; [|now apply q_mean_ne]. unfold meanR, meanQ. cbn. unfold Rdiv, Qcdiv. rewrite Rmult_0_l. change (ofZ 0) with 0%Qc. now rewrite Qcmult_0_l, real_0. Qed.
Lemma q_matvec a x : matvecR (qq a) (q x) = q (matvec a x). Proof. unfold matvecR, matvec. rewrite !map_map. apply map_ext. intros r. apply q_dot. Qed.
Lemma q_transpose n a : transposeR n (qq a) = qq (transpose n a).
Proof. unfold transposeR, transpose. rewrite map_map. apply map_ext. intros j. rewrite !map_map. apply map_ext. intros r. apply q_at. Qed.
Lemma q_dot_to m u v : dot_toR m (q u) (q v) = real (dot m u v).
Proof. unfold dot_toR, dot. rewrite <- q_sum, map_map. f_equal. apply map_ext. intros i. now rewrite !q_at, real_mul. Qed.
Lemma q_axpy m u t v : axpyR m (q u) (real t) (q v) = q (axpy m u t v).
Proof. unfold axpyR, axpy. rewrite map_map. apply map_ext. intros i. now rewrite !q_at, real_sub, real_mul. Qed.
Lemma q_comb m cols : forall x, combR m (qq cols) (q x) = q (comb m cols x).
Proof.
  induction cols as [|a cols IH]; intros x; cbn [map combR comb].
  - induction m as [|m IHm]; cbn; auto. now rewrite <- IHm, real_0.
  - assert (E : tl (q x) = q (tl x)) by now destruct x. rewrite E, IH, q_at, <- real_opp. apply q_axpy.
Qed.
Lemma q_project m cols : forall b, projectR m (qq cols) (q b) = q (project m cols b).
Proof.
  induction cols as [|a cols IH]; intros b; cbn [map projectR project]; auto. rewrite <- real_1, IH, q_comb, q_axpy, !q_dot_to. set (ra := axpy m a 1 _).
  assert (E : (if Req_EM_T (real (dot m ra ra)) 0 then 0 else real (dot m b ra) / real (dot m ra ra)) = real (if Qceqb (dot m ra ra) 0 then 0 else dot m b ra / dot m ra ra)%Qc).
  { rewrite real_if. destruct (Qceqb _ _) eqn:Z; [now rewrite real_0|]. rewrite real_div; auto. intros C. apply Qceqb_spec in C. congruence. }
  rewrite E, q_axpy, IH. reflexivity.
Qed.
Lemma q_rank m cols : rankR m (qq cols) = rank m cols.
Proof. induction cols as [|a cols IH]; cbn [map rankR rank]; auto. rewrite <- real_1, q_project, q_comb, q_axpy, q_dot_to, IH, real_if. reflexivity. Qed.
Lemma q_sq l : map (fun e => e * e) (q l) = q (map (fun e => e * e)%Qc l). Proof. rewrite !map_map. apply map_ext. intros; now rewrite real_mul. Qed.
Lemma q_ssr a x b : ssrR (qq a) (q x) (q b) = real (ssr a x b).
Proof. unfold ssrR, ssr. rewrite q_matvec, (q_map2 Qcminus Rminus) by apply real_sub. rewrite q_sq. apply q_sum. Qed.
Definition q2 (p : list Qc * list Qc) : list R * list R := (q (fst p), q (snd p)).
Lemma q_lstsq n a b : lstsqR n (qq a) (q b) = on_ok q2 (lstsq n a b).
Proof.
  unfold lstsqR, lstsq. rewrite !map_length. destruct (negb _); auto. cbn [on_ok]. unfold q2. cbn [fst snd]. rewrite q_transpose, q_project, q_project, q_comb, q_rank, q_ssr. do 2 f_equal. now destruct (_ && _).
Qed.
Lemma q_centre_rows n a : centre_rowsR n (qq a) = qq (centre_rows n a).
Proof.
  unfold centre_rowsR, centre_rows. rewrite !map_map. apply map_ext. intros r. rewrite map_map. apply map_ext. intros j. rewrite q_at, real_sub. f_equal. unfold mean_of_colR, mean_of_col.
  rewrite map_map, <- q_mean, map_map. f_equal. apply map_ext. intros; apply q_at.
Qed.
Lemma q_centre b : centreR (q b) = q (centre b). Proof. unfold centreR, centre. rewrite !map_map, q_mean. apply map_ext. intros; now rewrite real_sub. Qed.
Lemma q_nth i (c : list (list Qc)) : nth i (qq c) [] = q (nth i c []). Proof. change (@nil R) with (q []). apply map_nth. Qed.
Lemma q_gram n m a al : gramR n m (qq a) (real al) = qq (gram n m a al).
Proof.
  unfold gramR, gram. rewrite q_transpose, map_map. apply map_ext. intros i. rewrite map_map. apply map_ext. intros j. rewrite !q_nth, q_dot_to, real_add. f_equal. destruct (i =? j)%nat; auto. now rewrite real_0.
Qed.
Lemma q_ridge_solve n a b al : ridge_solveR n (qq a) (q b) (real al) = q (ridge_solve n a b al).
Proof.
  unfold ridge_solveR, ridge_solve. rewrite map_length, q_gram, !q_transpose. rewrite <- q_project. f_equal. rewrite !map_map. apply map_ext. intros; apply q_dot_to.
Qed.
Lemma q_ridge n a b al : ridge_regressionR n (qq a) (q b) (real al) = on_ok q2 (ridge_regression n a b al).
Proof.
  unfold ridge_regressionR, ridge_regression. rewrite !map_length. destruct (negb _ || _); auto. cbn [on_ok]. unfold q2. cbn [fst snd map]. now rewrite q_centre_rows, q_centre, q_ridge_solve, q_ssr.
Qed.
(** A lasso solver over the reals which extends one over the rationals. *)
Definition extends (lr : list (list R) -> list R -> R -> list R) (lq : list (list Qc) -> list Qc -> Qc -> list Qc) : Prop :=
  forall a b al, lr (qq a) (q b) (real al) = q (lq a b al).
Lemma q_least lr lq n a b reg al : extends lr lq -> least_squaresR lr n (qq a) (q b) reg (real al) = on_ok q2 (least_squares lq n a b reg al).
Proof.
  intros E. destruct reg; cbn [least_squaresR least_squares]; [apply q_lstsq|apply q_ridge| |reflexivity]. rewrite !map_length. destruct (negb _ || _); auto. cbn [on_ok]. unfold q2. cbn [fst snd map]. now rewrite E, q_ssr.
Qed.
Lemma q_hankel c r : hankelR (q c) (q r) = qq (hankel c r).
Proof.
  unfold hankelR, hankel. rewrite !map_length, map_map. apply map_ext. intros i. rewrite map_map. apply map_ext. intros j. assert (E : tl (q r) = q (tl r)) by now destruct r. now rewrite E, <- map_app, q_at.
Qed.
Lemma slice_to_map {A B} (f : A -> B) l i : slice_to (map f l) i = map f (slice_to l i). Proof. unfold slice_to. rewrite map_length. apply firstn_map. Qed.
Lemma slice_from_map {A B} (f : A -> B) l i : slice_from (map f l) i = map f (slice_from l i). Proof. unfold slice_from. rewrite map_length. apply skipn_map. Qed.
Lemma skipn_map' {A B} (f : A -> B) l n : skipn n (map f l) = map f (skipn n l). Proof. apply skipn_map. Qed.
Lemma map2_app_map {A B} (f : A -> B) u v : map2 (@app B) (map (map f) u) (map (map f) v) = map (map f) (map2 (@app A) u v).
Proof. revert v. induction u as [|a u IH]; intros [|b v]; cbn; auto. now rewrite IH, map_app. Qed.
Lemma q_hconcat a b : hconcatR (qq a) (qq b) = on_ok qq (hconcat a b).
Proof. unfold hconcatR, hconcat. rewrite !map_length. destruct (_ =? _)%nat; auto. cbn [on_ok]. f_equal. apply map2_app_map. Qed.
Lemma q_argmax_from l : forall best bi i, argmaxR_from (real best) bi i (q l) = argminQ_from (- best)%Qc bi i (map Qcopp l).
Proof.
  induction l as [|x l IH]; intros best bi i; cbn [map argmaxR_from argminQ_from]; auto.
  assert (E : (if Rlt_dec (real best) (real x) then true else false) = Qcltb (- x)%Qc (- best)%Qc).
  { assert (S : (- x < - best)%Qc <-> real best < real x) by (rewrite <- real_lt, !real_opp; lra). destruct (Rlt_dec _ _) as [L|N]; symmetry; [apply Qcltb_spec; tauto|]. destruct (Qcltb _ _) eqn:C; auto. apply Qcltb_spec in C. tauto. }
  rewrite <- E. destruct (Rlt_dec _ _); apply IH.
Qed.
Lemma q_argmax l : argmaxR (q l) = argmaxQ l.
Proof. unfold argmaxR, argmaxQ, argminQ. destruct l as [|x l]; auto. cbn [map]. now rewrite q_argmax_from. Qed.
Lemma q_max l : maxR (q l) = on_ok real (maxQ l).
Proof. unfold maxR, maxQ. rewrite q_argmax. destruct (argmaxQ l); cbn; auto. now rewrite q_at. Qed.
Lemma q_power l : powerR (q l) = option_map real (power l).
Proof. unfold powerR, power. destruct l as [|a l]; auto. change (map real (a :: l)) with (real a :: q l). cbv iota. cbn [option_map]. f_equal. change (real a :: q l) with (q (a :: l)). now rewrite q_sq, q_mean. Qed.
Lemma q_mse e o : mse_ratioR (q e) (q o) = option_map real (mse_ratio e o).
Proof.
  unfold mse_ratioR, mse_ratio. rewrite !q_power. destruct (power e), (power o) as [x|]; cbn; auto. rewrite real_if. destruct (Qceqb x 0) eqn:E; auto. cbn. rewrite real_div; auto. intros Z. apply Qceqb_spec in Z. congruence.
Qed.
Lemma q_div l g : div_tapsR (q l) (real g) = real_taps (div_taps l g).
Proof.
  unfold div_tapsR, div_taps. rewrite real_if. destruct (Qceqb g 0) eqn:E; auto. cbn. f_equal. rewrite !map_map. apply map_ext. intros x. rewrite real_div; auto. intros Z. apply Qceqb_spec in Z. congruence.
Qed.
Lemma real_ltb x : (if Rlt_dec 0 (real x) then true else false) = Qcltb 0%Qc x.
Proof. pose proof (real_lt 0%Qc x) as H. rewrite real_0 in H. destruct (Rlt_dec _ _) as [L|N]; symmetry; [apply Qcltb_spec; tauto|]. destruct (Qcltb _ _) eqn:C; auto. apply Qcltb_spec in C. tauto. Qed.
Lemma ifdec {P : Prop} {A} (d : {P} + {~ P}) (u v : A) : (if d then u else v) = if (if d then true else false) then u else v. Proof. now destruct d. Qed.
Lemma bind_on_ok {A B C} (f : A -> B) r (g : B -> res C) : bind (on_ok f r) g = bind r (fun x => g (f x)). Proof. now destruct r. Qed.
Lemma on_ok_bind {A B C} (f : B -> C) r (g : A -> res B) : on_ok f (bind r g) = bind r (fun x => on_ok f (g x)). Proof. now destruct r. Qed.
Lemma bind_ext {A B} (r : res A) (f g : A -> res B) : (forall x, r = Ok x -> f x = g x) -> bind r f = bind r g. Proof. destruct r; cbn; auto. Qed.

Lemma q_estim lr lq r s post pre dfe nrm reg lam : extends lr lq ->
  equalization_estimation_R lr (q r) (q s) post pre dfe nrm reg (real lam) = on_ok real_estimate (equalization_estimation lq r s post pre dfe nrm reg lam).
Proof.
  intros E. unfold equalization_estimation_R, equalization_estimation. cbv zeta. rewrite !map_length, !skipn_map', <- !map_rev, !firstn_map, !map_length, !q_hankel, !slice_to_map, !slice_from_map.
  set (mrn := (Z.of_nat (length s) - _)%Z). set (last_row := firstn (post + pre + 1) _). set (dfe_row := firstn dfe _). set (F := slice_to (hankel (skipn dfe s) last_row) mrn).
  set (D := slice_to (hankel r dfe_row) mrn). set (tgt := slice_from _ _).
  assert (EM : (if (0 <? dfe)%nat then hconcatR (qq F) (map (map Ropp) (qq D)) else Ok (qq F)) = on_ok qq (if (0 <? dfe)%nat then hconcat F (map (map Qcopp) D) else Ok F)).
  { destruct (0 <? dfe)%nat; auto. rewrite <- q_hconcat. f_equal. rewrite !map_map. apply map_ext. intros row. rewrite !map_map. apply map_ext. intros; now rewrite real_opp. }
  rewrite EM, bind_on_ok, on_ok_bind. apply bind_ext. intros M _. set (n := (length last_row + _)%nat).
  assert (EL : (match reg with RegNone => least_squaresR lr n (qq M) (q tgt) RegNone 0 | r0 => if Rlt_dec 0 (real lam) then least_squaresR lr n (qq M) (q tgt) r0 (real lam) else least_squaresR lr n (qq M) (q tgt) RegNone 0 end)
    = on_ok q2 (match reg with RegNone => least_squares lq n M tgt RegNone 0%Qc | r0 => if Qcltb 0 lam then least_squares lq n M tgt r0 lam else least_squares lq n M tgt RegNone 0%Qc end)).
  { rewrite <- real_0. rewrite !(q_least _ _ _ _ _ _ _ E), real_0. pose proof (real_ltb lam) as RL. rewrite <- RL. destruct (Rlt_dec 0 (real lam)); now destruct reg. }
  rewrite EL, bind_on_ok, on_ok_bind. apply bind_ext. intros [x e] _. unfold q2. cbn [fst snd]. rewrite <- map_rev, skipn_map', q_max, bind_on_ok, on_ok_bind. apply bind_ext. intros g _.
  rewrite slice_from_map, <- map_rev, q_matvec, (q_map2 Qcminus Rminus) by apply real_sub. rewrite q_mse, q_div. destruct nrm.
  - destruct (0 <? dfe)%nat; auto. cbn [on_ok]. unfold real_estimate. cbn. now rewrite q_div.
  - cbn [on_ok]. unfold real_estimate. cbn [e_ffe e_dfe e_gain e_err e_mse]. rewrite real_1. now destruct (0 <? dfe)%nat.
Qed.

(** * Locking, averaging, the PRBS reference *)
Lemma q_correlate a v : correlate_validR (q a) (q v) = q (correlate_validQ a v).
Proof.
  unfold correlate_validR, correlate_validQ. rewrite !map_length. destruct (_ || _); auto. rewrite map_map. apply map_ext. intros k. now rewrite skipn_map', firstn_map, q_dot.
Qed.
Lemma tile_map {A B} (f : A -> B) n l : tile n (map f l) = map f (tile n l).
Proof. unfold tile. induction n as [|n IH]; cbn; auto. now rewrite IH, map_app. Qed.
Lemma q_lock p s : lock_pattern_to_signal_R (q p) (q s) = on_ok q2 (lock_pattern_to_signal p s).
Proof.
  unfold lock_pattern_to_signal_R, lock_pattern_to_signal. cbv zeta. rewrite !map_length, tile_map, firstn_map, q_correlate, q_argmax. destruct (argmaxQ _); auto. cbn [bind on_ok]. unfold q2. cbn [fst snd]. now rewrite skipn_map', firstn_map.
Qed.
Lemma map_res_on_ok {A B C} (f : A -> B) (g : C -> res A) (h : C -> res B) l : (forall i, h i = on_ok f (g i)) -> map_res h l = on_ok (map f) (map_res g l).
Proof. intros H. induction l as [|i l IH]; cbn [map_res]; auto. rewrite H, IH. destruct (g i); cbn; auto. now destruct (map_res g l). Qed.
Lemma take_map {A B} (f : A -> B) l idx : np_take (map f l) idx = on_ok (map f) (np_take l idx).
Proof. apply map_res_on_ok. intros i. unfold np_get. rewrite map_length. destruct (np_index _ _) as [k|]; auto. rewrite nth_error_map. now destruct (nth_error l k). Qed.
Lemma mapping_map {A B} (f : A -> B) na nb lv pn sy : (forall x, nb (f x) = f (na x)) -> mapping nb (map f lv) None pn sy = on_ok (fun m => mk_nda (shape m) (map f (data m))) (mapping na lv None pn sy).
Proof.
  intros H. unfold mapping. cbn [bind]. assert (E : (if pn then map nb (map f lv) else map f lv) = map f (if pn then map na lv else lv)) by (destruct pn; auto; rewrite !map_map; apply map_ext; auto).
  rewrite E, take_map, bind_on_ok. destruct (np_take _ _); auto.
Qed.
Lemma coded_map (k : R) t c fs a b g i : get_levels_R c fs = map (fun z => IZR z * k) (get_levels c) ->
  prbs_coded_R t c fs a b g i = on_ok (map (fun x => real x * k)) (prbs_coded t c a b g i).
Proof.
  intros L. unfold prbs_coded_R, prbs_coded. cbv zeta. destruct (prbs_generator _ _ _) as [r|]; auto. cbn [bind].
  assert (Ln : length (get_levels_R c fs) = length (get_levels c)) by (rewrite L; apply map_length). rewrite Ln. destruct (bin2symbol _ _ _) as [sy|]; auto. cbn [bind].
  destruct (if g then coding_gray c (vec sy) else Ok (vec sy)) as [cd|]; auto. cbn [bind]. rewrite L. rewrite (mapping_map (fun z => IZR z * k) Z.opp Ropp) by (intros; rewrite opp_IZR; ring).
  rewrite bind_on_ok. destruct (mapping Z.opp _ _ _ _) as [m|]; auto. cbn. f_equal. rewrite map_map. apply map_ext. intros; now rewrite real_Z.
Qed.
Lemma coded_plain t c a b g i : prbs_coded_R t c false a b g i = on_ok q (prbs_coded t c a b g i).
Proof.
  rewrite (coded_map 1) by (apply map_ext; intros; ring). destruct (prbs_coded _ _ _ _ _ _); auto. cbn. f_equal. apply map_ext. intros; ring.
Qed.
Lemma level_rms_pos c : 0 < level_rms c. Proof. destruct c; cbn; [lra| | |]; apply sqrt_lt_R0; lra. Qed.
Lemma levels_scaled c : get_levels_R c true = map (fun z => IZR z * / level_rms c) (get_levels c).
Proof.
  cbn [get_levels_R]. unfold get_levels_fs. cbv zeta. rewrite map_map. apply map_ext. intros z. unfold Rdiv. do 2 f_equal. unfold mean_sq_R.
  destruct c; cbn [get_levels map fold_right length level_rms INR]; [transitivity (sqrt 1); [f_equal; field|apply sqrt_1]| | |]; f_equal; field.
Qed.
Lemma coded_scaled t c a b g i : prbs_coded_R t c true a b g i = on_ok (sc (/ level_rms c)) (prbs_coded_R t c false a b g i).
Proof.
  rewrite coded_plain, (coded_map (/ level_rms c)) by apply levels_scaled. destruct (prbs_coded _ _ _ _ _ _); auto. cbn. f_equal. unfold sc. rewrite map_map. apply map_ext. intros; ring.
Qed.
Lemma q_average n s : average_periodsR n (q s) = q (average_periods n s).
Proof.
  unfold average_periodsR, average_periods. cbv zeta. rewrite map_length, map_map. apply map_ext. intros i. rewrite <- q_mean, map_map. f_equal. apply map_ext. intros; apply q_at.
Qed.
Lemma q_estim_prbs lr lq t s c post pre dfe nrm reg lam a b g i : extends lr lq ->
  equalization_estimation_prbs_R lr t (q s) c post pre dfe nrm reg (real lam) false a b g i = on_ok real_estimate (equalization_estimation_prbs lq t s c post pre dfe nrm reg lam a b g i).
Proof.
  intros E. unfold equalization_estimation_prbs_R, equalization_estimation_prbs. cbv zeta. rewrite coded_plain, bind_on_ok, on_ok_bind. apply bind_ext. intros pc _.
  rewrite q_lock, bind_on_ok, on_ok_bind. apply bind_ext. intros al _. cbn [q2 fst]. rewrite take_map, bind_on_ok, on_ok_bind. apply bind_ext. intros sh _.
  rewrite map_length, firstn_map, q_average, !(q_estim _ _ _ _ _ _ _ _ _ _ E). now destruct (_ =? 0)%nat.
Qed.
Lemma q_var l : varR (q l) = real (varQ l).
Proof. unfold varR, varQ. rewrite q_mean. rewrite <- (q_mean (map _ l)), !map_map. f_equal. apply map_ext. intros x. now rewrite real_mul, !real_sub. Qed.
Definition real_channel (te : taps * list Qc) : tapsR * list R := (real_taps (fst te), q (snd te)).
Lemma q_channel t s c post pre nrm a b g i :
  channel_estimation_prbs_R t (q s) c false post pre nrm a b g i = on_ok (option_map real_channel) (channel_estimation_prbs t s c post pre nrm a b g i).
Proof.
  unfold channel_estimation_prbs_R, channel_estimation_prbs. cbv zeta. rewrite coded_plain, bind_on_ok, on_ok_bind. apply bind_ext. intros pc _.
  rewrite q_lock, bind_on_ok, on_ok_bind. apply bind_ext. intros al _. cbn [q2 fst]. rewrite map_length, q_average, q_var, real_eqb. set (mean := average_periods _ s). destruct (_ || _) eqn:G; auto.
  apply Bool.orb_false_iff in G as (_ & G). rewrite take_map, bind_on_ok, on_ok_bind. apply bind_ext. intros tk _.
  rewrite !firstn_map, <- !map_app, <- !map_rev, !firstn_map, q_hankel, firstn_map, map_length. set (w := (post + pre + 1)%nat).
  assert (ET : map (fun v => v / real (varQ mean)) (q tk) = q (map (fun v => v / varQ mean)%Qc tk)). { rewrite !map_map. apply map_ext. intros x. rewrite real_div; auto. intros Z. apply Qceqb_spec in Z. congruence. }
  rewrite ET, q_lstsq, bind_on_ok, on_ok_bind. apply bind_ext. intros [x e] _. cbn [q2 fst snd]. destruct nrm.
  - rewrite q_max. destruct (maxQ x); auto. cbn [bind on_ok option_map]. unfold real_channel. cbn [fst snd]. now rewrite <- q_div, map_rev.
  - cbn [bind on_ok option_map]. unfold real_channel. cbn [fst snd real_taps]. now rewrite map_rev.
Qed.
