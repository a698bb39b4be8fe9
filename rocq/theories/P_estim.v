(** Lemmas for C54 and C63: equaliser estimation, ridge regression. *)
From Verif Require Import Py PyQ B_list B_qc M_lock M_estim S_estim P_linalg.
From Coq Require Import Psatz.
Open Scope Qc_scope.

Lemma at_app u v i : at_ (u ++ v) i = if (i <? length u)%nat then at_ u i else at_ v (i - length u).
Proof. unfold at_. destruct (Nat.ltb_spec i (length u)); [now rewrite app_nth1|now rewrite app_nth2]. Qed.
Lemma at_rev u i : (i < length u)%nat -> at_ (rev u) i = at_ u (length u - 1 - i).
Proof. intros H. unfold at_. rewrite rev_nth by auto. f_equal. lia. Qed.
Lemma at_firstn u k i : (i < k)%nat -> at_ (firstn k u) i = at_ u i. Proof. intros H. unfold at_. now apply nth_firstn. Qed.
Lemma at_skipn u k i : at_ (skipn k u) i = at_ u (k + i). Proof. unfold at_. apply nth_skipn. Qed.
Lemma hankel_length c r : length (hankel c r) = length c. Proof. unfold hankel. now rewrite map_length, seq_length. Qed.
Lemma hankel_entry c r i j : (i < length c)%nat -> (j < length r)%nat -> entry (hankel c r) i j = at_ (c ++ tl r) (i + j).
Proof. intros Hi Hj. unfold hankel, entry. rewrite nth_map_seq by auto. cbn [Nat.add]. unfold at_ at 1. rewrite nth_map_seq by auto. reflexivity. Qed.
Lemma hankel_row c r i : (i < length c)%nat -> length (nth i (hankel c r) []) = length r.
Proof. intros Hi. unfold hankel. rewrite nth_map_seq by auto. now rewrite map_length, seq_length. Qed.
Lemma matvec_at a x i n : length x = n -> (i < length a)%nat -> length (nth i a []) = n -> at_ (matvec a x) i = sm n (fun j => entry a i j * at_ x j).
Proof.
  intros Lx Hi Hr. unfold matvec, at_ at 1. rewrite (map_nth_lt _ _ _ []) by auto. unfold dotQ. set (row := nth i a []) in *.
  change (sm n (fun j => entry a i j * at_ x j)) with (sm n (fun j => nth j row 0 * nth j x 0)). clearbody row. clear Hi. revert row x Lx Hr. induction n as [|n IH]; intros [|p row] [|q x] Lx Hr; try discriminate; [reflexivity|].
  rewrite sm_first. cbn [map2 nth]. rewrite sumQ_cons. f_equal. apply IH; auto.
Qed.
Lemma ssr_cost n a x b : matrix (length a) n a -> length x = n -> length b = length a -> ssr a x b = cost n a b x.
Proof.
  intros (_ & F) Lx Lb. unfold ssr, cost. assert (E : map (fun e => e * e) (map2 Qcminus (matvec a x) b) = map (fun i => sq (sm n (fun j => entry a i j * at_ x j) - at_ b i)) (seq 0 (length b))).
  { apply (nth_ext_def 0). - rewrite !map_length, seq_length, map2_length. unfold matvec. rewrite map_length. lia.
    - intros i Hi. rewrite map_length, map2_length in Hi. unfold matvec in Hi. rewrite map_length in Hi. rewrite (map_nth_lt _ _ _ 0) by (rewrite map2_length; unfold matvec; rewrite map_length; lia). rewrite nth_map_seq by lia. cbn [Nat.add].
      rewrite (map2_nth _ _ _ _ 0 0) by (unfold matvec; rewrite ?map_length; lia). fold (at_ (matvec a x) i). rewrite (matvec_at a x i n); auto; [lia|]. rewrite Forall_forall in F. apply F, nth_In. lia. }
  rewrite E. reflexivity.
Qed.
(** * The system of equalization_estimation *)
Section Equaliser.
Variables (s r : list Qc) (post pre dfe : nat).
Let W := (post + pre + 1)%nat.
Let R := (length s - (Nat.max post dfe + pre + 1))%nat.
Hypothesis Lr : length r = length s.
Hypothesis Long : (Nat.max post dfe + pre + 1 < length s)%nat.
Hypothesis Wide : (W <= length s - dfe)%nat.

Let temp := skipn dfe s.
Let last_row := firstn W (rev temp).
Let F := firstn R (hankel temp last_row).
Let D := firstn R (hankel r (firstn dfe (rev r))).
Definition eq_matrix := if (0 <? dfe)%nat then map2 (@app Qc) F (map (map Qcopp) D) else F.
Definition eq_target := firstn R (skipn dfe r).

Lemma temp_length : length temp = (length s - dfe)%nat. Proof. apply skipn_length. Qed.
Lemma last_row_length : length last_row = W. Proof. unfold last_row. rewrite firstn_length, rev_length, temp_length. lia. Qed.
Lemma F_length : length F = R. Proof. unfold F. rewrite firstn_length, hankel_length, temp_length. unfold R, W in *. lia. Qed.
Lemma D_length : length D = R. Proof. unfold D. rewrite firstn_length, hankel_length. unfold R in *. lia. Qed.
Lemma dfe_row_length : length (firstn dfe (rev r)) = dfe. Proof. rewrite firstn_length, rev_length. lia. Qed.
Lemma eq_matrix_length : length eq_matrix = R.
Proof. unfold eq_matrix. destruct (0 <? dfe)%nat; [|apply F_length]. rewrite map2_length, map_length, F_length, D_length. lia. Qed.
Lemma eq_target_length : length eq_target = R. Proof. unfold eq_target. rewrite firstn_length, skipn_length. unfold R in *. lia. Qed.
Lemma F_row i : (i < R)%nat -> nth i F [] = nth i (hankel temp last_row) []. Proof. intros H. unfold F. now apply nth_firstn. Qed.
Lemma D_row i : (i < R)%nat -> nth i D [] = nth i (hankel r (firstn dfe (rev r))) []. Proof. intros H. unfold D. now apply nth_firstn. Qed.
Lemma F_row_length i : (i < R)%nat -> length (nth i F []) = W.
Proof. intros H. rewrite F_row, hankel_row, last_row_length by (auto; rewrite temp_length; unfold R, W in *; lia). auto. Qed.
Lemma D_row_length i : (i < R)%nat -> length (nth i D []) = dfe.
Proof. intros H. rewrite D_row, hankel_row, dfe_row_length by (auto; unfold R in *; lia). auto. Qed.
Lemma eq_matrix_row i : (i < R)%nat -> length (nth i eq_matrix []) = (W + dfe)%nat.
Proof.
  intros H. unfold eq_matrix. destruct (Nat.ltb_spec 0 dfe) as [P|P]; [|rewrite F_row_length; lia].
  rewrite (map2_nth _ _ _ _ [] []) by (rewrite ?map_length, ?F_length, ?D_length; auto). rewrite app_length, F_row_length by auto. rewrite (map_nth_lt _ _ _ []) by (rewrite D_length; auto). rewrite map_length, D_row_length; auto.
Qed.
Lemma eq_matrix_wf : matrix (length eq_matrix) (W + dfe) eq_matrix.
Proof. split; auto. apply Forall_forall. intros row H. apply (In_nth _ _ []) in H as (i & Hi & <-). rewrite eq_matrix_length in Hi. now apply eq_matrix_row. Qed.
Lemma eq_matrix_ffe i j : (i < R)%nat -> (j < W)%nat -> (i + j < length s - dfe)%nat -> entry eq_matrix i j = at_ s (dfe + i + j).
Proof.
  intros Hi Hj Hin. assert (E : entry F i j = at_ s (dfe + i + j)).
  { unfold entry. rewrite F_row by auto. fold (entry (hankel temp last_row) i j). rewrite hankel_entry by (rewrite ?temp_length, ?last_row_length; lia). rewrite at_app, temp_length. replace (i + j <? length s - dfe)%nat with true by (symmetry; apply Nat.ltb_lt; lia).
    unfold temp. rewrite at_skipn. f_equal. lia. }
  unfold eq_matrix. destruct (Nat.ltb_spec 0 dfe) as [P|P]; [|exact E]. unfold entry. rewrite (map2_nth _ _ _ _ [] []) by (rewrite ?map_length, ?F_length, ?D_length; auto).
  rewrite at_app, F_row_length by auto. replace (j <? W)%nat with true by (symmetry; apply Nat.ltb_lt; lia). exact E.
Qed.
Lemma eq_matrix_dfe i j : (i < R)%nat -> (j < dfe)%nat -> entry eq_matrix i (W + j) = - at_ r (i + j).
Proof.
  intros Hi Hj. unfold eq_matrix. replace (0 <? dfe)%nat with true by (symmetry; apply Nat.ltb_lt; lia). unfold entry. rewrite (map2_nth _ _ _ _ [] []) by (rewrite ?map_length, ?F_length, ?D_length; auto).
  rewrite at_app, F_row_length by auto. replace (W + j <? W)%nat with false by (symmetry; apply Nat.ltb_ge; lia). replace (W + j - W)%nat with j by lia.
  rewrite (map_nth_lt _ _ _ []) by (rewrite D_length; auto). unfold at_ at 1. rewrite (map_nth_lt _ _ _ 0) by (rewrite D_row_length; auto). f_equal. fold (at_ (nth i D []) j). rewrite D_row by auto. fold (entry (hankel r (firstn dfe (rev r))) i j).
  rewrite hankel_entry by (rewrite ?dfe_row_length; auto; unfold R in *; lia). rewrite at_app. replace (i + j <? length r)%nat with true; auto. symmetry. apply Nat.ltb_lt. unfold R in *. lia.
Qed.
Lemma eq_target_at i : (i < R)%nat -> at_ eq_target i = at_ r (dfe + i).
Proof. intros H. unfold eq_target. rewrite at_firstn, at_skipn by auto. reflexivity. Qed.
(** Rows whose samples all exist compute the equaliser error. *)
Lemma row_error x i : length x = (W + dfe)%nat -> (i < R)%nat -> (i + W <= length s - dfe)%nat ->
  sm (W + dfe) (fun j => entry eq_matrix i j * at_ x j) - at_ eq_target i = eq_error s r (rev (firstn W x)) (rev (skipn W x)) (dfe + i).
Proof.
  intros Lx Hi Hin. unfold eq_error. rewrite !rev_length, firstn_length, skipn_length, Lx. replace (Nat.min W (W + dfe)) with W by lia. replace (W + dfe - W)%nat with dfe by lia.
  rewrite eq_target_at by auto. f_equal. rewrite sm_app.
  rewrite (sm_ext W (fun j => entry eq_matrix i j * at_ x j) (fun j => at_ x j * at_ s (dfe + i + j))) by (intros j Hj; rewrite eq_matrix_ffe by lia; ring).
  rewrite (sm_ext dfe _ (fun j => - (1) * (at_ x (W + j) * at_ r (i + j)))) by (intros j Hj; rewrite eq_matrix_dfe by auto; ring). rewrite sm_scale.
  rewrite (sm_rev W), (sm_rev dfe).
  rewrite (sm_ext W (fun k => at_ x (W - 1 - k) * _) (fun k => at_ (rev (firstn W x)) k * at_ s (dfe + i + W - 1 - k))).
  2:{ intros k Hk. rewrite at_rev, firstn_length by (rewrite firstn_length; lia). rewrite at_firstn by lia. f_equal; f_equal; lia. }
  rewrite (sm_ext dfe (fun k => at_ x _ * _) (fun k => at_ (rev (skipn W x)) k * at_ r (dfe + i - 1 - k))).
  2:{ intros k Hk. rewrite at_rev, skipn_length by (rewrite skipn_length; lia). rewrite at_skipn. f_equal; f_equal; lia. }
  ring.
Qed.
Lemma cost_eq_cost x : (Nat.min post dfe < 2)%nat -> length x = (W + dfe)%nat ->
  cost (W + dfe) eq_matrix eq_target x = eq_cost s r (rev (firstn W x)) (rev (skipn W x)) dfe R.
Proof.
  intros Hm Lx. unfold cost, eq_cost. rewrite eq_target_length. apply sm_ext. intros i Hi. f_equal. apply row_error; auto. unfold R, W in *. lia.
Qed.
(** The model computes this system. *)
Lemma model_matrix :
  (if (0 <? dfe)%nat then hconcat (slice_to (hankel (skipn dfe s) (firstn (post + pre + 1) (rev (skipn dfe s)))) (Z.of_nat (length s) - Z.of_nat (Nat.max post dfe + pre + 1)))
      (map (map Qcopp) (slice_to (hankel r (firstn dfe (rev r))) (Z.of_nat (length s) - Z.of_nat (Nat.max post dfe + pre + 1))))
   else Ok (slice_to (hankel (skipn dfe s) (firstn (post + pre + 1) (rev (skipn dfe s)))) (Z.of_nat (length s) - Z.of_nat (Nat.max post dfe + pre + 1)))) = Ok eq_matrix.
Proof.
  replace (Z.of_nat (length s) - Z.of_nat (Nat.max post dfe + pre + 1))%Z with (Z.of_nat R) by (unfold R; lia). rewrite !slice_to_nat.
  change (firstn R (hankel (skipn dfe s) (firstn (post + pre + 1) (rev (skipn dfe s))))) with F. change (firstn R (hankel r (firstn dfe (rev r)))) with D. unfold eq_matrix. destruct (0 <? dfe)%nat; auto.
  unfold hconcat. rewrite map_length, F_length, D_length, Nat.eqb_refl. reflexivity.
Qed.
Lemma model_target : slice_from (slice_to r (Z.of_nat dfe + (Z.of_nat (length s) - Z.of_nat (Nat.max post dfe + pre + 1)))) (Z.of_nat dfe) = eq_target.
Proof.
  replace (Z.of_nat dfe + (Z.of_nat (length s) - Z.of_nat (Nat.max post dfe + pre + 1)))%Z with (Z.of_nat (dfe + R)) by (unfold R; lia). rewrite slice_to_nat, slice_from_nat. unfold eq_target. rewrite skipn_firstn_comm. f_equal. lia.
Qed.
End Equaliser.
Lemma maxQ_spec l : l <> [] -> exists g, maxQ l = Ok g /\ In g l /\ forall v, In v l -> v <= g.
Proof.
  intros N. destruct (argmaxQ_spec l N) as (k & E & Hk & M). unfold maxQ. rewrite E. cbn [bind]. exists (vec_at l k). split; auto. split; [apply nth_In; auto|].
  intros v Hv. apply (In_nth _ _ 0) in Hv as (i & Hi & <-). unfold vec_at. destruct M as [M _]. auto.
Qed.

Definition found (s r : list Qc) (post pre dfe : nat) : list Qc := min_norm_vec (post + pre + 1 + dfe) (eq_matrix s r post pre dfe) (eq_target s r post pre dfe).
Definition plain (reg : regul) (lambda : Qc) : Prop := reg = RegNone \/ lambda <= 0.
Definition ls_call (lasso : list (list Qc) -> list Qc -> Qc -> list Qc) n A b reg lambda :=
  match reg with RegNone => least_squares lasso n A b RegNone 0 | r => if Qcltb 0 lambda then least_squares lasso n A b r lambda else least_squares lasso n A b RegNone 0 end.
Lemma estim_call lasso s r post pre dfe normalize reg lambda : length r = length s -> (Nat.max post dfe + pre + 1 < length s)%nat -> (post + pre + 1 <= length s - dfe)%nat ->
  let A := eq_matrix s r post pre dfe in let b := eq_target s r post pre dfe in
  equalization_estimation lasso r s post pre dfe normalize reg lambda =
  (ls <- ls_call lasso (post + pre + 1 + dfe) A b reg lambda ;; g <- maxQ (skipn dfe (rev (fst ls))) ;;
   let dd := if (0 <? dfe)%nat then Some (rev (slice_from (fst ls) (-1 * Z.of_nat dfe))) else None in let mse := mse_ratio (map2 Qcminus (matvec A (fst ls)) b) (matvec A (fst ls)) in
   if normalize then match dd with None => Raise TypeError | Some d => Ok (mk_est (div_taps (skipn dfe (rev (fst ls))) g) (div_taps d g) g (snd ls) mse) end
   else Ok (mk_est (Taps (skipn dfe (rev (fst ls)))) (match dd with Some d => Taps d | None => NoTaps end) 1 (snd ls) mse)).
Proof.
  intros Lr Long Wide A b. unfold equalization_estimation. rewrite model_matrix by auto. cbn [bind]. rewrite model_target by auto. fold A b.
  assert (LW : length (firstn (post + pre + 1) (rev (skipn dfe s))) = (post + pre + 1)%nat) by (rewrite firstn_length, rev_length, skipn_length; lia).
  assert (LD : length (firstn dfe (rev r)) = dfe) by (rewrite firstn_length, rev_length; lia). rewrite LW, LD.
  replace (post + pre + 1 + (if (0 <? dfe)%nat then dfe else 0))%nat with (post + pre + 1 + dfe)%nat by (destruct (Nat.ltb_spec 0 dfe); lia). reflexivity.
Qed.
Lemma estim_from lasso s r post pre dfe normalize reg lambda x err : length r = length s -> (Nat.max post dfe + pre + 1 < length s)%nat -> (post + pre + 1 <= length s - dfe)%nat ->
  ls_call lasso (post + pre + 1 + dfe) (eq_matrix s r post pre dfe) (eq_target s r post pre dfe) reg lambda = Ok (x, err) -> length x = (post + pre + 1 + dfe)%nat ->
  let f := rev (firstn (post + pre + 1) x) in let d := rev (skipn (post + pre + 1) x) in
  exists g mse, maxQ f = Ok g /\ mse = mse_ratio (map2 Qcminus (matvec (eq_matrix s r post pre dfe) x) (eq_target s r post pre dfe)) (matvec (eq_matrix s r post pre dfe) x) /\
  equalization_estimation lasso r s post pre dfe normalize reg lambda =
    if normalize then if (0 <? dfe)%nat then Ok (mk_est (div_taps f g) (div_taps d g) g err mse) else Raise TypeError
    else Ok (mk_est (Taps f) (if (0 <? dfe)%nat then Taps d else NoTaps) 1 err mse).
Proof.
  intros Lr Long Wide E Lx f d. rewrite estim_call by auto. cbv zeta. rewrite E. cbn [bind fst snd].
  assert (Ef : skipn dfe (rev x) = f) by (unfold f; rewrite skipn_rev; f_equal; f_equal; lia).
  assert (Ed : (0 <? dfe)%nat = true -> rev (slice_from x (-1 * Z.of_nat dfe)) = d).
  { intros P. apply Nat.ltb_lt in P. unfold d. f_equal. unfold slice_from, slice_bound. replace (-1 * Z.of_nat dfe <? 0)%Z with true by (symmetry; apply Z.ltb_lt; lia). f_equal. lia. }
  rewrite Ef. destruct (maxQ_spec f) as (g & Eg & _). { intros Z. apply (f_equal (@length Qc)) in Z. unfold f in Z. rewrite rev_length, firstn_length in Z. cbn in Z. lia. }
  rewrite Eg. cbn [bind]. exists g. eexists. split; auto. split; [reflexivity|]. destruct (0 <? dfe)%nat; [rewrite Ed by auto|]; destruct normalize; reflexivity.
Qed.
Lemma estim_spec lasso s r post pre dfe normalize reg lambda : length r = length s -> (Nat.max post dfe + pre + 1 < length s)%nat -> (post + pre + 1 <= length s - dfe)%nat -> plain reg lambda ->
  let x := found s r post pre dfe in let f := rev (firstn (post + pre + 1) x) in let d := rev (skipn (post + pre + 1) x) in
  exists g err mse, lstsq (post + pre + 1 + dfe) (eq_matrix s r post pre dfe) (eq_target s r post pre dfe) = Ok (x, err) /\ maxQ f = Ok g /\ (err = [] \/ err = cons (cost (post + pre + 1 + dfe) (eq_matrix s r post pre dfe) (eq_target s r post pre dfe) x) nil) /\
  mse = mse_ratio (map2 Qcminus (matvec (eq_matrix s r post pre dfe) x) (eq_target s r post pre dfe)) (matvec (eq_matrix s r post pre dfe) x) /\
  equalization_estimation lasso r s post pre dfe normalize reg lambda =
    if normalize then if (0 <? dfe)%nat then Ok (mk_est (div_taps f g) (div_taps d g) g err mse) else Raise TypeError
    else Ok (mk_est (Taps f) (if (0 <? dfe)%nat then Taps d else NoTaps) 1 err mse).
Proof.
  intros Lr Long Wide Pl x f d. set (A := eq_matrix s r post pre dfe). set (b := eq_target s r post pre dfe).
  assert (LA : length A = length b) by (unfold A, b; rewrite eq_matrix_length, eq_target_length; auto). set (n := (post + pre + 1 + dfe)%nat). destruct (lstsq_eq n A b LA) as (err & E & Herr). change (min_norm_vec n A b) with x in *.
  assert (C : ls_call lasso n A b reg lambda = Ok (x, err)). { unfold ls_call. destruct Pl as [-> | Pl]; [exact E|]. replace (Qcltb 0 lambda) with false by (symmetry; now apply Qcltb_false). destruct reg; exact E. }
  destruct (estim_from lasso s r post pre dfe normalize reg lambda x err Lr Long Wide C (comb_length _ _ _)) as (g & mse & Eg & Em & Ee). exists g, err, mse. split; [exact E|]. split; [exact Eg|]. split; [|split; auto].
  destruct Herr as [-> | ->]; auto. right. f_equal. apply ssr_cost; auto; [unfold A, n; now apply eq_matrix_wf|apply comb_length].
Qed.
Lemma found_length s r post pre dfe : length (found s r post pre dfe) = (post + pre + 1 + dfe)%nat. Proof. apply comb_length. Qed.
Lemma found_optimal s r post pre dfe f d : length r = length s -> (Nat.max post dfe + pre + 1 < length s)%nat -> (Nat.min post dfe < 2)%nat -> length f = (post + pre + 1)%nat -> length d = dfe ->
  let x := found s r post pre dfe in let R := (length s - (Nat.max post dfe + pre + 1))%nat in
  eq_cost s r (rev (firstn (post + pre + 1) x)) (rev (skipn (post + pre + 1) x)) dfe R <= eq_cost s r f d dfe R.
Proof.
  intros Lr Long Hm Lf Ld x R. assert (Wide : (post + pre + 1 <= length s - dfe)%nat) by lia. set (y := rev f ++ rev d). assert (Ly : length y = (post + pre + 1 + dfe)%nat) by (unfold y; rewrite app_length, !rev_length; lia).
  assert (Ey : eq_cost s r f d dfe R = eq_cost s r (rev (firstn (post + pre + 1) y)) (rev (skipn (post + pre + 1) y)) dfe R).
  { unfold y. rewrite <- Lf, <- (rev_length f). rewrite firstn_app, Nat.sub_diag, firstn_all, firstn_O, app_nil_r. rewrite skipn_app, Nat.sub_diag, skipn_all, skipn_O, app_nil_l. now rewrite !rev_involutive. }
  rewrite Ey. rewrite <- !cost_eq_cost by (auto; apply found_length). assert (MW : matrix (length (eq_matrix s r post pre dfe)) (post + pre + 1 + dfe) (eq_matrix s r post pre dfe)) by (apply eq_matrix_wf; auto).
  apply (min_norm_least _ _ _ MW); auto. rewrite eq_matrix_length, eq_target_length; auto.
Qed.
(** * Ridge regression *)
Lemma gram_length n m a al : length (gram n m a al) = n. Proof. unfold gram. now rewrite map_length, seq_length. Qed.
Lemma gram_entry n a al i j : (i < n)%nat -> (j < n)%nat -> entry (gram n (length a) a al) i j = sm (length a) (fun k => entry a k i * entry a k j) + (if (i =? j)%nat then al else 0).
Proof.
  intros Hi Hj. unfold gram, entry at 1. rewrite nth_map_seq by auto. unfold at_ at 1. rewrite nth_map_seq by auto. cbn [Nat.add]. f_equal. rewrite dot_sm. apply sm_ext. intros k Hk. now rewrite !transpose_at.
Qed.
Lemma ridge_length n a b al : length (ridge_solve n a b al) = n. Proof. unfold ridge_solve. now rewrite project_length, transpose_length. Qed.
Lemma gram_apply n a al x i : (i < n)%nat -> sm n (fun j => entry (gram n (length a) a al) i j * at_ x j) = sm (length a) (fun k => entry a k i * sm n (fun j => entry a k j * at_ x j)) + al * at_ x i.
Proof.
  intros Hi. rewrite (sm_ext n _ (fun j => sm (length a) (fun k => entry a k i * (entry a k j * at_ x j)) + (if (i =? j)%nat then al else 0) * at_ x j)).
  2:{ intros j Hj. rewrite gram_entry by auto. rewrite Qcmult_plus_distr_l. f_equal. rewrite Qcmult_comm, <- sm_scale. apply sm_ext. intros; ring. }
  rewrite sm_add. f_equal.
  - rewrite sm_swap. apply sm_ext. intros k _. now rewrite sm_scale.
  - rewrite (sm_single n _ i) by (auto; intros j _ N; replace (i =? j)%nat with false by (symmetry; apply Nat.eqb_neq; lia); ring). rewrite Nat.eqb_refl. reflexivity.
Qed.
(** (A'A + al I) w = A'b *)
Lemma ridge_normal n a b al : length b = length a -> 0 < al -> forall j, (j < n)%nat ->
  sm (length a) (fun k => entry a k j * (at_ b k - sm n (fun i => entry a k i * at_ (ridge_solve n a b al) i))) = al * at_ (ridge_solve n a b al) j.
Proof.
  intros Lb Hal. set (w := ridge_solve n a b al). set (G := gram n (length a) a al). set (rhs := map (fun c => dot (length a) c b) (transpose n a)).
  assert (LG : length G = n) by apply gram_length.
  assert (Hr : forall j, (j < n)%nat -> at_ rhs j = sm (length a) (fun k => entry a k j * at_ b k)).
  { intros j Hj. unfold rhs, at_ at 1. rewrite (map_nth_lt _ _ _ []) by (rewrite transpose_length; auto). rewrite dot_sm. apply sm_ext. intros k Hk. now rewrite transpose_at. }
  pose proof (project_normal n G rhs) as N. rewrite LG in N. change (project n (transpose n G) rhs) with w in N. unfold normal_eq in N. rewrite LG in N.
  set (res := map (fun i => at_ rhs i - sm n (fun k => entry G i k * at_ w k)) (seq 0 n)).
  assert (Re : forall i, (i < n)%nat -> at_ res i = at_ rhs i - sm n (fun k => entry G i k * at_ w k)) by (intros i Hi; unfold res, at_ at 1; now rewrite nth_map_seq).
  assert (Q : sm n (fun j => at_ res j * sm n (fun i => entry G j i * at_ res i)) = 0).
  { apply sm_0. intros j Hj. rewrite (sm_ext n _ (fun i => (at_ rhs i - sm n (fun k => entry G i k * at_ w k)) * entry G i j)). 2:{ intros i Hi. rewrite Re by auto. unfold G. rewrite !gram_entry by auto. rewrite Nat.eqb_sym. rewrite (sm_ext (length a) (fun k => entry a k j * entry a k i) (fun k => entry a k i * entry a k j)) by (intros; ring). ring. }
    rewrite (N j Hj). ring. }
  assert (Q2 : sm n (fun j => at_ res j * sm n (fun i => entry G j i * at_ res i)) = sm (length a) (fun k => sq (sm n (fun j => entry a k j * at_ res j))) + al * norm2 n res).
  { rewrite (sm_ext n _ (fun j => sm (length a) (fun k => at_ res j * (entry a k j * sm n (fun i => entry a k i * at_ res i))) + al * sq (at_ res j))). 2:{ intros j Hj. unfold G. rewrite gram_apply by auto. rewrite Qcmult_plus_distr_r, <- sm_scale. unfold sq. ring. }
    rewrite sm_add, sm_scale. f_equal. rewrite sm_swap. apply sm_ext. intros k _. unfold sq. rewrite <- sm_scale. apply sm_ext. intros; ring. }
  rewrite Q in Q2. assert (Z : norm2 n res <= 0).
  { pose proof (sm_sq_nonneg (length a) (fun k => sm n (fun j => entry a k j * at_ res j))) as P1. cbv beta in P1. revert Q2 P1. generalize (sm (length a) (fun k => sq (sm n (fun j => entry a k j * at_ res j)))). generalize (norm2 n res). intros q p Q2 P1.
    apply Qcnot_lt_le. intros C. pose proof (Qcmult_lt_compat_r _ _ _ Hal C) as C2. clear - C2 P1 Q2. assert (E : al * q = - p) by (transitivity (p + al * q - p); [ring|rewrite <- Q2; ring]). rewrite Qcmult_0_l, (Qcmult_comm q al), E in C2. qlra. }
  intros j Hj. pose proof (sm_sq_zero n _ Z j Hj) as E. rewrite Re, Hr in E by auto. unfold G in E. rewrite gram_apply in E by auto.
  rewrite (sm_ext (length a) _ (fun k => entry a k j * at_ b k - entry a k j * sm n (fun i => entry a k i * at_ w i))) by (intros; ring). rewrite sm_sub.
  transitivity ((sm (length a) (fun k => entry a k j * at_ b k) - (sm (length a) (fun k => entry a k j * sm n (fun j0 => entry a k j0 * at_ w j0)) + al * at_ w j)) + al * at_ w j); [ring|]. rewrite E. ring.
Qed.
Lemma ridge_pyth n a b al y : length b = length a -> 0 < al -> let w := ridge_solve n a b al in
  ridge_cost n a b al y = ridge_cost n a b al w + (sm (length a) (fun i => sq (sm n (fun j => entry a i j * (at_ y j - at_ w j)))) + al * sm n (fun j => sq (at_ y j - at_ w j))).
Proof.
  intros Lb Hal w. pose proof (ridge_normal n a b al Lb Hal) as N. fold w in N. unfold ridge_cost, cost, norm2. rewrite Lb.
  set (e := fun i => at_ b i - sm n (fun k => entry a i k * at_ w k)). set (h := fun j => at_ y j - at_ w j).
  assert (C : sm (length a) (fun i => e i * sm n (fun j => entry a i j * h j)) = al * sm n (fun j => at_ w j * h j)).
  { rewrite (sm_ext _ _ (fun i => sm n (fun j => h j * (entry a i j * e i)))) by (intros i _; rewrite <- sm_scale; apply sm_ext; intros; ring).
    rewrite sm_swap, <- sm_scale. apply sm_ext. intros j Hj. rewrite sm_scale. unfold e. rewrite (N j Hj). ring. }
  assert (E1 : sm (length a) (fun i => sq (sm n (fun j => entry a i j * at_ y j) - at_ b i)) = sm (length a) (fun i => sq (sm n (fun j => entry a i j * at_ w j) - at_ b i)) + sm (length a) (fun i => sq (sm n (fun j => entry a i j * h j))) + (- (1 + 1)) * sm (length a) (fun i => e i * sm n (fun j => entry a i j * h j))).
  { rewrite <- sm_scale, <- !sm_add. apply sm_ext. intros i _. assert (E : sm n (fun j => entry a i j * at_ y j) = sm n (fun j => entry a i j * at_ w j) + sm n (fun j => entry a i j * h j)) by (rewrite <- sm_add; apply sm_ext; intros; unfold h; ring). rewrite E. unfold sq, e. ring. }
  assert (E2 : sm n (fun j => sq (at_ y j)) = sm n (fun j => sq (at_ w j)) + sm n (fun j => sq (h j)) + (1 + 1) * sm n (fun j => at_ w j * h j)).
  { rewrite <- sm_scale, <- !sm_add. apply sm_ext. intros j _. unfold sq, h. ring. }
  rewrite E1, E2, C. unfold h. ring.
Qed.
Lemma ridge_minimal n a b al y : length b = length a -> 0 < al -> ridge_cost n a b al (ridge_solve n a b al) <= ridge_cost n a b al y.
Proof.
  intros Lb Hal. rewrite (ridge_pyth n a b al y Lb Hal). apply Qc_add_nonneg. set (w := ridge_solve n a b al).
  pose proof (sm_sq_nonneg (length a) (fun i => sm n (fun j => entry a i j * (at_ y j - at_ w j)))) as P1. pose proof (sm_sq_nonneg n (fun j => at_ y j - at_ w j)) as P2. cbv beta in P1, P2.
  revert P1 P2. generalize (sm (length a) (fun i => sq (sm n (fun j => entry a i j * (at_ y j - at_ w j))))), (sm n (fun j => sq (at_ y j - at_ w j))). intros p q P1 P2. assert (P3 : 0 * al <= q * al) by (apply Qcmult_le_compat_r; [auto|now apply Qclt_le_weak]). rewrite Qcmult_0_l, (Qcmult_comm q al) in P3. clear - P1 P3. generalize dependent (al * q). intros z P3. qlra.
Qed.
(** Centring. *)
Lemma sumQ_sm (l : list Qc) : sumQ l = sm (length l) (fun i => at_ l i).
Proof. change (sumQ l = sumQ (map (fun i => at_ l i) (seq 0 (length l)))). f_equal. apply (nth_ext_def 0); [now rewrite map_length, seq_length|]. intros i Hi. now rewrite nth_map_seq. Qed.
Lemma sm_const n c : sm n (fun _ => c) = ofZ (Z.of_nat n) * c.
Proof. induction n as [|n IH]; [change (ofZ (Z.of_nat 0)) with 0; unfold sm; cbn [map seq fold_right]; ring|]. rewrite sm_S, IH, Nat2Z.inj_succ, <- Z.add_1_r, ofZ_add. change (ofZ 1) with 1. ring. Qed.
Lemma ofZ_nat_nz n : (0 < n)%nat -> ofZ (Z.of_nat n) <> 0. Proof. intros H E. change 0 with (ofZ 0) in E. apply ofZ_inj in E. lia. Qed.
Lemma affine_split n a b y c : length b = length a -> (0 < length a)%nat ->
  let k := sm n (fun j => mean_of_col a j * at_ y j) + c - meanQ b in
  affine_cost n a b y c = cost n (centre_rows n a) (centre b) y + ofZ (Z.of_nat (length a)) * sq k.
Proof.
  intros Lb Pos k. unfold affine_cost, cost. assert (Lc : length (centre b) = length b) by (unfold centre; now rewrite map_length). rewrite Lc, Lb.
  set (e := fun i => sm n (fun j => entry (centre_rows n a) i j * at_ y j) - at_ (centre b) i).
  assert (Ee : forall i, (i < length a)%nat -> sm n (fun j => entry a i j * at_ y j) + c - at_ b i = e i + k).
  { intros i Hi. unfold e, k. assert (X : sm n (fun j => entry (centre_rows n a) i j * at_ y j) = sm n (fun j => entry a i j * at_ y j) - sm n (fun j => mean_of_col a j * at_ y j)).
    { rewrite <- sm_sub. apply sm_ext. intros j Hj. unfold entry at 1, centre_rows. rewrite (map_nth_lt _ _ _ []) by auto. unfold at_ at 1. rewrite nth_map_seq by auto. cbn [Nat.add]. unfold entry, at_, vec_at. ring. }
    rewrite X. unfold centre, at_ at 5. rewrite (map_nth_lt _ _ _ 0) by lia. unfold at_. ring. }
  pose proof (ofZ_nat_nz (length a) Pos) as Nz.
  assert (Sb : sm (length a) (fun i => at_ b i) = ofZ (Z.of_nat (length a)) * meanQ b). { unfold meanQ. rewrite Lb, sumQ_sm, Lb. field. auto. }
  assert (Sc : forall j, (j < n)%nat -> sm (length a) (fun i => entry a i j) = ofZ (Z.of_nat (length a)) * mean_of_col a j).
  { intros j Hj. unfold mean_of_col, meanQ. rewrite map_length, sumQ_sm, map_length. rewrite (sm_ext (length a) (fun i => at_ _ i) (fun i => entry a i j)); [field; auto|]. intros i Hi. unfold at_. now rewrite (map_nth_lt _ _ _ []). }
  assert (S0 : sm (length a) e = 0).
  { assert (T : sm (length a) (fun i => e i + k) = ofZ (Z.of_nat (length a)) * k).
    { rewrite (sm_ext _ _ (fun i => sm n (fun j => entry a i j * at_ y j) + c - at_ b i)) by (intros i Hi; symmetry; auto). rewrite (sm_sub (length a) (fun i => sm n (fun j => entry a i j * at_ y j) + c) (fun i => at_ b i)), Sb, (sm_add (length a) (fun i => sm n (fun j => entry a i j * at_ y j)) (fun _ => c)), sm_const, (sm_swap (length a) n (fun i j => entry a i j * at_ y j)).
      rewrite (sm_ext n _ (fun j => ofZ (Z.of_nat (length a)) * (mean_of_col a j * at_ y j))). 2:{ intros j Hj. rewrite (sm_ext (length a) _ (fun i => at_ y j * entry a i j)) by (intros; ring). rewrite sm_scale, Sc by auto. ring. }
      rewrite sm_scale. unfold k. ring. }
    rewrite sm_add, sm_const in T. transitivity ((sm (length a) e + ofZ (Z.of_nat (length a)) * k) - ofZ (Z.of_nat (length a)) * k); [ring|rewrite T; ring]. }
  rewrite (sm_ext _ _ (fun i => sq (e i) + ((1 + 1) * k) * e i + sq k)) by (intros i Hi; rewrite Ee by auto; unfold sq; ring).
  rewrite (sm_add (length a) (fun i => sq (e i) + ((1 + 1) * k) * e i) (fun _ => sq k)), (sm_add (length a) (fun i => sq (e i)) (fun i => ((1 + 1) * k) * e i)), (sm_scale (length a) ((1 + 1) * k) e), sm_const, S0.
  change (sm (length a) (fun i => sq (sm n (fun j => entry (centre_rows n a) i j * at_ y j) - at_ (centre b) i))) with (sm (length a) (fun i => sq (e i))). ring.
Qed.

(** * Rank *)
Lemma rank_le m cols : (rank m cols <= length cols)%nat.
Proof. induction cols as [|a cols IH]; cbn [rank length]; [lia|]. destruct (Qceqb _ _); lia. Qed.
Lemma rank_full m cols : rank m cols = length cols <-> (forall x, length x = length cols -> (forall i, (i < m)%nat -> at_ (comb m cols x) i = 0) -> x = repeat 0 (length cols)).
Proof.
  induction cols as [|a cols IH]. { cbn [rank length repeat]. split; auto. intros _ [|] L _; [auto|discriminate]. }
  cbn [rank length repeat]. set (p := project m cols a). set (ra := axpy m a 1 (comb m cols p)). pose proof (project_orth m cols a) as O. fold p ra in O. pose proof (rank_le m cols) as RL. split.
  - intros E [|x0 xs] Lx Hz; [discriminate|]. injection Lx as Lx. destruct (Qceqb (dot m ra ra) 0) eqn:Er; [lia|]. assert (Nz : dot m ra ra <> 0) by (intros C; apply Qceqb_spec in C; congruence).
    assert (Ec : forall i, (i < m)%nat -> at_ (comb m cols xs) i + x0 * at_ a i = 0). { intros i Hi. rewrite <- (Hz i Hi). cbn [comb tl]. rewrite axpy_at by auto. unfold vec_at. cbn [nth]. ring. }
    assert (D0 : forall y, dot m (comb m cols y) ra = 0). { intros y. rewrite dot_comb. apply sm_0. intros j Hj. rewrite dot_comm, O by auto. ring. }
    assert (Da : dot m a ra = dot m ra ra). { unfold ra at 2. rewrite dot_axpy, D0. ring. }
    assert (Zx : x0 = 0). { assert (T : x0 * dot m ra ra = 0). { rewrite <- Da. transitivity (dot m (comb m cols xs) ra + x0 * dot m a ra); [rewrite D0; ring|]. rewrite !dot_sm, <- sm_scale, <- sm_add. apply sm_0. intros i Hi. transitivity ((at_ (comb m cols xs) i + x0 * at_ a i) * at_ ra i); [ring|rewrite Ec by auto; ring]. } apply Qcmult_integral in T. tauto. }
    subst x0. f_equal. apply IH; [lia|auto|]. intros i Hi. rewrite <- (Ec i Hi). ring.
  - intros H. assert (Er : Qceqb (dot m ra ra) 0 = false).
    { destruct (Qceqb (dot m ra ra) 0) eqn:Er; auto. exfalso. apply Qceqb_spec in Er. assert (X : (1 :: map Qcopp p) = 0 :: repeat 0 (length cols)).
      { apply H. { cbn [length]. unfold p. now rewrite map_length, project_length. }
        intros i Hi. cbn [comb tl]. rewrite axpy_at by auto. unfold vec_at. cbn [nth]. pose proof (dot_self_zero m ra Er i Hi) as Z. unfold ra in Z. rewrite axpy_at, comb_at in Z by auto. rewrite comb_at by auto.
        rewrite (sm_ext _ _ (fun j => - (1) * (at_ p j * at_ (nth j cols []) i))). 2:{ intros j Hj. unfold at_ at 1. rewrite (map_nth_lt _ _ _ 0) by (unfold p; rewrite project_length; auto). unfold at_. ring. }
        rewrite sm_scale. transitivity (at_ a i - 1 * sm (length cols) (fun j => at_ p j * at_ (nth j cols []) i)); [ring|exact Z]. }
      injection X as X _. discriminate X. }
    rewrite Er. cbn [Nat.add]. f_equal. apply IH. intros x Lx Hx. assert (Z : 0 :: x = 0 :: repeat 0 (length cols)); [|now injection Z].
    apply H; [cbn [length]; auto|]. intros i Hi. cbn [comb tl]. rewrite axpy_at, Hx by auto. unfold vec_at. cbn [nth]. ring.
Qed.
Lemma rank_independent n a : rank (length a) (transpose n a) = n <-> independent n a.
Proof.
  pose proof (rank_full (length a) (transpose n a)) as H. rewrite transpose_length in H. rewrite H. unfold independent. split; intros K x Lx Hx; apply K; auto; intros i Hi; specialize (Hx i Hi); [rewrite comb_transpose; auto|rewrite comb_transpose in Hx; auto].
Qed.
Lemma lstsq_residual n a b x e : lstsq n a b = Ok (x, e) -> (independent n a /\ (n < length a)%nat -> e = cons (ssr a x b) nil) /\ (~ (independent n a /\ (n < length a)%nat) -> e = []).
Proof.
  unfold lstsq. destruct (negb _); [discriminate|]. intros E. injection E as <- <-. split; intros H.
  - destruct H as (I & L). apply rank_independent in I. rewrite I, Nat.eqb_refl. apply Nat.ltb_lt in L. now rewrite L.
  - destruct (Nat.eqb_spec (rank (length a) (transpose n a)) n) as [I|]; auto. destruct (Nat.ltb_spec n (length a)); auto. exfalso. apply H. split; auto. now apply rank_independent.
Qed.
(** * Ridge with an intercept *)
Lemma centre_rows_length n a : length (centre_rows n a) = length a. Proof. unfold centre_rows. now rewrite map_length. Qed.
Lemma ridge_affine n a b al : length b = length a -> (0 < length a)%nat -> 0 < al -> let w := ridge_solve n (centre_rows n a) (centre b) al in
  exists c, forall y d, affine_cost n a b w c + al * norm2 n w <= affine_cost n a b y d + al * norm2 n y.
Proof.
  intros Lb Pos Hal w. exists (meanQ b - sm n (fun j => mean_of_col a j * at_ w j)). intros y d. rewrite !affine_split by auto.
  replace (sm n (fun j => mean_of_col a j * at_ w j) + (meanQ b - sm n (fun j => mean_of_col a j * at_ w j)) - meanQ b) with 0 by ring.
  assert (Lc : length (centre b) = length (centre_rows n a)) by (rewrite centre_rows_length; unfold centre; now rewrite map_length).
  pose proof (ridge_minimal n (centre_rows n a) (centre b) al y Lc Hal) as M. fold w in M. unfold ridge_cost in M. set (k := sm n _ + d - meanQ b).
  assert (P : 0 <= ofZ (Z.of_nat (length a)) * sq k). { rewrite <- (Qcmult_0_l (sq k)). apply Qcmult_le_compat_r; [|apply sq_nonneg]. change 0 with (ofZ 0). apply ofZ_le. lia. }
  replace (ofZ (Z.of_nat (length a)) * sq 0) with 0 by (unfold sq; ring). revert M P. generalize (ofZ (Z.of_nat (length a)) * sq k), (cost n (centre_rows n a) (centre b) y), (cost n (centre_rows n a) (centre b) w), (al * norm2 n w), (al * norm2 n y). intros. qlra.
Qed.
Lemma ridge_unique n a b al y : length b = length a -> 0 < al -> length y = n -> (forall z, length z = n -> ridge_cost n a b al y <= ridge_cost n a b al z) -> y = ridge_solve n a b al.
Proof.
  intros Lb Hal Ly H. set (w := ridge_solve n a b al). specialize (H w (ridge_length n a b al)). rewrite (ridge_pyth n a b al y Lb Hal) in H. fold w in H.
  assert (Z : sm n (fun j => sq (at_ y j - at_ w j)) <= 0).
  { pose proof (sm_sq_nonneg (length a) (fun i => sm n (fun j => entry a i j * (at_ y j - at_ w j)))) as P1. cbv beta in P1. revert H P1. generalize (ridge_cost n a b al w), (sm (length a) (fun i => sq (sm n (fun j => entry a i j * (at_ y j - at_ w j))))), (sm n (fun j => sq (at_ y j - at_ w j))). intros c p q H P1.
    apply Qcnot_lt_le. intros C. pose proof (Qcmult_lt_compat_r _ _ _ Hal C) as C2. rewrite Qcmult_0_l, (Qcmult_comm q al) in C2. generalize dependent (al * q). intros z H C2. qlra. }
  apply (nth_ext_def 0); [rewrite Ly; symmetry; apply ridge_length|]. intros j Hj. pose proof (sm_sq_zero n _ Z j ltac:(lia)) as E. cbv beta in E. change (at_ y j = at_ w j). transitivity (at_ y j - at_ w j + at_ w j); [ring|rewrite E; ring].
Qed.

Lemma mse_ratio_spec err out : length err = length out -> (0 < length out)%nat ->
  match mse_ratio err out with Some v => sumQ (map (fun e => e * e) out) <> 0 /\ v = sumQ (map (fun e => e * e) err) / sumQ (map (fun e => e * e) out) | None => sumQ (map (fun e => e * e) out) = 0 end.
Proof.
  intros L P. unfold mse_ratio, power. destruct err as [|e0 err]; [cbn in *; lia|]. destruct out as [|o0 out]; [cbn in *; lia|]. set (E := e0 :: err) in *. set (O := o0 :: out) in *. clearbody E O. pose proof (ofZ_nat_nz _ P) as Nn.
  unfold meanQ. rewrite !map_length, L. destruct (Qceqb _ 0) eqn:Z.
  - apply Qceqb_spec in Z. transitivity (sumQ (map (fun v => v * v) O) / ofZ (Z.of_nat (length O)) * ofZ (Z.of_nat (length O))); [field; auto|rewrite Z; ring].
  - assert (Nz : sumQ (map (fun v => v * v) O) <> 0). { intros C. rewrite C in Z. assert (T : Qceqb (0 / ofZ (Z.of_nat (length O))) 0 = true) by (apply Qceqb_spec; field; auto). congruence. } split; auto. field. auto.
Qed.
Lemma mse_spec s r post pre dfe x : length r = length s -> (Nat.max post dfe + pre + 1 < length s)%nat -> (post + pre + 1 <= length s - dfe)%nat -> (Nat.min post dfe < 2)%nat -> length x = (post + pre + 1 + dfe)%nat ->
  let A := eq_matrix s r post pre dfe in let f := rev (firstn (post + pre + 1) x) in let d := rev (skipn (post + pre + 1) x) in let R := (length s - (Nat.max post dfe + pre + 1))%nat in
  match mse_ratio (map2 Qcminus (matvec A x) (eq_target s r post pre dfe)) (matvec A x) with
  | Some v => eq_output2 s r f d dfe R <> 0 /\ v = eq_cost s r f d dfe R / eq_output2 s r f d dfe R | None => eq_output2 s r f d dfe R = 0 end.
Proof.
  intros Lr Long Wide Hm Lx A f d R. assert (LA : length A = R) by (unfold A; rewrite eq_matrix_length by auto; reflexivity). assert (Lt : length (eq_target s r post pre dfe) = R) by (rewrite eq_target_length by auto; reflexivity).
  assert (MA : matrix (length A) (post + pre + 1 + dfe) A) by (apply eq_matrix_wf; auto). assert (Lm : length (matvec A x) = R) by (unfold matvec; rewrite map_length; lia).
  assert (H : length (map2 Qcminus (matvec A x) (eq_target s r post pre dfe)) = length (matvec A x)) by (rewrite map2_length; lia). apply mse_ratio_spec in H; [|unfold R in *; lia].
  change (sumQ (map (fun e => e * e) (map2 Qcminus (matvec A x) (eq_target s r post pre dfe)))) with (ssr A x (eq_target s r post pre dfe)) in H. rewrite (ssr_cost _ _ _ _ MA) in H by lia. replace (cost (post + pre + 1 + dfe) A (eq_target s r post pre dfe) x) with (eq_cost s r f d dfe R) in H by (symmetry; apply cost_eq_cost; auto).
  assert (Eo : sumQ (map (fun e => e * e) (matvec A x)) = eq_output2 s r f d dfe R); [|now rewrite Eo in H].
  rewrite sumQ_sm, map_length, Lm. apply sm_ext. intros i Hi.
  assert (Em : at_ (map (fun e => e * e) (matvec A x)) i = sq (at_ (matvec A x) i)) by (unfold at_; now rewrite (map_nth_lt _ _ _ 0) by lia). rewrite Em.
  destruct MA as (_ & F). rewrite Forall_forall in F. rewrite (matvec_at A x i (post + pre + 1 + dfe)); [|auto|lia|apply F, nth_In; lia].
  pose proof (row_error s r post pre dfe Lr Long Wide x i Lx) as E. rewrite eq_target_at in E by auto. fold f d A in E. rewrite <- E by (unfold R in *; lia). unfold sq. ring.
Qed.
Lemma quarter_nonneg z : 0 <= z -> 0 <= z / (ofZ 2 * ofZ 2).
Proof. intros H. unfold Qcdiv. pose proof (Qcmult_le_compat_r 0 z (/ (ofZ 2 * ofZ 2)) H ltac:(discriminate)) as K. now rewrite Qcmult_0_l in K. Qed.
Lemma eq_cost_zero s r f d first count : eq_cost s r f d first count <= 0 -> forall n, (first <= n < first + count)%nat -> eq_error s r f d n = 0.
Proof. intros H n Hn. pose proof (sm_sq_zero count _ H (n - first) ltac:(lia)) as E. cbv beta in E. now replace (first + (n - first))%nat with n in E by lia. Qed.
Lemma eq_cost_exact s r f d first count : (forall n, (first <= n < first + count)%nat -> eq_error s r f d n = 0) -> eq_cost s r f d first count = 0.
Proof. intros H. apply sm_0. intros k Hk. rewrite H by lia. unfold sq. ring. Qed.
Lemma Qcinv_nonneg g : 0 < g -> 0 <= / g.
Proof. intros H. apply Qcnot_lt_le. intros C. assert (Nz : g <> 0) by (intros ->; discriminate). pose proof (Qcmult_lt_compat_r _ _ _ H C) as K. rewrite Qcmult_0_l, Qcmult_comm, Qcmult_inv_r in K by auto. discriminate K. Qed.

Lemma cost_eq_cost_offset s r post pre dfe x c : length r = length s -> (Nat.max post dfe + pre + 1 < length s)%nat -> (Nat.min post dfe < 2)%nat -> length x = (post + pre + 1 + dfe)%nat ->
  affine_cost (post + pre + 1 + dfe) (eq_matrix s r post pre dfe) (eq_target s r post pre dfe) x c =
  sm (length s - (Nat.max post dfe + pre + 1)) (fun i => sq (eq_error s r (rev (firstn (post + pre + 1) x)) (rev (skipn (post + pre + 1) x)) (dfe + i) + c)).
Proof.
  intros Lr Long Hm Lx. assert (Wide : (post + pre + 1 <= length s - dfe)%nat) by lia. unfold affine_cost. rewrite eq_target_length by auto. apply sm_ext. intros i Hi. rewrite <- (row_error s r post pre dfe Lr Long Wide x i Lx) by lia. f_equal. ring.
Qed.
Lemma norm2_split n (x : list Qc) k : length x = n -> (k <= n)%nat -> norm2 n x = norm2 k (rev (firstn k x)) + norm2 (n - k) (rev (skipn k x)).
Proof.
  intros L Hk. unfold norm2. replace n with (k + (n - k))%nat at 1 by lia. rewrite sm_app. f_equal.
  - rewrite sm_rev. apply sm_ext. intros i Hi. rewrite at_rev by (rewrite firstn_length; lia). rewrite firstn_length, at_firstn by lia. do 2 f_equal. lia.
  - rewrite sm_rev. apply sm_ext. intros i Hi. rewrite at_rev by (rewrite skipn_length; lia). rewrite skipn_length, at_skipn. do 2 f_equal. lia.
Qed.
