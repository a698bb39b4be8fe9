(** Least squares over the reals and the system of equalization_estimation, for C87. *)
From Verif Require Import Py PyQ B_list M_aux M_estim M_estimfs S_estimfs S_rxsearch P_linalgR P_estimfs P_estimsc.
From Coq Require Import Reals Lra Lia.
Import List ListNotations.
Open Scope R_scope.

Lemma smR_rev n f : smR n f = smR n (fun k => f (n - 1 - k)%nat).
Proof.
  revert f. induction n as [|n IH]; intros f; auto. rewrite smR_S, smR_first. rewrite (IH f). replace (S n - 1 - 0)%nat with n by lia. rewrite Rplus_comm. f_equal. apply smR_ext. intros k Hk. f_equal. lia.
Qed.
Lemma smR_split a b f : smR (a + b) f = smR a f + smR b (fun j => f (a + j)%nat).
Proof.
  induction b as [|b IH]; [rewrite Nat.add_0_r; cbn [seq map sumR fold_right]; unfold sumR; cbn; lra|]. rewrite Nat.add_succ_r, !smR_S, IH. lra.
Qed.
Lemma atR_rev u i : (i < length u)%nat -> atR (rev u) i = atR u (length u - 1 - i).
Proof. intros H. unfold atR. rewrite rev_nth by auto. f_equal. lia. Qed.
Lemma atR_firstn u k i : (i < k)%nat -> atR (firstn k u) i = atR u i. Proof. intros H. unfold atR. now apply nth_firstn. Qed.
Lemma atR_skipn u k i : atR (skipn k u) i = atR u (k + i). Proof. unfold atR. apply nth_skipn. Qed.
Lemma map2_sub_at u v i : length u = length v -> (i < length u)%nat -> atR (map2 Rminus u v) i = atR u i - atR v i.
Proof. intros L H. unfold atR. apply (map2_nth Rminus); lia. Qed.
Lemma map2_len {A B C} (f : A -> B -> C) u v : length u = length v -> length (map2 f u v) = length u.
Proof. intros H. rewrite map2_length. lia. Qed.
Lemma sumR_smR l : sumR l = smR (length l) (atR l).
Proof. f_equal. apply (nth_ext_def 0); [now rewrite map_length, seq_length|]. intros i Hi. now rewrite nth_map_seq. Qed.
Lemma sum_sq l : sumR (map (fun e => e * e) l) = smR (length l) (fun i => atR l i * atR l i).
Proof. rewrite sumR_smR, map_length. apply smR_ext. intros i Hi. unfold atR. now rewrite (map_nth_lt _ l i 0) by auto. Qed.
Lemma atR_map f l i : (i < length l)%nat -> atR (map f l) i = f (atR l i). Proof. intros H. unfold atR. now rewrite (map_nth_lt f l i 0) by auto. Qed.
Lemma atR_mapseq f n i : (i < n)%nat -> atR (map f (seq 0 n)) i = f i. Proof. intros H. unfold atR. now rewrite nth_map_seq. Qed.
(** * Least squares *)
Section LS.
Context (n : nat) (a : list (list R)) (b : list R) (W : width n a) (L : length a = length b).
Definition lsR := combR n a (projectR n a (projectR (length a) (transposeR n a) b)).
Lemma lsR_length : length lsR = n. Proof. apply combR_length. Qed.
Lemma lstsqR_eq : exists e, lstsqR n a b = Ok (lsR, e).
Proof. unfold lstsqR. rewrite L, Nat.eqb_refl. cbn [negb]. cbv zeta. rewrite <- L. eexists. reflexivity. Qed.
Definition outR (x : list R) (i : nat) : R := smR n (fun j => atR (nth i a []) j * atR x j).
Definition costR (x : list R) : R := smR (length a) (fun i => (outR x i - atR b i) * (outR x i - atR b i)).
Lemma orthR y : length y = n -> smR (length a) (fun i => (outR lsR i - atR b i) * outR y i) = 0.
Proof.
  intros Ly. set (x0 := projectR (length a) (transposeR n a) b). assert (L0 : length x0 = n) by (unfold x0; rewrite projectR_length; apply transposeR_length).
  assert (E : forall i, (i < length a)%nat -> outR lsR i = outR x0 i). { intros i Hi. unfold outR. rewrite <- !(matvecR_at n) by (auto; apply combR_length). unfold lsR. fold x0. now rewrite min_norm_outR. }
  rewrite (smR_ext _ _ (fun i => smR n (fun j => atR y j * ((outR x0 i - atR b i) * atR (nth i a []) j)))).
  2:{ intros i Hi. rewrite E by auto. unfold outR at 2. rewrite <- smR_scale. apply smR_ext. intros; ring. }
  rewrite smR_swap. apply smR_0. intros j Hj. rewrite smR_scale.
  pose proof (projectR_orth (length a) (transposeR n a) b j ltac:(now rewrite transposeR_length)) as O. fold x0 in O. rewrite dtR_axpy in O. unfold dot_toR in O.
  rewrite (smR_ext _ (fun i => (outR x0 i - atR b i) * atR (nth i a []) j) (fun i => atR (combR (length a) (transposeR n a) x0) i * atR (nth j (transposeR n a) []) i - atR b i * atR (nth j (transposeR n a) []) i)).
  2:{ intros i Hi. rewrite transposeR_at by auto. rewrite <- (matvecR_comb n) by auto. rewrite (matvecR_at n) by auto. unfold outR. ring. }
  rewrite smR_sub. nra.
Qed.
Lemma outR_sub x y i : outR x i - outR y i = outR (axpyR n x 1 y) i.
Proof. unfold outR. rewrite <- smR_sub. apply smR_ext. intros j Hj. rewrite axpyR_at by auto. ring. Qed.
Lemma costR_pyth y : length y = n -> costR y = costR lsR + smR (length a) (fun i => (outR y i - outR lsR i) * (outR y i - outR lsR i)).
Proof.
  intros Ly. pose proof (orthR (axpyR n y 1 lsR) (axpyR_length _ _ _ _)) as O. unfold costR.
  rewrite (smR_ext _ (fun i => (outR y i - atR b i) * (outR y i - atR b i)) (fun i => ((outR lsR i - atR b i) * (outR lsR i - atR b i) + (outR y i - outR lsR i) * (outR y i - outR lsR i)) + 2 * ((outR lsR i - atR b i) * outR (axpyR n y 1 lsR) i))).
  2:{ intros i _. rewrite <- (outR_sub y lsR i). ring. }
  rewrite !smR_add, smR_scale, O. lra.
Qed.
Lemma lsR_least y : length y = n -> costR lsR <= costR y.
Proof. intros Ly. rewrite (costR_pyth y Ly). pose proof (smR_sq_nonneg (length a) (fun i => outR y i - outR lsR i)). lra. Qed.
Lemma lsR_same y : length y = n -> costR y <= costR lsR -> forall i, (i < length a)%nat -> outR y i = outR lsR i.
Proof.
  intros Ly H i Hi. rewrite (costR_pyth y Ly) in H. pose proof (smR_sq_nonneg (length a) (fun i => outR y i - outR lsR i)) as N.
  pose proof (smR_sq_zero (length a) (fun i => outR y i - outR lsR i) ltac:(lra) i Hi). cbv beta in *. lra.
Qed.
End LS.
(** * The system of equalization_estimation *)
Section Equaliser.
Context (s r : list R) (post pre dfe : nat).
Let w := (post + pre + 1)%nat.
Let rows := (length s - (Nat.max post dfe + pre + 1))%nat.
Context (Lr : length r = length s) (Long : (Nat.max post dfe + pre + 1 < length s)%nat) (Few : (Nat.min post dfe < 2)%nat).
Let temp := skipn dfe s.
Let last_row := firstn w (rev temp).
Let F := firstn rows (hankelR temp last_row).
Let D := map (map Ropp) (firstn rows (hankelR r (firstn dfe (rev r)))).
Definition sysR := if (0 <? dfe)%nat then map2 (@app R) F D else F.
Definition tgtR := firstn rows (skipn dfe r).
Lemma temp_len : length temp = (length s - dfe)%nat. Proof. apply skipn_length. Qed.
Lemma last_row_len : length last_row = w. Proof. unfold last_row. rewrite firstn_length, rev_length, temp_len. unfold w. lia. Qed.
Lemma F_len : length F = rows. Proof. unfold F. rewrite firstn_length, hankelR_length, temp_len. unfold rows, w. lia. Qed.
Lemma D_len : length D = rows. Proof. unfold D. rewrite map_length, firstn_length, hankelR_length. unfold rows. lia. Qed.
Lemma dfe_row_len : length (firstn dfe (rev r)) = dfe. Proof. rewrite firstn_length, rev_length. lia. Qed.
Lemma F_wid : width w F. Proof. rewrite <- last_row_len. apply width_firstn, hankelR_width. Qed.
Lemma D_wid : width dfe D. Proof. apply width_opp. rewrite <- dfe_row_len at 1. apply width_firstn, hankelR_width. Qed.
Lemma sys_len : length sysR = rows. Proof. unfold sysR. destruct (0 <? dfe)%nat; [rewrite map2_app_length|]; rewrite ?F_len, ?D_len; auto. Qed.
Lemma tgt_len : length tgtR = rows. Proof. unfold tgtR. rewrite firstn_length, skipn_length. unfold rows. lia. Qed.
Lemma sys_wid : width (w + dfe) sysR.
Proof. unfold sysR. destruct (Nat.ltb_spec 0 dfe) as [P|P]; [apply width_app; [apply F_wid|apply D_wid]|]. replace (w + dfe)%nat with w by lia. apply F_wid. Qed.
Lemma hankelR_at c u i j : (i < length c)%nat -> (j < length u)%nat -> atR (nth i (hankelR c u) []) j = atR (c ++ tl u) (i + j).
Proof. intros Hi Hj. unfold hankelR. rewrite nth_map_seq by auto. cbn [Nat.add]. now rewrite atR_mapseq by auto. Qed.
Lemma sys_ffe i j : (i < rows)%nat -> (j < w)%nat -> atR (nth i sysR []) j = atR s (dfe + i + j).
Proof.
  intros Hi Hj. assert (E : atR (nth i F []) j = atR s (dfe + i + j)).
  { unfold F. rewrite nth_firstn by auto. rewrite hankelR_at by (rewrite ?temp_len, ?last_row_len; unfold rows, w in *; lia). rewrite atR_app, temp_len. replace (i + j <? length s - dfe)%nat with true by (symmetry; apply Nat.ltb_lt; unfold rows, w in *; lia).
    unfold temp. rewrite atR_skipn. f_equal. lia. }
  unfold sysR. destruct (0 <? dfe)%nat; auto. rewrite map2_app_nth by (rewrite ?F_len, ?D_len; auto). rewrite atR_app, (nth_width w F) by (rewrite ?F_len; auto using F_wid). now rewrite (proj2 (Nat.ltb_lt j w) Hj).
Qed.
Lemma sys_dfe i j : (i < rows)%nat -> (j < dfe)%nat -> atR (nth i sysR []) (w + j) = - atR r (i + j).
Proof.
  intros Hi Hj. unfold sysR. rewrite (proj2 (Nat.ltb_lt 0 dfe)) by lia. rewrite map2_app_nth by (rewrite ?F_len, ?D_len; auto). rewrite atR_app, (nth_width w F) by (rewrite ?F_len; auto using F_wid).
  rewrite (proj2 (Nat.ltb_ge (w + j) w)) by lia. replace (w + j - w)%nat with j by lia. unfold D. rewrite (map_nth_lt _ _ _ []) by (rewrite firstn_length, hankelR_length; unfold rows in *; lia). rewrite nth_firstn by auto.
  rewrite atR_map by (unfold hankelR; rewrite nth_map_seq by (unfold rows in *; lia); rewrite map_length, seq_length, dfe_row_len; auto). f_equal.
  rewrite hankelR_at by (rewrite ?dfe_row_len; unfold rows in *; lia). rewrite atR_app. replace (i + j <? length r)%nat with true by (symmetry; apply Nat.ltb_lt; unfold rows in *; lia). reflexivity.
Qed.
Lemma tgt_at i : (i < rows)%nat -> atR tgtR i = atR r (dfe + i).
Proof. intros H. unfold tgtR. now rewrite atR_firstn, atR_skipn. Qed.
(** The rows compute the output of the equaliser. *)
Lemma row_out x i : length x = (w + dfe)%nat -> (i < rows)%nat -> outR (w + dfe) sysR x i = equalised (atR s) (atR r) (rev (firstn w x)) (rev (skipn w x)) (dfe + i).
Proof.
  intros Lx Hi. unfold outR, equalised. rewrite !rev_length, firstn_length, skipn_length, Lx. replace (Nat.min w (w + dfe)) with w by lia. replace (w + dfe - w)%nat with dfe by lia. rewrite smR_split.
  rewrite (smR_ext w _ (fun j => atR x j * atR s (dfe + i + j))) by (intros j Hj; rewrite sys_ffe by auto; ring).
  rewrite (smR_ext dfe _ (fun j => -1 * (atR x (w + j) * atR r (i + j)))) by (intros j Hj; rewrite sys_dfe by auto; ring). rewrite smR_scale, (smR_rev w), (smR_rev dfe).
  change (total w ?f) with (smR w f). change (total dfe ?f) with (smR dfe f). change sample with atR.
  rewrite (smR_ext w (fun k => atR (rev (firstn w x)) k * _) (fun k => atR x (w - 1 - k) * atR s (dfe + i + (w - 1 - k)))).
  2:{ intros k Hk. rewrite atR_rev, firstn_length by (rewrite firstn_length; lia). rewrite atR_firstn by lia. f_equal; f_equal; lia. }
  rewrite (smR_ext dfe (fun k => atR (rev (skipn w x)) k * _) (fun k => atR x (w + (dfe - 1 - k)) * atR r (i + (dfe - 1 - k)))).
  2:{ intros k Hk. rewrite atR_rev, skipn_length by (rewrite skipn_length; lia). rewrite atR_skipn. f_equal; f_equal; lia. }
  ring.
Qed.
Lemma cost_sys x : length x = (w + dfe)%nat -> costR (w + dfe) sysR tgtR x = squared_error (atR s) (atR r) (rev (firstn w x)) (rev (skipn w x)) dfe rows.
Proof. intros Lx. unfold costR, squared_error. rewrite sys_len. apply smR_ext. intros i Hi. now rewrite row_out, tgt_at. Qed.
(** The model solves this system. *)
Definition solR := lsR (w + dfe) sysR tgtR.
Definition fR := rev (firstn w solR).
Definition dR := rev (skipn w solR).
Definition ratioR (f d : list R) : option R := if Req_EM_T (output_power (atR s) (atR r) f d dfe rows) 0 then None else Some (squared_error (atR s) (atR r) f d dfe rows / output_power (atR s) (atR r) f d dfe rows).
Lemma solR_len : length solR = (w + dfe)%nat. Proof. apply lsR_length. Qed.
Lemma fR_len : length fR = w. Proof. unfold fR. rewrite rev_length, firstn_length, solR_len. lia. Qed.
Lemma dR_len : length dR = dfe. Proof. unfold dR. rewrite rev_length, skipn_length, solR_len. lia. Qed.
Lemma estimR_spec lasso : exists e, equalization_estimation_R lasso r s post pre dfe false RegNone 0 = Ok (mk_estR (TapsR fR) (if (0 <? dfe)%nat then TapsR dR else NoTapsR) 1 e (ratioR fR dR)).
Proof.
  unfold equalization_estimation_R. cbv zeta. replace (Z.of_nat (length s) - Z.of_nat (Nat.max post dfe + pre + 1))%Z with (Z.of_nat rows) by (unfold rows; lia). rewrite !slice_to_nat. fold w temp last_row F D.
  replace (Z.of_nat dfe + Z.of_nat rows)%Z with (Z.of_nat (dfe + rows)) by lia. rewrite slice_to_nat, slice_from_nat.
  replace (skipn dfe (firstn (dfe + rows) r)) with tgtR by (unfold tgtR; rewrite skipn_firstn_comm; f_equal; lia).
  assert (E : (if (0 <? dfe)%nat then hconcatR F D else Ok F) = Ok sysR). { unfold sysR, hconcatR. rewrite F_len, D_len, Nat.eqb_refl. now destruct (0 <? dfe)%nat. }
  rewrite E. cbn [bind]. replace (length last_row + (if (0 <? dfe)%nat then length (firstn dfe (rev r)) else 0))%nat with (w + dfe)%nat by (rewrite last_row_len, dfe_row_len; destruct (Nat.ltb_spec 0 dfe); lia).
  cbn [least_squaresR]. destruct (lstsqR_eq (w + dfe) sysR tgtR) as (e & Ee); [now rewrite sys_len, tgt_len|]. rewrite Ee. cbn [bind fst snd]. fold solR.
  assert (Ef : skipn dfe (rev solR) = fR). { unfold fR. rewrite <- (firstn_skipn w solR) at 1. rewrite rev_app_distr. rewrite skipn_app, rev_length, skipn_length, solR_len. replace (w + dfe - w)%nat with dfe by lia. rewrite Nat.sub_diag. cbn [skipn].
    rewrite skipn_all2 by (rewrite rev_length, skipn_length, solR_len; lia). reflexivity. }
  rewrite Ef. destruct (maxR fR) as [g|] eqn:Eg. 2:{ exfalso. pose proof fR_len as Lf. unfold maxR in Eg. destruct fR; [cbn in Lf; unfold w in Lf; lia|discriminate]. }
  cbn [bind]. exists e. f_equal. f_equal.
  - destruct (Nat.ltb_spec 0 dfe) as [P|P]; auto. f_equal. unfold dR. f_equal. unfold slice_from. rewrite solR_len. unfold slice_bound. f_equal. replace (-1 * Z.of_nat dfe <? 0)%Z with true by (symmetry; apply Z.ltb_lt; lia). lia.
  - assert (Mo : forall i, (i < rows)%nat -> atR (matvecR sysR solR) i = equalised (atR s) (atR r) fR dR (dfe + i)).
    { intros i Hi. rewrite (matvecR_at (w + dfe)) by (rewrite ?sys_len; auto using sys_wid, solR_len). apply row_out; auto using solR_len. }
    assert (Lm : length (matvecR sysR solR) = rows) by (rewrite matvecR_length; apply sys_len). assert (Rp : (0 < rows)%nat) by (unfold rows; lia).
    assert (Pw : forall l, length l = rows -> powerR l = Some (smR rows (fun i => atR l i * atR l i) / IZR (Z.of_nat rows))).
    { intros l Ll. unfold powerR. destruct l as [|v l]; [cbn in Ll; lia|]. f_equal. unfold meanR. now rewrite map_length, sum_sq, Ll. }
    assert (Nr : IZR (Z.of_nat rows) <> 0) by (apply not_0_IZR; lia).
    unfold mse_ratioR. rewrite !Pw by (rewrite ?map2_len; rewrite ?tgt_len; auto). unfold ratioR.
    assert (E1 : smR rows (fun i => atR (matvecR sysR solR) i * atR (matvecR sysR solR) i) = output_power (atR s) (atR r) fR dR dfe rows) by (apply smR_ext; intros i Hi; now rewrite Mo).
    assert (E2 : smR rows (fun i => atR (map2 Rminus (matvecR sysR solR) tgtR) i * atR (map2 Rminus (matvecR sysR solR) tgtR) i) = squared_error (atR s) (atR r) fR dR dfe rows).
    { apply smR_ext. intros i Hi. rewrite map2_sub_at by (rewrite ?Lm, ?tgt_len; auto). now rewrite Mo, tgt_at. }
    rewrite E1, E2. set (p := output_power _ _ _ _ _ _). set (q := squared_error _ _ _ _ _ _). destruct (Req_EM_T (p / _) 0) as [Z|Z], (Req_EM_T p 0) as [Z'|Z']; auto.
    + exfalso. apply Z'. apply (Rmult_eq_reg_r (/ IZR (Z.of_nat rows))); [unfold Rdiv in Z; lra|now apply Rinv_neq_0_compat].
    + exfalso. apply Z. rewrite Z'. unfold Rdiv. ring.
    + f_equal. field. auto.
Qed.
Lemma fR_best : best_taps (atR s) (atR r) w dfe dfe rows fR dR.
Proof.
  split; [apply fR_len|]. split; [apply dR_len|]. intros f' d' Lf Ld. unfold fR, dR. rewrite <- cost_sys by apply solR_len.
  assert (Ly : length (rev f' ++ rev d') = (w + dfe)%nat) by (rewrite app_length, !rev_length; lia).
  pose proof (lsR_least (w + dfe) sysR tgtR sys_wid _ Ly) as H. rewrite (cost_sys (rev f' ++ rev d')) in H by auto.
  rewrite firstn_app, skipn_app, rev_length, Lf, Nat.sub_diag in H. rewrite firstn_all2 in H by (rewrite rev_length; lia). rewrite (skipn_all2 (rev f')) in H by (rewrite rev_length; lia). cbn [firstn skipn app] in H. rewrite app_nil_r, !rev_involutive in H. exact H.
Qed.
(** All best taps have the same output. *)
Lemma best_same f' d' : best_taps (atR s) (atR r) w dfe dfe rows f' d' -> forall i, (i < rows)%nat -> equalised (atR s) (atR r) f' d' (dfe + i) = equalised (atR s) (atR r) fR dR (dfe + i).
Proof.
  intros (Lf & Ld & B) i Hi. assert (Ly : length (rev f' ++ rev d') = (w + dfe)%nat) by (rewrite app_length, !rev_length; lia).
  assert (S1 : rev (firstn w (rev f' ++ rev d')) = f'). { rewrite firstn_app, rev_length, Lf, Nat.sub_diag. rewrite firstn_all2 by (rewrite rev_length; lia). cbn [firstn]. now rewrite app_nil_r, rev_involutive. }
  assert (S2 : rev (skipn w (rev f' ++ rev d')) = d'). { rewrite skipn_app, rev_length, Lf, Nat.sub_diag. rewrite skipn_all2 by (rewrite rev_length; lia). cbn [skipn app]. now rewrite rev_involutive. }
  pose proof (lsR_same (w + dfe) sysR tgtR sys_wid (rev f' ++ rev d') Ly) as H. rewrite (cost_sys (rev f' ++ rev d')) in H by auto. fold solR in H. rewrite (cost_sys solR) in H by apply solR_len. rewrite S1, S2 in H.
  specialize (H (B fR dR fR_len dR_len) i). rewrite sys_len in H. specialize (H Hi). rewrite !row_out in H by (auto using solR_len). rewrite S1, S2 in H. exact H.
Qed.
Lemma best_ratio f' d' : best_taps (atR s) (atR r) w dfe dfe rows f' d' -> ratioR f' d' = ratioR fR dR.
Proof.
  intros B. assert (E1 : output_power (atR s) (atR r) f' d' dfe rows = output_power (atR s) (atR r) fR dR dfe rows) by (apply smR_ext; intros i Hi; now rewrite (best_same f' d' B)).
  assert (E2 : squared_error (atR s) (atR r) f' d' dfe rows = squared_error (atR s) (atR r) fR dR dfe rows) by (apply smR_ext; intros i Hi; now rewrite (best_same f' d' B)). unfold ratioR. now rewrite E1, E2.
Qed.
End Equaliser.
