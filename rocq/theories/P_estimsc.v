(** Proofs for C86: references multiplied by a positive factor. *)
From Verif Require Import Py B_list M_aux M_estim M_estimfs S_estimfs P_linalgR P_estimfs.
From Coq Require Import Reals Lra Lia.
Import List.
Open Scope R_scope.

Lemma on_ok_id {A} (f : A -> A) r : (forall x, r = Ok x -> f x = x) -> on_ok f r = r. Proof. destruct r; cbn; auto. intros H. now rewrite H. Qed.
Lemma sc_app k u v : sc k (u ++ v) = sc k u ++ sc k v. Proof. apply map_app. Qed.
Lemma hankelR_sc k c r : hankelR (sc k c) (sc k r) = map (sc k) (hankelR c r).
Proof.
  unfold hankelR. rewrite !sc_length, map_map. apply map_ext. intros i. unfold sc at 3. rewrite map_map. apply map_ext. intros j. assert (E : tl (sc k r) = sc k (tl r)) by now destruct r. rewrite E, <- sc_app. apply sc_at.
Qed.
Lemma argmaxR_from_sc k l : 0 < k -> forall best bi i, argmaxR_from (k * best) bi i (sc k l) = argmaxR_from best bi i l.
Proof.
  intros K. induction l as [|x l IH]; intros best bi i; cbn [sc map argmaxR_from]; auto. fold (sc k l). destruct (Rlt_dec (k * best) (k * x)) as [L|N], (Rlt_dec best x) as [L'|N']; auto; exfalso; nra.
Qed.
Lemma argmaxR_sc k l : 0 < k -> argmaxR (sc k l) = argmaxR l.
Proof. intros K. destruct l as [|x l]; auto. cbn [sc map argmaxR]. fold (sc k l). now rewrite argmaxR_from_sc. Qed.
Lemma maxR_sc k l : 0 < k -> maxR (sc k l) = on_ok (fun g => k * g) (maxR l).
Proof. intros K. unfold maxR. rewrite argmaxR_sc by auto. destruct (argmaxR l); cbn; auto. now rewrite sc_at. Qed.
Lemma dotR_sc_l k u v : dotR (sc k u) v = k * dotR u v.
Proof. unfold dotR. revert v. induction u as [|a u IH]; intros [|b v]; cbn; try ring. unfold sc in IH. unfold sumR in *. rewrite IH. ring. Qed.
Lemma dotR_sc_r k u v : dotR u (sc k v) = k * dotR u v.
Proof. unfold dotR. revert v. induction u as [|a u IH]; intros [|b v]; cbn; try ring. unfold sc in IH. unfold sumR in *. rewrite IH. ring. Qed.
Lemma lock_sc k p s : 0 < k -> lock_pattern_to_signal_R (sc k p) s = on_ok (fun r => (sc k (fst r), sc k (snd r))) (lock_pattern_to_signal_R p s).
Proof.
  intros K. unfold lock_pattern_to_signal_R. cbv zeta. rewrite sc_length. assert (T : tile 2 (sc k p) = sc k (tile 2 p)) by apply tile_map. rewrite T. set (sp := firstn _ s).
  assert (E : correlate_validR (sc k (tile 2 p)) sp = sc k (correlate_validR (tile 2 p) sp)).
  { unfold correlate_validR. rewrite sc_length. destruct (_ || _); auto. unfold sc at 2. rewrite map_map. apply map_ext. intros i. unfold sc at 1. rewrite skipn_map', firstn_map. apply dotR_sc_l. }
  rewrite E, argmaxR_sc by auto. destruct (argmaxR _); auto. cbn [bind on_ok fst snd]. do 2 f_equal. unfold sc. now rewrite skipn_map', firstn_map.
Qed.
(** * Least squares *)
Definition width (n : nat) (a : list (list R)) : Prop := Forall (fun row => length row = n) a.
Lemma transposeR_length n a : length (transposeR n a) = n. Proof. unfold transposeR. now rewrite map_length, seq_length. Qed.
Lemma transposeR_at n a i j : (j < n)%nat -> (i < length a)%nat -> atR (nth j (transposeR n a) []) i = atR (nth i a []) j.
Proof. intros Hj Hi. unfold transposeR. rewrite nth_map_seq by auto. cbn [Nat.add]. unfold atR at 1. now rewrite (map_nth_lt _ a i []). Qed.
Lemma matvecR_length a x : length (matvecR a x) = length a. Proof. apply map_length. Qed.
Lemma matvecR_at n a x i : width n a -> length x = n -> (i < length a)%nat -> atR (matvecR a x) i = smR n (fun j => atR (nth i a []) j * atR x j).
Proof.
  intros W L Hi. unfold matvecR, atR at 1. rewrite (map_nth_lt _ a i []) by auto. apply dotR_at; auto. eapply Forall_forall in W; [exact W|]. now apply nth_In.
Qed.
Lemma matvecR_comb n a x : width n a -> length x = n -> matvecR a x = combR (length a) (transposeR n a) x.
Proof.
  intros W L. apply (vecR_ext (length a)); [apply matvecR_length|apply combR_length|]. intros i Hi. rewrite (matvecR_at n), combR_at, transposeR_length by auto. apply smR_ext. intros j Hj. rewrite transposeR_at by auto. ring.
Qed.
(** The projection on the rows does not change the output. *)
Lemma min_norm_outR n a x : width n a -> length x = n -> matvecR a (combR n a (projectR n a x)) = matvecR a x.
Proof.
  intros W L. apply (vecR_ext (length a)); [apply matvecR_length|apply matvecR_length|]. intros i Hi. rewrite !(matvecR_at n) by (auto; apply combR_length).
  pose proof (projectR_orth n a x i Hi) as O. rewrite dtR_axpy in O. unfold dot_toR in O.
  rewrite (smR_ext n _ (fun j => atR (combR n a (projectR n a x)) j * atR (nth i a []) j)) by (intros; ring). rewrite (smR_ext n (fun j => atR (nth i a []) j * atR x j) (fun j => atR x j * atR (nth i a []) j)) by (intros; ring). lra.
Qed.
Lemma full_rankR n a x : width n a -> length x = n -> rankR (length a) (transposeR n a) = n -> combR n a (projectR n a x) = x.
Proof.
  intros W L Rk. set (y := combR n a (projectR n a x)). assert (Ly : length y = n) by apply combR_length.
  assert (Z : axpyR n x 1 y = repeat 0 n).
  { pose proof (rankR_full (length a) (transposeR n a)) as F. rewrite transposeR_length in F. apply F; auto; [apply axpyR_length|]. intros i Hi. rewrite <- matvecR_comb by (auto; apply axpyR_length).
    rewrite (matvecR_at n) by (auto; apply axpyR_length). pose proof (projectR_orth n a x i Hi) as O. fold y in O. unfold dot_toR in O. rewrite <- O. apply smR_ext. intros; ring. }
  symmetry. apply (vecR_ext n); auto. intros i Hi. assert (E : atR (axpyR n x 1 y) i = 0) by (rewrite Z; unfold atR; now rewrite nth_repeat). rewrite axpyR_at in E by auto. lra.
Qed.
Lemma map2_sub_sc k u v : map2 Rminus (sc k u) (sc k v) = sc k (map2 Rminus u v).
Proof. revert v. induction u as [|a u IH]; intros [|b v]; cbn; auto. f_equal; [ring|apply IH]. Qed.
Lemma sq_sc k l : map (fun e => e * e) (sc k l) = sc (k * k) (map (fun e => e * e) l).
Proof. unfold sc. rewrite !map_map. apply map_ext. intros; ring. Qed.
Lemma matvecR_sc a k x : matvecR a (sc k x) = sc k (matvecR a x).
Proof. unfold matvecR, sc. rewrite map_map. apply map_ext. intros r. apply dotR_sc_r. Qed.
(** Right hand side times [k]. *)
Lemma lstsqR_sc n a b k : lstsqR n a (sc k b) = on_ok (fun r => (sc k (fst r), sc (k * k) (snd r))) (lstsqR n a b).
Proof.
  unfold lstsqR. rewrite sc_length. destruct (negb _); auto. cbv zeta. cbn [on_ok fst snd]. rewrite (projectR_sc _ _ k b (sc k b)) by (intros; apply sc_at). rewrite (projectR_sc n a k (projectR (length a) (transposeR n a) b)) by (intros; apply sc_at).
  rewrite combR_sc. f_equal. f_equal. destruct (_ && _); auto. cbn [sc map]. f_equal. unfold ssrR. rewrite matvecR_sc, map2_sub_sc, sq_sc. apply sumR_sc.
Qed.
(** Matrix divided by [/ k]: every column times [k]. *)
Lemma divs_repeat k n x : length x = n -> divs (repeat k n) x = sc (/ k) x.
Proof. revert n. induction x as [|a x IH]; intros [|n] L; try discriminate; auto. injection L as L. unfold divs in *. cbn [repeat map2 sc map]. f_equal; [unfold Rdiv; ring|]. now apply IH. Qed.
Lemma transposeR_map n k a : transposeR n (map (sc k) a) = map (sc k) (transposeR n a).
Proof. unfold transposeR. rewrite map_map. apply map_ext. intros j. rewrite map_map. unfold sc at 2. rewrite map_map. apply map_ext. intros r. apply sc_at. Qed.
Lemma scs_repeat k n (c : list (list R)) : length c = n -> scs (repeat k n) c = map (sc k) c.
Proof. revert n. induction c as [|a c IH]; intros [|n] L; try discriminate; auto. injection L as L. unfold scs in *. cbn [repeat map2 map]. f_equal. now apply IH. Qed.
Lemma repeat_nz k n : k <> 0 -> Forall (fun d => d <> 0) (repeat k n).
Proof. intros N. apply Forall_forall. intros x Hx. apply repeat_spec in Hx. congruence. Qed.
Lemma matvecR_map k a x : matvecR (map (sc k) a) x = sc k (matvecR a x).
Proof. unfold matvecR. unfold sc at 2. rewrite !map_map. apply map_ext. intros r. apply dotR_sc_l. Qed.
Lemma lstsqR_map n a b k : k <> 0 -> lstsqR n (map (sc k) a) b = on_ok (fun r => (sc (/ k) (fst r), snd r)) (lstsqR n a b).
Proof.
  intros K. unfold lstsqR. rewrite map_length. destruct (negb _); auto. cbv zeta. cbn [on_ok fst snd]. rewrite transposeR_map.
  rewrite <- (scs_repeat k n (transposeR n a)) by apply transposeR_length. rewrite projectR_scs, rankR_scs by (rewrite ?repeat_length, ?transposeR_length; auto using repeat_nz).
  rewrite divs_repeat by (rewrite projectR_length; apply transposeR_length). set (x0 := projectR (length a) (transposeR n a) b).
  assert (X : combR n (map (sc k) a) (projectR n (map (sc k) a) (sc (/ k) x0)) = sc (/ k) (combR n a (projectR n a x0))).
  { rewrite <- (scs_repeat k (length a) a) by auto. rewrite projectR_scs by (rewrite ?repeat_length; auto using repeat_nz). rewrite combR_scs by (rewrite ?repeat_length, ?projectR_length; auto using repeat_nz).
    rewrite (projectR_sc n a (/ k) x0) by (intros; apply sc_at). apply combR_sc. }
  rewrite X. f_equal. f_equal. destruct (_ && _); auto. f_equal. unfold ssrR. rewrite matvecR_map, matvecR_sc, sc_sc, Rinv_r, sc_1 by auto. reflexivity.
Qed.
(** * Channel estimation *)
Lemma div_tapsR_sc k l g : k <> 0 -> div_tapsR (sc k l) (k * g) = div_tapsR l g.
Proof.
  intros K. unfold div_tapsR. destruct (Req_EM_T (k * g) 0) as [Z|Z], (Req_EM_T g 0) as [Z'|Z']; auto.
  - apply Rmult_integral in Z. tauto.
  - exfalso. apply Z. rewrite Z'. ring.
  - f_equal. unfold sc. rewrite map_map. apply map_ext. intros x. field. auto.
Qed.
Lemma channel_scaled t s c post pre nrm a b g i :
  channel_estimation_prbs_R t s c true post pre nrm a b g i = on_ok (option_map (fun te => (if nrm then fst te else times_taps (level_rms c) (fst te), snd te))) (channel_estimation_prbs_R t s c false post pre nrm a b g i).
Proof.
  pose proof (level_rms_pos c) as P. set (k := / level_rms c). assert (K : 0 < k) by now apply Rinv_0_lt_compat. assert (Ik : / k = level_rms c) by (unfold k; apply Rinv_inv). assert (N : k <> 0) by lra.
  unfold channel_estimation_prbs_R. cbv zeta. rewrite coded_scaled, bind_on_ok, on_ok_bind. apply bind_ext. intros pc _. fold k. rewrite lock_sc, bind_on_ok, on_ok_bind by auto. apply bind_ext. intros al _. cbn [fst snd].
  destruct (_ || _); auto. rewrite on_ok_bind. apply bind_ext. intros tk _. set (w := (post + pre + 1)%nat). unfold sc. rewrite firstn_map, <- map_app, <- map_rev, firstn_map. fold (sc k (fst al ++ firstn w (fst al))). fold (sc k (firstn w (rev (fst al ++ firstn w (fst al))))).
  rewrite hankelR_sc, firstn_map, sc_length, lstsqR_map, bind_on_ok, on_ok_bind by auto. apply bind_ext. intros [x e] _. cbn [fst snd]. rewrite Ik. set (m := level_rms c) in *. destruct nrm.
  - rewrite maxR_sc by auto. destruct (maxR x); auto. cbn [bind on_ok option_map fst snd]. unfold sc. rewrite <- map_rev. fold (sc m (rev x)). rewrite div_tapsR_sc by lra. reflexivity.
  - cbn [bind on_ok option_map fst snd times_taps]. unfold sc, times. now rewrite <- map_rev.
Qed.
(** * Columns with different factors *)
Lemma nth_scs ds c j : length ds = length c -> (j < length c)%nat -> nth j (scs ds c) [] = sc (nth j ds 0) (nth j c []).
Proof.
  revert c j. induction ds as [|d ds IH]; intros [|a c] j L H; cbn in L, H; try lia. unfold scs. cbn [map2]. destruct j as [|j]; auto. cbn [nth]. apply IH; lia.
Qed.
Lemma width_app w d F D : width w F -> width d D -> width (w + d) (map2 (@app R) F D).
Proof.
  intros WF. revert D. induction WF as [|f F Lf WF IH]; intros [|x D] WD; cbn [map2]; try constructor; inversion WD; subst; [rewrite app_length; congruence|apply IH; auto].
Qed.
Lemma map2_app_length {A} (F D : list (list A)) : length F = length D -> length (map2 (@app A) F D) = length F.
Proof. revert D. induction F as [|f F IH]; intros [|x D] L; cbn in *; auto; try discriminate. Qed.
Lemma map2_app_nth {A} (F D : list (list A)) i : length F = length D -> (i < length F)%nat -> nth i (map2 (@app A) F D) [] = nth i F [] ++ nth i D [].
Proof. revert D i. induction F as [|f F IH]; intros [|x D] i L H; cbn in L, H; try lia. cbn [map2]. destruct i as [|i]; auto. cbn [nth]. apply IH; lia. Qed.
Lemma atR_app u v i : atR (u ++ v) i = if (i <? length u)%nat then atR u i else atR v (i - length u).
Proof. unfold atR. destruct (Nat.ltb_spec i (length u)); [now apply app_nth1|now apply app_nth2]. Qed.
Lemma nth_width n a i : width n a -> (i < length a)%nat -> length (nth i a []) = n.
Proof. intros W H. eapply Forall_forall in W; [exact W|]. now apply nth_In. Qed.
Lemma columns_app w d k F D : width w F -> width d D -> length F = length D ->
  transposeR (w + d) (map2 (@app R) F (map (sc k) D)) = scs (repeat 1 w ++ repeat k d) (transposeR (w + d) (map2 (@app R) F D)).
Proof.
  intros WF WD L. assert (Ls : length (repeat 1 w ++ repeat k d) = (w + d)%nat) by now rewrite app_length, !repeat_length.
  assert (Lk : length F = length (map (sc k) D)) by now rewrite map_length.
  apply (nth_ext _ _ [] []); [rewrite scs_length by (now rewrite transposeR_length); now rewrite !transposeR_length|]. rewrite transposeR_length. intros j Hj.
  rewrite nth_scs by (rewrite ?transposeR_length; auto). unfold transposeR. rewrite !nth_map_seq by auto. cbn [Nat.add]. apply (vecR_ext (length F)); [now rewrite map_length, map2_app_length|now rewrite sc_length, map_length, map2_app_length|].
  intros i Hi. rewrite sc_at. unfold atR at 1 3. rewrite !(map_nth_lt _ _ i []) by (rewrite map2_app_length; auto). rewrite !map2_app_nth by auto. rewrite !atR_app.
  rewrite !(nth_width w F) by auto. destruct (Nat.ltb_spec j w) as [H|H].
  - rewrite app_nth1 by (now rewrite repeat_length). rewrite (nth_indep _ 0 1) by (now rewrite repeat_length). rewrite nth_repeat. ring.
  - rewrite app_nth2 by (now rewrite repeat_length). rewrite repeat_length. rewrite (nth_indep _ 0 k) by (rewrite repeat_length; lia). rewrite nth_repeat. rewrite (map_nth_lt _ D i []) by lia. apply sc_at.
Qed.
Lemma lstsqR_cols n a a' b ds k : width n a -> width n a' -> length a' = length a -> length ds = n -> Forall (fun d => d <> 0) ds -> transposeR n a' = scs ds (transposeR n a) ->
  lstsqR n a' (sc k b) = Raise ValueError /\ lstsqR n a b = Raise ValueError \/
  exists x x' e, lstsqR n a b = Ok (x, e) /\ lstsqR n a' (sc k b) = Ok (x', sc (k * k) e) /\ length x = n /\ length x' = n /\ matvecR a' x' = sc k (matvecR a x) /\ (e <> [] -> (n < length a)%nat /\ x' = sc k (divs ds x)).
Proof.
  intros W W' La Ld Nz T. unfold lstsqR. rewrite La, sc_length, T. destruct (Nat.eqb_spec (length a) (length b)) as [Lb|]; [|left; auto]. right. cbn [negb]. cbv zeta.
  assert (Lt : length ds = length (transposeR n a)) by now rewrite transposeR_length. rewrite projectR_scs, rankR_scs by auto. rewrite (projectR_sc _ _ k b (sc k b)) by (intros; apply sc_at). rewrite divs_sc.
  set (x0 := projectR (length a) (transposeR n a) b). assert (L0 : length x0 = n) by (unfold x0; rewrite projectR_length; apply transposeR_length). assert (L1 : length (sc k (divs ds x0)) = n) by (rewrite sc_length, divs_length; congruence).
  set (x := combR n a (projectR n a x0)). set (x' := combR n a' (projectR n a' (sc k (divs ds x0)))).
  assert (O : matvecR a' x' = sc k (matvecR a x)).
  { unfold x, x'. rewrite !min_norm_outR by auto. rewrite !(matvecR_comb n) by auto. rewrite T, La, combR_sc, combR_scs by (auto; congruence). reflexivity. }
  eexists x, x', _. split; [reflexivity|]. split. { do 2 f_equal. destruct (_ && _); auto. cbn [sc map]. f_equal. unfold ssrR. rewrite O, map2_sub_sc, sq_sc. apply sumR_sc. }
  split; [apply combR_length|]. split; [apply combR_length|]. split; [exact O|]. intros Ne. destruct (Nat.eqb_spec (rankR (length a) (transposeR n a)) n) as [Rk|]; [|now destruct Ne]. destruct (Nat.ltb_spec n (length a)) as [Lt'|]; [|now destruct Ne].
  split; auto. unfold x, x'. rewrite (full_rankR n a x0) by auto. apply full_rankR; auto. rewrite La, T, rankR_scs by auto. exact Rk.
Qed.
Lemma divs_two w d k x : k <> 0 -> length x = (w + d)%nat -> sc k (divs (repeat 1 w ++ repeat k d) x) = sc k (firstn w x) ++ skipn w x.
Proof.
  intros K L. rewrite <- (firstn_skipn w x) at 1. assert (Lf : length (firstn w x) = w) by (rewrite firstn_length; lia). assert (Lk : length (skipn w x) = d) by (rewrite skipn_length; lia).
  assert (E : divs (repeat 1 w ++ repeat k d) (firstn w x ++ skipn w x) = divs (repeat 1 w) (firstn w x) ++ divs (repeat k d) (skipn w x)).
  { unfold divs. apply map2_app. now rewrite repeat_length. }
  rewrite E, !divs_repeat, sc_app, !sc_sc by auto. rewrite Rinv_r, sc_1 by auto. f_equal. f_equal. field.
Qed.
Lemma hankelR_length c r : length (hankelR c r) = length c. Proof. unfold hankelR. now rewrite map_length, seq_length. Qed.
Lemma hankelR_width c r : width (length r) (hankelR c r).
Proof. apply Forall_forall. intros x Hx. unfold hankelR in Hx. apply in_map_iff in Hx as (i & <- & _). now rewrite map_length, seq_length. Qed.
Lemma width_firstn n a i : width n a -> width n (firstn i a). Proof. intros W. apply Forall_forall. intros x Hx. eapply Forall_forall in W; [exact W|]. rewrite <- (firstn_skipn i a). apply in_app_iff. auto. Qed.
Lemma mse_ratioR_sc k e o : k <> 0 -> mse_ratioR (sc k e) (sc k o) = mse_ratioR e o.
Proof.
  intros K. unfold mse_ratioR. assert (P : forall l, powerR (sc k l) = option_map (fun v => k * k * v) (powerR l)).
  { intros [|x l]; auto. unfold powerR. change (sc k (x :: l)) with (k * x :: sc k l). cbv iota. cbn [option_map]. f_equal. change (k * x :: sc k l) with (sc k (x :: l)). rewrite sq_sc. unfold meanR. rewrite sumR_sc, sc_length. unfold Rdiv. ring. }
  rewrite !P. destruct (powerR e), (powerR o) as [r0|]; cbn; auto. assert (KK : k * k <> 0) by nra. destruct (Req_EM_T (k * k * r0) 0) as [Z|Z], (Req_EM_T r0 0) as [Z'|Z']; auto.
  - apply Rmult_integral in Z. tauto.
  - exfalso. apply Z. rewrite Z'. ring.
  - f_equal. field. auto.
Qed.
Lemma div_tapsR_over k l g : k <> 0 -> div_tapsR l (k * g) = times_taps (/ k) (div_tapsR l g).
Proof.
  intros K. unfold div_tapsR. destruct (Req_EM_T (k * g) 0) as [Z|Z], (Req_EM_T g 0) as [Z'|Z']; auto.
  - apply Rmult_integral in Z. tauto.
  - exfalso. apply Z. rewrite Z'. ring.
  - cbn. f_equal. unfold times. rewrite map_map. apply map_ext. intros x. field. auto.
Qed.
(** * The equaliser *)
Section Equaliser.
Context (lasso : list (list R) -> list R -> R -> list R) (r s : list R) (post pre dfe : nat) (k : R) (K : 0 < k).
Let mrn := (Z.of_nat (length s) - Z.of_nat (Nat.max post dfe + pre + 1))%Z.
Let last_row := firstn (post + pre + 1) (rev (skipn dfe s)).
Let dfe_row := firstn dfe (rev r).
Let F := slice_to (hankelR (skipn dfe s) last_row) mrn.
Let D := map (map Ropp) (slice_to (hankelR r dfe_row) mrn).
Let tgt := slice_from (slice_to r (Z.of_nat dfe + mrn)%Z) (Z.of_nat dfe).
Lemma D_sc : map (map Ropp) (slice_to (hankelR (sc k r) (firstn dfe (rev (sc k r)))) mrn) = map (sc k) D.
Proof.
  assert (E : firstn dfe (rev (sc k r)) = sc k dfe_row) by (unfold sc, dfe_row; now rewrite <- map_rev, firstn_map). rewrite E, hankelR_sc, slice_to_map. unfold D. rewrite !map_map. apply map_ext. intros row. unfold sc. rewrite !map_map. apply map_ext. intros; ring.
Qed.
Lemma tgt_sc : slice_from (slice_to (sc k r) (Z.of_nat dfe + mrn)%Z) (Z.of_nat dfe) = sc k tgt.
Proof. unfold sc. now rewrite slice_to_map, slice_from_map. Qed.
Lemma F_width : width (length last_row) F. Proof. apply width_firstn, hankelR_width. Qed.
Lemma D_width : width (length dfe_row) D.
Proof. apply Forall_forall. intros x Hx. unfold D in Hx. apply in_map_iff in Hx as (y & <- & Hy). rewrite map_length. pose proof (width_firstn _ _ (slice_bound (length (hankelR r dfe_row)) mrn) (hankelR_width r dfe_row)) as W. eapply Forall_forall in W; [exact W|exact Hy]. Qed.
Lemma D_length : (length D <= length r)%nat. Proof. unfold D. rewrite map_length. unfold slice_to. rewrite firstn_length, hankelR_length. lia. Qed.
Lemma estim_scaled nrm reg lam : reg = RegNone \/ lam <= 0 ->
  match equalization_estimation_R lasso r s post pre dfe nrm reg lam with
  | Raise x => equalization_estimation_R lasso (sc k r) s post pre dfe nrm reg lam = Raise x
  | Ok e => exists e', equalization_estimation_R lasso (sc k r) s post pre dfe nrm reg lam = Ok e' /\ r_err e' = times (k * k) (r_err e) /\ r_mse e' = r_mse e /\ (r_err e <> [] \/ dfe = 0%nat -> e' = rescaled k nrm e)
  end.
Proof.
  intros PL. assert (N : k <> 0) by lra. unfold equalization_estimation_R. cbv zeta. fold mrn last_row dfe_row F D tgt. rewrite D_sc, tgt_sc.
  assert (Ed : length (firstn dfe (rev (sc k r))) = length dfe_row) by (unfold dfe_row; now rewrite !firstn_length, !rev_length, sc_length). rewrite Ed.
  assert (EL : forall n M b, (match reg with RegNone => least_squaresR lasso n M b RegNone 0 | r0 => if Rlt_dec 0 lam then least_squaresR lasso n M b r0 lam else least_squaresR lasso n M b RegNone 0 end) = lstsqR n M b).
  { intros n M b. destruct reg; auto; destruct PL as [C|C]; try discriminate; destruct (Rlt_dec 0 lam); auto; lra. }
  destruct (Nat.ltb_spec 0 dfe) as [Hd|Hd].
  - unfold hconcatR. rewrite map_length. destruct (Nat.eqb_spec (length F) (length D)) as [LF|]; [|reflexivity]. cbn [bind]. rewrite !EL. set (w := length last_row). set (d := length dfe_row).
    set (A := map2 (@app R) F D). set (A' := map2 (@app R) F (map (sc k) D)). assert (WA : width (w + d) A) by (apply width_app; [apply F_width|apply D_width]).
    assert (WD' : width d (map (sc k) D)). { apply Forall_forall. intros x Hx. apply in_map_iff in Hx as (y & <- & Hy). rewrite sc_length. pose proof D_width as W. eapply Forall_forall in W; [exact W|exact Hy]. }
    assert (WA' : width (w + d) A') by (apply width_app; [apply F_width|exact WD']).
    assert (LA : length A = length F) by now apply map2_app_length. assert (LA' : length A' = length A) by (unfold A', A; rewrite !map2_app_length; rewrite ?map_length; auto).
    destruct (lstsqR_cols (w + d) A A' tgt (repeat 1 w ++ repeat k d) k WA WA' LA') as [(E' & E)|(x & x' & e & E & E' & Lx & Lx' & O & Fu)].
    { now rewrite app_length, !repeat_length. } { apply Forall_app. split; apply repeat_nz; lra. } { apply columns_app; auto using F_width, D_width. }
    { rewrite E, E'. reflexivity. }
    rewrite E, E'. cbn [bind fst snd]. rewrite O, map2_sub_sc, mse_ratioR_sc by auto. set (sig := matvecR A x). set (mse := mse_ratioR _ sig).
    assert (Lf : length (skipn dfe (rev x')) = length (skipn dfe (rev x))) by (rewrite !skipn_length, !rev_length; congruence).
    assert (FU : e <> [] -> skipn dfe (rev x') = sc k (skipn dfe (rev x)) /\ rev (slice_from x' (-1 * Z.of_nat dfe)) = rev (slice_from x (-1 * Z.of_nat dfe))).
    { intros Ne. destruct (Fu Ne) as (Lt & Ex). pose proof D_length as DL. assert (Dd : d = dfe). { unfold d, dfe_row. rewrite firstn_length, rev_length. assert (d = Nat.min dfe (length r)) by (unfold d, dfe_row; now rewrite firstn_length, rev_length). lia. }
      rewrite divs_two in Ex by auto. assert (Lw : length (firstn w x) = w) by (rewrite firstn_length; lia). assert (Lk : length (skipn w x) = dfe) by (rewrite skipn_length; lia).
      assert (Sk : forall u : list R, skipn dfe (rev (u ++ skipn w x)) = rev u). { intros u. rewrite rev_app_distr. rewrite skipn_app, rev_length, Lk, Nat.sub_diag. cbn [skipn]. rewrite skipn_all2 by (rewrite rev_length; lia). reflexivity. }
      assert (Sf : forall u : list R, length u = w -> slice_from (u ++ skipn w x) (-1 * Z.of_nat dfe) = skipn w x).
      { intros u Lu. unfold slice_from, slice_bound. destruct (Z.ltb_spec (-1 * Z.of_nat dfe) 0); [|lia]. replace (Z.to_nat (-1 * Z.of_nat dfe + Z.of_nat (length (u ++ skipn w x)))) with (length u) by (rewrite app_length; lia). rewrite skipn_app, skipn_all, Nat.sub_diag. reflexivity. }
      pose proof (Sk (firstn w x)) as P1. pose proof (Sf (firstn w x) Lw) as P2. rewrite firstn_skipn in P1, P2. rewrite Ex, P1, P2, Sk, Sf by (now rewrite sc_length). unfold sc. now rewrite map_rev. }
    destruct (maxR (skipn dfe (rev x))) as [gm|ex] eqn:Em.
    2:{ assert (Z : skipn dfe (rev x) = []) by (unfold maxR, argmaxR in Em; destruct (skipn dfe (rev x)); auto; discriminate). rewrite Z in Lf. destruct (skipn dfe (rev x')); [|discriminate]. rewrite Z in Em. rewrite Em. reflexivity. }
    assert (Em' : exists gm', maxR (skipn dfe (rev x')) = Ok gm'). { unfold maxR, argmaxR in *. destruct (skipn dfe (rev x')); [|cbn; eauto]. destruct (skipn dfe (rev x)); [discriminate|discriminate]. }
    destruct Em' as (gm' & Em'). rewrite Em'. cbn [bind]. assert (GM : e <> [] -> gm' = k * gm). { intros Ne. destruct (FU Ne) as (E1 & _). rewrite E1, maxR_sc, Em in Em' by auto. now injection Em'. }
    destruct nrm; eexists; (split; [reflexivity|]); cbn [r_err r_mse]; (split; [reflexivity|]); (split; [reflexivity|]); intros Ne; (assert (Ne' : e <> []) by (destruct Ne; [auto|lia])); clear Ne; rename Ne' into Ne; destruct (FU Ne) as (E1 & E2); unfold rescaled; cbn [r_ffe r_dfe r_gain r_err r_mse].
    + rewrite (GM Ne), E1, E2, div_tapsR_sc, div_tapsR_over by auto. reflexivity.
    + rewrite E1, E2. reflexivity.
  - cbn [bind]. rewrite !EL, lstsqR_sc. destruct (lstsqR _ F tgt) as [[x e]|]; [|reflexivity]. cbn [on_ok bind fst snd]. assert (Z : dfe = 0%nat) by lia. rewrite Z. cbn [skipn]. assert (Rs : rev (sc k x) = sc k (rev x)) by (unfold sc; symmetry; apply map_rev). rewrite Rs, maxR_sc by auto.
    destruct (maxR (rev x)); [|reflexivity]. cbn [on_ok bind]. rewrite matvecR_sc, map2_sub_sc, mse_ratioR_sc by auto. destruct nrm; [reflexivity|]. eexists. split; [reflexivity|]. cbn [r_err r_mse]. split; [reflexivity|]. split; [reflexivity|]. intros _.
    unfold rescaled. reflexivity.
Qed.
End Equaliser.

(** * Ridge without feedback *)
Lemma meanR_sc k l : meanR (sc k l) = k * meanR l. Proof. unfold meanR. rewrite sumR_sc, sc_length. unfold Rdiv. ring. Qed.
Lemma centreR_sc k b : centreR (sc k b) = sc k (centreR b).
Proof. unfold centreR. rewrite meanR_sc. unfold sc. rewrite !map_map. apply map_ext. intros; ring. Qed.
Lemma ridgeR_sc n a b k al : ridge_regressionR n a (sc k b) al = on_ok (fun r => (sc k (fst r), sc (k * k) (snd r))) (ridge_regressionR n a b al).
Proof.
  unfold ridge_regressionR. rewrite sc_length. destruct (_ || _); auto. cbv zeta. cbn [on_ok fst snd]. rewrite centreR_sc.
  assert (E : ridge_solveR n (centre_rowsR n a) (sc k (centreR b)) al = sc k (ridge_solveR n (centre_rowsR n a) (centreR b) al)).
  { unfold ridge_solveR. apply projectR_sc. intros i _. rewrite <- sc_at. f_equal. unfold sc at 2. rewrite map_map. apply map_ext. intros c. unfold dot_toR. rewrite <- smR_scale. apply smR_ext. intros j _. rewrite sc_at. ring. }
  rewrite E. f_equal. f_equal. cbn [sc map]. f_equal. unfold ssrR. rewrite matvecR_sc, map2_sub_sc, sq_sc. apply sumR_sc.
Qed.
Lemma estim_ridge_scaled lasso r s post pre k nrm reg lam : 0 < k -> reg <> RegLasso \/ lam <= 0 ->
  equalization_estimation_R lasso (sc k r) s post pre 0 nrm reg lam = on_ok (rescaled k nrm) (equalization_estimation_R lasso r s post pre 0 nrm reg lam).
Proof.
  intros K NL. unfold equalization_estimation_R. cbv zeta. change (0 <? 0)%nat with false. cbv iota. cbn [bind skipn].
  set (mrn := (Z.of_nat (length s) - _)%Z). set (F := slice_to _ mrn). set (tgt := slice_from (slice_to r _) _). assert (T : slice_from (slice_to (sc k r) (Z.of_nat 0 + mrn)) (Z.of_nat 0) = sc k tgt) by (unfold sc; now rewrite slice_to_map, slice_from_map). rewrite T.
  set (n := (length _ + 0)%nat).
  assert (EL : (match reg with RegNone => least_squaresR lasso n F (sc k tgt) RegNone 0 | r0 => if Rlt_dec 0 lam then least_squaresR lasso n F (sc k tgt) r0 lam else least_squaresR lasso n F (sc k tgt) RegNone 0 end)
    = on_ok (fun r => (sc k (fst r), sc (k * k) (snd r))) (match reg with RegNone => least_squaresR lasso n F tgt RegNone 0 | r0 => if Rlt_dec 0 lam then least_squaresR lasso n F tgt r0 lam else least_squaresR lasso n F tgt RegNone 0 end)).
  { destruct reg; cbn [least_squaresR]; rewrite ?lstsqR_sc, ?ridgeR_sc; auto; destruct (Rlt_dec 0 lam); auto. exfalso. destruct NL as [C|C]; [now apply C|lra]. }
  rewrite EL, bind_on_ok, on_ok_bind. apply bind_ext. intros [x e] _. cbn [fst snd]. assert (Rs : rev (sc k x) = sc k (rev x)) by (unfold sc; symmetry; apply map_rev). rewrite Rs, maxR_sc, bind_on_ok, on_ok_bind by auto. apply bind_ext. intros g _.
  rewrite matvecR_sc, map2_sub_sc, mse_ratioR_sc by lra. now destruct nrm.
Qed.
(** * The PRBS reference *)
Lemma estim_prbs_cases lasso t s c post pre dfe nrm reg lam a b g i (Rel : res estimateR -> res estimateR -> Prop) : (forall x, Rel (Raise x) (Raise x)) ->
  (forall r u, Rel (equalization_estimation_R lasso r u post pre dfe nrm reg lam) (equalization_estimation_R lasso (sc (/ level_rms c) r) u post pre dfe nrm reg lam)) ->
  Rel (equalization_estimation_prbs_R lasso t s c post pre dfe nrm reg lam false a b g i) (equalization_estimation_prbs_R lasso t s c post pre dfe nrm reg lam true a b g i).
Proof.
  intros HR HE. pose proof (level_rms_pos c) as P. assert (K : 0 < / level_rms c) by now apply Rinv_0_lt_compat. unfold equalization_estimation_prbs_R. cbv zeta. rewrite coded_scaled, bind_on_ok. destruct (prbs_coded_R _ _ _ _ _ _ _) as [pc|]; [|apply HR]. cbn [bind].
  rewrite lock_sc, bind_on_ok by auto. destruct (lock_pattern_to_signal_R pc s) as [al|]; [|apply HR]. cbn [bind fst]. unfold sc. rewrite take_map, bind_on_ok. fold (sc (/ level_rms c)). destruct (np_take _ _) as [sh|]; [|apply HR]. cbn [bind].
  destruct (_ =? 0)%nat; [|apply HE]. rewrite firstn_map. apply HE.
Qed.
(** * Exceptions depend on sizes only *)
Lemma maxR_raises l l' : length l = length l' -> raises (maxR l) = raises (maxR l'). Proof. destruct l, l'; try discriminate; reflexivity. Qed.
Lemma solve_sizes lasso n A A' b b' reg lam : sized lasso -> width n A -> width n A' -> length A = length A' -> length b = length b' ->
  on_ok (fun p => length (fst p)) (least_squaresR lasso n A b reg lam) = on_ok (fun p => length (fst p)) (least_squaresR lasso n A' b' reg lam).
Proof.
  intros HL W W' LA Lb. destruct reg; cbn [least_squaresR].
  - unfold lstsqR. rewrite <- LA, <- Lb. destruct (negb _); [reflexivity|]. cbn. now rewrite !combR_length.
  - unfold ridge_regressionR. rewrite <- LA, <- Lb. destruct (_ || _)%bool; [reflexivity|]. cbn. unfold ridge_solveR. rewrite !projectR_length. now rewrite !transposeR_length.
  - rewrite <- LA, <- Lb. destruct (_ || _)%bool eqn:G; [reflexivity|]. apply orb_false_iff in G as [_ G]. apply Nat.eqb_neq in G. cbn. f_equal. rewrite (HL A b lam n), (HL A' b' lam n); auto; intros ->; apply G; auto.
  - reflexivity.
Qed.
Lemma slice_to_len {X Y} (u : list X) (v : list Y) z : length u = length v -> length (slice_to u z) = length (slice_to v z).
Proof. intros E. unfold slice_to. now rewrite !firstn_length, E. Qed.
Lemma slice_from_len {X Y} (u : list X) (v : list Y) z : length u = length v -> length (slice_from u z) = length (slice_from v z).
Proof. intros E. unfold slice_from. now rewrite !skipn_length, E. Qed.
Lemma width_opp n a : width n a -> width n (map (map Ropp) a).
Proof. intros W. apply Forall_forall. intros x Hx. apply in_map_iff in Hx as (y & <- & Hy). rewrite map_length. eapply Forall_forall in W; eauto. Qed.
Lemma estim_raises lasso r r' s post pre dfe nrm reg lam : sized lasso -> length r = length r' ->
  raises (equalization_estimation_R lasso r s post pre dfe nrm reg lam) = raises (equalization_estimation_R lasso r' s post pre dfe nrm reg lam).
Proof.
  intros HL Lr. unfold equalization_estimation_R. cbv zeta. set (mrn := (_ - _)%Z). set (last_row := firstn _ (rev (skipn dfe s))). set (F := slice_to _ _).
  assert (WF : width (length last_row) F) by apply width_firstn, hankelR_width. set (dr := firstn dfe (rev r)). set (dr' := firstn dfe (rev r')).
  assert (Ld : length dr = length dr') by (unfold dr, dr'; now rewrite !firstn_length, !rev_length, Lr). set (D := map (map Ropp) (slice_to (hankelR r dr) mrn)). set (D' := map (map Ropp) (slice_to (hankelR r' dr') mrn)).
  assert (WD : width (length dr) D) by apply width_opp, width_firstn, hankelR_width. assert (WD' : width (length dr) D') by (rewrite Ld; apply width_opp, width_firstn, hankelR_width).
  assert (LD : length D = length D') by (unfold D, D'; rewrite !map_length; apply slice_to_len; now rewrite !hankelR_length). rewrite <- Ld.
  set (t := slice_from (slice_to r _) _). set (t' := slice_from (slice_to r' _) _). assert (Lt : length t = length t') by now apply slice_from_len, slice_to_len.
  set (n := (length last_row + _)%nat).
  assert (M : forall A A', width n A -> width n A' -> length A = length A' -> forall G : list (list R) -> list R -> list R -> list R -> R -> res estimateR, (forall B u v w g g' B' u' v' w', raises (G B u v w g) = raises (G B' u' v' w' g')) ->
    raises (ls_result <- match reg with RegNone => least_squaresR lasso n A t RegNone 0 | r0 => if Rlt_dec 0 lam then least_squaresR lasso n A t r0 lam else least_squaresR lasso n A t RegNone 0 end ;; dig_gain <- maxR (skipn dfe (rev (fst ls_result))) ;; G A t (fst ls_result) (snd ls_result) dig_gain) =
    raises (ls_result <- match reg with RegNone => least_squaresR lasso n A' t' RegNone 0 | r0 => if Rlt_dec 0 lam then least_squaresR lasso n A' t' r0 lam else least_squaresR lasso n A' t' RegNone 0 end ;; dig_gain <- maxR (skipn dfe (rev (fst ls_result))) ;; G A' t' (fst ls_result) (snd ls_result) dig_gain)).
  { intros A A' WA WA' LA G HG. set (X := match reg with RegNone => least_squaresR lasso n A t _ _ | _ => _ end). set (X' := match reg with RegNone => least_squaresR lasso n A' t' _ _ | _ => _ end).
    assert (EX : on_ok (fun p => length (fst p)) X = on_ok (fun p => length (fst p)) X') by (unfold X, X'; destruct reg; try (destruct (Rlt_dec 0 lam)); now apply solve_sizes).
    destruct X as [p|], X' as [p'|]; cbn in EX; try discriminate; injection EX as EX; [|now subst]. cbn [bind]. pose proof (maxR_raises (skipn dfe (rev (fst p))) (skipn dfe (rev (fst p')))) as MR. rewrite !skipn_length, !rev_length, EX in MR. specialize (MR eq_refl).
    destruct (maxR _) as [g|], (maxR _) as [g'|]; cbn in MR; try discriminate; cbn [bind]; [apply HG|exact MR]. }
  destruct (0 <? dfe)%nat eqn:Ed.
  - unfold hconcatR. rewrite <- LD. destruct (Nat.eqb_spec (length F) (length D)) as [LF|]; [|reflexivity]. cbn [bind].
    exact (M (map2 (@app R) F D) (map2 (@app R) F D') ltac:(now apply width_app) ltac:(now apply width_app) ltac:(rewrite !map2_app_length; congruence)
      (fun A t x e g => let sig := matvecR A x in let mse := mse_ratioR (map2 Rminus sig t) sig in let d := rev (slice_from x (-1 * Z.of_nat dfe)) in if nrm then Ok (mk_estR (div_tapsR (skipn dfe (rev x)) g) (div_tapsR d g) g e mse) else Ok (mk_estR (TapsR (skipn dfe (rev x))) (TapsR d) 1 e mse)) ltac:(intros; now destruct nrm)).
  - cbn [bind]. assert (WF' : width n F) by (unfold n; now rewrite Nat.add_0_r).
    exact (M F F WF' WF' eq_refl
      (fun A t x e g => let sig := matvecR A x in let mse := mse_ratioR (map2 Rminus sig t) sig in if nrm then Raise TypeError else Ok (mk_estR (TapsR (skipn dfe (rev x))) NoTapsR 1 e mse)) ltac:(intros; now destruct nrm)).
Qed.
