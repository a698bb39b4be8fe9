(** Lemmas for C63 (ols_manual) and C72 (lasso_regression_manual). *)
From Verif Require Import Py PyQ B_list B_qc M_symbol M_estim S_estim P_linalg P_estim P_rxparts M_lasso S_lasso.
From Coq Require Import Psatz.
Open Scope Qc_scope.

(** * The pseudo inverse is linear *)
Lemma dot_linear m p (c : nat -> Qc) (u : nat -> list Qc) b v : (forall i, (i < m)%nat -> at_ b i = sm p (fun k => c k * at_ (u k) i)) ->
  dot m b v = sm p (fun k => c k * dot m (u k) v).
Proof.
  intros H. rewrite dot_sm. rewrite (sm_ext m _ (fun i => sm p (fun k => c k * (at_ (u k) i * at_ v i)))) by (intros i Hi; rewrite H by auto; rewrite Qcmult_comm, <- sm_scale; apply sm_ext; intros; ring).
  rewrite sm_swap. apply sm_ext. intros k _. rewrite sm_scale. now rewrite dot_sm.
Qed.
Lemma project_linear m p (c : nat -> Qc) cols : forall (u : nat -> list Qc) b, (forall i, (i < m)%nat -> at_ b i = sm p (fun k => c k * at_ (u k) i)) ->
  forall j, (j < length cols)%nat -> at_ (project m cols b) j = sm p (fun k => c k * at_ (project m cols (u k)) j).
Proof.
  induction cols as [|a cols IH]; intros u b H j Hj; [cbn in Hj; lia|].
  cbn [project]. set (ra := axpy m a 1 (comb m cols (project m cols a))). set (t := fun v => if Qceqb (dot m ra ra) 0 then 0 else dot m v ra / dot m ra ra).
  assert (T : t b = sm p (fun k => c k * t (u k))).
  { unfold t. destruct (Qceqb (dot m ra ra) 0); [symmetry; apply sm_0; intros; ring|]. rewrite (dot_linear m p c u b ra H). unfold Qcdiv. rewrite Qcmult_comm, <- sm_scale. apply sm_ext. intros; ring. }
  change (at_ (t b :: project m cols (axpy m b (t b) a)) j = sm p (fun k => c k * at_ (t (u k) :: project m cols (axpy m (u k) (t (u k)) a)) j)).
  destruct j as [|j]; [exact T|]. unfold at_ at 1. cbn [nth]. fold (at_ (project m cols (axpy m b (t b) a)) j). cbn in Hj.
  rewrite (IH (fun k => axpy m (u k) (t (u k)) a)); [reflexivity| |lia]. intros i Hi. rewrite axpy_at by auto. rewrite (H i Hi), T.
  rewrite Qcmult_comm, <- sm_scale, <- sm_sub. apply sm_ext. intros k _. rewrite axpy_at by auto. ring.
Qed.
Lemma min_norm_linear n a p (c : nat -> Qc) (u : nat -> list Qc) b : (forall i, (i < length a)%nat -> at_ b i = sm p (fun k => c k * at_ (u k) i)) ->
  forall j, (j < n)%nat -> at_ (min_norm n a b) j = sm p (fun k => c k * at_ (min_norm n a (u k)) j).
Proof.
  intros H j Hj. unfold min_norm. rewrite comb_at by auto.
  rewrite (sm_ext p _ (fun k => sm (length a) (fun l => c k * (at_ (project n a (project (length a) (transpose n a) (u k))) l * at_ (nth l a []) j)))) by (intros; rewrite comb_at, <- sm_scale by auto; reflexivity).
  rewrite sm_swap. apply sm_ext. intros l Hl.
  rewrite (project_linear n p c a (fun k => project (length a) (transpose n a) (u k))); auto.
  - rewrite Qcmult_comm, <- sm_scale. apply sm_ext. intros; ring.
  - intros i Hi. apply project_linear; auto. now rewrite transpose_length.
Qed.
Lemma unit_at m k i : (i < m)%nat -> at_ (unit_vec m k) i = if (i =? k)%nat then 1 else 0.
Proof. intros H. unfold unit_vec, at_. now rewrite nth_map_seq by auto. Qed.
Lemma vec_ext n (x y : list Qc) : length x = n -> length y = n -> (forall j, (j < n)%nat -> at_ x j = at_ y j) -> x = y.
Proof. intros L L' H. apply (nth_ext_def 0); [congruence|]. intros i Hi. apply H. lia. Qed.
Lemma pinv_apply n a b : length b = length a -> matvec (pinv n a) b = min_norm_vec n a b.
Proof.
  intros L. set (us := map (fun k => min_norm n a (unit_vec (length a) k)) (seq 0 (length a))). assert (Lus : length us = length a) by (unfold us; now rewrite map_length, seq_length).
  apply (vec_ext n); [unfold matvec, pinv; now rewrite map_length, transpose_length|apply min_norm_length|]. intros j Hj.
  assert (Lr : length (nth j (pinv n a) []) = length a) by (unfold pinv, transpose; rewrite nth_map_seq, map_length by auto; exact Lus).
  rewrite (matvec_at _ _ _ (length a)) by (auto; unfold pinv; now rewrite transpose_length).
  assert (B : forall i, (i < length a)%nat -> at_ b i = sm (length a) (fun k => at_ b k * at_ (unit_vec (length a) k) i)).
  { intros i Hi. rewrite (sm_single _ _ i Hi); [rewrite unit_at, Nat.eqb_refl by exact Hi; ring|]. intros k Hk N. rewrite unit_at by exact Hi. rewrite (proj2 (Nat.eqb_neq i k)) by auto. ring. }
  change (min_norm_vec n a b) with (min_norm n a b). rewrite (min_norm_linear n a (length a) (fun k => at_ b k) (unit_vec (length a)) b B j Hj).
  apply sm_ext. intros k Hk. rewrite Qcmult_comm. f_equal. unfold entry, pinv. fold us. fold (entry (transpose n us) j k). unfold entry. rewrite transpose_at by (rewrite ?Lus; auto).
  unfold entry, us. now rewrite nth_map_seq by auto.
Qed.

(** * One step of the descent *)
Lemma coarse_sign_spec w : coarse_sign w (sign (around4 w)).
Proof.
  unfold coarse_sign, around4, margin. set (q := this (w * ofZ 10000)). set (r := round_half_even q).
  assert (Q : (q == this w * 10000)%Q) by (unfold q; rewrite this_mult, this_ofZ; reflexivity).
  pose proof (proj1 (round_iff q r) eq_refl) as E. fold r in E.
  assert (P : forall z : Z, (0 < z)%Z -> sign (ofZ z / ofZ 10000) = 1 /\ sign (ofZ (- z) / ofZ 10000) = - (1)).
  { intros z Hz. assert (L : 0 < ofZ z / ofZ 10000). { unfold Qcdiv. pose proof (Qcmult_lt_compat_r 0 (ofZ z) (/ ofZ 10000) ltac:(reflexivity)) as K. rewrite Qcmult_0_l in K. apply K. change 0 with (ofZ 0). now apply ofZ_lt. }
    split; unfold sign. - now rewrite (proj2 (Qcltb_spec _ _) L).
    - assert (N : ofZ (- z) / ofZ 10000 = - (ofZ z / ofZ 10000)) by (rewrite ofZ_opp; unfold Qcdiv; ring). rewrite N. rewrite (proj2 (Qcltb_false _ _)) by qlra. now rewrite (proj2 (Qcltb_spec _ _)) by qlra. }
  destruct (Z.lt_trichotomy r 0) as [N|[Z0|N]].
  - right; left. replace r with (- (- r))%Z by lia. split; [|apply P; lia]. assert (B : (inject_Z r <= -1)%Q) by (change (-1)%Q with (inject_Z (-1)); rewrite <- Zle_Qle; lia).
    apply Qclt_this. qc_norm. rewrite Q in E. destruct E as [E|(Ev & [E|E])]; try lra. destruct (Z.eq_dec r (-1)) as [R|R]; [rewrite R in Ev; discriminate|]. assert (B2 : (inject_Z r <= -2)%Q) by (change (-2)%Q with (inject_Z (-2)); rewrite <- Zle_Qle; lia). lra.
  - right; right. rewrite Z0 in E |- *. assert (S0 : sign (ofZ 0 / ofZ 10000) = 0) by reflexivity. rewrite Q in E. change (inject_Z 0) with 0%Q in E. repeat split; auto; apply Qcle_this; qc_norm; destruct E as [E|(Ev & [E|E])]; lra.
  - left. split; [|now apply P]. assert (B : (1 <= inject_Z r)%Q) by (change 1%Q with (inject_Z 1); rewrite <- Zle_Qle; lia).
    apply Qclt_this. qc_norm. rewrite Q in E. destruct E as [E|(Ev & [E|E])]; try lra. destruct (Z.eq_dec r 1) as [R|R]; [rewrite R in Ev; discriminate|]. assert (B2 : (2 <= inject_Z r)%Q) by (change 2%Q with (inject_Z 2); rewrite <- Zle_Qle; lia). lra.
Qed.
Lemma coarse_sign_unique w s s' : coarse_sign w s -> coarse_sign w s' -> s = s'.
Proof. unfold coarse_sign, margin. intros [(A & ->)|[(A & ->)|(A & B & ->)]] [(A' & ->)|[(A' & ->)|(A' & B' & ->)]]; auto; exfalso; qlra. Qed.
Definition gradient_at n a b lambda (x : list Qc) j : Qc := lambda * sign (around4 (at_ x j)) - correlation n a b x j / ofZ (Z.of_nat n).
Lemma gradient_length n a b lambda x : length x = n -> length (lasso_gradient n a b lambda x) = n.
Proof. intros L. unfold lasso_gradient, matvec. rewrite map2_length, !map_length, transpose_length. lia. Qed.
Lemma gradient_spec n a b lambda x j : matrix (length a) n a -> length b = length a -> length x = n -> (j < n)%nat ->
  at_ (lasso_gradient n a b lambda x) j = gradient_at n a b lambda x j.
Proof.
  intros (_ & F) Lb Lx Hj. unfold lasso_gradient, at_ at 1. rewrite (map2_nth _ _ _ _ 0 0) by (unfold matvec; rewrite ?map_length, ?transpose_length; lia).
  rewrite (map_nth_lt _ _ _ 0) by (unfold matvec; rewrite map_length, transpose_length; lia). rewrite (map_nth_lt _ _ _ 0) by lia. fold (at_ x j).
  set (r := map2 Qcminus b (matvec a x)). assert (Lr : length r = length a) by (unfold r, matvec; rewrite map2_length, map_length; lia).
  fold (at_ (matvec (transpose n a) r) j). rewrite (matvec_at _ _ _ (length a)); auto; [|now rewrite transpose_length|unfold transpose; rewrite nth_map_seq, map_length by auto; reflexivity].
  assert (C : sm (length a) (fun i => entry (transpose n a) j i * at_ r i) = correlation n a b x j).
  { unfold correlation. rewrite Lb. apply sm_ext. intros i Hi. unfold entry at 1. rewrite transpose_at by auto. f_equal. unfold r, at_ at 1. rewrite (map2_nth _ _ _ _ 0 0) by (unfold matvec; rewrite ?map_length; lia). fold (at_ b i). fold (at_ (matvec a x) i). rewrite (matvec_at a x i n); auto. rewrite Forall_forall in F. apply F, nth_In. lia. }
  rewrite C. unfold gradient_at, Qcdiv. ring.
Qed.
Lemma update_length n a b lambda mu x : length x = n -> length (lasso_update n a b lambda mu x) = n.
Proof. intros L. unfold lasso_update. rewrite map2_length, gradient_length; auto. lia. Qed.
Lemma update_at n a b lambda mu x j : matrix (length a) n a -> length b = length a -> length x = n -> (j < n)%nat ->
  at_ (lasso_update n a b lambda mu x) j = at_ x j - mu * gradient_at n a b lambda x j.
Proof.
  intros M Lb Lx Hj. unfold lasso_update, at_ at 1. rewrite (map2_nth _ _ _ _ 0 0) by (rewrite ?gradient_length; auto; lia). fold (at_ x j). fold (at_ (lasso_gradient n a b lambda x) j). now rewrite gradient_spec.
Qed.
Lemma update_step n a b lambda mu x : matrix (length a) n a -> length b = length a -> length x = n -> descent_step n a b lambda mu x (lasso_update n a b lambda mu x).
Proof. intros M Lb Lx. split; [now apply update_length|]. intros j Hj. exists (sign (around4 (at_ x j))). split; [apply coarse_sign_spec|]. now apply update_at. Qed.
Lemma settled_spec n tol x y : length x = n -> length y = n -> settled tol x y = true <-> close n tol x y.
Proof.
  intros Lx Ly. unfold settled, close. rewrite forallb_forall. split.
  - intros H j Hj. apply Qcltb_spec, H. apply in_map_iff. exists (at_ x j - at_ y j). split; auto. unfold at_. rewrite <- (map2_nth Qcminus x y j 0 0 0) by lia. apply nth_In. rewrite map2_length. lia.
  - intros H d Hd. apply in_map_iff in Hd as (e & <- & He). apply (In_nth _ _ 0) in He as (j & Hj & <-). rewrite map2_length in Hj. rewrite (map2_nth _ _ _ _ 0 0) by lia. apply Qcltb_spec, H. lia.
Qed.

(** * The path *)
Section Path.
Variables (n : nat) (a : list (list Qc)) (b : list Qc) (lambda mu tol : Qc).
Hypothesis M : matrix (length a) n a.
Hypothesis Lb : length b = length a.
Let path k x := x :: lasso_steps n a b lambda mu tol k x.
Lemma path_spec k : forall x, length x = n ->
  let p := path k x in
  (length p <= S k)%nat /\ ((0 < k)%nat -> (2 <= length p)%nat) /\ Forall (fun y => length y = n) p /\
  (forall t, (S t < length p)%nat -> nth (S t) p [] = lasso_update n a b lambda mu (nth t p [])) /\
  (forall t, (S (S t) < length p)%nat -> ~ close n tol (nth (S t) p []) (nth t p [])) /\
  ((length p < S k)%nat -> close n tol (nth (length p - 1) p []) (nth (length p - 2) p [])).
Proof.
  induction k as [|k IH]; intros x Lx p; subst p; unfold path; cbn [lasso_steps].
  - cbn [length]. repeat split; auto; intros; lia.
  - set (y := lasso_update n a b lambda mu x). assert (Ly : length y = n) by now apply update_length. destruct (settled tol y x) eqn:E.
    + apply (settled_spec n) in E; auto. cbn [length]. repeat split; auto; intros; try lia.
      * assert (t = 0)%nat by lia. subst t. reflexivity.
    + assert (NE : ~ close n tol y x) by (intros C; apply (settled_spec n) in C; auto; congruence). specialize (IH y Ly). cbv zeta in IH. fold (path k y). destruct IH as (I1 & I2 & I3 & I4 & I5 & I6). set (p := path k y) in *.
      assert (P : exists p', p = y :: p') by (eexists; reflexivity). destruct P as (p' & P). cbn [length].
      split; [lia|]. split; [intros _; rewrite P; cbn [length]; lia|]. split; [constructor; auto|]. split; [|split].
      * intros [|t] Ht; [cbn [nth]; now rewrite P|]. cbn [nth]. apply (I4 t). lia.
      * intros [|t] Ht; [cbn [nth]; now rewrite P|]. cbn [nth]. apply (I5 t). lia.
      * intros Hs. assert (L2 : (2 <= length p)%nat) by (apply I2; rewrite P in Hs; cbn [length] in Hs; lia). specialize (I6 ltac:(lia)).
        replace (S (length p) - 1)%nat with (S (length p - 1)) by lia. replace (S (length p) - 2)%nat with (S (length p - 2)) by lia. exact I6.
Qed.
End Path.
Lemma last_nth {A} (l : list A) d : last l d = nth (length l - 1) l d.
Proof. induction l as [|x l IH]; auto. destruct l as [|y l]; auto. change (last (x :: y :: l) d) with (last (y :: l) d). rewrite IH. cbn [length]. now replace (S (S (length l)) - 1)%nat with (S (S (length l) - 1)) by lia. Qed.

(** * Inequalities *)
Lemma sm_le n f g : (forall k, (k < n)%nat -> f k <= g k) -> sm n f <= sm n g.
Proof. intros H. assert (K : 0 <= sm n (fun k => g k - f k)) by (apply sm_nonneg; intros k Hk; specialize (H k Hk); qlra). rewrite sm_sub in K. qlra. Qed.
Lemma cauchy_schwarz n u v : sq (sm n (fun k => u k * v k)) <= sm n (fun k => sq (u k)) * sm n (fun k => sq (v k)).
Proof.
  assert (K : 0 <= sm n (fun i => sm n (fun j => sq (u i * v j - u j * v i)))) by (apply sm_nonneg; intros; apply sm_nonneg; intros; apply sq_nonneg).
  assert (E : sm n (fun i => sm n (fun j => sq (u i * v j - u j * v i))) = (1 + 1) * (sm n (fun k => sq (u k)) * sm n (fun k => sq (v k)) - sq (sm n (fun k => u k * v k)))).
  { rewrite (sm_ext n _ (fun i => sq (u i) * sm n (fun k => sq (v k)) + (sq (v i) * sm n (fun k => sq (u k)) + (- (1 + 1)) * (u i * v i) * sm n (fun k => u k * v k)))).
    - rewrite !sm_add.
      rewrite (sm_ext n (fun k => sq (u k) * sm n (fun j => sq (v j))) (fun k => sm n (fun j => sq (v j)) * sq (u k))) by (intros; unfold sq; ring). rewrite sm_scale.
      rewrite (sm_ext n (fun k => sq (v k) * sm n (fun j => sq (u j))) (fun k => sm n (fun j => sq (u j)) * sq (v k))) by (intros; ring). rewrite sm_scale.
      rewrite (sm_ext n (fun k => (- (1 + 1)) * (u k * v k) * sm n (fun j => u j * v j)) (fun k => (- (1 + 1)) * sm n (fun j => u j * v j) * (u k * v k))) by (intros; ring). rewrite sm_scale. unfold sq. ring.
    - intros i Hi. rewrite <- !sm_scale, <- !sm_add. apply sm_ext. intros j _. unfold sq. ring. }
  rewrite E in K. revert K. generalize (sm n (fun k => sq (u k)) * sm n (fun k => sq (v k))) (sq (sm n (fun k => u k * v k))). intros p q K. qlra.
Qed.
Lemma Qcmult_nonneg x y : 0 <= x -> 0 <= y -> 0 <= x * y.
Proof. intros Hx Hy. pose proof (Qcmult_le_compat_r 0 x y Hx Hy) as K. now rewrite Qcmult_0_l in K. Qed.
Lemma nat_pos n : (0 < n)%nat -> 0 < ofZ (Z.of_nat n). Proof. intros H. change 0 with (ofZ 0). apply ofZ_lt. lia. Qed.
Lemma Qcinv_pos g : 0 < g -> 0 < / g.
Proof. intros H. apply Qcnot_le_lt. intros C. assert (Nz : g <> 0) by (intros ->; discriminate). pose proof (Qcmult_le_compat_r _ _ g C (Qclt_le_weak _ _ H)) as K. rewrite Qcmult_0_l, Qcmult_comm, Qcmult_inv_r in K by auto. now apply K. Qed.
(** The residual sum of squares around [x]. *)
Lemma cost_expand n a b x y : length b = length a ->
  cost n a b y = cost n a b x - (1 + 1) * sm n (fun j => correlation n a b x j * (at_ y j - at_ x j)) + sm (length a) (fun i => sq (sm n (fun j => entry a i j * (at_ y j - at_ x j)))).
Proof.
  intros L. unfold cost, correlation. rewrite L.
  assert (C : sm n (fun j => sm (length a) (fun i => entry a i j * (at_ b i - sm n (fun k => entry a i k * at_ x k))) * (at_ y j - at_ x j)) =
              sm (length a) (fun i => (at_ b i - sm n (fun k => entry a i k * at_ x k)) * sm n (fun j => entry a i j * (at_ y j - at_ x j)))).
  { rewrite (sm_ext n _ (fun j => sm (length a) (fun i => (at_ b i - sm n (fun k => entry a i k * at_ x k)) * (entry a i j * (at_ y j - at_ x j))))) by (intros j _; rewrite Qcmult_comm, <- sm_scale; apply sm_ext; intros; ring).
    rewrite sm_swap. apply sm_ext. intros i _. now rewrite sm_scale. }
  rewrite C, <- sm_scale, <- sm_sub, <- sm_add. apply sm_ext. intros i _.
  assert (E : sm n (fun j => entry a i j * at_ y j) = sm n (fun j => entry a i j * at_ x j) + sm n (fun j => entry a i j * (at_ y j - at_ x j))) by (rewrite <- sm_add; apply sm_ext; intros; ring).
  rewrite E. unfold sq. ring.
Qed.
Lemma coarse_subgradient x y s : coarse_sign x s -> s * (y - x) <= Qcabs y - Qcabs x + margin.
Proof. unfold coarse_sign, margin. intros [(A & ->)|[(A & ->)|(A & B & ->)]]; [rewrite Qcmult_1_l|replace (- (1) * (y - x)) with (x - y) by ring|rewrite Qcmult_0_l]; qabs. Qed.
Lemma abs_prod_le u v c : Qcabs u <= c -> - (c * Qcabs v) <= u * v.
Proof.
  intros H. assert (A1 : Qcabs u * Qcabs v <= c * Qcabs v) by (apply Qcmult_le_compat_r; auto; apply Qcabs_nonneg).
  assert (A2 : - (Qcabs u * Qcabs v) <= u * v). { rewrite <- Qcabs_Qcmult. generalize (u * v). intros z. qabs. }
  revert A1 A2. generalize (Qcabs u * Qcabs v) (c * Qcabs v) (u * v). intros. qlra.
Qed.
Lemma near_optimal n a b lambda x y c : length b = length a -> (0 < n)%nat -> 0 <= lambda ->
  (forall j, (j < n)%nat -> Qcabs (gradient_at n a b lambda x j) <= c) ->
  lasso_cost n a b lambda x <= lasso_cost n a b lambda y + c * dist1 n x y + lambda * (ofZ (Z.of_nat n) * margin).
Proof.
  intros L Hn Hl Hg. unfold lasso_cost. set (N := ofZ (Z.of_nat n)). assert (PN : 0 < N) by now apply nat_pos. assert (NN : N <> 0) by (intros E; rewrite E in PN; discriminate).
  rewrite (cost_expand n a b x y L). set (Q2 := sm (length a) (fun i => sq (sm n (fun j => entry a i j * (at_ y j - at_ x j))))). assert (HQ : 0 <= Q2) by apply sm_sq_nonneg.
  set (C := sm n (fun j => correlation n a b x j * (at_ y j - at_ x j))).
  assert (S1 : sm n (fun j => gradient_at n a b lambda x j * (at_ y j - at_ x j)) <= lambda * (norm1 n y - norm1 n x + N * margin) - C / N).
  { apply Qcle_trans with (sm n (fun j => lambda * (Qcabs (at_ y j) - Qcabs (at_ x j) + margin) - / N * (correlation n a b x j * (at_ y j - at_ x j)))).
    - apply sm_le. intros j Hj. unfold gradient_at. fold N. pose proof (coarse_subgradient (at_ x j) (at_ y j) _ (coarse_sign_spec (at_ x j))) as K. pose proof (Qcmult_le_compat_r _ _ lambda K Hl) as K2.
      unfold Qcdiv. replace ((lambda * sign (around4 (at_ x j)) - correlation n a b x j * / N) * (at_ y j - at_ x j)) with (sign (around4 (at_ x j)) * (at_ y j - at_ x j) * lambda - / N * (correlation n a b x j * (at_ y j - at_ x j))) by ring.
      replace (lambda * (Qcabs (at_ y j) - Qcabs (at_ x j) + margin)) with ((Qcabs (at_ y j) - Qcabs (at_ x j) + margin) * lambda) by ring. revert K2. generalize (sign (around4 (at_ x j)) * (at_ y j - at_ x j) * lambda) ((Qcabs (at_ y j) - Qcabs (at_ x j) + margin) * lambda) (/ N * (correlation n a b x j * (at_ y j - at_ x j))). intros. qlra.
    - rewrite sm_sub, !sm_scale, sm_add, sm_sub, sm_const. fold N. fold C. unfold norm1, Qcdiv. rewrite (Qcmult_comm C). apply Qcle_refl. }
  assert (S2 : - (c * dist1 n x y) <= sm n (fun j => gradient_at n a b lambda x j * (at_ y j - at_ x j))).
  { unfold dist1. rewrite <- sm_scale. replace (- sm n (fun k => c * Qcabs (at_ x k - at_ y k))) with (sm n (fun k => (- (1)) * (c * Qcabs (at_ x k - at_ y k)))) by (rewrite sm_scale; ring). apply sm_le. intros j Hj.
    pose proof (abs_prod_le (gradient_at n a b lambda x j) (at_ y j - at_ x j) c (Hg j Hj)) as K. replace (Qcabs (at_ x j - at_ y j)) with (Qcabs (at_ y j - at_ x j)) by (rewrite <- Qcabs_opp; f_equal; ring). replace (- (1) * (c * Qcabs (at_ y j - at_ x j))) with (- (c * Qcabs (at_ y j - at_ x j))) by ring. exact K. }
  assert (HQ2 : 0 <= Q2 / (ofZ 2 * N)). { apply Qcmult_nonneg; auto. apply Qclt_le_weak, Qcinv_pos. replace 0 with (0 * N) by ring. apply Qcmult_lt_compat_r; [exact PN|reflexivity]. }
  replace ((cost n a b x - (1 + 1) * C + Q2) / (ofZ 2 * N)) with (cost n a b x / (ofZ 2 * N) - C / N + Q2 / (ofZ 2 * N)).
  2:{ replace (ofZ 2) with (1 + 1) by (apply Qc_is_canon; reflexivity). field. split; auto. discriminate. }
  assert (S3 : lambda * (norm1 n y - norm1 n x + N * margin) = lambda * norm1 n y - lambda * norm1 n x + lambda * (N * margin)) by ring. rewrite S3 in S1.
  revert S1 S2 HQ2. generalize (lambda * norm1 n y) (lambda * norm1 n x) (lambda * (N * margin)) (C / N) (c * dist1 n x y) (Q2 / (ofZ 2 * N)) (cost n a b x / (ofZ 2 * N)) (sm n (fun j => gradient_at n a b lambda x j * (at_ y j - at_ x j))). intros. qlra.
Qed.
(** Without regularisation a step lowers the cost. *)
Lemma image_bound n a (v : nat -> Qc) : sm (length a) (fun i => sq (sm n (fun j => entry a i j * v j))) <= frobenius2 n a * sm n (fun j => sq (v j)).
Proof.
  unfold frobenius2. rewrite Qcmult_comm, <- sm_scale. apply sm_le. intros i _. rewrite Qcmult_comm. apply cauchy_schwarz.
Qed.
Definition move2 n (x y : list Qc) : Qc := sm n (fun j => sq (at_ y j - at_ x j)).
Lemma step_descent n a b mu x : matrix (length a) n a -> length b = length a -> length x = n -> (0 < n)%nat -> 0 < mu ->
  let y := lasso_update n a b 0 mu x in
  mu * cost n a b y + (ofZ 2 * ofZ (Z.of_nat n) - mu * frobenius2 n a) * move2 n x y <= mu * cost n a b x.
Proof.
  intros M Lb Lx Hn Hm y. set (N := ofZ (Z.of_nat n)). assert (PN : 0 < N) by now apply nat_pos. assert (NN : N <> 0) by (intros E; rewrite E in PN; discriminate).
  rewrite (cost_expand n a b x y Lb). set (Q2 := sm (length a) _). assert (HQ : Q2 <= frobenius2 n a * move2 n x y) by apply image_bound.
  assert (C : mu * sm n (fun j => correlation n a b x j * (at_ y j - at_ x j)) = N * move2 n x y).
  { unfold move2. rewrite <- !sm_scale. apply sm_ext. intros j Hj. unfold y. rewrite update_at by auto. unfold gradient_at. fold N. unfold sq. field. auto. }
  pose proof (Qcmult_le_compat_r _ _ mu HQ (Qclt_le_weak _ _ Hm)) as K.
  replace (mu * (cost n a b x - (1 + 1) * sm n (fun j => correlation n a b x j * (at_ y j - at_ x j)) + Q2)) with (mu * cost n a b x - (1 + 1) * (mu * sm n (fun j => correlation n a b x j * (at_ y j - at_ x j))) + Q2 * mu) by ring. rewrite C.
  replace (ofZ 2) with (1 + 1) by (apply Qc_is_canon; reflexivity).
  replace ((1 + 1) * (N * move2 n x y)) with ((1 + 1) * N * move2 n x y) by ring. replace (((1 + 1) * N - mu * frobenius2 n a) * move2 n x y) with ((1 + 1) * N * move2 n x y - frobenius2 n a * move2 n x y * mu) by ring.
  revert K. generalize (Q2 * mu) (frobenius2 n a * move2 n x y * mu) ((1 + 1) * N * move2 n x y) (mu * cost n a b x). intros. qlra.
Qed.
Lemma lasso_call omega0 n a b lambda mu tol steps : (0 < n)%nat -> (2 <= steps)%Z -> length b = length a ->
  let p := omega0 :: lasso_steps n a b lambda mu tol (Z.to_nat steps - 1) omega0 in
  lasso_regression_manual omega0 n a b lambda mu tol steps = Ok (nth (length p - 1) p [], ssr a (nth (length p - 1) p []) b, negb (Z.of_nat (length p) - 1 =? steps - 1)%Z, p).
Proof.
  intros Hn Hs L p. unfold lasso_regression_manual, broadcast1. rewrite (proj2 (Z.ltb_ge _ _)), (proj2 (Z.eqb_neq steps 0)), (proj2 (Z.eqb_neq steps 1)), (proj2 (Nat.eqb_neq n 0)) by lia.
  rewrite L, Nat.eqb_refl. cbn [bind]. fold p. now rewrite last_nth.
Qed.
(** The costs along the path without regularisation. *)
Lemma move2_nonneg n x y : 0 <= move2 n x y. Proof. apply sm_sq_nonneg. Qed.
Lemma sq_le_abs u t : 0 <= t -> t <= Qcabs u -> sq t <= sq u.
Proof.
  intros Ht H. replace (sq u) with (sq (Qcabs u)) by (unfold sq; destruct (abs_cases u) as [(_ & ->)|(_ & ->)]; ring). unfold sq.
  apply Qcle_trans with (Qcabs u * t); [apply Qcmult_le_compat_r; auto|]. rewrite Qcmult_comm. apply Qcmult_le_compat_r; auto. apply Qcabs_nonneg.
Qed.
Lemma not_close_move n tol x y : 0 <= tol -> ~ close n tol y x -> sq tol <= move2 n x y.
Proof.
  intros Ht NC. assert (E : exists j, (j < n)%nat /\ tol <= Qcabs (at_ y j - at_ x j)).
  { assert (D : forall k, (exists j, (j < k)%nat /\ tol <= Qcabs (at_ y j - at_ x j)) \/ close k tol y x).
    { induction k as [|k [(j & Hj & H)|IH]]; [right; intros j Hj; lia|left; exists j; split; auto; lia|]. destruct (Qclt_le_dec (Qcabs (at_ y k - at_ x k)) tol) as [H|H]; [right|left; exists k; split; auto; lia].
      intros j Hj. destruct (Nat.eq_dec j k) as [->|]; auto. apply IH. lia. }
    destruct (D n) as [?|C]; auto. contradiction. }
  destruct E as (j & Hj & H). apply Qcle_trans with (sq (at_ y j - at_ x j)); [now apply sq_le_abs|]. unfold move2.
  assert (K : sm n (fun i => if (i =? j)%nat then sq (at_ y i - at_ x i) else 0) = sq (at_ y j - at_ x j)) by (rewrite (sm_single n _ j Hj); [now rewrite Nat.eqb_refl|intros i _ N; now rewrite (proj2 (Nat.eqb_neq i j))]).
  rewrite <- K. apply sm_le. intros i _. destruct (i =? j)%nat; [apply Qcle_refl|apply sq_nonneg].
Qed.
Section Descent.
Variables (n : nat) (a : list (list Qc)) (b : list Qc) (mu tol : Qc) (p : list (list Qc)).
Hypothesis M : matrix (length a) n a.
Hypothesis Lb : length b = length a.
Hypothesis Hn : (0 < n)%nat.
Hypothesis Hm : 0 < mu.
Hypothesis Small : mu * frobenius2 n a <= ofZ 2 * ofZ (Z.of_nat n).
Hypothesis Fp : Forall (fun y => length y = n) p.
Hypothesis Step : forall t, (S t < length p)%nat -> nth (S t) p [] = lasso_update n a b 0 mu (nth t p []).
Hypothesis Far : forall t, (S (S t) < length p)%nat -> ~ close n tol (nth (S t) p []) (nth t p []).
Let slack := ofZ 2 * ofZ (Z.of_nat n) - mu * frobenius2 n a.
Lemma slack_nonneg : 0 <= slack. Proof. unfold slack. revert Small. generalize (mu * frobenius2 n a) (ofZ 2 * ofZ (Z.of_nat n)). intros. qlra. Qed.
Lemma path_len t : (t < length p)%nat -> length (nth t p []) = n. Proof. intros H. rewrite Forall_forall in Fp. apply Fp. now apply nth_In. Qed.
Lemma path_step t : (S t < length p)%nat -> mu * cost n a b (nth (S t) p []) + slack * move2 n (nth t p []) (nth (S t) p []) <= mu * cost n a b (nth t p []).
Proof. intros H. rewrite (Step t H). apply step_descent; auto. apply path_len. lia. Qed.
Lemma path_monotone t : (S t < length p)%nat -> cost n a b (nth (S t) p []) <= cost n a b (nth t p []).
Proof.
  intros H. pose proof (path_step t H) as K. assert (P : 0 <= slack * move2 n (nth t p []) (nth (S t) p [])) by (apply Qcmult_nonneg; [apply slack_nonneg|apply move2_nonneg]).
  assert (K2 : mu * cost n a b (nth (S t) p []) <= mu * cost n a b (nth t p [])) by (revert K P; generalize (slack * move2 n (nth t p []) (nth (S t) p [])) (mu * cost n a b (nth (S t) p [])) (mu * cost n a b (nth t p [])); intros; qlra).
  rewrite !(Qcmult_comm mu) in K2. now apply Qcmult_lt_0_le_reg_r in K2.
Qed.
Lemma path_sum t : 0 <= tol -> (S t < length p)%nat -> mu * cost n a b (nth t p []) + ofZ (Z.of_nat t) * (slack * sq tol) <= mu * cost n a b (nth 0 p []).
Proof.
  intros Ht. induction t as [|t IH]; intros H.
  - change (ofZ (Z.of_nat 0)) with 0. rewrite Qcmult_0_l, Qcplus_0_r. apply Qcle_refl.
  - specialize (IH ltac:(lia)). pose proof (path_step t ltac:(lia)) as K. pose proof (not_close_move n tol _ _ Ht (Far t H)) as Mv.
    pose proof (Qcmult_le_compat_r _ _ slack Mv slack_nonneg) as K2. rewrite (Qcmult_comm (move2 _ _ _)) in K2. rewrite (Qcmult_comm (sq tol)) in K2.
    rewrite Nat2Z.inj_succ, <- Z.add_1_r, ofZ_add. change (ofZ 1) with 1. replace ((ofZ (Z.of_nat t) + 1) * (slack * sq tol)) with (ofZ (Z.of_nat t) * (slack * sq tol) + slack * sq tol) by ring.
    revert IH K K2. generalize (ofZ (Z.of_nat t) * (slack * sq tol)) (slack * sq tol) (slack * move2 n (nth t p []) (nth (S t) p [])) (mu * cost n a b (nth (S t) p [])) (mu * cost n a b (nth t p [])) (mu * cost n a b (nth 0 p [])). intros. qlra.
Qed.
End Descent.
Lemma lasso_result omega0 n a b lambda mu tol steps x e r p : (0 < n)%nat -> (2 <= steps)%Z -> length b = length a ->
  lasso_regression_manual omega0 n a b lambda mu tol steps = Ok (x, e, r, p) ->
  p = omega0 :: lasso_steps n a b lambda mu tol (Z.to_nat steps - 1) omega0 /\ x = nth (length p - 1) p [] /\ r = negb (Z.of_nat (length p) - 1 =? steps - 1)%Z.
Proof. intros Hn Hs L E. rewrite lasso_call in E by auto. injection E as <- <- <- <-. auto. Qed.
