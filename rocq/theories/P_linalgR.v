(** Linear algebra over the reals for C86. *)
From Verif Require Import Py B_list M_estimfs.
From Coq Require Import Reals Lra Lia.
Open Scope R_scope.

Notation smR n f := (sumR (map f (seq 0 n))).
Notation atR := vec_atR.
Lemma sumR_app u v : sumR (u ++ v) = sumR u + sumR v.
Proof. unfold sumR. induction u as [|a u IH]; cbn [app fold_right]; [lra|rewrite IH; lra]. Qed.
Lemma smR_ext n f g : (forall k, (k < n)%nat -> f k = g k) -> smR n f = smR n g.
Proof. intros H. f_equal. apply map_ext_in. intros x Hx. apply in_seq in Hx. apply H. lia. Qed.
Lemma smR_S n f : smR (S n) f = smR n f + f n.
Proof. rewrite seq_S, map_app, sumR_app. cbn. lra. Qed.
Lemma smR_first n f : smR (S n) f = f 0%nat + smR n (fun k => f (S k)).
Proof. induction n as [|n IH]; [cbn; lra|]. rewrite smR_S, IH, (smR_S n (fun k => f (S k))). lra. Qed.
Lemma smR_add n f g : smR n (fun k => f k + g k) = smR n f + smR n g.
Proof. induction n as [|n IH]; [cbn; lra|]. rewrite !smR_S, IH. lra. Qed.
Lemma smR_scale n c f : smR n (fun k => c * f k) = c * smR n f.
Proof. induction n as [|n IH]; [cbn; lra|]. rewrite !smR_S, IH. lra. Qed.
Lemma smR_sub n f g : smR n (fun k => f k - g k) = smR n f - smR n g.
Proof. induction n as [|n IH]; [cbn; lra|]. rewrite !smR_S, IH. lra. Qed.
Lemma smR_0 n f : (forall k, (k < n)%nat -> f k = 0) -> smR n f = 0.
Proof. intros H. rewrite (smR_ext n f (fun k => 0 * 0)) by (intros; rewrite H; auto; ring). rewrite smR_scale. ring. Qed.
Lemma smR_swap m n (f : nat -> nat -> R) : smR m (fun i => smR n (fun j => f i j)) = smR n (fun j => smR m (fun i => f i j)).
Proof. induction m as [|m IH]; [symmetry; apply smR_0; reflexivity|]. rewrite smR_S, IH, <- smR_add. apply smR_ext. intros j _. now rewrite smR_S. Qed.
Lemma smR_sq_nonneg n f : 0 <= smR n (fun k => f k * f k).
Proof. induction n as [|n IH]; [cbn; lra|]. rewrite smR_S. nra. Qed.
Lemma smR_sq_zero n f : smR n (fun k => f k * f k) = 0 -> forall k, (k < n)%nat -> f k = 0.
Proof.
  induction n as [|n IH]; intros H k Hk; [lia|]. rewrite smR_S in H. pose proof (smR_sq_nonneg n f) as P.
  assert (f n * f n = 0) by nra. destruct (Nat.eq_dec k n) as [->|N]; [nra|]. apply IH; [nra|lia].
Qed.
Lemma dotR_at u v n : length u = n -> length v = n -> dotR u v = smR n (fun i => atR u i * atR v i).
Proof.
  revert v n. induction u as [|a u IH]; intros [|b v] n Lu Lv; cbn in Lu, Lv; subst n; try discriminate; [reflexivity|]. injection Lv as Lv.
  rewrite smR_first. unfold dotR in *. cbn [map2 sumR fold_right]. f_equal. exact (IH v (length u) eq_refl Lv).
Qed.
Lemma axpyR_length m u t v : length (axpyR m u t v) = m. Proof. unfold axpyR. now rewrite map_length, seq_length. Qed.
Lemma axpyR_at m u t v i : (i < m)%nat -> atR (axpyR m u t v) i = atR u i - t * atR v i.
Proof. intros H. unfold axpyR, atR at 1. now rewrite nth_map_seq. Qed.
Lemma combR_length m cols : forall x, length (combR m cols x) = m.
Proof. destruct cols; intros x; cbn [combR]; [apply repeat_length|apply axpyR_length]. Qed.
Lemma atR_tl x j : atR (tl x) j = atR x (S j). Proof. destruct x as [|a x]; cbn; auto. now destruct j. Qed.
Lemma combR_at m cols : forall x i, (i < m)%nat -> atR (combR m cols x) i = smR (length cols) (fun j => atR x j * atR (nth j cols []) i).
Proof.
  induction cols as [|a cols IH]; intros x i Hi; cbn [combR length].
  - unfold atR. rewrite nth_repeat. reflexivity.
  - rewrite axpyR_at, IH, smR_first by auto. cbn [nth]. rewrite (smR_ext _ (fun k => atR (tl x) k * _) (fun k => atR x (S k) * atR (nth k cols []) i)) by (intros; now rewrite atR_tl). ring.
Qed.
Lemma vecR_ext m u v : length u = m -> length v = m -> (forall i, (i < m)%nat -> atR u i = atR v i) -> u = v.
Proof. intros Lu Lv H. apply (nth_ext _ _ 0 0); [congruence|]. intros i Hi. apply H. lia. Qed.
Lemma dtR_comm m u v : dot_toR m u v = dot_toR m v u. Proof. apply smR_ext. intros; ring. Qed.
Lemma dtR_axpy m u t v w : dot_toR m (axpyR m u t v) w = dot_toR m u w - t * dot_toR m v w.
Proof. unfold dot_toR. rewrite <- smR_scale, <- smR_sub. apply smR_ext. intros i Hi. rewrite axpyR_at by auto. ring. Qed.
Lemma dtR_comb m cols x w : dot_toR m (combR m cols x) w = smR (length cols) (fun j => atR x j * dot_toR m (nth j cols []) w).
Proof.
  unfold dot_toR at 1. rewrite (smR_ext m _ (fun i => smR (length cols) (fun j => atR x j * (atR (nth j cols []) i * atR w i)))).
  - rewrite smR_swap. apply smR_ext. intros j _. now rewrite smR_scale.
  - intros i Hi. rewrite combR_at by auto. rewrite Rmult_comm, <- smR_scale. apply smR_ext. intros; ring.
Qed.
Lemma dtR_self_zero m u : dot_toR m u u = 0 -> forall i, (i < m)%nat -> atR u i = 0.
Proof. intros H. apply smR_sq_zero. exact H. Qed.
Lemma projectR_length m cols : forall b, length (projectR m cols b) = length cols.
Proof. induction cols as [|a cols IH]; intros b; cbn [projectR length]; auto. Qed.
(** The residual is orthogonal to every column. *)
Lemma projectR_orth m cols : forall b j, (j < length cols)%nat -> dot_toR m (axpyR m b 1 (combR m cols (projectR m cols b))) (nth j cols []) = 0.
Proof.
  induction cols as [|a cols IH]; intros b j Hj; [cbn in Hj; lia|].
  cbn [projectR]. set (ra := axpyR m a 1 (combR m cols (projectR m cols a))). set (t := if Req_EM_T (dot_toR m ra ra) 0 then 0 else dot_toR m b ra / dot_toR m ra ra).
  cbn [combR tl]. set (y := projectR m cols (axpyR m b t a)). set (b' := axpyR m b t a). set (r' := axpyR m b' 1 (combR m cols y)).
  assert (Er : forall w, dot_toR m (axpyR m b 1 (axpyR m (combR m cols y) (- atR (t :: y) 0) a)) w = dot_toR m r' w).
  { intros w. unfold r', b'. rewrite !dtR_axpy. unfold atR. cbn [nth]. ring. }
  rewrite Er. assert (O : forall k, (k < length cols)%nat -> dot_toR m r' (nth k cols []) = 0) by (intros k Hk; apply IH; auto).
  destruct j as [|j]; cbn [nth]; [|apply O; cbn in Hj; lia].
  assert (OC : forall x u, (forall k, (k < length cols)%nat -> dot_toR m u (nth k cols []) = 0) -> dot_toR m u (combR m cols x) = 0).
  { intros x u Hu. rewrite dtR_comm, dtR_comb. apply smR_0. intros k Hk. rewrite dtR_comm, Hu by auto. ring. }
  assert (Ea : dot_toR m r' a = dot_toR m r' ra). { unfold ra. rewrite (dtR_comm m r' (axpyR _ _ _ _)), dtR_axpy, (dtR_comm m (combR _ _ _)), OC by exact O. rewrite (dtR_comm m a). ring. }
  rewrite Ea. unfold r' at 1. rewrite dtR_axpy. assert (Ra : forall k, (k < length cols)%nat -> dot_toR m ra (nth k cols []) = 0) by (intros k Hk; apply IH; auto).
  rewrite (dtR_comm m (combR _ _ _) ra), OC by exact Ra. unfold b'. rewrite dtR_axpy.
  assert (Eaa : dot_toR m a ra = dot_toR m ra ra). { unfold ra at 2. rewrite dtR_axpy, (dtR_comm m (combR _ _ _) ra), OC by exact Ra. ring. }
  rewrite Eaa. unfold t. destruct (Req_EM_T (dot_toR m ra ra) 0) as [E|N].
  - rewrite dtR_comm. unfold dot_toR at 1. rewrite smR_0; [ring|]. intros k Hk. rewrite (dtR_self_zero m ra E k Hk). ring.
  - field. exact N.
Qed.
Lemma rankR_le m cols : (rankR m cols <= length cols)%nat.
Proof. induction cols as [|a cols IH]; cbn [rankR length]; [lia|]. destruct (Req_EM_T _ _); lia. Qed.
Lemma rankR_full m cols : rankR m cols = length cols -> forall x, length x = length cols -> (forall i, (i < m)%nat -> atR (combR m cols x) i = 0) -> x = repeat 0 (length cols).
Proof.
  induction cols as [|a cols IH]. { cbn [length repeat]. intros _ [|] L _; [auto|discriminate]. }
  cbn [rankR length repeat]. set (p := projectR m cols a). set (ra := axpyR m a 1 (combR m cols p)). pose proof (projectR_orth m cols a) as O. fold p ra in O. pose proof (rankR_le m cols) as RL.
  intros E [|x0 xs] Lx Hz; [discriminate|]. injection Lx as Lx. destruct (Req_EM_T (dot_toR m ra ra) 0) as [|Nz]; [lia|].
  assert (Ec : forall i, (i < m)%nat -> atR (combR m cols xs) i + x0 * atR a i = 0). { intros i Hi. rewrite <- (Hz i Hi). cbn [combR tl]. rewrite axpyR_at by auto. unfold atR. cbn [nth]. ring. }
  assert (D0 : forall y, dot_toR m (combR m cols y) ra = 0). { intros y. rewrite dtR_comb. apply smR_0. intros j Hj. rewrite dtR_comm, O by auto. ring. }
  assert (Da : dot_toR m a ra = dot_toR m ra ra). { unfold ra at 2. rewrite dtR_axpy, D0. ring. }
  assert (Zx : x0 = 0).
  { assert (T : x0 * dot_toR m ra ra = 0).
    { rewrite <- Da. transitivity (dot_toR m (combR m cols xs) ra + x0 * dot_toR m a ra); [rewrite D0; ring|]. unfold dot_toR. rewrite <- smR_scale, <- smR_add. apply smR_0.
      intros i Hi. transitivity ((atR (combR m cols xs) i + x0 * atR a i) * atR ra i); [ring|rewrite Ec by auto; ring]. }
    apply Rmult_integral in T. tauto. }
  subst x0. f_equal. apply IH; [lia|auto|]. intros i Hi. rewrite <- (Ec i Hi). ring.
Qed.

(** * Scaling *)
Definition sc (k : R) (l : list R) : list R := map (fun v => k * v) l.
Lemma sc_length k l : length (sc k l) = length l. Proof. apply map_length. Qed.
Lemma sc_at k l i : atR (sc k l) i = k * atR l i.
Proof. unfold atR, sc. destruct (Nat.lt_ge_cases i (length l)) as [H|H]; [now rewrite (map_nth_lt _ l i 0)|]. rewrite !nth_overflow by (rewrite ?map_length; auto). ring. Qed.
Lemma sc_sc k j l : sc k (sc j l) = sc (k * j) l. Proof. unfold sc. rewrite map_map. apply map_ext. intros; ring. Qed.
Lemma sc_1 l : sc 1 l = l. Proof. unfold sc. rewrite <- (map_id l) at 2. apply map_ext. intros; ring. Qed.
Lemma sumR_sc k l : sumR (sc k l) = k * sumR l.
Proof. unfold sumR, sc. induction l as [|a l IH]; cbn [map fold_right]; [ring|]. rewrite IH. ring. Qed.
Lemma axpyR_ext m u t v u' t' v' k : (forall i, (i < m)%nat -> atR u' i - t' * atR v' i = k * (atR u i - t * atR v i)) -> axpyR m u' t' v' = sc k (axpyR m u t v).
Proof. intros H. apply (vecR_ext m); [apply axpyR_length|now rewrite sc_length, axpyR_length|]. intros i Hi. rewrite sc_at, !axpyR_at by auto. auto. Qed.
(** Right hand sides and solutions. *)
Lemma projectR_sc m cols k : forall b b', (forall i, (i < m)%nat -> atR b' i = k * atR b i) -> projectR m cols b' = sc k (projectR m cols b).
Proof.
  induction cols as [|a cols IH]; intros b b' H; cbn [projectR sc map]; auto. set (ra := axpyR m a 1 _).
  assert (Ed : dot_toR m b' ra = k * dot_toR m b ra). { unfold dot_toR. rewrite <- smR_scale. apply smR_ext. intros i Hi. rewrite H by auto. ring. }
  assert (Et : (if Req_EM_T (dot_toR m ra ra) 0 then 0 else dot_toR m b' ra / dot_toR m ra ra) = k * (if Req_EM_T (dot_toR m ra ra) 0 then 0 else dot_toR m b ra / dot_toR m ra ra)).
  { destruct (Req_EM_T _ _); [ring|]. rewrite Ed. field. auto. }
  rewrite Et. f_equal. apply IH. intros i Hi. rewrite !axpyR_at, H by auto. ring.
Qed.
Lemma combR_sc m cols k x : combR m cols (sc k x) = sc k (combR m cols x).
Proof. apply (vecR_ext m); [apply combR_length|now rewrite sc_length, combR_length|]. intros i Hi. rewrite sc_at, !combR_at by auto. rewrite <- smR_scale. apply smR_ext. intros j _. rewrite sc_at. ring. Qed.
(** Columns scaled by factors [ds]. *)
Definition scs (ds : list R) (cols : list (list R)) : list (list R) := map2 sc ds cols.
Definition divs (ds : list R) (x : list R) : list R := map2 (fun d v => v / d) ds x.
Lemma combR_scs m cols : forall ds x, length ds = length cols -> length x = length cols -> Forall (fun d => d <> 0) ds -> combR m (scs ds cols) (divs ds x) = combR m cols x.
Proof.
  induction cols as [|a cols IH]; intros [|d ds] [|y x] Ld Lx F; try discriminate; auto. injection Ld as Ld. injection Lx as Lx. inversion F; subst. unfold scs, divs. cbn [map2 combR tl].
  fold (scs ds cols). fold (divs ds x). rewrite IH by auto. rewrite <- (sc_1 (axpyR m (combR m cols x) _ a)). apply axpyR_ext. intros i Hi. unfold atR at 2 5. cbn [nth]. rewrite sc_at. field. auto.
Qed.
Lemma divs_sc ds k x : divs ds (sc k x) = sc k (divs ds x).
Proof. revert x. induction ds as [|d ds IH]; intros [|y x]; cbn; auto. unfold divs, sc in *. cbn [map map2]. rewrite IH. f_equal. unfold Rdiv. ring. Qed.
Lemma divs_length ds x : length ds = length x -> length (divs ds x) = length x.
Proof. revert x. induction ds as [|d ds IH]; intros [|y x] H; cbn in *; auto; discriminate. Qed.
Lemma scs_length ds x : length ds = length x -> length (scs ds x) = length x.
Proof. revert x. induction ds as [|d ds IH]; intros [|y x] H; cbn in *; auto; discriminate. Qed.
Lemma projectR_scs m cols : forall ds b, length ds = length cols -> Forall (fun d => d <> 0) ds -> projectR m (scs ds cols) b = divs ds (projectR m cols b).
Proof.
  induction cols as [|a cols IH]; intros [|d ds] b Ld F; try discriminate; auto. injection Ld as Ld. inversion F; subst. unfold scs. cbn [map2]. fold (scs ds cols). cbn [projectR].
  assert (Era : axpyR m (sc d a) 1 (combR m (scs ds cols) (projectR m (scs ds cols) (sc d a))) = sc d (axpyR m a 1 (combR m cols (projectR m cols a)))).
  { rewrite IH by auto. rewrite (projectR_sc m cols d a (sc d a)) by (intros; apply sc_at). rewrite divs_sc, combR_sc, combR_scs by (rewrite ?projectR_length; auto). apply axpyR_ext. intros i Hi. rewrite !sc_at. ring. }
  rewrite Era. set (ra := axpyR m a 1 _). assert (D2 : dot_toR m (sc d ra) (sc d ra) = d * d * dot_toR m ra ra) by (unfold dot_toR; rewrite <- smR_scale; apply smR_ext; intros; rewrite !sc_at; ring).
  assert (D1 : dot_toR m b (sc d ra) = d * dot_toR m b ra) by (unfold dot_toR; rewrite <- smR_scale; apply smR_ext; intros; rewrite !sc_at; ring).
  assert (Et : (if Req_EM_T (dot_toR m (sc d ra) (sc d ra)) 0 then 0 else dot_toR m b (sc d ra) / dot_toR m (sc d ra) (sc d ra)) = (if Req_EM_T (dot_toR m ra ra) 0 then 0 else dot_toR m b ra / dot_toR m ra ra) / d).
  { rewrite D2, D1. destruct (Req_EM_T (d * d * dot_toR m ra ra) 0) as [Z|Z], (Req_EM_T (dot_toR m ra ra) 0) as [Z'|Z']; [field; auto| | |field; auto].
    - exfalso. apply Z'. apply Rmult_integral in Z as [Z|Z]; auto. apply Rmult_integral in Z. tauto.
    - exfalso. apply Z. rewrite Z'. ring. }
  rewrite Et. unfold divs. cbn [map2]. rewrite IH by auto. unfold divs. f_equal. f_equal. rewrite <- (sc_1 (axpyR m b _ a)). f_equal. apply axpyR_ext. intros i Hi. rewrite sc_at. field. auto.
Qed.
Lemma rankR_scs m cols : forall ds, length ds = length cols -> Forall (fun d => d <> 0) ds -> rankR m (scs ds cols) = rankR m cols.
Proof.
  induction cols as [|a cols IH]; intros [|d ds] Ld F; try discriminate; auto. injection Ld as Ld. inversion F; subst. unfold scs. cbn [map2]. fold (scs ds cols). cbn [rankR].
  assert (Era : axpyR m (sc d a) 1 (combR m (scs ds cols) (projectR m (scs ds cols) (sc d a))) = sc d (axpyR m a 1 (combR m cols (projectR m cols a)))).
  { rewrite projectR_scs by auto. rewrite (projectR_sc m cols d a (sc d a)) by (intros; apply sc_at). rewrite divs_sc, combR_sc, combR_scs by (rewrite ?projectR_length; auto). apply axpyR_ext. intros i Hi. rewrite !sc_at. ring. }
  rewrite Era, IH by auto. f_equal. set (ra := axpyR m a 1 _). assert (D2 : dot_toR m (sc d ra) (sc d ra) = d * d * dot_toR m ra ra) by (unfold dot_toR; rewrite <- smR_scale; apply smR_ext; intros; rewrite !sc_at; ring).
  rewrite D2. destruct (Req_EM_T (d * d * dot_toR m ra ra) 0) as [Z|Z], (Req_EM_T (dot_toR m ra ra) 0) as [Z'|Z']; auto; exfalso.
  - apply Z'. apply Rmult_integral in Z as [Z|Z]; auto. apply Rmult_integral in Z. tauto.
  - apply Z. rewrite Z'. ring.
Qed.
