(** Proofs about the LMS gradients and the Mueller-Muller step. *)
From Verif Require Import Py B_list PyQ B_qc M_slicer P_slicer M_filter P_filter P_eq P_coding M_lms S_lms.
From Coq Require Import Lqa.
Open Scope Z_scope.
Ltac Zify.zify_post_hook ::= Z.div_mod_to_equations.

Lemma filter_all {A} (f : A -> bool) l : (forall x, In x l -> f x = true) -> filter f l = l.
Proof. induction l as [|a l IH]; intros H; cbn [filter]; auto. rewrite H by now left. f_equal. apply IH. intros x I. apply H. now right. Qed.
Lemma filter_no {A} (f : A -> bool) l : (forall x, In x l -> f x = false) -> filter f l = [].
Proof. induction l as [|a l IH]; intros H; cbn [filter]; auto. rewrite H by now left. apply IH. intros x I. apply H. now right. Qed.
Lemma seq_offset a n : seq a n = map (fun k => (a + k)%nat) (seq 0 n).
Proof. apply (nth_ext_def 0%nat); [now rewrite map_length, !seq_length|]. intros i Hi. rewrite seq_length in Hi. rewrite nth_map_seq by auto. rewrite seq_nth by auto. lia. Qed.
Lemma filter_interval n a b : 0 <= a -> b <= Z.of_nat n -> filter (fun m => (a <=? m) && (m <? b)) (map Z.of_nat (seq 0 n)) = map (fun k => a + Z.of_nat k) (seq 0 (Z.to_nat (b - a))).
Proof.
  intros Ha Hb. destruct (Z.le_gt_cases b a).
  - replace (Z.to_nat (b - a)) with 0%nat by lia. cbn [seq map]. apply filter_no. intros x _. lia.
  - replace n with (Z.to_nat a + (Z.to_nat (b - a) + (n - Z.to_nat b)))%nat by lia. rewrite !seq_app, !map_app, !filter_app.
    rewrite (filter_no _ (map _ (seq 0 (Z.to_nat a)))), (filter_all _ (map _ (seq (0 + Z.to_nat a) _))), (filter_no _ (map _ (seq (0 + Z.to_nat a + _) _))).
    + cbn [app]. rewrite app_nil_r. rewrite (seq_offset (0 + Z.to_nat a)), map_map. apply map_ext. intros. lia.
    + intros x I. apply in_map_iff in I as (k & <- & I). apply in_seq in I. lia.
    + intros x I. apply in_map_iff in I as (k & <- & I). apply in_seq in I. lia.
    + intros x I. apply in_map_iff in I as (k & <- & I). apply in_seq in I. lia.
Qed.

Lemma arange_one a b : arange a b 1 = Ok (map (fun k => a + Z.of_nat k) (seq 0 (Z.to_nat (b - a)))).
Proof. unfold arange. cbn [Z.eqb]. f_equal. replace (Z.to_nat _) with (Z.to_nat (b - a)) by (rewrite Z.div_1_r; lia). apply map_ext. intros. lia. Qed.
Lemma overlap_interval n i : overlap n i = map (fun k => Z.max 0 i + Z.of_nat k) (seq 0 (Z.to_nat (Z.min (Z.of_nat n) (Z.of_nat n + i) - Z.max 0 i))).
Proof.
  rewrite <- (filter_interval n) by lia. apply filter_ext_in. intros m I. apply in_map_iff in I as (k & <- & I). apply in_seq in I. lia.
Qed.
Lemma overlap_In n i m : In m (overlap n i) <-> 0 <= m < Z.of_nat n /\ 0 <= m - i < Z.of_nat n.
Proof.
  unfold overlap. rewrite filter_In, in_map_iff. split.
  - intros [(k & <- & I) H]. apply in_seq in I. lia.
  - intros H. split; [exists (Z.to_nat m); rewrite in_seq; lia|lia].
Qed.
Lemma signal_nth l k : 0 <= k < Z.of_nat (length l) -> signal l k = nth (Z.to_nat k) l 0%Qc.
Proof. intros H. unfold signal. replace (_ && _) with true by lia. reflexivity. Qed.
Lemma signal_nat l k : signal l (Z.of_nat k) = nth k l 0%Qc.
Proof. unfold signal. rewrite Nat2Z.id. destruct (Nat.lt_ge_cases k (length l)); [replace (_ && _) with true by lia; auto|]. replace (_ && _) with false by lia. now rewrite nth_overflow. Qed.
Lemma signal_out l k : k < 0 \/ Z.of_nat (length l) <= k -> signal l k = 0%Qc.
Proof. intros H. unfold signal. replace (_ && _) with false by lia. reflexivity. Qed.

(** The two loops over any type of samples. *)
Section Taps.
  Context {A : Type} (mul : A -> A -> A) (mean : list A -> option A) (hf mh : A -> A) (d : A).
  Definition sig (l : list A) (k : Z) := nth (Z.to_nat k) l d.
  Lemma map2_map (f : A -> A -> A) (g h : Z -> A) M : map2 f (map g M) (map h M) = map (fun m => f (g m) (h m)) M.
  Proof. induction M; cbn [map map2]; auto. now rewrite IHM. Qed.
  Lemma take_mul (e x : list A) i M : Forall (fun m => 0 <= m < Z.of_nat (length e) /\ 0 <= m - i < Z.of_nat (length x)) M ->
    (e' <- np_take e M ;; x' <- np_take x (map (fun m => m - i) M) ;; p <- np_mul mul e' x' ;; Ok p) = Ok (map (fun m => mul (sig e m) (sig x (m - i))) M).
  Proof.
    intros F. rewrite (np_take_map _ d) by (eapply Forall_impl; [|exact F]; cbn; tauto). cbn [bind].
    rewrite (np_take_map _ d) by (rewrite Forall_map; eapply Forall_impl; [|exact F]; cbn; tauto). cbn [bind].
    unfold np_mul. rewrite !map_length, Nat.eqb_refl. cbn [bind]. now rewrite map_map, map2_map.
  Qed.
  Lemma ffe_tap n (x e : list A) i : length x = n -> (n <= length e)%nat ->
    grad_ffe_tap mul mean hf n x e i = Ok (option_map hf (mean (map (fun m => mul (sig e m) (sig x (m - i))) (overlap n i)))).
  Proof.
    intros Lx Le. unfold grad_ffe_tap. rewrite arange_one, <- overlap_interval. cbn [bind].
    assert (F : Forall (fun m => 0 <= m < Z.of_nat (length e) /\ 0 <= m - i < Z.of_nat (length x)) (overlap n i)) by (apply Forall_forall; intros m I; apply overlap_In in I; lia).
    pose proof (take_mul e x i _ F) as T. destruct (np_take e _); cbn [bind] in *; [|discriminate]. destruct (np_take x _); cbn [bind] in *; [|discriminate].
    destruct (np_mul mul _ _); cbn [bind] in *; [|discriminate]. injection T as ->. reflexivity.
  Qed.
  Lemma dfe_tap n (r e : list A) j : (n <= length r)%nat -> (n <= length e)%nat -> 0 <= j ->
    grad_dfe_tap mul mean mh n r e j = Ok (option_map mh (mean (map (fun m => mul (sig e m) (sig r (m - j))) (overlap n j)))).
  Proof.
    intros Lx Le Hj. unfold grad_dfe_tap. rewrite arange_one. cbn [bind].
    replace (map _ _) with (overlap n j) by (rewrite overlap_interval, Z.max_r, Z.min_l by lia; reflexivity).
    assert (F : Forall (fun m => 0 <= m < Z.of_nat (length e) /\ 0 <= m - j < Z.of_nat (length r)) (overlap n j)) by (apply Forall_forall; intros m I; apply overlap_In in I; lia).
    pose proof (take_mul e r j _ F) as T. destruct (np_take e _); cbn [bind] in *; [|discriminate]. destruct (np_take r _); cbn [bind] in *; [|discriminate].
    destruct (np_mul mul _ _); cbn [bind] in *; [|discriminate]. injection T as ->. reflexivity.
  Qed.
End Taps.

Lemma sum_quadratic (e x : Z -> Qc) d M : sumQ (map (fun m => (e m + d * x m) * (e m + d * x m))%Qc M) =
  (sumQ (map (fun m => e m * e m)%Qc M) + d * (ofZ 2 * sumQ (map (fun m => e m * x m)%Qc M)) + d * d * sumQ (map (fun m => x m * x m)%Qc M))%Qc.
Proof.
  rewrite <- !sumQ_map_scale, <- !sumQ_map_add. apply sumQ_map_ext. intros m _. change (ofZ 2) with (1 + 1)%Qc. ring.
Qed.
Lemma ofZ_pos_neq n : (0 < n)%nat -> ofZ (Z.of_nat n) <> 0%Qc.
Proof. intros H E. change 0%Qc with (ofZ 0) in E. apply ofZ_inj in E. lia. Qed.
Lemma quadratic_derivative (e x : Z -> Qc) (L : nat) M : (0 < L)%nat ->
  derivative_at_zero (fun d => sumQ (map (fun m => (e m + d * x m) * (e m + d * x m))%Qc M) / ofZ (Z.of_nat L))%Qc (ofZ 2 * (sumQ (map (fun m => e m * x m)%Qc M) / ofZ (Z.of_nat L)))%Qc.
Proof.
  intros H. pose proof (ofZ_pos_neq L H). exists (sumQ (map (fun m => x m * x m)%Qc M) / ofZ (Z.of_nat L))%Qc. intros d.
  rewrite !sum_quadratic. field. auto.
Qed.
Lemma derivative_ext f g v : (forall d, f d = g d) -> derivative_at_zero f v -> derivative_at_zero g v.
Proof. intros E (c & H). exists c. intros d. now rewrite <- !E. Qed.
(** The derivative is determined by the function. *)
Lemma derivative_unique f v w : derivative_at_zero f v -> derivative_at_zero f w -> v = w.
Proof.
  intros (c & H) (c' & H'). pose proof (H 1%Qc) as A. pose proof (H (-(1))%Qc) as B. pose proof (H' 1%Qc) as A'. pose proof (H' (-(1))%Qc) as B'.
  rewrite A in A'. rewrite B in B'. clear - A' B'. ring_simplify in A'. ring_simplify in B'. qlra.
Qed.
Lemma taps_bump idx : forall c y m p d, length c = length idx -> (p < length idx)%nat ->
  taps_output idx (bump p d c) y m = (taps_output idx c y m + d * signal y (m - nth p idx 0%Z))%Qc.
Proof.
  induction idx as [|i idx IH]; intros c y m p d L Hp; cbn [length] in *; [lia|]. destruct c as [|v c]; [discriminate|]. cbn [length] in L.
  unfold taps_output in *. destruct p as [|p]; cbn [bump map2 nth]; rewrite !sumQ_cons; [ring|]. rewrite IH by lia. ring.
Qed.
Lemma sumQ_filter {A} (f : A -> Qc) (p : A -> bool) l : (forall x, In x l -> p x = false -> f x = 0%Qc) -> sumQ (map f l) = sumQ (map f (filter p l)).
Proof.
  induction l as [|a l IH]; intros H; cbn [filter map]; auto. rewrite sumQ_cons, IH by (intros x I; apply H; now right).
  destruct (p a) eqn:E; cbn [map]; [now rewrite sumQ_cons|]. rewrite H by (auto; now left). ring.
Qed.
Lemma overlap_sum N i (e past : list Qc) : length past = N ->
  sumQ (map (fun m => signal e m * signal past (m - i))%Qc (instants N)) = sumQ (map (fun m => signal e m * signal past (m - i))%Qc (overlap N i)).
Proof.
  intros L. apply sumQ_filter. intros m I E. rewrite (signal_out past (m - i)) by lia. ring.
Qed.
Lemma squared_error_family N M (F : Qc -> Z -> Qc) ref e past i s : (forall m, In m M -> 0 <= m < Z.of_nat N) ->
  (forall d m, 0 <= m < Z.of_nat N -> (F d m - signal ref m = signal e m + d * (s * signal past (m - i)))%Qc) -> M <> [] ->
  derivative_at_zero (fun d => squared_error M (F d) ref) (ofZ 2 * (sumQ (map (fun m => signal e m * (s * signal past (m - i)))%Qc M) / ofZ (Z.of_nat (length M)))).
Proof.
  intros HM HF Ne. eapply derivative_ext; [|apply (quadratic_derivative (signal e) (fun m => s * signal past (m - i))%Qc (length M) M); destruct M; [congruence|cbn; lia]].
  intros d. unfold squared_error, meanQ. rewrite map_length. f_equal. apply sumQ_map_ext. intros m I. rewrite HF by auto. ring.
Qed.
Lemma overlap_signal N i (e past : list Qc) : length e = N -> length past = N ->
  map (fun m => sig 0 e m * sig 0 past (m - i))%Qc (overlap N i) = map (fun m => signal e m * signal past (m - i))%Qc (overlap N i).
Proof. intros Le Lp. apply map_ext_in. intros m I. apply overlap_In in I. unfold sig. now rewrite !signal_nth by lia. Qed.
Lemma gradient_spec N i (F : Qc -> Z -> Qc) ref e past s : length e = N -> length past = N ->
  (forall d m, 0 <= m < Z.of_nat N -> (F d m - signal ref m = signal e m + d * (s * signal past (m - i)))%Qc) ->
  is_gradient N i F ref (option_map (fun m => s * half * m)%Qc (np_mean (map (fun m => sig 0 e m * sig 0 past (m - i))%Qc (overlap N i)))).
Proof.
  intros Le Lp HF. unfold is_gradient. rewrite overlap_signal by auto. destruct (overlap N i) as [|m0 M0] eqn:E; [reflexivity|]. rewrite <- E.
  assert (Ne : overlap N i <> []) by congruence. assert (P : (0 < length (overlap N i))%nat) by (rewrite E; cbn; lia).
  assert (HN : (0 < N)%nat) by (destruct N; [discriminate|lia]).
  assert (Ni : instants N <> []) by (destruct N; [lia|discriminate]).
  set (X := map _ (overlap N i)). assert (EX : np_mean X = Some (meanQ X)) by (unfold X; rewrite E; reflexivity). rewrite EX. cbn [option_map].
  exists (s * half * meanQ X)%Qc. split; auto.
  assert (S1 : forall M, sumQ (map (fun m => signal e m * (s * signal past (m - i)))%Qc M) = (s * sumQ (map (fun m => signal e m * signal past (m - i))%Qc M))%Qc).
  { intros M. rewrite <- sumQ_map_scale. apply sumQ_map_ext. intros. ring. }
  assert (H4 : (ofZ 4 * half = ofZ 2)%Qc) by qcompute.
  pose proof (ofZ_pos_neq _ P) as Q1. pose proof (ofZ_pos_neq _ HN) as Q2. split.
  - pose proof (squared_error_family N (overlap N i) F ref e past i s) as D. rewrite S1 in D. fold X in D.
    replace (ofZ 4 * (s * half * meanQ X))%Qc with (ofZ 2 * (s * sumQ X / ofZ (Z.of_nat (length (overlap N i)))))%Qc.
    + apply D; auto. intros m I. apply overlap_In in I. lia.
    + rewrite <- H4. unfold meanQ, X. rewrite map_length. field. auto.
  - pose proof (squared_error_family N (instants N) F ref e past i s) as D. rewrite S1, overlap_sum in D by auto. fold X in D.
    unfold instants in D at 4. rewrite map_length, seq_length in D.
    replace (ofZ 4 * (s * half * meanQ X) * _ / _)%Qc with (ofZ 2 * (s * sumQ X / ofZ (Z.of_nat N)))%Qc.
    + apply D; auto. intros m I. apply in_map_iff in I as (k & <- & I). apply in_seq in I. lia.
    + rewrite <- H4. unfold meanQ, X. rewrite map_length. field. auto.
Qed.
Lemma np_sub_signal out ref m : length out = length ref -> signal (map2 Qcminus out ref) m = (signal out m - signal ref m)%Qc.
Proof.
  intros L. unfold signal. rewrite map2_length, <- L, Nat.min_id. destruct (_ && _) eqn:E; [|ring]. rewrite (map2_nth _ _ _ _ 0%Qc 0%Qc 0%Qc) by lia. reflexivity.
Qed.
Lemma ddlms_eq y out ref levels fi di : length out = length ref -> length y = length ref -> Forall (fun j => 0 <= j) di ->
  ddlms_grad y out levels fi di (Some ref) =
  Ok (return_function (np_mean (map (fun e => e * e)%Qc (map2 Qcminus out ref)))
    (map (fun i => option_map (fun m => half * m)%Qc (np_mean (map (fun m => sig 0 (map2 Qcminus out ref) m * sig 0 y (m - i))%Qc (overlap (length ref) i)))) fi)
    (map (fun i => option_map (fun m => - half * m)%Qc (np_mean (map (fun m => sig 0 (map2 Qcminus out ref) m * sig 0 ref (m - i))%Qc (overlap (length ref) i)))) di)
    (length fi) (length di)).
Proof.
  intros Lo Ly Fd. unfold ddlms_grad. rewrite Lo, Nat.eqb_refl. cbn [negb bind]. unfold np_sub. rewrite Lo, Nat.eqb_refl. cbn [bind].
  assert (Le : length (map2 Qcminus out ref) = length ref) by (rewrite map2_length; lia).
  unfold compute_derivatives. rewrite Ly.
  rewrite (map_res_ok _ (fun i => option_map (fun m => half * m)%Qc (np_mean (map (fun m => sig 0 (map2 Qcminus out ref) m * sig 0 y (m - i))%Qc (overlap (length ref) i)))));
    [|intros i _; apply (ffe_tap _ _ _ (fun x => x)); [exact Ly|rewrite Le; apply Nat.le_refl]]. cbn [bind].
  rewrite (map_res_ok _ (fun i => option_map (fun m => - half * m)%Qc (np_mean (map (fun m => sig 0 (map2 Qcminus out ref) m * sig 0 ref (m - i))%Qc (overlap (length ref) i)))));
    [|intros j Hj; rewrite Forall_forall in Fd; apply (dfe_tap _ _ (fun x => x)); [apply Nat.le_refl|rewrite Le; apply Nat.le_refl|now apply Fd]]. reflexivity.
Qed.

Lemma slice_to_m1 {A} (l : list A) : slice_to l (-1) = firstn (length l - 1) l.
Proof. exact (slice_to_neg l 1 ltac:(lia)). Qed.
Lemma tl_nth {A} (l : list A) i d : nth i (tl l) d = nth (S i) l d.
Proof. destruct l; [now destruct i|reflexivity]. Qed.
Lemma tl_length {A} (l : list A) : length (tl l) = (length l - 1)%nat.
Proof. destruct l; cbn [tl length]; lia. Qed.
Lemma instants_map (f : Z -> Qc) n : map f (instants n) = map (fun k => f (Z.of_nat k)) (seq 0 n).
Proof. unfold instants. now rewrite map_map. Qed.
Lemma mm_eq s r pw qw tol : length s = length r -> (2 <= length r)%nat ->
  mueller_muller_step s r pw qw tol = let d := (postcursor s r * qw - precursor s r * pw)%Qc in Ok (Some (if Qcltb (Qcabs d) tol then 0 else np_sign d)).
Proof.
  intros L H. unfold mueller_muller_step. rewrite !slice_to_m1, L.
  rewrite !np_dot_ok by (rewrite tl_length, firstn_length; lia). cbn [bind].
  replace (length r =? 1)%nat with false by (symmetry; apply Nat.eqb_neq; lia).
  assert (E1 : dotQ (tl r) (firstn (length r - 1) s) = sumQ (map (fun n => signal r (n + 1) * signal s n)%Qc (instants (length r - 1)))).
  { rewrite dotQ_sum by (rewrite tl_length, firstn_length; lia). rewrite instants_map, tl_length. apply sumQ_map_ext. intros k I. apply in_seq in I.
    rewrite tl_nth, nth_firstn by lia. replace (Z.of_nat k + 1) with (Z.of_nat (S k)) by lia. rewrite !signal_nat. reflexivity. }
  assert (E2 : dotQ (firstn (length r - 1) r) (tl s) = sumQ (map (fun n => signal r n * signal s (n + 1))%Qc (instants (length r - 1)))).
  { rewrite dotQ_sum by (rewrite tl_length, firstn_length; lia). rewrite instants_map, firstn_length, Nat.min_l by lia. apply sumQ_map_ext. intros k I. apply in_seq in I.
    rewrite tl_nth, nth_firstn by lia. replace (Z.of_nat k + 1) with (Z.of_nat (S k)) by lia. rewrite !signal_nat. reflexivity. }
  rewrite E1, E2. fold (precursor s r) (postcursor s r). cbv zeta. destruct (Qcltb _ _); reflexivity.
Qed.
Lemma np_sign_opp x : np_sign (- x)%Qc = - np_sign x.
Proof.
  unfold np_sign. destruct (Qcltb 0 (-x)) eqn:A, (Qcltb (-x) 0) eqn:B, (Qcltb 0 x) eqn:C, (Qcltb x 0) eqn:D; try reflexivity; exfalso;
    rewrite ?Qcltb_spec, ?Qcltb_false in *; qlra.
Qed.
Lemma rev_post s r : length s = length r -> (2 <= length r)%nat -> postcursor (rev s) (rev r) = precursor s r.
Proof.
  intros L H. unfold postcursor, precursor. rewrite rev_length. f_equal. rewrite !instants_map.
  rewrite (sumQ_rev (fun k => signal r (Z.of_nat k + 1) * signal s (Z.of_nat k))%Qc). apply sumQ_map_ext. intros k I. apply in_seq in I.
  replace (Z.of_nat k + 1) with (Z.of_nat (S k)) by lia. replace (Z.of_nat (length r - 1 - 1 - k) + 1) with (Z.of_nat (length r - 1 - k)) by lia.
  rewrite !signal_nat, !rev_nth by lia. f_equal; f_equal; lia.
Qed.
Lemma rev_pre s r : length s = length r -> (2 <= length r)%nat -> precursor (rev s) (rev r) = postcursor s r.
Proof. intros L H. rewrite <- (rev_involutive s) at 2. rewrite <- (rev_involutive r) at 2. rewrite rev_post; rewrite ?rev_length; auto. Qed.
Lemma signal_opp l k : signal (map Qcopp l) k = (- signal l k)%Qc.
Proof. unfold signal. rewrite map_length. destruct (_ && _) eqn:E; [|ring]. rewrite (map_nth_lt _ _ _ 0%Qc) by lia. reflexivity. Qed.

Lemma isi_nth h0 h1 hm r n : 0 <= n < Z.of_nat (length r) -> signal (isi_signal h0 h1 hm r) n = (h0 * signal r n + h1 * signal r (n - 1) + hm * signal r (n + 1))%Qc.
Proof.
  intros H. rewrite signal_nth by (unfold isi_signal, instants; rewrite !map_length, seq_length; lia).
  unfold isi_signal. rewrite instants_map, nth_map_seq by lia. rewrite Nat.add_0_l, Z2Nat.id by lia. reflexivity.
Qed.
Lemma sum_lin3 (f g h : Z -> Qc) a b c l : sumQ (map (fun n => a * f n + b * g n + c * h n)%Qc l) = (a * sumQ (map f l) + b * sumQ (map g l) + c * sumQ (map h l))%Qc.
Proof. now rewrite !sumQ_map_add, !sumQ_map_scale. Qed.
Lemma sum_shift_ends (f : Z -> Qc) n : (sumQ (map (fun k => f (k + 1)%Z) (instants n)) + f 0%Z = sumQ (map f (instants n)) + f (Z.of_nat n))%Qc.
Proof.
  rewrite !instants_map. induction n as [|n IH]; [cbn; ring|]. rewrite seq_S, !map_app, !sumQ_app. cbn [map Nat.add]. rewrite !sumQ_cons.
  replace (Z.of_nat (S n)) with (Z.of_nat n + 1) by lia. rewrite <- Qcplus_assoc, (Qcplus_comm _ (f 0%Z)), Qcplus_assoc, IH. ring.
Qed.
Lemma isi_difference h0 h1 hm r : (2 <= length r)%nat -> (signal r 0 * signal r 0 = signal r (Z.of_nat (length r) - 1) * signal r (Z.of_nat (length r) - 1))%Qc ->
  (postcursor (isi_signal h0 h1 hm r) r - precursor (isi_signal h0 h1 hm r) r = (h1 - hm) * ((energy r - lag_two r) / ofZ (Z.of_nat (length r) - 1)))%Qc.
Proof.
  intros H E. unfold postcursor, precursor. set (N := length r) in *. set (I := instants (N - 1)).
  assert (HI : forall n, In n I -> 0 <= n < Z.of_nat N - 1) by (intros n Hn; apply in_map_iff in Hn as (k & <- & Hn); apply in_seq in Hn; lia).
  assert (P : sumQ (map (fun n => signal r n * signal (isi_signal h0 h1 hm r) (n + 1))%Qc I) = (h0 * sumQ (map (fun n => signal r n * signal r (n + 1))%Qc I) + h1 * energy r + hm * lag_two r)%Qc).
  { unfold energy, lag_two. fold N I. rewrite <- sum_lin3. apply sumQ_map_ext. intros n Hn. apply HI in Hn. rewrite isi_nth by (fold N; lia).
    replace (n + 1 - 1) with n by lia. replace (n + 1 + 1) with (n + 2) by lia. ring. }
  assert (Q : sumQ (map (fun n => signal r (n + 1) * signal (isi_signal h0 h1 hm r) n)%Qc I) = (h0 * sumQ (map (fun n => signal r n * signal r (n + 1))%Qc I) + h1 * sumQ (map (fun n => signal r (n - 1) * signal r (n + 1))%Qc I) + hm * sumQ (map (fun n => signal r (n + 1) * signal r (n + 1))%Qc I))%Qc).
  { rewrite <- sum_lin3. apply sumQ_map_ext. intros n Hn. apply HI in Hn. rewrite isi_nth by (fold N; lia). ring. }
  rewrite P, Q. clear P Q.
  assert (A : sumQ (map (fun n => signal r (n + 1) * signal r (n + 1))%Qc I) = energy r).
  { pose proof (sum_shift_ends (fun n => signal r n * signal r n)%Qc (N - 1)) as S. cbv beta in S. replace (Z.of_nat (N - 1)) with (Z.of_nat N - 1) in S by lia.
    fold I in S. unfold energy. fold N I. rewrite E in S. qlra. }
  assert (B : sumQ (map (fun n => signal r (n - 1) * signal r (n + 1))%Qc I) = lag_two r).
  { pose proof (sum_shift_ends (fun n => signal r (n - 1) * signal r (n + 1))%Qc (N - 1)) as S. cbv beta in S. fold I in S.
    rewrite (signal_out r (0 - 1)) in S by lia. rewrite (signal_out r (Z.of_nat (N - 1) + 1)) in S by (fold N; lia).
    unfold lag_two. fold N I. replace (map (fun n => signal r n * signal r (n + 2))%Qc I) with (map (fun k => (signal r (k + 1 - 1) * signal r (k + 1 + 1))%Qc) I)
      by (apply map_ext; intros; f_equal; f_equal; lia). rewrite Qcmult_0_l, Qcmult_0_r, !Qcplus_0_r in S. congruence. }
  rewrite A, B. field. intros C. change 0%Qc with (ofZ 0) in C. apply ofZ_inj in C. lia.
Qed.
Lemma sq_nonneg (x : Qc) : (0 <= x * x)%Qc.
Proof. qc_norm. generalize (this x). intros q. destruct (Qlt_le_dec q 0); [setoid_replace (q * q)%Q with (- q * - q)%Q by ring|]; apply Qmult_le_0_compat; lra. Qed.
Lemma lag_le_energy r : (2 <= length r)%nat -> (signal r 0 * signal r 0 = signal r (Z.of_nat (length r) - 1) * signal r (Z.of_nat (length r) - 1))%Qc -> (lag_two r <= energy r)%Qc.
Proof.
  intros H E. set (N := length r) in *. set (I := instants (N - 1)).
  assert (S2 : (sumQ (map (fun n => signal r (n + 2) * signal r (n + 2))%Qc I) <= energy r)%Qc).
  { pose proof (sum_shift_ends (fun n => signal r n * signal r n)%Qc (N - 1)) as S. cbv beta in S. replace (Z.of_nat (N - 1)) with (Z.of_nat N - 1) in S by lia.
    pose proof (sum_shift_ends (fun n => signal r (n + 1) * signal r (n + 1))%Qc (N - 1)) as S'. cbv beta in S'. fold I in S, S'.
    rewrite (signal_out r (Z.of_nat (N - 1) + 1)) in S' by (fold N; lia).
    assert (Sq : (0 <= signal r (0 + 1) * signal r (0 + 1))%Qc) by apply sq_nonneg.
    replace (map (fun n => signal r (n + 2) * signal r (n + 2))%Qc I) with (map (fun k => signal r (k + 1 + 1) * signal r (k + 1 + 1))%Qc I)
      by (apply map_ext; intros; f_equal; f_equal; lia).
    unfold energy. fold N I. rewrite E in S.
    set (a := sumQ _) in S' |- *. set (b := sumQ _) in S, S' |- *. set (c := sumQ _) in S |- *. set (u := (signal r (0 + 1) * signal r (0 + 1))%Qc) in *. set (w := (signal r (Z.of_nat N - 1) * _)%Qc) in *.
    rewrite Qcmult_0_l in S'. clearbody a b c u w. qlra. }
  assert (S1 : (ofZ 2 * lag_two r <= energy r + sumQ (map (fun n => signal r (n + 2) * signal r (n + 2))%Qc I))%Qc).
  { unfold lag_two, energy. fold N I. rewrite <- sumQ_map_scale, <- sumQ_map_add. clearbody I. clear. induction I as [|n I IH]; [cbn; apply Qcle_refl|]. cbn [map]. rewrite !sumQ_cons.
    assert (K : (ofZ 2 * (signal r n * signal r (n + 2)) <= signal r n * signal r n + signal r (n + 2) * signal r (n + 2))%Qc)
      by (generalize (signal r n) (signal r (n + 2)); clear; intros x z; pose proof (sq_nonneg (x - z)%Qc); qlra).
    set (a := sumQ _) in *. set (b := sumQ _) in *. clearbody a b. qlra. }
  set (a := sumQ _) in *. set (L := lag_two r) in *. set (En := energy r) in *. clearbody a L En. qlra.
Qed.
Lemma sign_times c x : (0 < x)%Qc -> np_sign (c * x)%Qc = np_sign c.
Proof.
  intros H. unfold np_sign. destruct (Qcltb 0 (c * x)) eqn:A, (Qcltb (c * x) 0) eqn:B, (Qcltb 0 c) eqn:C, (Qcltb c 0) eqn:D; try reflexivity; exfalso;
    rewrite ?Qcltb_spec, ?Qcltb_false in *; qc_norm; nra.
Qed.
