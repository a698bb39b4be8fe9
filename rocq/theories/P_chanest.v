(** Proofs about channel_estimation_prbs and equalization_estimation_prbs. *)
From Verif Require Import Py PyQ B_list B_qc M_aux M_prbs M_symbol M_coding M_lock M_estim S_prbs S_lock S_estim S_chanest P_prbs P_prbs_gen P_checker P_symbol P_map P_coding P_lock P_linalg P_estim.
Open Scope Z_scope.

Notation plen := period.
Lemma plen_pos t : (0 < plen t)%nat. Proof. apply maxlen_pos, value_gt1. Qed.
Lemma plen_Z t : 2 ^ Z.of_nat (prbs_value t) - 1 = Z.of_nat (plen t). Proof. symmetry. apply maxlen_Z, value_gt1. Qed.
(** The reference: one (PAM4) or two (NRZ, OOK) periods. *)
Lemma coded_spec t c a b g i : c <> PAM3 -> exists pc, prbs_coded t c a b g i = Ok pc /\ (length pc = plen t \/ length pc = (2 * plen t)%nat) /\
  forall n, (n < length pc)%nat -> nth n pc 0%Qc = nth (n mod plen t) pc 0%Qc.
Proof.
  intros Hc. unfold prbs_coded. rewrite repeat_length, plen_Z. replace (2 * Z.of_nat (plen t)) with (Z.of_nat (2 * plen t)) by lia.
  destruct (ones_seed t) as (L1 & B1 & _). rewrite gen_char by auto. cbn [bind fst]. set (bs := outbits _ _ _). assert (Bb : bits bs) by apply outbits_bits. assert (Lb : length bs = (2 * plen t)%nat) by apply outbits_length.
  assert (Per : forall n, (n < 2 * plen t)%nat -> nth n bs 0 = nth (n mod plen t) bs 0).
  { intros n Hn. pose proof (plen_pos t) as PP. assert (n mod plen t < plen t)%nat by (apply Nat.mod_upper_bound; lia). unfold bs. rewrite !outbits_nth by lia. f_equal. apply iter_mod. now apply prbs_full_period. }
  assert (Small : forall n, (n < plen t)%nat -> (n mod plen t = n)%nat) by (intros; now apply Nat.mod_small).
  destruct c; [| |congruence|].
  1,2: cbn [get_levels length]; change (Z.of_nat 2) with 2; rewrite bin2symbol_one; cbn [bind]; set (sy := when _ _ _);
    match goal with |- context [coding_gray ?c (vec sy)] => change (coding_gray c (vec sy)) with (Ok (vec sy)) end; replace (if g then Ok (vec sy) else Ok (vec sy)) with (Ok (vec sy)) by (now destruct g); cbn [bind]; assert (Bs : bits sy) by (unfold sy, when; cbn [pn_inv]; destruct b; [now apply inv_all_bits|auto]);
    assert (Ls : length sy = (2 * plen t)%nat) by (unfold sy, when; cbn [pn_inv]; destruct b; [now rewrite inv_all_length|auto]);
    rewrite (mapping_ok _ 0) by (cbn [vec data length]; eapply Forall_impl; [|exact Bs]; intros z [-> | ->]; cbn; lia);
    cbn [bind vec data]; eexists; split; [reflexivity|]; rewrite !map_length; split; [lia|]; intros n Hn;
    pose proof (plen_pos t) as PP; assert (n mod plen t < plen t)%nat by (apply Nat.mod_upper_bound; lia);
    rewrite !(map_nth_lt ofZ _ _ 0) by (rewrite ?map_length; lia); f_equal; rewrite !(map_nth_lt _ sy _ 0) by lia;
    replace (nth n sy 0) with (nth (n mod plen t) sy 0); auto; unfold sy, when; cbn [pn_inv]; destruct b; [rewrite !nth_inv_all by lia|]; now rewrite (Per n) by lia.
  destruct (bin2symbol_value 2 bs (mk_flags a false false b) ltac:(lia)) as (sy & E & Ls & _ & Rs). change (2 ^ Z.of_nat 2) with 4 in *. cbn [get_levels length]. change (Z.of_nat 4) with 4. rewrite E. cbn [bind]. specialize (Rs Bb).
  assert (L2 : length sy = plen t) by (rewrite Ls, Lb, Nat.mul_comm; apply Nat.div_mul; lia).
  assert (X : exists q, (if g then coding_gray PAM4 (vec sy) else Ok (vec sy)) = Ok q /\ length (data q) = plen t /\ Forall (fun v => 0 <= v < 4) (data q)).
  { destruct g; [|exists (vec sy); auto]. destruct (gray_roundtrip PAM4 (vec sy) ltac:(discriminate) Rs) as (q & Eq & Sq & Rq & _). exists q. split; auto. split; [|exact Rq].
    unfold coding_gray in Eq. cbn [get_levels length] in Eq. change (1 <? ceil_log2 4)%nat with true in Eq. cbv iota in Eq. rewrite (np_take_map _ 0) in Eq by exact Rs. cbn [bind] in Eq. injection Eq as <-. cbn [data vec]. now rewrite map_length. }
  destruct X as (q & -> & Lq & Rq). cbn [bind]. rewrite (mapping_ok _ 0) by (cbn [length]; eapply Forall_impl; [|exact Rq]; cbn; lia). cbn [bind data]. eexists. split; [reflexivity|]. rewrite !map_length, Lq. split; auto. intros n Hn. now rewrite Small.
Qed.
Lemma coded_pam3 t a b g i : prbs_coded t PAM3 a b g i = Raise ValueError.
Proof.
  unfold prbs_coded. rewrite repeat_length, plen_Z. replace (2 * Z.of_nat (plen t)) with (Z.of_nat (2 * plen t)) by lia. destruct (ones_seed t) as (L1 & B1 & _). rewrite gen_char by auto. cbn [bind fst get_levels length].
  rewrite bin2symbol_rejects; auto; [cbn; lia|]. intros k Hk E. change (Z.of_nat 3) with 3 in E. replace k with (1 + (k - 1)) in E by lia. rewrite Z.pow_add_r in E by lia. lia.
Qed.
Open Scope Qc_scope.
Lemma rotated_symbol t pc s n : (length pc = plen t \/ length pc = (2 * plen t)%nat) -> (forall n, (n < length pc)%nat -> nth n pc 0 = nth (n mod plen t) pc 0) -> (n < length pc)%nat ->
  nth n (rotated 0 s pc) 0 = symbol_at (plen t) pc s n.
Proof.
  intros L Per Hn. pose proof (plen_pos t) as PP. rewrite rotated_nth by auto. unfold symbol_at, at_. rewrite Per by (apply Nat.mod_upper_bound; lia). f_equal. destruct L as [-> | ->]; [now rewrite Nat.mod_mod by lia|].
  rewrite (Nat.mul_comm 2). rewrite Nat.mod_mul_r by lia. rewrite (Nat.mul_comm (plen t)), Nat.mod_add by lia. now rewrite Nat.mod_mod by lia.
Qed.
Lemma symbol_at_period P pc s n : (0 < P)%nat -> symbol_at P pc s (n + P) = symbol_at P pc s n.
Proof. intros H. unfold symbol_at. f_equal. replace (s + (n + P))%nat with (s + n + 1 * P)%nat by lia. apply Nat.mod_add. lia. Qed.
(** Averages. *)
Lemma average_length P sig : length (average_periods P sig) = P. Proof. unfold average_periods. now rewrite map_length, seq_length. Qed.
Lemma average_at P sig n : (n < P)%nat -> at_ (average_periods P sig) n = average P sig n.
Proof. intros H. unfold average_periods, at_ at 1. rewrite nth_map_seq by auto. unfold meanQ, average. rewrite map_length, seq_length. reflexivity. Qed.
Lemma mean_sm (l : list Qc) (f : nat -> Qc) P : length l = P -> (forall i, (i < P)%nat -> at_ l i = f i) -> meanQ l = mean_over P f.
Proof. intros L H. unfold meanQ, mean_over. rewrite L. f_equal. rewrite sumQ_sm, L. now apply sm_ext. Qed.
Lemma var_at P sig : varQ (average_periods P sig) = variance P (average P sig).
Proof.
  unfold varQ, variance. assert (E : meanQ (average_periods P sig) = mean_over P (average P sig)) by (apply mean_sm; [apply average_length|apply average_at]).
  apply mean_sm; [now rewrite map_length, average_length|]. intros i Hi. unfold at_ at 1. rewrite (map_nth_lt _ _ _ 0) by (rewrite average_length; auto). change (nth i (average_periods P sig) 0) with (at_ (average_periods P sig) i). now rewrite average_at, E.
Qed.
Lemma variance_ext P f g : (forall n, (n < P)%nat -> f n = g n) -> variance P f = variance P g.
Proof.
  intros H. unfold variance, mean_over. assert (E : sm P f = sm P g) by (now apply sm_ext). f_equal. apply sm_ext. intros n Hn. now rewrite H, E.
Qed.
(** Shift by [k] places. *)
Lemma take_shift (l : list Qc) k n (f : nat -> Qc) : (n <= length l)%nat -> (k <= n)%nat -> (forall i, (i < n)%nat -> at_ l i = f i) ->
  np_take l (shift_idx k n) = Ok (map (fun i => f ((i + k) mod n)%nat) (seq 0 n)).
Proof.
  intros L K H. unfold shift_idx. rewrite (np_take_map _ 0). 2:{ apply Forall_forall. intros z Hz. apply in_map_iff in Hz as (i & <- & Hi). apply in_app_iff in Hi as [Hi|Hi]; apply in_seq in Hi; lia. }
  f_equal. rewrite map_map. apply (nth_ext_def 0); [rewrite !map_length, app_length, !seq_length; lia|]. intros i Hi. rewrite map_length, app_length, !seq_length in Hi.
  rewrite (nth_map_seq (fun i => f ((i + k) mod n)%nat)) by lia. rewrite (map_nth_lt _ _ _ 0%nat) by (rewrite app_length, !seq_length; lia). rewrite Nat2Z.id. cbn [Nat.add].
  destruct (Nat.lt_ge_cases i (n - k)) as [Q|Q].
  - rewrite app_nth1 by (rewrite seq_length; auto). rewrite seq_nth by auto. rewrite Nat.mod_small by lia. replace (k + i)%nat with (i + k)%nat by lia. apply H. lia.
  - rewrite app_nth2 by (rewrite seq_length; auto). rewrite seq_length, seq_nth by lia. cbn [Nat.add]. replace ((i + k) mod n)%nat with (i - (n - k))%nat; [apply H; lia|].
    apply (Nat.mod_unique _ _ 1); lia.
Qed.

(** * The channel estimate *)
Definition ch_matrix (P w : nat) (p : nat -> Qc) : list (list Qc) := map (fun i => map (fun j => p (i + j)%nat) (seq 0 w)) (seq 0 P).
Definition ch_target (P post : nat) (m : nat -> Qc) (v : Qc) : list Qc := map (fun i => m ((i + post) mod P)%nat / v) (seq 0 P).
Lemma ch_matrix_length P w p : length (ch_matrix P w p) = P. Proof. unfold ch_matrix. now rewrite map_length, seq_length. Qed.
Lemma ch_matrix_wf P w p : matrix (length (ch_matrix P w p)) w (ch_matrix P w p).
Proof. split; auto. apply Forall_forall. intros r Hr. apply in_map_iff in Hr as (i & <- & _). now rewrite map_length, seq_length. Qed.
Lemma ch_matrix_entry P w p i j : (i < P)%nat -> (j < w)%nat -> entry (ch_matrix P w p) i j = p (i + j)%nat.
Proof. intros Hi Hj. unfold entry, ch_matrix, at_. now rewrite !nth_map_seq by auto. Qed.
Lemma ch_target_length P post m v : length (ch_target P post m v) = P. Proof. unfold ch_target. now rewrite map_length, seq_length. Qed.
Lemma ch_target_at P post m v i : (i < P)%nat -> at_ (ch_target P post m v) i = m ((i + post) mod P)%nat / v.
Proof. intros H. unfold ch_target, at_. now rewrite nth_map_seq by auto. Qed.
Section Estimate.
Variables (t : prbs_type) (pc : list Qc) (s w : nat).
Hypothesis Lpc : length pc = plen t \/ length pc = (2 * plen t)%nat.
Hypothesis Per : forall n, (n < length pc)%nat -> nth n pc 0 = nth (n mod plen t) pc 0.
Hypothesis Hw : (0 < w <= plen t)%nat.
Lemma partial_hankel_eq : let aligned := rotated 0 s pc ++ firstn w (rotated 0 s pc) in
  firstn (plen t) (hankel aligned (firstn w (rev aligned))) = ch_matrix (plen t) w (symbol_at (plen t) pc s) /\ length (firstn w (rev aligned)) = w.
Proof.
  intros al. pose proof (plen_pos t) as PP. assert (La : length al = (length pc + w)%nat) by (unfold al; rewrite app_length, firstn_length, rotated_length; lia).
  assert (Lw : length (firstn w (rev al)) = w) by (rewrite firstn_length, rev_length; lia). split; auto.
  assert (Ea : forall i, (i < length pc + w)%nat -> nth i al 0 = symbol_at (plen t) pc s i).
  { intros i Hi. unfold al. destruct (Nat.lt_ge_cases i (length pc)) as [Q|Q].
    - rewrite app_nth1 by (rewrite rotated_length; auto). now apply rotated_symbol.
    - rewrite app_nth2 by (rewrite rotated_length; auto). rewrite rotated_length, nth_firstn, (rotated_symbol t) by (auto; lia). assert (Y : exists j, i = (i - length pc + j * plen t)%nat) by (destruct Lpc as [E|E]; [exists 1%nat|exists 2%nat]; lia).
      destruct Y as (j & Ej). unfold symbol_at. rewrite Ej at 2. f_equal. rewrite Nat.add_assoc. symmetry. apply Nat.mod_add. lia. }
  unfold ch_matrix. apply (nth_ext_def []). { rewrite firstn_length, hankel_length, map_length, seq_length. lia. }
  intros i Hi. rewrite firstn_length, hankel_length in Hi. rewrite nth_firstn by lia. rewrite nth_map_seq by lia. unfold hankel. rewrite nth_map_seq by lia. rewrite Lw. cbn [Nat.add]. apply map_ext_in. intros j Hj. apply in_seq in Hj.
  unfold vec_at. rewrite app_nth1 by lia. apply Ea. lia.
Qed.
End Estimate.
Lemma channel_spec t signal c post pre a b g i : c <> PAM3 -> (post + pre + 1 <= plen t)%nat -> (plen t <= length signal)%nat ->
  exists pc s xc, prbs_coded t c a b g false = Ok pc /\ lock_pattern_to_signal pc signal = Ok (rotated 0 s pc, xc) /\ locks pc signal s /\
  let P := plen t in let v := variance P (average P signal) in
  let A := ch_matrix P (post + pre + 1) (symbol_at P pc s) in let B := ch_target P post (average P signal) v in
  (v = 0 -> forall nrm, channel_estimation_prbs t signal c post pre nrm a b g i = Ok None) /\
  (v <> 0 -> forall nrm, channel_estimation_prbs t signal c post pre nrm a b g i = (r <- lstsq (post + pre + 1) A B ;; h <- (if nrm : bool then k <- maxQ (fst r) ;; Ok (div_taps (rev (fst r)) k) else Ok (Taps (rev (fst r)))) ;; Ok (Some (h, snd r)))).
Proof.
  intros Hc Hw Hs. destruct (coded_spec t c a b g false Hc) as (pc & E & L & Per). pose proof (plen_pos t) as PP.
  destruct (lock_samples_spec pc signal) as (s & xc & El & Hs2 & _ & Hs3 & Hs4). { intros ->. cbn in L. lia. } { intros ->. cbn in Hs. lia. }
  exists pc, s, xc. split; auto. split; auto. split; [repeat split; auto|]. intros P v A B.
  assert (K : forall nrm, channel_estimation_prbs t signal c post pre nrm a b g i = if Qceqb v 0 then Ok None else (r <- lstsq (post + pre + 1) A B ;; h <- (if nrm : bool then k <- maxQ (fst r) ;; Ok (div_taps (rev (fst r)) k) else Ok (Taps (rev (fst r)))) ;; Ok (Some (h, snd r)))).
  { intros nrm. unfold channel_estimation_prbs. rewrite E. cbn [bind]. rewrite El. cbn [bind fst]. rewrite plen_Z, Nat2Z.id. fold P. rewrite var_at. fold v.
    replace (length signal / P =? 0)%nat with false by (symmetry; apply Nat.eqb_neq; intros Z; apply Nat.div_small_iff in Z; lia). cbn [orb]. destruct (Qceqb v 0); auto.
    rewrite (take_shift _ post P (average P signal)); [|rewrite average_length; auto|unfold P; lia|apply average_at]. cbn [bind]. rewrite map_map. fold (ch_target P post (average P signal) v).
    destruct (partial_hankel_eq t pc s (post + pre + 1) L Per ltac:(lia)) as (Eh & Lh). fold P in Eh. rewrite Eh, Lh. reflexivity. }
  split.
  - intros Z nrm. rewrite K. now rewrite (proj2 (Qceqb_spec v 0) Z).
  - intros Z nrm. rewrite K. destruct (Qceqb v 0) eqn:Q; auto. apply Qceqb_spec in Q. contradiction.
Qed.
(** The rows are the channel equations. *)
Lemma ch_row P w p post pre x i : (0 < P)%nat -> w = (post + pre + 1)%nat -> (w <= P)%nat -> length x = w -> (forall n, p (n + P)%nat = p n) -> (i < P)%nat ->
  sm w (fun j => entry (ch_matrix P w p) i j * at_ x j) = received P p (rev x) pre ((i + post) mod P).
Proof.
  intros HP Ew HwP Lx Hp Hi. unfold received. rewrite rev_length, Lx, (sm_rev w). apply sm_ext. intros k Hk. rewrite ch_matrix_entry by lia. rewrite at_rev by lia. rewrite Lx, Qcmult_comm. f_equal.
  destruct (Nat.lt_ge_cases (i + post) P) as [Q|Q].
  - rewrite Nat.mod_small by auto. rewrite <- Hp. f_equal. lia.
  - assert (M : ((i + post) mod P = i + post - P)%nat) by (symmetry; apply (Nat.mod_unique _ _ 1); lia). rewrite M. f_equal. lia.
Qed.
Lemma ch_shift_surj P post n : (n < P)%nat -> exists i, (i < P)%nat /\ ((i + post) mod P = n)%nat.
Proof.
  intros H. exists ((n + (P - post mod P)) mod P)%nat. split; [apply Nat.mod_upper_bound; lia|]. rewrite Nat.add_mod_idemp_l by lia. assert (post mod P < P)%nat by (apply Nat.mod_upper_bound; lia). pose proof (Nat.div_mod post P ltac:(lia)) as D.
  replace (n + (P - post mod P) + post)%nat with (n + (1 + post / P) * P)%nat by nia. rewrite Nat.mod_add by lia. now apply Nat.mod_small.
Qed.
Lemma sm_shift P post (f : nat -> Qc) : (0 < P)%nat -> sm P (fun i => f ((i + post) mod P)%nat) = sm P f.
Proof. intros H. transitivity (sm P (fun i => f ((post + i) mod P)%nat)); [apply sm_ext; intros; now rewrite Nat.add_comm|exact (sum_rotation f P post H)]. Qed.
Lemma ch_cost P w p post pre m v x : (0 < P)%nat -> w = (post + pre + 1)%nat -> (w <= P)%nat -> length x = w -> (forall n, p (n + P)%nat = p n) ->
  cost w (ch_matrix P w p) (ch_target P post m v) x = sm P (fun n => sq (received P p (rev x) pre n - m n / v)).
Proof.
  intros HP Ew HwP Lx Hp. unfold cost. rewrite ch_target_length. rewrite <- (sm_shift P post (fun n => sq (received P p (rev x) pre n - m n / v)) HP). apply sm_ext. intros i Hi. rewrite ch_target_at by auto. now rewrite (ch_row P w p post pre x i).
Qed.

(** * Scaling *)
Definition scaled (k : Qc) (l : list Qc) : list Qc := map (fun v => k * v) l.
Lemma scaled_length k l : length (scaled k l) = length l. Proof. apply map_length. Qed.
Lemma scaled_at k l i : at_ (scaled k l) i = k * at_ l i.
Proof. unfold scaled, at_. destruct (Nat.lt_ge_cases i (length l)) as [H|H]; [now rewrite (map_nth_lt _ _ _ 0)|]. rewrite !nth_overflow by (rewrite ?map_length; auto). ring. Qed.
Lemma project_scaled m cols k : forall b b', (forall i, (i < m)%nat -> at_ b' i = k * at_ b i) -> project m cols b' = scaled k (project m cols b).
Proof.
  induction cols as [|a cols IH]; intros b b' H; auto. cbn [project]. set (ra := axpy m a 1 _). cbn [scaled map]. fold (scaled k).
  assert (D : dot m b' ra = k * dot m b ra) by (rewrite !dot_sm, <- sm_scale; apply sm_ext; intros i Hi; rewrite H by auto; ring).
  assert (T : (if Qceqb (dot m ra ra) 0 then 0 else dot m b' ra / dot m ra ra) = k * (if Qceqb (dot m ra ra) 0 then 0 else dot m b ra / dot m ra ra)) by (destruct (Qceqb _ 0); [ring|rewrite D; unfold Qcdiv; ring]).
  f_equal; auto. apply IH. intros i Hi. rewrite !axpy_at by auto. rewrite T, H by auto. ring.
Qed.
Lemma comb_scaled m cols k x : comb m cols (scaled k x) = scaled k (comb m cols x).
Proof.
  apply (nth_ext_def 0); [rewrite scaled_length, !comb_length; auto|]. intros i Hi. rewrite comb_length in Hi. change (at_ (comb m cols (scaled k x)) i = at_ (scaled k (comb m cols x)) i). rewrite scaled_at, !comb_at, <- sm_scale by auto. apply sm_ext. intros j _. rewrite scaled_at. ring.
Qed.
Lemma min_norm_scaled n a b k : min_norm_vec n a (scaled k b) = scaled k (min_norm_vec n a b).
Proof.
  unfold min_norm_vec. rewrite (project_scaled (length a) (transpose n a) k b) by (intros; apply scaled_at). rewrite (project_scaled n a k (project (length a) (transpose n a) b)) by (intros; apply scaled_at). apply comb_scaled.
Qed.
Lemma cost_scaled n a b x k : cost n a (scaled k b) (scaled k x) = k * k * cost n a b x.
Proof.
  unfold cost. rewrite scaled_length, <- sm_scale. apply sm_ext. intros i _. rewrite (sm_ext n _ (fun j => k * (entry a i j * at_ x j))) by (intros; rewrite scaled_at; ring). rewrite sm_scale, scaled_at. unfold sq. ring.
Qed.
Lemma lstsq_scaled n a b k x e : matrix (length a) n a -> length b = length a -> lstsq n a b = Ok (x, e) -> lstsq n a (scaled k b) = Ok (scaled k x, scaled (k * k) e).
Proof.
  intros M L. unfold lstsq. rewrite scaled_length, L, Nat.eqb_refl. cbn [negb]. fold (min_norm_vec n a b) (min_norm_vec n a (scaled k b)). intros E. injection E as <- <-. rewrite min_norm_scaled. do 2 f_equal.
  destruct (_ && _); auto. cbn [scaled map]. f_equal. rewrite !(ssr_cost n) by (rewrite ?scaled_length; auto; apply comb_length). apply cost_scaled.
Qed.
Lemma corr_scaled p sig k m s : corr_samples p (scaled k sig) m s = k * corr_samples p sig m s.
Proof. unfold corr_samples. rewrite <- sumQ_map_scale. apply sumQ_map_ext. intros i _. change (nth i (scaled k sig) 0) with (at_ (scaled k sig) i). rewrite scaled_at. unfold at_. ring. Qed.
Lemma Qcmult_lt_pos k x y : 0 < k -> k * x < k * y -> x < y.
Proof. intros K H. apply Qcnot_le_lt. intros C. pose proof (Qcmult_le_compat_r _ _ k C (Qclt_le_weak _ _ K)) as D. rewrite !(Qcmult_comm _ k) in D. apply (Qclt_not_le _ _ H D). Qed.
Lemma lock_scaled p sig k s xc : p <> [] -> sig <> [] -> 0 < k -> (s < length p)%nat -> lock_pattern_to_signal p sig = Ok (rotated 0 s p, xc) -> exists xc', lock_pattern_to_signal p (scaled k sig) = Ok (rotated 0 s p, xc').
Proof.
  intros Np Ns K Hs E. destruct (lock_samples_spec p sig Np Ns) as (s1 & xc1 & E1 & H1 & _ & M1 & F1). destruct (lock_samples_spec p (scaled k sig) Np) as (s2 & xc2 & E2 & H2 & _ & M2 & F2). { destruct sig; [congruence|discriminate]. }
  rewrite scaled_length in M2, F2. rewrite E in E1. injection E1 as R _. exists xc2. rewrite E2, R. do 2 f_equal.
  destruct (Nat.lt_trichotomy s1 s2) as [Q|[->|Q]]; auto; exfalso.
  - specialize (F2 s1 Q). rewrite !corr_scaled in F2. apply (Qcmult_lt_pos k) in F2; auto. apply (Qclt_not_le _ _ F2). apply M1.
  - specialize (F1 s2 Q). specialize (M2 s1). rewrite !corr_scaled in M2. apply (Qcle_not_lt _ _ M2). pose proof (Qcmult_lt_compat_r _ _ _ K F1) as D. now rewrite !(Qcmult_comm k).
Qed.
Lemma average_scaled P sig k n : average P (scaled k sig) n = k * average P sig n.
Proof. unfold average. rewrite scaled_length. rewrite (sm_ext _ (fun j => at_ (scaled k sig) (j * P + n)) (fun j => k * at_ sig (j * P + n))) by (intros; apply scaled_at). rewrite sm_scale. unfold Qcdiv. ring. Qed.
Lemma variance_scaled P f k : variance P (fun n => k * f n) = k * k * variance P f.
Proof.
  unfold variance, mean_over. rewrite sm_scale. rewrite (sm_ext P _ (fun n => (k * k) * sq (f n - sm P f / ofZ (Z.of_nat P)))) by (intros; unfold sq, Qcdiv; ring). rewrite sm_scale. unfold Qcdiv. ring.
Qed.
Lemma ch_target_scaled P post sig k : k <> 0 -> ch_target P post (average P (scaled k sig)) (variance P (average P (scaled k sig))) = scaled (/ k) (ch_target P post (average P sig) (variance P (average P sig))).
Proof.
  intros K. rewrite (variance_ext P (average P (scaled k sig)) (fun n => k * average P sig n)) by (intros; apply average_scaled). rewrite variance_scaled. unfold ch_target, scaled at 2. rewrite map_map. apply map_ext. intros i. rewrite average_scaled.
  destruct (Qceqb (variance P (average P sig)) 0) eqn:Z.
  - apply Qceqb_spec in Z. rewrite Z. unfold Qcdiv. replace (k * k * 0) with 0 by ring. replace (/ 0) with 0 by (apply Qc_is_canon; reflexivity). ring.
  - assert (variance P (average P sig) <> 0) by (intros C; apply Qceqb_spec in C; congruence). field. auto.
Qed.
Lemma maxQ_scaled l g k : 0 < k -> maxQ l = Ok g -> maxQ (scaled k l) = Ok (k * g).
Proof.
  intros K E. assert (N : l <> []) by (intros ->; discriminate E). destruct (maxQ_spec l N) as (g1 & E1 & I1 & M1). rewrite E in E1. injection E1 as <-.
  destruct (maxQ_spec (scaled k l)) as (g2 & E2 & I2 & M2). { destruct l; [congruence|discriminate]. } rewrite E2. f_equal. apply Qcle_antisym.
  - apply in_map_iff in I2 as (v & <- & Hv). specialize (M1 v Hv). pose proof (Qcmult_le_compat_r _ _ k M1 (Qclt_le_weak _ _ K)) as D. now rewrite !(Qcmult_comm _ k) in D.
  - apply M2. apply in_map_iff. now exists g.
Qed.
Lemma div_taps_scaled l g k : k <> 0 -> div_taps (scaled k l) (k * g) = div_taps l g.
Proof.
  intros K. unfold div_taps. destruct (Qceqb g 0) eqn:Z.
  - apply Qceqb_spec in Z. subst g. now replace (Qceqb (k * 0) 0) with true by (symmetry; apply Qceqb_spec; ring).
  - assert (G : g <> 0) by (intros C; apply Qceqb_spec in C; congruence). destruct (Qceqb (k * g) 0) eqn:Z2; [apply Qceqb_spec, Qcmult_integral in Z2; tauto|]. f_equal. unfold scaled. rewrite map_map. apply map_ext. intros v. field. auto.
Qed.
Lemma Qcinv_pos k : 0 < k -> 0 < / k.
Proof. intros H. apply Qcnot_le_lt. intros C. assert (Nz : k <> 0) by (intros ->; discriminate). pose proof (Qcmult_le_compat_r _ _ k C (Qclt_le_weak _ _ H)) as D. rewrite Qcmult_0_l, Qcmult_comm, Qcmult_inv_r in D by auto. apply D. reflexivity. Qed.
(** * The equaliser *)
Lemma prbs_equaliser_spec lasso t signal c post pre dfe nrm reg lambda a b g i : c <> PAM3 -> (Nat.max post dfe <= plen t)%nat -> (plen t <= length signal)%nat ->
  exists pc s xc, prbs_coded t c a b g i = Ok pc /\ lock_pattern_to_signal pc signal = Ok (rotated 0 s pc, xc) /\ locks pc signal s /\
  equalization_estimation_prbs lasso t signal c post pre dfe nrm reg lambda a b g i =
  equalization_estimation lasso (map (fun n => symbol_at (plen t) pc s (n + Nat.max post dfe)) (seq 0 (plen t))) (map (average (plen t) signal) (seq 0 (plen t))) post pre dfe nrm reg lambda.
Proof.
  intros Hc Hm Hs. destruct (coded_spec t c a b g i Hc) as (pc & E & L & Per). pose proof (plen_pos t) as PP.
  destruct (lock_samples_spec pc signal) as (s & xc & El & Hs2 & _ & Hs3 & Hs4). { intros ->. cbn in L. lia. } { intros ->. cbn in Hs. lia. }
  exists pc, s, xc. split; auto. split; auto. split; [repeat split; auto|]. unfold equalization_estimation_prbs. rewrite E. cbn [bind]. rewrite El. cbn [bind fst]. rewrite plen_Z, Nat2Z.id.
  rewrite (take_shift _ _ (plen t) (symbol_at (plen t) pc s)); [|rewrite rotated_length; lia|auto|]. 2:{ intros n Hn. apply rotated_symbol; auto. lia. }
  cbn [bind]. replace (length signal / plen t =? 0)%nat with false by (symmetry; apply Nat.eqb_neq; intros Z; apply Nat.div_small_iff in Z; lia).
  f_equal; [|apply (nth_ext_def 0); [now rewrite average_length, map_length, seq_length|]; intros n Hn; rewrite average_length in Hn; rewrite nth_map_seq by auto; now apply average_at].
  apply map_ext. intros n. unfold symbol_at. f_equal. now rewrite Nat.add_mod_idemp_r by lia.
Qed.
