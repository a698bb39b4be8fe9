(** Lemmas for C50-C52: convolution, lfilter, pulses. *)
From Coq Require Import Reals Lra Lia String.
From Verif Require Import Py B_list M_aux P_aux M_delay P_delay M_soft M_channel S_channel.
Import List.
Open Scope R_scope.

Lemma sumR_upto f n : sumR (map f (seq 0 n)) = sum_upto f n.
Proof.
  induction n as [|n IH]; [reflexivity|]. rewrite seq_S, map_app. cbn [map Nat.add sum_upto]. rewrite <- IH.
  generalize (map f (seq 0 n)). intros l. unfold sumR. induction l as [|a l IHl]; cbn [app fold_right]; [lra|rewrite IHl; lra].
Qed.
Lemma sum_upto_ext f g n : (forall k, (k < n)%nat -> f k = g k) -> sum_upto f n = sum_upto g n.
Proof. induction n as [|n IH]; intros H; cbn [sum_upto]; auto. rewrite IH, H; auto. Qed.
Lemma sum_upto_add f g n : sum_upto (fun k => f k + g k) n = sum_upto f n + sum_upto g n.
Proof. induction n as [|n IH]; cbn [sum_upto]; [lra|rewrite IH; lra]. Qed.
Lemma sum_upto_scale c f n : sum_upto (fun k => c * f k) n = c * sum_upto f n.
Proof. induction n as [|n IH]; cbn [sum_upto]; [lra|rewrite IH; lra]. Qed.
Lemma sum_upto_0 f n : (forall k, (k < n)%nat -> f k = 0) -> sum_upto f n = 0.
Proof. intros H. rewrite (sum_upto_ext _ (fun k => 0 * 0)) by (intros; rewrite H; auto; ring). rewrite sum_upto_scale. ring. Qed.
Lemma sum_upto_single f n m : (m < n)%nat -> (forall k, (k < n)%nat -> k <> m -> f k = 0) -> sum_upto f n = f m.
Proof.
  induction n as [|n IH]; intros Hm H; [lia|]. cbn [sum_upto]. destruct (Nat.eq_dec m n) as [->|N].
  - rewrite sum_upto_0 by (intros; apply H; lia). ring.
  - rewrite IH by (auto; lia). rewrite (H n) by lia. ring.
Qed.
Lemma sum_upto_S f n : sum_upto f (S n) = f 0%nat + sum_upto (fun k => f (S k)) n.
Proof. induction n as [|n IH]; [cbn; ring|]. change (sum_upto f (S (S n))) with (sum_upto f (S n) + f (S n)). rewrite IH. cbn [sum_upto]. ring. Qed.
Lemma sum_upto_rev f n : sum_upto f n = sum_upto (fun k => f (n - 1 - k)%nat) n.
Proof.
  induction n as [|n IH]; [reflexivity|]. rewrite sum_upto_S. cbn [sum_upto]. rewrite Nat.sub_succ, Nat.sub_0_r, Nat.sub_diag.
  rewrite Rplus_comm. f_equal. induction n as [|m _]; [reflexivity|].
  transitivity (sum_upto (fun k => f (S m - k)%nat) (S m)); [|reflexivity].
  clear IH. revert f. induction m as [|m IHm]; intros f; [reflexivity|]. rewrite sum_upto_S. change (sum_upto (fun k => f (S (S m) - k)%nat) (S (S m))) with (sum_upto (fun k => f (S (S m) - k)%nat) (S m) + f (S (S m) - S m)%nat).
  rewrite (IHm (fun k => f (S k))). replace (S (S m) - S m)%nat with 1%nat by lia. rewrite Rplus_comm. f_equal. apply sum_upto_ext. intros k Hk. f_equal. lia.
Qed.

(** * Convolution *)
Lemma conv_upto b x n : conv_at b x n = sum_upto (fun k => nth k b 0 * nth (n - k) x 0) (S n).
Proof. unfold conv_at. apply sumR_upto. Qed.
Lemma conv_first b x xs : conv_at b (x :: xs) 0 = nth 0 b 0 * x.
Proof. rewrite conv_upto. cbn. ring. Qed.
Lemma conv_cons b x xs n : conv_at b (x :: xs) (S n) = conv_at b xs n + nth (S n) b 0 * x.
Proof.
  rewrite !conv_upto. change (sum_upto ?f (S (S n))) with (sum_upto f (S n) + f (S n)). cbv beta. rewrite (Nat.sub_diag (S n)). cbn [nth]. f_equal.
  apply sum_upto_ext. intros k Hk. replace (S n - k)%nat with (S (n - k)) by lia. reflexivity.
Qed.
Lemma conv_nil b n : conv_at b [] n = 0.
Proof. rewrite conv_upto. apply sum_upto_0. intros k _. destruct (n - k)%nat; cbn; ring. Qed.
Lemma conv_nil_l x n : conv_at [] x n = 0.
Proof. rewrite conv_upto. apply sum_upto_0. intros k _. destruct k; cbn; ring. Qed.
Lemma conv_app b u : forall v n, conv_at b (u ++ v) n = conv_at b u n + (if (length u <=? n)%nat then conv_at b v (n - length u) else 0).
Proof.
  induction u as [|x u IH]; intros v n; cbn [app length]. { rewrite conv_nil. cbn [Nat.leb]. rewrite Nat.sub_0_r. ring. }
  destruct n as [|n]; [rewrite !conv_first; cbn [Nat.leb]; ring|]. rewrite !conv_cons, IH. cbn [Nat.leb Nat.sub]. ring.
Qed.
Lemma nth_div c l k : nth k (map (fun v => v / c) l) 0 = nth k l 0 / c.
Proof.
  destruct (Nat.lt_ge_cases k (length l)); [now rewrite (map_nth_lt _ _ _ 0)|]. rewrite !nth_overflow by (rewrite ?map_length; lia). unfold Rdiv. ring.
Qed.
Lemma conv_scale c b x n : conv_at (map (fun v => v / c) b) x n = conv_at b x n / c.
Proof.
  rewrite !conv_upto. replace (sum_upto (fun k => nth k b 0 * nth (n - k) x 0) (S n) / c) with (/ c * sum_upto (fun k => nth k b 0 * nth (n - k) x 0) (S n)) by (unfold Rdiv; ring).
  rewrite <- sum_upto_scale. apply sum_upto_ext. intros k _. rewrite nth_div. unfold Rdiv. ring.

Qed.
Lemma conv_high b x n : (length b + length x <= S n)%nat -> conv_at b x n = 0.
Proof.
  intros H. rewrite conv_upto. apply sum_upto_0. intros k Hk. destruct (Nat.lt_ge_cases k (length b)).
  - rewrite (nth_overflow x) by lia. ring.
  - rewrite (nth_overflow b) by lia. ring.
Qed.

(** * The two paths of lfilter *)
Definition fb (a : list R) : list R := 0 :: tl a.
Definition den (a : list R) : list R := map (fun c => c / nth 0 a 0) a.
Lemma tdf2_spec b a : forall xs z, (length b <= S (length z))%nat -> (length a <= S (length z))%nat ->
  let y := fst (tdf2 b a z xs) in let zf := snd (tdf2 b a z xs) in
  length y = length xs /\ length zf = length z /\
  (forall n, (n < length xs)%nat -> nth n y 0 = nth n z 0 + conv_at b xs n - conv_at (fb a) y n) /\
  (forall j, (j < length z)%nat -> nth j zf 0 = nth (length xs + j) z 0 + conv_at b xs (length xs + j) - conv_at (fb a) y (length xs + j)).
Proof.
  induction xs as [|x xs IH]; intros z Lb La; cbn [tdf2 fst snd length].
  - repeat split; auto; [intros; lia|]. intros j _. rewrite !conv_nil. cbn [Nat.add]. ring.
  - set (y0 := nth 0 z 0 + nth 0 b 0 * x). set (z' := map _ _). assert (Lz : length z' = length z) by (unfold z'; now rewrite map_length, seq_length).
    assert (Nz : forall k, nth k z' 0 = nth (S k) z 0 + x * nth (S k) b 0 - y0 * nth (S k) a 0).
    { intros k. unfold z'. destruct (Nat.lt_ge_cases k (length z)); [now rewrite nth_map_seq|]. rewrite !nth_overflow by (rewrite ?map_length, ?seq_length; lia). ring. }
    assert (Fa : forall k, nth (S k) (fb a) 0 = nth (S k) a 0) by (intros k; unfold fb; destruct a; cbn [tl nth]; auto; destruct k; auto).
    destruct (IH z' ltac:(lia) ltac:(lia)) as (L1 & L2 & E1 & E2). clear IH. cbv zeta. set (r := tdf2 b a z' xs) in *.
    cbn [length]. split; [lia|]. split; [lia|]. split.
    + intros [|n] Hn; cbn [nth].
      * rewrite !conv_first. unfold fb. cbn [nth]. unfold y0. ring.
      * rewrite E1 by lia. rewrite Nz, !conv_cons, Fa. ring.
    + intros j Hj. rewrite E2 by lia. rewrite Nz. cbn [Nat.add]. rewrite !conv_cons, Fa. ring.
Qed.
Definition lf_shape (b a : list R) (m : nat) := a <> [] /\ b <> [] /\ nth 0 a 0 <> 0 /\ m = (Nat.max (length a) (length b) - 1)%nat.
Lemma lfilter_spec b a x zi : lf_shape b a (length zi) -> x <> [] ->
  exists y zf, lfilter b a x zi = Ok (y, zf) /\ length y = length x /\ length zf = length zi /\
    (forall n, (n < length x)%nat -> nth n y 0 = nth n zi 0 + conv_at b x n / nth 0 a 0 - conv_at (fb a) y n / nth 0 a 0) /\
    (forall j, (j < length zi)%nat -> nth j zf 0 = nth (length x + j) zi 0 + conv_at b x (length x + j) / nth 0 a 0 - conv_at (fb a) y (length x + j) / nth 0 a 0).
Proof.
  intros (Na & Nb & A0 & Lz) Nx. destruct a as [|a0 a]; [congruence|]. cbn [nth length] in A0, Lz. unfold lfilter. cbn [nth].
  assert (Hb : length b <> 0%nat) by (destruct b; cbn; [congruence|lia]). assert (Hx : length x <> 0%nat) by (destruct x; cbn; [congruence|lia]).
  rewrite (proj2 (Nat.eqb_neq _ _) Hb). destruct (Nat.eqb_spec (length a) 0) as [Ea|Ea].
  - destruct a; [|discriminate]. cbn [length] in *. replace (length zi =? length b - 1)%nat with true by (symmetry; apply Nat.eqb_eq; lia). cbn [negb].
    rewrite (proj2 (Nat.eqb_neq _ _) Hx). set (full := map2 _ _ _).
    assert (Lf : length full = (length zi + length x)%nat). { unfold full. rewrite map2_length, app_length, repeat_length. unfold np_convolve. rewrite !map_length, seq_length. lia. }
    assert (Nf : forall n, (n < length zi + length x)%nat -> nth n full 0 = nth n zi 0 + conv_at b x n / a0).
    { intros n Hn. unfold full. rewrite (map2_nth _ _ _ _ 0 0 0).
      2:{ unfold np_convolve. rewrite !map_length, seq_length. lia. } 2:{ rewrite app_length, repeat_length. lia. }
      unfold np_convolve. rewrite nth_map_seq by (rewrite map_length; lia). cbn [Nat.add]. rewrite conv_scale. rewrite Rplus_comm. f_equal.
      destruct (Nat.lt_ge_cases n (length zi)); [now rewrite app_nth1|]. rewrite app_nth2 by lia. rewrite (nth_overflow zi) by lia. apply repeat_nth. lia. }
    do 2 eexists. split; [reflexivity|]. rewrite firstn_length, skipn_length, Lf. split; [lia|]. split; [lia|].
    assert (F0 : forall y n, conv_at (fb [a0]) y n = 0).
    { intros y n. rewrite conv_upto. apply sum_upto_0. intros k _. unfold fb. cbn [tl]. destruct k as [|[|k]]; cbn [nth]; ring. }
    split.
    + intros n Hn. rewrite nth_firstn by lia. rewrite Nf by lia. rewrite F0. unfold Rdiv. ring.
    + intros j Hj. rewrite nth_skipn. rewrite Nf by lia. rewrite F0. unfold Rdiv. ring.
  - destruct (Req_EM_T a0 0) as [X0|X0]; [congruence|]. replace (length zi =? Nat.max (length (a0 :: a)) (length b) - 1)%nat with true by (symmetry; apply Nat.eqb_eq; cbn [length]; lia). cbn [negb].
    destruct (tdf2_spec (map (fun c => c / a0) b) (map (fun c => c / a0) (a0 :: a)) x zi) as (L1 & L2 & E1 & E2); [rewrite map_length; cbn [length]; lia|rewrite map_length; cbn [length]; lia|].
    set (r := tdf2 _ _ _ _) in *. exists (fst r), (snd r). split; [now destruct r|]. split; auto. split; auto.
    assert (F : forall n, conv_at (fb (map (fun c => c / a0) (a0 :: a))) (fst r) n = conv_at (fb (a0 :: a)) (fst r) n / a0).
    { intros n. rewrite <- conv_scale. f_equal. unfold fb. cbn [tl map]. f_equal. unfold Rdiv. ring. }
    split; [intros n Hn; rewrite E1 by auto|intros j Hj; rewrite E2 by auto]; rewrite conv_scale, F; reflexivity.
Qed.
(** The result is determined by these equations. *)
Lemma recursion_unique b a x zi y y' : length y = length x -> length y' = length x ->
  (forall n, (n < length x)%nat -> nth n y 0 = nth n zi 0 + conv_at b x n / nth 0 a 0 - conv_at (fb a) y n / nth 0 a 0) ->
  (forall n, (n < length x)%nat -> nth n y' 0 = nth n zi 0 + conv_at b x n / nth 0 a 0 - conv_at (fb a) y' n / nth 0 a 0) -> y = y'.
Proof.
  intros L L' H H'. apply (nth_ext_def 0); [lia|]. intros n. induction n as [n IH] using (well_founded_induction lt_wf). intros Hn.
  rewrite H, H' by lia. f_equal. f_equal. rewrite !conv_upto. apply sum_upto_ext. intros k Hk. destruct k as [|k]; [unfold fb; cbn [nth]; ring|].
  f_equal. apply IH; lia.
Qed.
Lemma lfilter_inv b a x zi y zf : lf_shape b a (length zi) -> x <> [] -> length y = length x -> length zf = length zi ->
    (forall n, (n < length x)%nat -> nth n y 0 = nth n zi 0 + conv_at b x n / nth 0 a 0 - conv_at (fb a) y n / nth 0 a 0) ->
    (forall j, (j < length zi)%nat -> nth j zf 0 = nth (length x + j) zi 0 + conv_at b x (length x + j) / nth 0 a 0 - conv_at (fb a) y (length x + j) / nth 0 a 0) ->
  lfilter b a x zi = Ok (y, zf).
Proof.
  intros S Nx L1 L2 E1 E2. destruct (lfilter_spec b a x zi S Nx) as (y' & zf' & -> & L1' & L2' & E1' & E2').
  assert (y' = y) by (eapply recursion_unique; eauto). subst. f_equal. f_equal. apply (nth_ext_def 0); [lia|]. intros j Hj. rewrite E2', E2 by lia. reflexivity.
Qed.
Lemma fb_conv a y n : conv_at (fb a) y n = sum_upto (fun k => nth (S k) a 0 * nth (n - S k) y 0) n.
Proof.
  rewrite conv_upto, sum_upto_S. unfold fb at 1. cbn [nth]. replace (0 * nth (n - 0) y 0 + _) with (sum_upto (fun k => nth (S k) (fb a) 0 * nth (n - S k) y 0) n) by ring.
  apply sum_upto_ext. intros k _. f_equal. unfold fb. destruct a; cbn [tl nth]; auto. destruct k; auto.
Qed.
(** The last entries of the feedback: no future output is needed. *)
Lemma conv_app_fb a u v n : (n <= length u)%nat -> conv_at (fb a) (u ++ v) n = conv_at (fb a) u n.
Proof.
  intros H. rewrite !fb_conv. apply sum_upto_ext. intros k Hk. destruct (Nat.lt_ge_cases (n - S k) (length u)); [now rewrite app_nth1|lia].
Qed.
Lemma lfilter_stream b a u v zi y1 z1 y2 z2 : lf_shape b a (length zi) -> u <> [] -> v <> [] ->
  lfilter b a u zi = Ok (y1, z1) -> lfilter b a v z1 = Ok (y2, z2) -> lfilter b a (u ++ v) zi = Ok (y1 ++ y2, z2).
Proof.
  intros Sh Nu Nv E1 E2. destruct (lfilter_spec b a u zi Sh Nu) as (y & z & E & L1 & L2 & F1 & G1). rewrite E1 in E. injection E as <- <-.
  assert (Sh' : lf_shape b a (length z1)) by (now rewrite L2).
  destruct (lfilter_spec b a v z1 Sh' Nv) as (y & z & E & L3 & L4 & F2 & G2). rewrite E2 in E. injection E as <- <-.
  assert (Z1 : forall n, nth n z1 0 = nth (length u + n) zi 0 + conv_at b u (length u + n) / nth 0 a 0 - conv_at (fb a) y1 (length u + n) / nth 0 a 0).
  { intros n. destruct (Nat.lt_ge_cases n (length zi)) as [H|H]; [now apply G1|]. destruct Sh as (Na & Nb & A0 & Lz).
    rewrite !nth_overflow by lia. rewrite (conv_high b) by lia. rewrite (conv_high (fb a)). { unfold Rdiv. ring. }
    unfold fb. cbn [length]. destruct a; [congruence|]. cbn [length tl] in *. lia. }
  apply lfilter_inv; auto; try (rewrite ?app_length; lia).
  - intros X. apply app_eq_nil in X as [-> _]. congruence.
  - intros n Hn. rewrite app_length in Hn. destruct (Nat.lt_ge_cases n (length u)) as [H|H].
    + rewrite app_nth1 by lia. rewrite F1 by auto. rewrite !conv_app. replace (length u <=? n)%nat with false by (symmetry; apply Nat.leb_gt; lia). replace (length y1 <=? n)%nat with false by (symmetry; apply Nat.leb_gt; lia). unfold Rdiv. ring.
    + rewrite app_nth2 by lia. rewrite F2 by lia. rewrite Z1. rewrite !conv_app. replace (length u <=? n)%nat with true by (symmetry; apply Nat.leb_le; lia). replace (length y1 <=? n)%nat with true by (symmetry; apply Nat.leb_le; lia).
      rewrite L1. replace (length u + (n - length u))%nat with n by lia. unfold Rdiv. ring.
  - intros j Hj. rewrite G2 by lia. rewrite Z1. rewrite !conv_app, app_length. replace (length u <=? _)%nat with true by (symmetry; apply Nat.leb_le; lia). replace (length y1 <=? _)%nat with true by (symmetry; apply Nat.leb_le; lia).
    rewrite L1. replace (length u + length v + j - length u)%nat with (length v + j)%nat by lia. rewrite !Nat.add_assoc. unfold Rdiv. ring.
Qed.
Lemma cl_length c u d v : length (combine_lists c u d v) = length u.
Proof. unfold combine_lists. now rewrite map_length, seq_length. Qed.
Lemma cl_nth c u d v k : length u = length v -> nth k (combine_lists c u d v) 0 = c * nth k u 0 + d * nth k v 0.
Proof.
  intros L. unfold combine_lists. destruct (Nat.lt_ge_cases k (length u)); [now rewrite nth_map_seq|]. rewrite !nth_overflow by (rewrite ?map_length, ?seq_length; lia). ring.
Qed.
Lemma conv_combine b c u d v n : length u = length v -> conv_at b (combine_lists c u d v) n = c * conv_at b u n + d * conv_at b v n.
Proof.
  intros L. rewrite !conv_upto. rewrite <- !sum_upto_scale, <- sum_upto_add. apply sum_upto_ext. intros k _. rewrite cl_nth by auto. ring.
Qed.
Lemma lfilter_linear b a u v zu zv c d y1 z1 y2 z2 : lf_shape b a (length zu) -> length zu = length zv -> length u = length v ->
  lfilter b a u zu = Ok (y1, z1) -> lfilter b a v zv = Ok (y2, z2) -> u <> [] ->
  lfilter b a (combine_lists c u d v) (combine_lists c zu d zv) = Ok (combine_lists c y1 d y2, combine_lists c z1 d z2).
Proof.
  intros Sh Lz Lu E1 E2 Nu. assert (Nv : v <> []) by (intros ->; destruct u; [congruence|discriminate]).
  destruct (lfilter_spec b a u zu Sh Nu) as (y & z & E & L1 & L2 & F1 & G1). rewrite E1 in E. injection E as <- <-.
  assert (Sh' : lf_shape b a (length zv)) by (now rewrite <- Lz).
  destruct (lfilter_spec b a v zv Sh' Nv) as (y & z & E & L3 & L4 & F2 & G2). rewrite E2 in E. injection E as <- <-.
  apply lfilter_inv; rewrite ?cl_length; auto.
  - intros X. apply (f_equal (@length R)) in X. rewrite cl_length in X. destruct u; [congruence|discriminate].
  - intros n Hn. rewrite !cl_nth, !conv_combine by lia. rewrite F1, F2 by lia. unfold Rdiv. ring.
  - intros j Hj. rewrite !cl_nth, !conv_combine by lia. rewrite G1, G2 by lia. rewrite <- Lu. unfold Rdiv. ring.
Qed.
