(** Proofs about the example link with inter-symbol interference: convolutions. *)
From Coq Require Import Reals Lra Lia String Qreals.
From Verif Require Import Py PyQ B_list B_qc M_delay P_delay M_channel S_channel P_channel P_pulse P_dft M_ctle S_ctle P_ctle M_link S_link P_link Prop_link S_full S_peak.
Import List.
Open Scope R_scope.

Definition past (f : nat -> R) (j i : nat) : R := if (i <=? j)%nat then f (j - i)%nat else 0.
Lemma past_conv g x j i : past (superposed g x) j i = superposed (fun n => past g n i) x j.
Proof.
  unfold past, superposed. destruct (Nat.leb_spec i j) as [H|H].
  - replace (S j) with (i + S (j - i))%nat by lia. rewrite sum_upto_split. rewrite (sum_upto_0 _ i).
    + rewrite Rplus_0_l. apply sum_upto_ext. intros k Hk. destruct (Nat.leb_spec i (i + k)); [|lia]. f_equal; f_equal; lia.
    + intros k Hk. destruct (Nat.leb_spec i k); [lia|ring].
  - symmetry. apply sum_upto_0. intros k Hk. destruct (Nat.leb_spec i k); [lia|ring].
Qed.
(** Filtering with finitely many taps. *)
Lemma taps_conv w W g x j : sum_upto (fun i => w i * past (superposed g x) j i) W = superposed (fun n => sum_upto (fun i => w i * past g n i) W) x j.
Proof.
  unfold superposed at 2. transitivity (sum_upto (fun i => sum_upto (fun k => w i * past g k i * x (j - k)%nat) (S j)) W).
  - apply sum_upto_ext. intros i _. rewrite past_conv. unfold superposed. rewrite <- sum_upto_scale. apply sum_upto_ext. intros k _. ring.
  - rewrite sum_upto_swap. apply sum_upto_ext. intros k _. rewrite Rmult_comm, <- sum_upto_scale. apply sum_upto_ext. intros i _. ring.
Qed.
Lemma superposed_ext g g' x x' j : (forall k, (k <= j)%nat -> g k = g' k) -> (forall k, (k <= j)%nat -> x k = x' k) -> superposed g x j = superposed g' x' j.
Proof. intros H1 H2. apply sum_upto_ext. intros k Hk. rewrite H1, H2 by lia. reflexivity. Qed.
Lemma superposed_assoc g2 g1 x j : superposed g2 (superposed g1 x) j = superposed (superposed g2 g1) x j.
Proof.
  transitivity (sum_upto (fun i => g2 i * past (superposed g1 x) j i) (S j)).
  - apply sum_upto_ext. intros i Hi. unfold past. destruct (Nat.leb_spec i j); [reflexivity|lia].
  - rewrite taps_conv. apply superposed_ext; auto. intros k Hk. replace (S j) with (S k + (j - k))%nat by lia. rewrite sum_upto_split, (sum_upto_0 _ (j - k)).
    + rewrite Rplus_0_r. apply sum_upto_ext. intros i Hi. unfold past. destruct (Nat.leb_spec i k); [reflexivity|lia].
    + intros i _. unfold past. destruct (Nat.leb_spec (S k + i) k); [lia|ring].
Qed.
Lemma superposed_sub g g' x j : superposed g x j - superposed g' x j = superposed (fun n => g n - g' n) x j.
Proof. unfold superposed. replace (_ - _) with (sum_upto (fun k => g k * x (j - k)%nat) (S j) + (-1) * sum_upto (fun k => g' k * x (j - k)%nat) (S j)) by ring. rewrite <- sum_upto_scale, <- sum_upto_add. apply sum_upto_ext. intros; ring. Qed.
Lemma superposed_bound g x j A E : 0 <= A -> (forall k, (k <= j)%nat -> Rabs (x k) <= A) -> sum_upto (fun k => Rabs (g k)) (S j) <= E -> Rabs (superposed g x j) <= A * E.
Proof.
  intros HA HX HE. eapply Rle_trans; [apply sum_upto_abs|]. apply Rle_trans with (sum_upto (fun k => A * Rabs (g k)) (S j)).
  - apply sum_upto_le. intros k Hk. rewrite Rabs_mult, Rmult_comm. apply Rmult_le_compat_r; [apply Rabs_pos|]. apply HX. lia.
  - rewrite sum_upto_scale. now apply Rmult_le_compat_l.
Qed.
(** A main tap at [M] followed by the taps [b]. *)
Lemma wanted_conv M (b : list R) y j : (M <= j)%nat ->
  superposed (fun n => if (n <? M)%nat then 0 else nth (n - M) (1 :: b) 0) y j = y (j - M)%nat + sum_upto (fun k => nth k b 0 * past y (j - M) (S k)) (length b).
Proof.
  intros H. unfold superposed. replace (S j) with (M + S (j - M))%nat by lia. rewrite sum_upto_split, (sum_upto_0 _ M).
  2:{ intros k Hk. destruct (Nat.ltb_spec k M); [ring|lia]. }
  rewrite Rplus_0_l, sum_upto_S. rewrite Nat.add_0_r. destruct (Nat.ltb_spec M M); [lia|]. rewrite Nat.sub_diag. cbn [nth]. rewrite Rmult_1_l. f_equal. set (J := (j - M)%nat).
  transitivity (sum_upto (fun k => nth k b 0 * past y J (S k)) J).
  - apply sum_upto_ext. intros k Hk. destruct (Nat.ltb_spec (M + S k) M); [lia|]. replace (M + S k - M)%nat with (S k) by lia. cbn [nth]. f_equal. unfold past. destruct (Nat.leb_spec (S k) J); [f_equal; unfold J; lia|lia].
  - transitivity (sum_upto (fun k => nth k b 0 * past y J (S k)) (J + length b)).
    + symmetry. apply sum_upto_cut; [|lia]. intros k Hk. unfold past. destruct (Nat.leb_spec (S k) J); [lia|ring].
    + apply sum_upto_cut; [|lia]. intros k Hk. rewrite nth_overflow by auto. ring.
Qed.
(** The equaliser on superposed responses with disturbance [eta]: distance of its output from the symbol sent [M] earlier. *)
Lemma equaliser_error M (w : nat -> R) W (b : list R) r y eta ad dec z : forall j, (M <= j)%nat ->
  (forall i, (i <= j)%nat -> ad i = superposed r y i + eta i) ->
  z = sum_upto (fun i => w i * past ad j i) W - sum_upto (fun k => nth k b 0 * past dec j (S k)) (length b) ->
  z - y (j - M)%nat = superposed (fun n => sum_upto (fun i => w i * past r n i) W - (if (n <? M)%nat then 0 else nth (n - M) (1 :: b) 0)) y j +
    sum_upto (fun i => w i * past eta j i) W + sum_upto (fun k => nth k b 0 * (past y (j - M) (S k) - past dec j (S k))) (length b).
Proof.
  intros j Hj HA ->. rewrite <- superposed_sub, <- taps_conv, (wanted_conv M b y j Hj).
  assert (E1 : sum_upto (fun i => w i * past ad j i) W = sum_upto (fun i => w i * past (superposed r y) j i) W + sum_upto (fun i => w i * past eta j i) W).
  { rewrite <- sum_upto_add. apply sum_upto_ext. intros i _. unfold past. destruct (Nat.leb_spec i j); [rewrite HA by lia|]; ring. }
  assert (E2 : sum_upto (fun k => nth k b 0 * (past y (j - M) (S k) - past dec j (S k))) (length b) = sum_upto (fun k => nth k b 0 * past y (j - M) (S k)) (length b) + (-1) * sum_upto (fun k => nth k b 0 * past dec j (S k)) (length b)).
  { rewrite <- sum_upto_scale, <- sum_upto_add. apply sum_upto_ext. intros; ring. }
  rewrite E1, E2. ring.
Qed.
Lemma weighted_bound (w v : nat -> R) W B : 0 <= B -> (forall i, (i < W)%nat -> Rabs (v i) <= B) -> Rabs (sum_upto (fun i => w i * v i) W) <= sum_upto (fun i => Rabs (w i)) W * B.
Proof.
  intros HB HV. eapply Rle_trans; [apply sum_upto_abs|]. rewrite Rmult_comm, <- sum_upto_scale. apply sum_upto_le. intros i Hi. rewrite Rabs_mult, Rmult_comm. apply Rmult_le_compat_r; [apply Rabs_pos|auto].
Qed.
Lemma past_bound f j i B : 0 <= B -> (forall k, (k <= j)%nat -> Rabs (f k) <= B) -> Rabs (past f j i) <= B.
Proof. intros HB H. unfold past. destruct (Nat.leb_spec i j); [apply H; lia|rewrite Rabs_R0; exact HB]. Qed.

(** * Filters without initial state *)
Lemma conv_superposed b x n : conv_at b x n = superposed (fun k => nth k b 0) (fun k => nth k x 0) n.
Proof. apply conv_upto. Qed.
(** The impulse response. *)
Fixpoint imp_list (b a : list R) (n : nat) : list R :=
  match n with O => [] | S n => let l := imp_list b a n in l ++ [nth n b 0 / nth 0 a 0 - conv_at (fb a) l n / nth 0 a 0] end.
Definition impulse (b a : list R) (n : nat) : R := nth n (imp_list b a (S n)) 0.
Lemma imp_length b a n : length (imp_list b a n) = n.
Proof. induction n as [|n IH]; [reflexivity|]. cbn [imp_list]. rewrite app_length, IH. cbn. lia. Qed.
Lemma imp_nth b a m n : (n < m)%nat -> nth n (imp_list b a m) 0 = impulse b a n.
Proof.
  intros H. unfold impulse. induction m as [|m IH]; [lia|]. destruct (Nat.eq_dec n m) as [->|N]; [reflexivity|]. cbn [imp_list]. rewrite app_nth1 by (rewrite imp_length; lia). apply IH. lia.
Qed.
Lemma impulse_rec b a n : impulse b a n = nth n b 0 / nth 0 a 0 - superposed (fun k => nth k (fb a) 0) (impulse b a) n / nth 0 a 0.
Proof.
  unfold impulse at 1. cbn [imp_list]. rewrite app_nth2, imp_length, Nat.sub_diag by (rewrite imp_length; lia). cbn [nth]. f_equal. f_equal. rewrite conv_superposed.
  unfold superposed. apply sum_upto_ext. intros k Hk. destruct k as [|k]; [unfold fb; cbn [nth]; ring|]. f_equal. apply imp_nth. lia.
Qed.
Lemma lfilter_impulse b a x m : lf_shape b a m -> x <> [] ->
  exists y zf, lfilter b a x (repeat 0 m) = Ok (y, zf) /\ length y = length x /\ forall n, (n < length x)%nat -> nth n y 0 = superposed (impulse b a) (fun k => nth k x 0) n.
Proof.
  intros LS N. destruct (lfilter_spec b a x (repeat 0 m)) as (y & zf & E & L1 & _ & E1 & _); [now rewrite repeat_length|exact N|]. exists y, zf. split; [exact E|]. split; [exact L1|].
  set (a0 := nth 0 a 0) in *. set (X := fun k => nth k x 0). set (y' := map (fun n => superposed (impulse b a) X n) (seq 0 (length x))).
  assert (N' : forall n, (n < length x)%nat -> nth n y' 0 = superposed (impulse b a) X n) by (intros n Hn; unfold y'; now rewrite nth_map_seq).
  assert (EQ : y = y').
  { apply (recursion_unique b a x (repeat 0 m)); auto; [unfold y'; now rewrite map_length, seq_length|]. intros n Hn. fold a0. rewrite N' by exact Hn. rewrite nth_zeros, !conv_superposed, Rplus_0_l.
    rewrite (superposed_ext (fun k => nth k (fb a) 0) (fun k => nth k (fb a) 0) (fun k => nth k y' 0) (superposed (impulse b a) X) n) by (auto; intros k Hk; apply N'; lia).
    rewrite superposed_assoc. unfold Rdiv. rewrite (Rmult_comm _ (/ a0)), (Rmult_comm (superposed (superposed _ _) _ _) (/ a0)).
    assert (SC : forall g, / a0 * superposed g X n = superposed (fun k => g k / a0) X n) by (intros g; unfold superposed; rewrite <- sum_upto_scale; apply sum_upto_ext; intros; unfold Rdiv; ring).
    rewrite !SC, superposed_sub. apply superposed_ext; auto. intros k _. rewrite impulse_rec at 1. reflexivity. }
  intros n Hn. now rewrite EQ, N'.
Qed.

(** * Upsampled symbols *)
Lemma ups_nth (x : list R) o : (1 <= o)%nat -> forall n, nth n (concat (map (fun v => v :: repeat 0 (o - 1)) x)) 0 = if (n mod o =? 0)%nat then nth (n / o) x 0 else 0.
Proof.
  intros Ho n. set (m := map (fun v => v :: repeat 0 (o - 1)) x).
  assert (F : Forall (fun r => length r = o) m) by (apply Forall_forall; intros r Hr; apply in_map_iff in Hr; destruct Hr as (v & <- & _); cbn [length]; rewrite repeat_length; lia).
  assert (LC : length (concat m) = (length x * o)%nat) by (rewrite (concat_length_const o) by exact F; unfold m; now rewrite map_length).
  pose proof (Nat.mod_upper_bound n o ltac:(lia)) as MB. pose proof (Nat.div_mod n o ltac:(lia)) as DM.
  destruct (Nat.lt_ge_cases n (length x * o)) as [H|H].
  - assert (Hd : (n / o < length x)%nat) by (apply Nat.div_lt_upper_bound; lia).
    rewrite (concat_nth_const 0 o) by (auto; rewrite LC; exact H). unfold m. rewrite (map_nth_lt _ _ _ 0) by exact Hd.
    destruct (n mod o)%nat as [|r]; [reflexivity|]. cbn [nth Nat.eqb]. apply nth_zeros.
  - rewrite nth_overflow by lia. destruct (Nat.eqb_spec (n mod o) 0); [|reflexivity]. rewrite nth_overflow; [reflexivity|]. apply Nat.div_le_lower_bound; lia.
Qed.
Lemma sum_blocks F o ph : (ph < o)%nat -> (forall m, (m mod o <> 0)%nat -> F m = 0) -> forall j, sum_upto F (S (ph + j * o)) = sum_upto (fun i => F (i * o)%nat) (S j).
Proof.
  intros Hp HF. assert (Z : forall i q c, (q + c < o)%nat -> (1 <= q)%nat -> sum_upto (fun k => F (i * o + q + k)%nat) c = 0).
  { intros i q c H1 H2. apply sum_upto_0. intros k Hk. apply HF. replace (i * o + q + k)%nat with (q + k + i * o)%nat by lia. rewrite Nat.mod_add, Nat.mod_small by lia. lia. }
  assert (Z' : forall i c, (c < o)%nat -> sum_upto (fun k => F (i * o + 1 + k)%nat) c = 0).
  { intros i c H. apply sum_upto_0. intros k Hk. apply HF. replace (i * o + 1 + k)%nat with (1 + k + i * o)%nat by lia. rewrite Nat.mod_add, Nat.mod_small by lia. lia. }
  induction j as [|j IH].
  - replace (S (ph + 0 * o)) with (0 * o + 1 + ph)%nat by lia. rewrite sum_upto_split, Z' by lia. cbn. ring.
  - replace (S (ph + S j * o)) with (S (ph + j * o) + ((o - ph - 1) + (1 + ph)))%nat by lia. rewrite sum_upto_split, IH, sum_upto_split.
    cbn [sum_upto]. replace (sum_upto (fun k => F (S (ph + j * o) + k)%nat) (o - ph - 1)) with 0.
    2:{ symmetry. apply sum_upto_0. intros k Hk. apply HF. replace (S (ph + j * o) + k)%nat with (1 + ph + k + j * o)%nat by lia. rewrite Nat.mod_add, Nat.mod_small by lia. lia. }
    rewrite Rplus_0_l. rewrite sum_upto_split. cbn [sum_upto]. rewrite (sum_upto_0 _ ph).
    + replace (S (ph + j * o) + (o - ph - 1 + 0))%nat with (S j * o)%nat by lia. ring.
    + intros k Hk. apply HF. replace (S (ph + j * o) + (o - ph - 1 + (1 + k)))%nat with (1 + k + S j * o)%nat by lia. rewrite Nat.mod_add, Nat.mod_small by lia. lia.
Qed.
Lemma superposed_rev g x n : superposed g x n = sum_upto (fun m => g (n - m)%nat * x m) (S n).
Proof. unfold superposed. rewrite sum_upto_rev. apply sum_upto_ext. intros k Hk. replace (S n - 1 - k)%nat with (n - k)%nat by lia. f_equal. f_equal. lia. Qed.
Lemma sampled_conv g (x : list R) o ph j : (ph < o)%nat ->
  superposed g (fun n => nth n (concat (map (fun v => v :: repeat 0 (o - 1)) x)) 0) (ph + j * o) = superposed (fun k => g (ph + k * o)%nat) (fun k => nth k x 0) j.
Proof.
  intros Hp. rewrite !superposed_rev. rewrite (sum_blocks _ o ph Hp).
  - apply sum_upto_ext. intros i Hi. rewrite ups_nth by lia. rewrite Nat.mod_mul, Nat.div_mul by lia. cbn [Nat.eqb]. f_equal. f_equal. nia.
  - intros m Hm. rewrite ups_nth by lia. destruct (Nat.eqb_spec (m mod o) 0); [congruence|ring].
Qed.
