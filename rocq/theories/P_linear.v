(** Proofs about block codes and nearest-codeword decoding. *)
From Verif Require Import Py B_list M_aux S_aux P_gf2 P_aux M_coding P_coding P_bipolar M_linear S_linear.
From Coq Require Import QArith Permutation.
Open Scope Z_scope.
Ltac Zify.zify_post_hook ::= Z.div_mod_to_equations.

(** *** Hamming distance *)
Lemma hdist_sym u v : bits u -> bits v -> length u = length v -> hdist u v = hdist v u.
Proof. intros Bu Bv L. apply Nat2Z.inj. rewrite <- !hdistZ_hdist by auto. apply hdistZ_sym. Qed.
Lemma hdist_tri u v w : bits u -> bits v -> bits w -> length u = length v -> length v = length w -> (hdist u w <= hdist u v + hdist v w)%nat.
Proof.
  intros Bu Bv Bw L1 L2. apply Nat2Z.inj_le. rewrite Nat2Z.inj_add. rewrite <- !hdistZ_hdist by (auto; congruence).
  apply hdistZ_tri; auto.
Qed.
Lemma hdist_zero u v : length u = length v -> (hdist u v = 0)%nat -> u = v.
Proof.
  intros L H. unfold hdist in H. apply (nth_ext_def 0); auto. intros i Hi. apply Z.eqb_eq.
  destruct (nth i u 0 =? nth i v 0) eqn:E; auto. exfalso.
  assert (In i (filter (fun i => negb (nth i u 0 =? nth i v 0)) (seq 0 (length u)))).
  { apply filter_In. split; [apply in_seq; lia|]. now rewrite E. }
  destruct (filter _ _); [destruct H0|discriminate].
Qed.
Lemma hdist_refl u : hdist u u = 0%nat.
Proof.
  unfold hdist. rewrite (filter_ext_in _ (fun _ => false)); [|intros; now rewrite Z.eqb_refl]. induction (seq 0 (length u)); auto.
Qed.

(** *** Nearest codeword, generic in the codebook *)
Definition first_nearest (cb : list (list Z)) (r : list Z) (i : nat) : Prop :=
  (i < length cb)%nat /\ (forall j, (j < length cb)%nat -> (hdist (nth i cb []) r <= hdist (nth j cb []) r)%nat) /\
  (forall j, (j < i)%nat -> (hdist (nth i cb []) r < hdist (nth j cb []) r)%nat).
Lemma first_nearest_unique cb r i j : first_nearest cb r i -> first_nearest cb r j -> i = j.
Proof.
  intros (A & B & C) (A' & B' & C'). destruct (Nat.lt_trichotomy i j) as [L|[E|L]]; auto.
  - specialize (C' i L). specialize (B j A'). lia.
  - specialize (C j L). specialize (B' i A). lia.
Qed.
Section ml.
Variables (n : nat) (cb : list (list Z)).
Hypothesis Hne : cb <> [].
Hypothesis Hcb : Forall (fun c => length c = n /\ bits c) cb.
Lemma col_nth r j : length r = n -> bits r -> (j < length cb)%nat -> nth j (hamming_col cb r) 0 = Z.of_nat (hdist (nth j cb []) r).
Proof.
  intros L B Hj. unfold hamming_col. rewrite (map_nth_lt _ _ _ []) by auto.
  assert (Cj := Forall_nth_lt _ _ _ [] Hcb Hj). cbn beta in Cj. apply hdistZ_hdist; [tauto|tauto|]. destruct Cj; congruence.
Qed.
Lemma col_length r : length (hamming_col cb r) = length cb. Proof. unfold hamming_col. apply map_length. Qed.
Lemma col_argmin r : length r = n -> bits r -> exists i, argmin (hamming_col cb r) = Ok i /\ first_nearest cb r i.
Proof.
  intros L B. destruct (argmin_ok (hamming_col cb r)) as [i E].
  { intros E. apply Hne. apply (f_equal (@length Z)) in E. rewrite col_length in E. now destruct cb. }
  exists i. split; auto. apply argmin_spec in E. rewrite col_length in E. destruct E as (A & M & S). split; auto. split.
  - intros j Hj. specialize (M j Hj). rewrite !col_nth in M by auto. lia.
  - intros j Hj. specialize (S j Hj). rewrite !col_nth in S by (auto; lia). lia.
Qed.
Lemma ml_block_ok perms r : length perms = length cb -> length r = n -> bits r ->
  exists i, first_nearest cb r i /\ ml_block perms cb r = Ok (nth i perms []).
Proof.
  intros Lp L B. destruct (col_argmin r L B) as (i & E & F). exists i. split; auto. unfold ml_block. rewrite E. cbn [bind].
  apply np_get_nth. destruct F. lia.
Qed.
Lemma np_min_spec (l : list Z) i : argmin l = Ok i -> np_min l = Ok (nth i l 0).
Proof.
  intros E. apply argmin_spec in E. destruct E as (A & M & _). unfold np_min. destruct l as [|x l]; [simpl in A; lia|]. f_equal.
  assert (G : forall l x, (forall y, In y (x :: l) -> fold_left Z.min l x <= y) /\ In (fold_left Z.min l x) (x :: l)).
  { clear. induction l as [|y l IH]; intros x; cbn [fold_left].
    - split; [|left; auto]. intros y [->|[]]. lia.
    - destruct (IH (Z.min x y)) as [I1 I2]. split.
      + intros z [->|[->|Hz]].
        * specialize (I1 (Z.min z y) (or_introl eq_refl)). lia.
        * specialize (I1 (Z.min x z) (or_introl eq_refl)). lia.
        * apply I1. right; auto.
      + destruct I2 as [I2|I2]; [|right; right; auto]. destruct (Z.min_spec x y) as [[_ e]|[_ e]]; rewrite e in I2; [left|right; left]; rewrite e; auto. }
  destruct (G l x) as [G1 G2]. apply (In_nth _ _ 0) in G2. destruct G2 as (k & Hk & Ek).
  assert (nth i (x :: l) 0 <= nth k (x :: l) 0) by (apply M; auto).
  assert (fold_left Z.min l x <= nth i (x :: l) 0) by (apply G1, nth_In; auto). lia.
Qed.
Lemma count_col r d : length r = n -> bits r ->
  length (filter (Z.eqb (Z.of_nat d)) (hamming_col cb r)) = length (filter (fun c => (hdist c r =? d)%nat) cb).
Proof.
  intros L B. unfold hamming_col. clear Hne. induction Hcb as [|c l [Lc Bc] Hl IH]; auto. cbn [map filter].
  rewrite hdistZ_hdist by (auto; congruence).
  destruct (hdist c r =? d)%nat eqn:E; [apply Nat.eqb_eq in E; subst; rewrite Z.eqb_refl; cbn [length]; auto|].
  apply Nat.eqb_neq in E. replace (Z.of_nat d =? Z.of_nat (hdist c r)) with false by (symmetry; apply Z.eqb_neq; lia). auto.
Qed.
Lemma ml_block_ep_ok perms r : length perms = length cb -> length r = n -> bits r ->
  exists i, first_nearest cb r i /\ ml_block_ep perms cb r =
    Ok (nth i perms [],
        if (hdist (nth i cb []) r =? 0)%nat then 0%Q
        else (1 # Pos.of_nat (length (filter (fun c => (hdist c r =? hdist (nth i cb []) r)%nat) cb)))%Q,
        nth i cb []).
Proof.
  intros Lp L B. destruct (col_argmin r L B) as (i & E & F). exists i. split; auto. unfold ml_block_ep.
  rewrite (np_min_spec _ i E). cbn [bind]. rewrite E. cbn [bind]. assert (Hi : (i < length cb)%nat) by apply F.
  rewrite (np_get_nth cb i []) by auto. cbn [bind]. rewrite col_nth by auto.
  destruct (Nat.eq_dec (hdist (nth i cb []) r) 0) as [e|ne].
  - rewrite e. cbn [Z.of_nat Z.ltb Z.compare Nat.eqb]. rewrite E. cbn [bind]. rewrite (np_get_nth perms i []) by lia. cbn [bind].
    do 3 f_equal. assert (Ci := Forall_nth_lt _ _ _ [] Hcb Hi). cbn beta in Ci. symmetry. apply hdist_zero; auto. destruct Ci; congruence.
  - replace (0 <? Z.of_nat (hdist (nth i cb []) r)) with true by (symmetry; apply Z.ltb_lt; lia).
    replace (hdist (nth i cb []) r =? 0)%nat with false by (symmetry; apply Nat.eqb_neq; auto).
    assert (E2 : argmin (set_nth i 0 (hamming_col cb r)) = Ok i).
    { destruct (argmin_ok (set_nth i 0 (hamming_col cb r))) as [i2 E2].
      { intros X. apply (f_equal (@length Z)) in X. rewrite set_nth_length, col_length in X. simpl in X. lia. }
      rewrite E2. f_equal. apply (argmin_unique _ _ _ E2).
      - now rewrite set_nth_length, col_length.
      - rewrite set_nth_length, col_length. intros k Hk. rewrite !set_nth_nth by (now rewrite col_length). rewrite Nat.eqb_refl.
        destruct (k =? i)%nat; [lia|]. rewrite col_nth by auto. lia.
      - intros k Hk. rewrite !set_nth_nth by (now rewrite col_length). rewrite Nat.eqb_refl.
        replace (k =? i)%nat with false by (symmetry; apply Nat.eqb_neq; lia). rewrite col_nth by (auto; lia).
        destruct F as (_ & _ & F3). specialize (F3 k Hk). lia. }
    rewrite E2. cbn [bind]. rewrite (np_get_nth perms i []) by lia. cbn [bind].
    rewrite count_col by auto. reflexivity.
Qed.
End ml.

(** *** Linear codes *)
Lemma vec_mat_codeword k n G u : length G = (k * n)%nat -> length u = k -> mod2 (vec_mat n u (mat_rows k n G)) = codeword k n G u.
Proof.
  intros LG Lu. unfold mod2, vec_mat, codeword. rewrite map_map. apply map_ext_in. intros j Hj. apply in_seq in Hj. f_equal.
  assert (Lr : length (map (fun r => nth j r 0) (mat_rows k n G)) = k) by (unfold mat_rows; rewrite !map_length, seq_length; auto).
  rewrite dotZ_sum_nth by congruence. rewrite Lu. apply sumZ_map_ext. intros i Hi. apply in_seq in Hi. f_equal.
  unfold mat_rows. rewrite map_map, nth_map_seq by lia. cbn [Nat.add]. rewrite nth_firstn, nth_skipn by lia. reflexivity.
Qed.
Lemma codeword_length k n G u : length (codeword k n G u) = n.
Proof. unfold codeword. now rewrite map_length, seq_length. Qed.
Lemma codeword_bits k n G u : bits (codeword k n G u).
Proof. unfold codeword. apply Forall_forall. intros v Hv. apply in_map_iff in Hv. destruct Hv as [j [<- _]]. apply isbit_mod. Qed.
Lemma block_length n b x : length (block n b x) = n.
Proof. unfold block. now rewrite map_length, seq_length. Qed.
Lemma block_bits n b x : bits x -> bits (block n b x).
Proof. intros H. apply Forall_forall. intros v Hv. unfold block in Hv. apply in_map_iff in Hv. destruct Hv as [i [<- _]]. now apply bits_nth. Qed.
Lemma block_nth n b x i : (i < n)%nat -> nth i (block n b x) 0 = nth (b * n + i) x 0.
Proof. intros H. unfold block. now rewrite nth_map_seq. Qed.
Lemma block_concat n (m : list (list Z)) b : (0 < n)%nat -> Forall (fun r => length r = n) m -> (b < length m)%nat -> block n b (concat m) = nth b m [].
Proof.
  intros Hn Hm Hb. assert (Lb := Forall_nth_lt _ _ _ [] Hm Hb). cbn beta in Lb. apply (nth_ext_def 0).
  - now rewrite block_length.
  - rewrite block_length. intros i Hi. rewrite block_nth by auto. rewrite (concat_nth_const 0 n) by auto.
    replace ((b * n + i) mod n)%nat with i by (apply Nat.mod_unique with b; lia).
    replace ((b * n + i) / n)%nat with b by (apply Nat.div_unique with i; lia). reflexivity.
Qed.
Lemma chunk_block n x b : (0 < n)%nat -> (b < length x / n)%nat -> nth b (chunks n x) [] = block n b x.
Proof.
  intros Hn Hb. rewrite chunks_nth by auto. assert (H := div_mul_le _ _ _ Hn Hb). apply (nth_ext_def 0).
  - rewrite block_length, firstn_length, skipn_length. lia.
  - rewrite firstn_length, skipn_length. intros i Hi. rewrite nth_firstn, nth_skipn, block_nth by lia. reflexivity.
Qed.
Lemma chunks_blocks n x : (0 < n)%nat -> chunks n x = map (fun b => block n b x) (seq 0 (length x / n)).
Proof.
  intros Hn. apply (nth_ext_def []).
  - now rewrite chunks_count, map_length, seq_length.
  - rewrite chunks_count. intros b Hb. rewrite chunk_block by auto. now rewrite nth_map_seq.
Qed.
Lemma block_app_l n b x y : (forall i, nth i (x ++ y) 0 = nth i x 0) -> block n b (x ++ y) = block n b x.
Proof. intros H. unfold block. apply map_ext. intros i. apply H. Qed.
Lemma nth_app_zeros (x : list Z) m i : nth i (x ++ repeat 0 m) 0 = nth i x 0.
Proof.
  destruct (Nat.lt_ge_cases i (length x)); [now rewrite app_nth1|]. rewrite app_nth2 by auto. rewrite (nth_overflow x) by auto.
  destruct (Nat.lt_ge_cases (i - length x) m); [now rewrite repeat_nth|]. apply nth_overflow. now rewrite repeat_length.
Qed.

Definition nblk (k len : nat) : nat := ((len + k - 1) / k)%nat.
Lemma pad_len k len : (0 < k)%nat -> (len + (if (0 <? len mod k) then k - (len mod k) else 0) = nblk k len * k)%nat.
Proof.
  intros Hk. unfold nblk. assert (D := Nat.div_mod len k ltac:(lia)). assert (M := Nat.mod_upper_bound len k ltac:(lia)).
  set (q := (len / k)%nat) in *. set (r := (len mod k)%nat) in *. destruct (0 <? r)%nat eqn:E.
  - apply Nat.ltb_lt in E. replace ((len + k - 1) / k)%nat with (q + 1)%nat by (apply Nat.div_unique with (r - 1)%nat; lia). lia.
  - apply Nat.ltb_ge in E. replace ((len + k - 1) / k)%nat with q by (apply Nat.div_unique with (k - 1)%nat; lia). lia.
Qed.
Lemma coding_linear_ok k n x G : (0 < k)%nat -> bits x -> bits (data G) -> shape G = [k; n] -> wf_nda G ->
  coding_linear x G = Ok (concat (map (fun b => codeword k n (data G) (block k b x)) (seq 0 (nblk k (length x))))).
Proof.
  intros Hk Bx BG SG WG. unfold coding_linear. rewrite !check_binary_bits by auto. cbn [bind]. rewrite SG.
  replace (k =? 0)%nat with false by (symmetry; apply Nat.eqb_neq; lia).
  assert (LG : length (data G) = (k * n)%nat) by (unfold wf_nda in WG; rewrite WG, SG; unfold size; simpl; lia).
  set (pad := (if (0 <? length x mod k) then k - (length x mod k) else 0)%nat).
  assert (Lp : length (x ++ repeat 0 pad) = (nblk k (length x) * k)%nat) by (rewrite app_length, repeat_length; apply pad_len; auto).
  unfold reshape_rows. replace (k =? 0)%nat with false by (symmetry; apply Nat.eqb_neq; lia).
  rewrite Lp, Nat.mod_mul by lia. cbn [Nat.eqb bind]. do 2 f_equal. rewrite chunks_blocks by auto. rewrite Lp, Nat.div_mul by lia.
  rewrite map_map. apply map_ext_in. intros b Hb. rewrite block_app_l by (intros; apply nth_app_zeros).
  apply vec_mat_codeword; auto. apply block_length.
Qed.
Lemma coding_linear_spec k n x G : (0 < k)%nat -> bits x -> bits (data G) -> shape G = [k; n] -> wf_nda G ->
  exists y, coding_linear x G = Ok y /\ bits y /\ length y = (nblk k (length x) * n)%nat /\
    forall b, (b < nblk k (length x))%nat -> block n b y = codeword k n (data G) (block k b x).
Proof.
  intros Hk Bx BG SG WG. eexists. split; [eapply coding_linear_ok; eauto|].
  set (m := map _ _). assert (Hm : Forall (fun r => length r = n) m).
  { apply Forall_forall. intros r Hr. apply in_map_iff in Hr. destruct Hr as [b [<- _]]. apply codeword_length. }
  assert (Lm : length m = nblk k (length x)) by (unfold m; rewrite map_length, seq_length; auto).
  split; [apply bits_concat, Forall_forall; intros r Hr; apply in_map_iff in Hr; destruct Hr as [b [<- _]]; apply codeword_bits|].
  split; [rewrite (concat_length_const n) by auto; now rewrite Lm|]. intros b Hb.
  destruct (Nat.eq_dec n 0) as [->|Hn]; [unfold block, codeword; reflexivity|].
  rewrite block_concat by (auto; lia). unfold m. rewrite nth_map_seq by auto. reflexivity.
Qed.
Lemma codeword_xor k n G u v : length u = k -> length v = k -> codeword k n G (xor_bits u v) = xor_bits (codeword k n G u) (codeword k n G v).
Proof.
  intros Lu Lv. unfold codeword, xor_bits. apply (nth_ext_def 0).
  - rewrite map2_length, !map_length. lia.
  - rewrite map_length, seq_length. intros j Hj. rewrite (map2_nth _ _ _ _ 0 0) by (rewrite map_length, seq_length; auto).
    rewrite !nth_map_seq by auto. rewrite <- Zplus_mod. rewrite <- sumZ_map_add. cbn [Nat.add].
    assert (C : forall (l : list nat) (f g : nat -> Z), (forall i, In i l -> f i mod 2 = g i mod 2) -> (sumZ (map f l)) mod 2 = (sumZ (map g l)) mod 2).
    { clear. intros l f g H. induction l; auto. cbn [map sumZ fold_right]. fold (sumZ (map f l)) (sumZ (map g l)).
      rewrite Zplus_mod, (H a), IHl, <- Zplus_mod; simpl; auto. intros; apply H; simpl; auto. }
    apply C. intros i Hi. apply in_seq in Hi. rewrite (map2_nth _ _ _ _ 0 0) by lia. rewrite Zmult_mod_idemp_l. f_equal. lia.
Qed.
Lemma block_xor k b x y : length x = length y -> block k b (xor_bits x y) = xor_bits (block k b x) (block k b y).
Proof.
  intros L. unfold block, xor_bits. rewrite map2_map_l, map2_map_r.
  assert (E : forall l, map2 (fun i j => (nth (b * k + i) x 0 + nth (b * k + j) y 0) mod 2) l l = map (fun i => (nth (b * k + i) x 0 + nth (b * k + i) y 0) mod 2) l).
  { induction l; simpl; auto. now rewrite IHl. }
  rewrite E. apply map_ext. intros i. destruct (Nat.lt_ge_cases (b * k + i) (length x)).
  - now rewrite (map2_nth _ _ _ _ 0 0) by lia.
  - rewrite !nth_overflow by (rewrite ?map2_length; lia). reflexivity.
Qed.
Lemma xor_concat (f g : nat -> list Z) n l : (forall b, length (f b) = n /\ length (g b) = n) ->
  concat (map (fun b => xor_bits (f b) (g b)) l) = xor_bits (concat (map f l)) (concat (map g l)).
Proof.
  intros H. induction l; simpl; auto. rewrite IHl. unfold xor_bits. rewrite map2_app; auto. destruct (H a); congruence.
Qed.
Lemma xor_bits_bits u v : bits (xor_bits u v).
Proof. unfold xor_bits. revert v; induction u; intros [|b v]; simpl; constructor; [apply isbit_mod|apply IHu]. Qed.
Lemma xor_bits_length u v : length u = length v -> length (xor_bits u v) = length u.
Proof. intros. unfold xor_bits. rewrite map2_length. lia. Qed.
Lemma coding_linear_xor k n x x' G : (0 < k)%nat -> bits x -> bits x' -> length x = length x' -> bits (data G) -> shape G = [k; n] -> wf_nda G ->
  exists y y', coding_linear x G = Ok y /\ coding_linear x' G = Ok y' /\ coding_linear (xor_bits x x') G = Ok (xor_bits y y').
Proof.
  intros Hk Bx Bx' L BG SG WG. do 2 eexists. split; [eapply coding_linear_ok; eauto|]. split; [eapply coding_linear_ok; eauto|].
  rewrite (coding_linear_ok k n) by (auto using xor_bits_bits). rewrite xor_bits_length by auto. f_equal. rewrite <- L.
  rewrite <- (xor_concat _ _ n) by (intros; split; apply codeword_length). f_equal. apply map_ext. intros b.
  rewrite block_xor by auto. apply codeword_xor; apply block_length.
Qed.

(** decoder *)
Lemma trunc_reshape_ok l n : (0 < n)%nat -> trunc_reshape l n = Ok (chunks n l).
Proof.
  intros Hn. unfold trunc_reshape. replace (n =? 0)%nat with false by (symmetry; apply Nat.eqb_neq; lia).
  assert (D := Nat.div_mod (length l) n ltac:(lia)). assert (M := Nat.mod_upper_bound (length l) n ltac:(lia)).
  unfold reshape_rows. replace (n =? 0)%nat with false by (symmetry; apply Nat.eqb_neq; lia).
  destruct (length l mod n =? 0)%nat eqn:E; cbn [negb]; [reflexivity|].
  apply Nat.eqb_neq in E. rewrite slice_to_neg by lia. set (r := (length l mod n)%nat) in *. set (q := (length l / n)%nat) in *.
  assert (Lf : length (firstn (length l - r) l) = (q * n)%nat) by (rewrite firstn_length; lia).
  rewrite Lf, Nat.mod_mul by lia. cbn [Nat.eqb]. f_equal. rewrite !chunks_blocks by auto. rewrite Lf, Nat.div_mul by lia. fold q.
  apply map_ext_in. intros b Hb. apply in_seq in Hb. unfold block. apply map_ext_in. intros i Hi. apply in_seq in Hi.
  assert (b * n + n <= q * n)%nat by nia.
  apply nth_firstn. lia.
Qed.
Lemma linear_codebook_eq k n G : length G = (k * n)%nat -> linear_codebook k n G = map (codeword k n G) (get_bin_perm k).
Proof.
  intros L. unfold linear_codebook. apply map_ext_in. intros u Hu. apply get_bin_perm_In in Hu. destruct Hu. now apply vec_mat_codeword.
Qed.
Lemma pow2_pos k : (0 < 2 ^ k)%nat. Proof. induction k; simpl; lia. Qed.
Lemma codebook_ne k n G : map (codeword k n G) (get_bin_perm k) <> [].
Proof. intros E. apply (f_equal (@length _)) in E. rewrite map_length, get_bin_perm_length in E. assert (P := pow2_pos k). simpl in E. lia. Qed.
Lemma codebook_Forall k n G : Forall (fun c => length c = n /\ bits c) (map (codeword k n G) (get_bin_perm k)).
Proof. apply Forall_forall. intros c Hc. apply in_map_iff in Hc. destruct Hc as [u [<- _]]. split; [apply codeword_length|apply codeword_bits]. Qed.
Lemma word_index k u : length u = k -> bits u -> exists i, (i < 2 ^ k)%nat /\ Z.of_nat i = val_msb u /\ nth i (get_bin_perm k) [] = u.
Proof.
  intros L B. assert (R := val_msb_range u B). rewrite L in R. exists (Z.to_nat (val_msb u)).
  assert (E : Z.of_nat (2 ^ k) = 2 ^ Z.of_nat k) by (rewrite Nat2Z.inj_pow; reflexivity).
  assert (Hlt : (Z.to_nat (val_msb u) < 2 ^ k)%nat) by lia.
  split; auto. split; [lia|]. rewrite get_bin_perm_nth by auto. rewrite Z2Nat.id by lia. rewrite <- L. now apply bits_msb_val.
Qed.
Lemma perm_val k i : (i < 2 ^ k)%nat -> val_msb (nth i (get_bin_perm k) []) = Z.of_nat i.
Proof.
  intros H. rewrite get_bin_perm_nth by auto. rewrite val_bits_msb by lia. apply Z.mod_small.
  assert (E : Z.of_nat (2 ^ k) = 2 ^ Z.of_nat k) by (rewrite Nat2Z.inj_pow; reflexivity). lia.
Qed.
Lemma nearest_of_first k n G r i : first_nearest (map (codeword k n G) (get_bin_perm k)) r i ->
  nearest_word (codeword k n G) k r (nth i (get_bin_perm k) []).
Proof.
  intros (A & M & S). rewrite map_length, get_bin_perm_length in A, M.
  assert (Hin : bv k (nth i (get_bin_perm k) [])) by (apply get_bin_perm_In, nth_In; now rewrite get_bin_perm_length).
  destruct Hin as [Lw Bw]. split; auto. split; auto.
  assert (N : forall j, (j < 2 ^ k)%nat -> nth j (map (codeword k n G) (get_bin_perm k)) [] = codeword k n G (nth j (get_bin_perm k) [])).
  { intros j Hj. now rewrite (map_nth_lt _ _ _ []) by (now rewrite get_bin_perm_length). }
  split.
  - intros u Lu Bu. destruct (word_index k u Lu Bu) as (j & Hj & _ & Ej). specialize (M j Hj). rewrite !N in M by auto. now rewrite Ej in M.
  - intros u Lu Bu Hv. destruct (word_index k u Lu Bu) as (j & Hj & Vj & Ej). rewrite perm_val in Hv by auto.
    specialize (S j ltac:(lia)). rewrite !N in S by auto. now rewrite Ej in S.
Qed.
Lemma nearest_unique enc k r w w' : nearest_word enc k r w -> nearest_word enc k r w' -> w = w'.
Proof.
  intros (L & B & M & S) (L' & B' & M' & S'). destruct (Z.lt_trichotomy (val_msb w) (val_msb w')) as [H|[H|H]].
  - specialize (S' w L B H). specialize (M w' L' B'). lia.
  - rewrite <- (bits_msb_val w B), <- (bits_msb_val w' B'). congruence.
  - specialize (S w' L' B' H). specialize (M' w L B). lia.
Qed.
Lemma words_perm k : Permutation (get_bin_perm k) (words k).
Proof.
  apply NoDup_Permutation.
  - apply get_bin_perm_NoDup.
  - induction k; [constructor; auto; constructor|]. cbn [words].
    assert (I : forall b, NoDup (map (cons b) (words k))).
    { intros b. apply FinFun.Injective_map_NoDup; auto. intros u v E. now inversion E. }
    clear IHk. assert (I0 := I 0). assert (I1 := I 1). revert I0 I1. generalize (words k) at 1 3. intros l. revert I.
    intros _. intros I0 I1. induction l as [|u l IH]; cbn [map app]; auto. inversion I0; subst. constructor; auto.
    rewrite in_app_iff. intros [H|H]; auto. apply in_map_iff in H. destruct H as [w [E _]]. discriminate.
  - intros u. rewrite get_bin_perm_In. revert u; induction k; intros u; cbn [words].
    + unfold bv. split.
      * intros [L _]. destruct u; [left; auto|discriminate].
      * intros [<-|[]]. split; [reflexivity|constructor].
    + rewrite in_app_iff, !in_map_iff. split.
      * intros H. destruct u as [|b u]; [destruct H; discriminate|]. apply bv_cons in H. destruct H as [[->| ->] H]; apply IHk in H; [left|right]; eauto.
      * intros [[w [<- H]]|[w [<- H]]]; apply IHk in H; apply bv_cons; split; auto; [left|right]; auto.
Qed.
Lemma filter_perm_length {A} (f : A -> bool) l l' : Permutation l l' -> length (filter f l) = length (filter f l').
Proof. induction 1; simpl; auto; try congruence; repeat match goal with |- context [f ?x] => destruct (f x) end; simpl; auto. Qed.
Lemma count_codebook k n G r d : length (filter (fun c => (hdist c r =? d)%nat) (map (codeword k n G) (get_bin_perm k))) = count_at (codeword k n G) k r d.
Proof.
  unfold count_at. rewrite <- (filter_perm_length _ _ _ (words_perm k)). induction (get_bin_perm k); simpl; auto.
  destruct (hdist (codeword k n G a) r =? d)%nat; simpl; auto.
Qed.

(** error_prob = True, and (by projection) error_prob = False *)
Lemma map_res_seq {A B} (f : A -> res B) (P : A -> B -> Prop) l : (forall a, In a l -> exists b, f a = Ok b /\ P a b) ->
  exists bs, map_res f l = Ok bs /\ length bs = length l /\ forall i da db, (i < length l)%nat -> P (nth i l da) (nth i bs db).
Proof.
  induction l as [|a l IH]; intros H.
  - exists []. repeat split; auto. simpl; lia.
  - destruct (H a (or_introl eq_refl)) as (b & Eb & Pb). destruct IH as (bs & E & L & N); [intros; apply H; right; auto|].
    exists (b :: bs). cbn [map_res]. rewrite Eb. cbn [bind]. rewrite E. cbn [bind]. split; auto. split; [simpl; auto|].
    intros [|i] da db Hi; cbn [nth]; auto. apply N. simpl in Hi. lia.
Qed.
Lemma blocks_ok n r : bits r -> (0 < n)%nat -> forall b, In b (chunks n r) -> length b = n /\ bits b.
Proof.
  intros B Hn b Hb. rewrite chunks_blocks in Hb by auto. apply in_map_iff in Hb. destruct Hb as [i [<- _]]. split; [apply block_length|now apply block_bits].
Qed.
Lemma decoding_linear_ep_spec k n r G : (0 < n)%nat -> bits r -> bits (data G) -> shape G = [k; n] -> wf_nda G ->
  exists d p a, decoding_linear_ep r G = Ok (d, p, a) /\ decoding_linear r G = Ok d /\
    length d = (length r / n * k)%nat /\ length p = (length r / n)%nat /\ length a = length r /\
    (forall b, (b < length r / n)%nat ->
       nearest_word (codeword k n (data G)) k (block n b r) (block k b d) /\
       nth b p 0%Q = perr (codeword k n (data G)) k (block n b r) (block k b d) /\
       block n b a = codeword k n (data G) (block k b d)) /\
    (forall i, (length r / n * n <= i)%nat -> nth i a 0 = nth i r 0).
Proof.
  intros Hn Br BG SG WG. assert (LG : length (data G) = (k * n)%nat) by (unfold wf_nda in WG; rewrite WG, SG; unfold size; simpl; lia).
  unfold decoding_linear_ep, decoding_linear. rewrite !check_binary_bits by auto. cbn [bind]. rewrite SG.
  rewrite trunc_reshape_ok by auto. cbn [bind]. rewrite linear_codebook_eq by auto.
  set (G' := data G) in *. set (cb := map (codeword k n G') (get_bin_perm k)). assert (Lcb : length (get_bin_perm k) = length cb) by (unfold cb; now rewrite map_length).
  set (P := fun (rb : list Z) (t : list Z * Q * list Z) =>
     ml_block (get_bin_perm k) cb rb = Ok (fst (fst t)) /\ nearest_word (codeword k n G') k rb (fst (fst t)) /\
     snd (fst t) = perr (codeword k n G') k rb (fst (fst t)) /\ snd t = codeword k n G' (fst (fst t))).
  destruct (map_res_seq (ml_block_ep (get_bin_perm k) cb) P (chunks n r)) as (ts & E & L & N).
  { intros rb Hrb. destruct (blocks_ok n r Br Hn rb Hrb) as [Lb Bb].
    destruct (ml_block_ep_ok n cb (codebook_ne k n G') (codebook_Forall k n G') (get_bin_perm k) rb Lcb Lb Bb) as (i & F & Ei).
    destruct (ml_block_ok n cb (codebook_ne k n G') (codebook_Forall k n G') (get_bin_perm k) rb Lcb Lb Bb) as (i' & F' & Ei').
    assert (i' = i) by (eapply first_nearest_unique; eauto). subst i'.
    eexists. split; [exact Ei|]. unfold P. cbn [fst snd]. assert (Hi : (i < length cb)%nat) by apply F.
    assert (Nc : nth i cb [] = codeword k n G' (nth i (get_bin_perm k) [])) by (unfold cb; now rewrite (map_nth_lt _ _ _ []) by lia).
    split; auto. split; [now apply nearest_of_first|]. split; auto. rewrite Nc. unfold perr. unfold cb. now rewrite count_codebook. }
  rewrite chunks_count in L, N.
  unfold ml_decoding_ep. rewrite E. cbn [bind].
  assert (N' : forall b, (b < length r / n)%nat -> P (block n b r) (nth b ts ([], 0%Q, []))).
  { intros b Hb. specialize (N b [] ([], 0%Q, []) Hb). now rewrite chunk_block in N. }
  do 3 eexists. split; [reflexivity|].
  assert (Ed : map_res (ml_block (get_bin_perm k) cb) (chunks n r) = Ok (map (fun t => fst (fst t)) ts)).
  { destruct (map_res_seq (ml_block (get_bin_perm k) cb) (fun rb w => ml_block (get_bin_perm k) cb rb = Ok w) (chunks n r)) as (ws & E1 & L1 & N1).
    { intros rb Hrb. destruct (blocks_ok n r Br Hn rb Hrb) as [Lb Bb].
      destruct (ml_block_ok n cb (codebook_ne k n G') (codebook_Forall k n G') (get_bin_perm k) rb Lcb Lb Bb) as (i' & F' & Ei'). eauto. }
    rewrite E1. f_equal. rewrite chunks_count in L1, N1. apply (nth_ext_def []).
    - rewrite map_length. congruence.
    - rewrite L1. intros b Hb. specialize (N1 b [] [] Hb). rewrite chunk_block in N1 by auto. destruct (N' b Hb) as [Q1 _].
      rewrite (map_nth_lt _ _ _ ([], 0%Q, [])) by lia. congruence. }
  unfold ml_decoding. rewrite Ed. cbn [bind]. split; [reflexivity|].
  assert (Wk : Forall (fun w => length w = k) (map (fun t => fst (fst t)) ts)).
  { apply Forall_forall. intros w Hw. apply in_map_iff in Hw. destruct Hw as [t [<- Ht]]. apply (In_nth _ _ ([], 0%Q, [])) in Ht.
    destruct Ht as (b & Hb & <-). rewrite L in Hb. destruct (N' b Hb) as (_ & (Lw & _) & _). exact Lw. }
  assert (Wn : Forall (fun w => length w = n) (map snd ts)).
  { apply Forall_forall. intros w Hw. apply in_map_iff in Hw. destruct Hw as [t [<- Ht]]. apply (In_nth _ _ ([], 0%Q, [])) in Ht.
    destruct Ht as (b & Hb & <-). rewrite L in Hb. destruct (N' b Hb) as (_ & _ & _ & ->). apply codeword_length. }
  assert (Lc : length (concat (map snd ts)) = (length r / n * n)%nat) by (rewrite (concat_length_const n) by auto; rewrite map_length, L; auto).
  assert (D := Nat.div_mod (length r) n ltac:(lia)).
  split; [rewrite (concat_length_const k) by auto; rewrite map_length, L; auto|].
  split; [now rewrite map_length|].
  split; [rewrite app_length, Lc, skipn_length; lia|]. split.
  - intros b Hb. destruct (N' b Hb) as (_ & NW & PE & CW).
    assert (Bk : block k b (concat (map (fun t => fst (fst t)) ts)) = fst (fst (nth b ts ([], 0%Q, [])))).
    { destruct (Nat.eq_dec k 0) as [->|Hk].
      - destruct NW as (Lw & _). destruct (fst (fst (nth b ts ([], 0%Q, [])))); [reflexivity|discriminate].
      - rewrite block_concat by (auto; try rewrite map_length; lia). now rewrite (map_nth_lt _ _ _ ([], 0%Q, [])) by lia. }
    rewrite Bk. split; auto. split; [now rewrite (map_nth_lt _ _ _ ([], 0%Q, [])) by lia|].
    rewrite <- CW. assert (Bn : block n b (concat (map snd ts)) = snd (nth b ts ([], 0%Q, []))).
    { rewrite block_concat by (auto; rewrite map_length; lia). now rewrite (map_nth_lt _ _ _ ([], 0%Q, [])) by lia. }
    rewrite <- Bn. unfold block. apply map_ext_in. intros i Hi. apply in_seq in Hi. apply app_nth1. rewrite Lc. nia.
  - intros i Hi. rewrite app_nth2 by lia. rewrite nth_skipn, Lc. f_equal. lia.
Qed.

(** error correction *)
Lemma corrects k n G t u r w : (forall u v, length u = k -> bits u -> length v = k -> bits v -> u <> v ->
     (2 * t + 1 <= hdist (codeword k n G u) (codeword k n G v))%nat) ->
  length u = k -> bits u -> length r = n -> bits r -> (hdist (codeword k n G u) r <= t)%nat ->
  nearest_word (codeword k n G) k r w -> w = u.
Proof.
  intros D Lu Bu Lr Br E (Lw & Bw & M & _). destruct (list_eq_dec Z.eq_dec w u) as [|ne]; auto. exfalso.
  assert (D' := D w u Lw Bw Lu Bu ne). specialize (M u Lu Bu).
  assert (T := hdist_tri (codeword k n G w) r (codeword k n G u) (codeword_bits _ _ _ _) Br (codeword_bits _ _ _ _)
     ltac:(rewrite codeword_length; auto) ltac:(rewrite codeword_length; auto)).
  rewrite (hdist_sym r) in T by (auto using codeword_bits; rewrite codeword_length; auto). lia.
Qed.
Lemma decoding_linear_corrects k n G t x r : (0 < k)%nat -> (0 < n)%nat -> bits x -> bits r -> bits (data G) -> shape G = [k; n] -> wf_nda G ->
  (forall u v, length u = k -> bits u -> length v = k -> bits v -> u <> v ->
     (2 * t + 1 <= hdist (codeword k n (data G) u) (codeword k n (data G) v))%nat) ->
  exists y, coding_linear x G = Ok y /\
   (length r = length y -> (forall b, (b < nblk k (length x))%nat -> (hdist (block n b y) (block n b r) <= t)%nat) ->
    exists d, decoding_linear r G = Ok d /\ length d = (nblk k (length x) * k)%nat /\ forall i, nth i d 0 = nth i x 0).
Proof.
  intros Hk Hn Bx Br BG SG WG D. destruct (coding_linear_spec k n x G Hk Bx BG SG WG) as (y & E & By & Ly & Ny).
  exists y. split; auto. intros Lr Herr. destruct (decoding_linear_ep_spec k n r G Hn Br BG SG WG) as (d & p & a & _ & Ed & Ld & _ & _ & N & _).
  assert (Eq : (length r / n = nblk k (length x))%nat) by (rewrite Lr, Ly, Nat.div_mul; lia). rewrite Eq in *.
  exists d. split; auto. split; auto.
  assert (Blk : forall b, (b < nblk k (length x))%nat -> block k b d = block k b x).
  { intros b Hb. destruct (N b Hb) as (NW & _). specialize (Herr b Hb). rewrite Ny in Herr by auto.
    refine (corrects k n (data G) t _ _ _ D _ _ _ _ Herr NW); auto using block_length, block_bits. }
  intros i. assert (Lx : (length x <= nblk k (length x) * k)%nat) by (assert (P := pad_len k (length x) Hk); lia).
  destruct (Nat.lt_ge_cases i (nblk k (length x) * k)) as [Hi|Hi].
  - assert (Hb : (i / k < nblk k (length x))%nat) by (apply Nat.div_lt_upper_bound; lia).
    assert (F := f_equal (fun l => nth (i mod k) l 0) (Blk _ Hb)). cbn beta in F.
    assert (M := Nat.mod_upper_bound i k ltac:(lia)). rewrite !block_nth in F by auto.
    assert (Di := Nat.div_mod i k ltac:(lia)). replace (i / k * k + i mod k)%nat with i in F by lia. exact F.
  - rewrite !nth_overflow by lia. reflexivity.
Qed.
Lemma decoding_linear_twice k n r G d p a : (0 < n)%nat -> bits r -> bits (data G) -> shape G = [k; n] -> wf_nda G ->
  (forall u v, length u = k -> bits u -> length v = k -> bits v -> codeword k n (data G) u = codeword k n (data G) v -> u = v) ->
  decoding_linear_ep r G = Ok (d, p, a) ->
  decoding_linear_ep a G = Ok (d, map (fun _ => 0%Q) p, a).
Proof.
  intros Hn Br BG SG WG Inj E. destruct (decoding_linear_ep_spec k n r G Hn Br BG SG WG) as (d' & p' & a' & E' & _ & Ld & Lp & La & N & T).
  rewrite E in E'. inversion E'; subst d' p' a'. clear E'.
  assert (D := Nat.div_mod (length r) n ltac:(lia)).
  assert (Ba : bits a).
  { apply Forall_forall. intros v Hv. apply (In_nth _ _ 0) in Hv. destruct Hv as (i & Hi & <-).
    destruct (Nat.lt_ge_cases i (length r / n * n)) as [H|H]; [|rewrite T by auto; now apply bits_nth].
    assert (Hb : (i / n < length r / n)%nat) by (apply Nat.div_lt_upper_bound; lia). destruct (N _ Hb) as (_ & _ & C).
    assert (F := f_equal (fun l => nth (i mod n) l 0) C). cbn beta in F. assert (M := Nat.mod_upper_bound i n ltac:(lia)).
    rewrite block_nth in F by auto. assert (Di := Nat.div_mod i n ltac:(lia)). replace (i / n * n + i mod n)%nat with i in F by lia.
    rewrite F. apply bits_nth, codeword_bits. }
  destruct (decoding_linear_ep_spec k n a G Hn Ba BG SG WG) as (d2 & p2 & a2 & E2 & _ & Ld2 & Lp2 & La2 & N2 & T2).
  rewrite La in *. rewrite E2.
  assert (Bd : forall b, (b < length r / n)%nat -> block k b d2 = block k b d).
  { intros b Hb. destruct (N b Hb) as ((Lw & Bw & _) & _ & C). destruct (N2 b Hb) as ((Lw2 & Bw2 & M2 & S2) & _). rewrite C in *.
    apply Inj; auto. assert (M := M2 _ Lw Bw). rewrite hdist_refl in M.
    apply hdist_zero; [now rewrite !codeword_length|lia]. }
  assert (Ed : d2 = d).
  { apply (nth_ext_def 0); [congruence|]. intros i Hi. rewrite Ld2 in Hi. destruct (Nat.eq_dec k 0) as [->|Hk]; [lia|].
    assert (Hb : (i / k < length r / n)%nat) by (apply Nat.div_lt_upper_bound; lia).
    assert (F := f_equal (fun l => nth (i mod k) l 0) (Bd _ Hb)). cbn beta in F. assert (M := Nat.mod_upper_bound i k ltac:(lia)).
    rewrite !block_nth in F by auto. assert (Di := Nat.div_mod i k ltac:(lia)). replace (i / k * k + i mod k)%nat with i in F by lia. exact F. }
  subst d2. assert (Ep : p2 = map (fun _ => 0%Q) p).
  { apply (nth_ext_def 0%Q); [rewrite map_length; congruence|]. intros b Hb. rewrite Lp2 in Hb. rewrite (map_nth_lt _ _ _ 0%Q) by lia.
    destruct (N b Hb) as (_ & _ & C). destruct (N2 b Hb) as (_ & P & _). rewrite P, C. unfold perr. now rewrite hdist_refl. }
  assert (Ea : a2 = a).
  { apply (nth_ext_def 0); [congruence|]. intros i Hi.
    destruct (Nat.lt_ge_cases i (length r / n * n)) as [H|H]; [|now apply T2].
    assert (Hb : (i / n < length r / n)%nat) by (apply Nat.div_lt_upper_bound; lia). destruct (N _ Hb) as (_ & _ & C). destruct (N2 _ Hb) as (_ & _ & C2).
    assert (F := f_equal (fun l => nth (i mod n) l 0) (eq_trans C2 (eq_sym C))). cbn beta in F. assert (M := Nat.mod_upper_bound i n ltac:(lia)).
    rewrite !block_nth in F by auto. assert (Di := Nat.div_mod i n ltac:(lia)). replace (i / n * n + i mod n)%nat with i in F by lia. exact F. }
  now subst.
Qed.

(** A decidable form of the minimum distance condition, for concrete codes. *)
Lemma words_all k u : length u = k -> bits u -> In u (words k).
Proof. intros L B. apply (Permutation_in _ (words_perm k)). apply get_bin_perm_In. split; auto. Qed.
Lemma min_distance_check k n G t :
  forallb (fun u => forallb (fun v => (if list_eq_dec Z.eq_dec u v then true else false) || (2 * t + 1 <=? hdist (codeword k n G u) (codeword k n G v))%nat) (words k)) (words k) = true ->
  forall u v, length u = k -> bits u -> length v = k -> bits v -> u <> v -> (2 * t + 1 <= hdist (codeword k n G u) (codeword k n G v))%nat.
Proof.
  intros H u v Lu Bu Lv Bv Ne. rewrite forallb_forall in H. specialize (H u (words_all k u Lu Bu)). rewrite forallb_forall in H.
  specialize (H v (words_all k v Lv Bv)). apply orb_true_iff in H. destruct H as [H|H]; [|now apply Nat.leb_le].
  destruct (list_eq_dec Z.eq_dec u v); [contradiction|discriminate].
Qed.
Lemma bits_check l : forallb (fun x => (x =? 0) || (x =? 1)) l = true -> bits l.
Proof.
  intros H. rewrite forallb_forall in H. apply Forall_forall. intros x Hx. specialize (H x Hx). apply orb_true_iff in H. unfold isbit.
  rewrite !Z.eqb_eq in H. exact H.
Qed.
