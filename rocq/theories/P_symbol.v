(** Proofs about bin2symbol / symbol2bin. *)
From Verif Require Import Py B_list M_aux S_aux P_aux P_prbs M_symbol S_symbol.
Ltac Zify.zify_post_hook ::= Z.div_mod_to_equations.

Definition weights (k : nat) : list Z := map (fun i => 2 ^ Z.of_nat i) (seq 0 k).
Lemma weights_rev k : weights k = rev (bits_weights k).
Proof.
  unfold weights, bits_weights. rewrite <- map_rev, rev_involutive. apply map_ext. intros.
  rewrite Z.shiftl_mul_pow2 by lia. lia.
Qed.
Lemma dotZ_rev u v : length u = length v -> dotZ (rev u) (rev v) = dotZ u v.
Proof.
  revert v; induction u as [|a u IH]; intros [|b v] H; simpl in *; try lia; auto.
  rewrite dotZ_app by (rewrite !rev_length; lia). rewrite IH by lia. simpl. lia.
Qed.
Lemma val_lsb row : dotZ row (weights (length row)) = val_msb (rev row).
Proof.
  rewrite <- bin2uint_val. unfold bin2uint. rewrite rev_length, weights_rev.
  rewrite <- (rev_involutive row) at 1. apply dotZ_rev. rewrite rev_length, bits_weights_length. reflexivity.
Qed.
Lemma lsb_bits k x : map (bit_test x) (seq 0 k) = rev (bits_msb k x).
Proof. unfold bits_msb. rewrite <- map_rev, rev_involutive. reflexivity. Qed.
Lemma bits_of_val row k : bits row -> length row = k -> map (bit_test (dotZ row (weights k))) (seq 0 k) = row.
Proof.
  intros H <-. rewrite lsb_bits, val_lsb. rewrite <- (rev_length row). rewrite bits_msb_val by now apply Forall_rev_iff.
  apply rev_involutive.
Qed.

Lemma inv_all_invol r : inv_all (inv_all r) = r.
Proof. unfold inv_all. rewrite map_map. rewrite <- (map_id r) at 2. apply map_ext. intros; cbv beta; lia. Qed.
Lemma inv_first_invol r : inv_first (inv_first r) = r.
Proof. destruct r; cbn [inv_first]; auto. f_equal. lia. Qed.
Lemma inv_last_snoc r b : inv_last (r ++ [b]) = r ++ [1 - b].
Proof.
  unfold inv_last. destruct (r ++ [b]) eqn:E; [destruct r; discriminate|]. rewrite <- E.
  now rewrite removelast_last, last_last.
Qed.
Lemma inv_last_invol r : inv_last (inv_last r) = r.
Proof.
  destruct r as [|x r0] using rev_ind; auto. rewrite !inv_last_snoc. do 2 f_equal. lia.
Qed.
Lemma inv_all_length r : length (inv_all r) = length r. Proof. apply map_length. Qed.
Lemma inv_first_length r : length (inv_first r) = length r. Proof. destruct r; auto. Qed.
Lemma inv_last_length r : length (inv_last r) = length r.
Proof. destruct r as [|x r0] using rev_ind; auto. now rewrite inv_last_snoc, !app_length. Qed.
Lemma isbit_inv b : isbit b -> isbit (1 - b). Proof. intros [->| ->]; [right|left]; auto. Qed.
Lemma inv_all_bits r : bits r -> bits (inv_all r).
Proof. induction 1; cbn [inv_all map]; constructor; auto. now apply isbit_inv. Qed.
Lemma inv_first_bits r : bits r -> bits (inv_first r).
Proof. destruct 1; cbn [inv_first]; constructor; auto. now apply isbit_inv. Qed.
Lemma inv_last_bits r : bits r -> bits (inv_last r).
Proof.
  destruct r as [|x r0] using rev_ind; auto. rewrite inv_last_snoc. intros H. apply bits_app in H.
  apply bits_app. destruct H as [H1 H2]. split; auto. inversion H2. constructor; [now apply isbit_inv|constructor].
Qed.
Lemma when_invol b f x : (forall y, f (f y) = y) -> when b f (when b f x) = x.
Proof. destruct b; simpl; auto. Qed.
Lemma when_length b f x : (forall y, length (f y) = length y) -> length (when b f x) = length x.
Proof. destruct b; simpl; auto. Qed.
Lemma when_bits b f x : (forall y, bits y -> bits (f y)) -> bits x -> bits (when b f x).
Proof. destruct b; simpl; auto. Qed.

Definition mod_row (f : flags) (row : list Z) : list Z :=
  when (pn_inv f) inv_all (when (inv_lsb f) inv_first (when (inv_msb f) inv_last (when (bit_order_inv f) (@rev Z) row))).
Definition unmod_row (f : flags) (row : list Z) : list Z :=
  when (bit_order_inv f) (@rev Z) (when (inv_lsb f) inv_first (when (inv_msb f) inv_last (when (pn_inv f) inv_all row))).
Lemma inv_first_last_comm r : (2 <= length r)%nat -> inv_first (inv_last r) = inv_last (inv_first r).
Proof.
  intros H. destruct r as [|x r0]; auto. destruct r0 as [|y r1] using rev_ind; [simpl in H; lia|].
  change (x :: r1 ++ [y]) with ((x :: r1) ++ [y]). rewrite inv_last_snoc. cbn [app inv_first].
  change ((1 - x) :: r1 ++ [y]) with (((1 - x) :: r1) ++ [y]). now rewrite inv_last_snoc.
Qed.
Lemma mod_row_length f r : length (mod_row f r) = length r.
Proof. unfold mod_row. rewrite !when_length; auto using inv_all_length, inv_first_length, inv_last_length, rev_length. Qed.
Lemma mod_row_bits f r : bits r -> bits (mod_row f r).
Proof. intros. unfold mod_row. apply when_bits; [apply inv_all_bits|]. apply when_bits; [apply inv_first_bits|].
  apply when_bits; [apply inv_last_bits|]. apply when_bits; [apply Forall_rev_iff|]. auto. Qed.
Lemma unmod_row_length f r : length (unmod_row f r) = length r.
Proof. unfold unmod_row. rewrite !when_length; auto using inv_all_length, inv_first_length, inv_last_length, rev_length. Qed.
Lemma unmod_row_bits f r : bits r -> bits (unmod_row f r).
Proof. intros. unfold unmod_row. apply when_bits; [apply Forall_rev_iff|]. apply when_bits; [apply inv_first_bits|].
  apply when_bits; [apply inv_last_bits|]. apply when_bits; [apply inv_all_bits|]. auto. Qed.
Lemma unmod_mod f r : (2 <= length r)%nat -> unmod_row f (mod_row f r) = r.
Proof.
  intros H. unfold unmod_row, mod_row. rewrite (when_invol (pn_inv f)) by apply inv_all_invol.
  set (r1 := when (bit_order_inv f) (@rev Z) r).
  assert (H1 : (2 <= length r1)%nat) by (unfold r1; rewrite when_length; auto using rev_length).
  assert (E : when (inv_lsb f) inv_first (when (inv_msb f) inv_last
               (when (inv_lsb f) inv_first (when (inv_msb f) inv_last r1))) = r1).
  { destruct (inv_lsb f), (inv_msb f); simpl; auto using inv_last_invol, inv_first_invol.
    rewrite <- (inv_first_last_comm (inv_last r1)) by (rewrite inv_last_length; auto).
    now rewrite inv_last_invol, inv_first_invol. }
  rewrite E. apply when_invol. apply rev_involutive.
Qed.
Lemma mod_unmod f r : (2 <= length r)%nat -> mod_row f (unmod_row f r) = r.
Proof.
  intros H. unfold unmod_row, mod_row. rewrite (when_invol (bit_order_inv f)) by apply rev_involutive.
  set (r1 := when (pn_inv f) inv_all r).
  assert (H1 : (2 <= length r1)%nat) by (unfold r1; rewrite when_length; auto using inv_all_length).
  assert (E : when (inv_lsb f) inv_first (when (inv_msb f) inv_last
               (when (inv_lsb f) inv_first (when (inv_msb f) inv_last r1))) = r1).
  { destruct (inv_lsb f), (inv_msb f); simpl; auto using inv_last_invol, inv_first_invol.
    rewrite <- (inv_first_last_comm (inv_last r1)) by (rewrite inv_last_length; auto).
    now rewrite inv_last_invol, inv_first_invol. }
  rewrite E. apply when_invol. apply inv_all_invol.
Qed.
Lemma enc_row_eq f row : enc_row f row = dotZ (mod_row f row) (weights (length row)).
Proof. unfold enc_row. change (when (pn_inv f) _ _) with (mod_row f row). now rewrite mod_row_length. Qed.

(** symbol2bin on rows *)
Lemma symbol2bin_rows k (syms : list Z) f : (2 <= k)%nat -> (length syms <> 1)%nat \/ (inv_msb f = false /\ inv_lsb f = false /\ bit_order_inv f = false) ->
  symbol2bin syms (2 ^ Z.of_nat k) f = Ok (concat (map (fun s => unmod_row f (map (bit_test s) (seq 0 k))) syms)).
Proof.
  intros Hk Hc. unfold symbol2bin, log2_floor. rewrite Z.log2_pow2, Nat2Z.id by lia.
  replace (1 <? k)%nat with true by (symmetry; apply Nat.ltb_lt; lia).
  set (R := map (fun s => map (bit_test s) (seq 0 k)) syms).
  assert (E : map (fun s => unmod_row f (map (bit_test s) (seq 0 k))) syms = map (unmod_row f) R)
    by (unfold R; now rewrite map_map).
  rewrite E. clear E. unfold unmod_row. destruct f as [bo im il pn]. simpl in *.
  destruct Hc as [Hc|[-> [-> ->]]].
  - replace (length syms =? 1)%nat with false by (symmetry; apply Nat.eqb_neq; auto).
    destruct bo, im, il, pn; simpl; rewrite ?map_map; auto; now rewrite map_id.
  - destruct pn; simpl; auto. now rewrite map_id.
Qed.
Lemma symbol2bin_one (syms : list Z) f : 
  symbol2bin syms 2 f = Ok (when (pn_inv f) inv_all (map (fun s => bit_test s 0) syms)).
Proof.
  unfold symbol2bin, log2_floor. change (Z.to_nat (Z.log2 2)) with 1%nat. cbn [Nat.ltb Nat.leb seq map].
  destruct (pn_inv f); simpl; f_equal; induction syms; simpl; auto; now rewrite IHsyms.
Qed.
(** bin2symbol on rows *)
Lemma bin2symbol_rows k (bs : list Z) f : (2 <= k)%nat ->
  bin2symbol bs (2 ^ Z.of_nat k) f = Ok (map (enc_row f) (chunks k bs)).
Proof.
  intros Hk. unfold bin2symbol.
  assert (H4 : 4 <= 2 ^ Z.of_nat k) by (change 4 with (2 ^ 2); apply Z.pow_le_mono_r; lia).
  replace (2 ^ Z.of_nat k <=? 1) with false by (symmetry; apply Z.leb_gt; lia).
  replace (2 <? 2 ^ Z.of_nat k) with true by (symmetry; apply Z.ltb_lt; lia).
  unfold isclose_log2, float_trim, log2_floor. rewrite Z.log2_pow2 by lia. rewrite Z.eqb_refl. cbn [andb].
  rewrite Nat2Z.id. set (t := (length bs mod k)%nat).
  assert (Ht : (t < k)%nat) by (apply Nat.mod_upper_bound; lia).
  assert (Ed := Nat.div_mod (length bs) k ltac:(lia)). fold t in Ed.
  assert (E : (if (0 <? t)%nat then slice_to bs (-1 * Z.of_nat t) else bs) = firstn (length bs / k * k) bs).
  { destruct (0 <? t)%nat eqn:E.
    - apply Nat.ltb_lt in E. rewrite slice_to_neg by lia. f_equal. lia.
    - apply Nat.ltb_ge in E. symmetry. apply firstn_all2. lia. }
  rewrite E. unfold reshape_rows. replace (k =? 0)%nat with false by (symmetry; apply Nat.eqb_neq; lia).
  assert (L : length (firstn (length bs / k * k) bs) = (length bs / k * k)%nat) by (rewrite firstn_length; lia).
  rewrite L. replace ((length bs / k * k) mod k)%nat with 0%nat by (rewrite Nat.mod_mul; lia). cbn [Nat.eqb bind].
  f_equal. f_equal. unfold chunks. rewrite L, Nat.div_mul by lia. apply map_ext_in. intros i Hi. apply in_seq in Hi.
  assert (Hle : (i * k + k <= length bs / k * k)%nat) by nia.
  apply nth_ext_def with (d := 0).
  - rewrite !firstn_length, !skipn_length, L. lia.
  - intros j Hj. rewrite firstn_length in Hj. rewrite !nth_firstn, !nth_skipn by lia. rewrite nth_firstn by lia. reflexivity.
Qed.
Lemma bin2symbol_one (bs : list Z) f : bin2symbol bs 2 f = Ok (when (pn_inv f) inv_all bs).
Proof. reflexivity. Qed.

Lemma chunks_bits k l : bits l -> Forall bits (chunks k l).
Proof.
  intros H. unfold chunks. apply Forall_forall. intros r Hr. apply in_map_iff in Hr. destruct Hr as [i [<- _]].
  apply Forall_firstn. now apply Forall_skipn.
Qed.
Lemma div1 n : (n / 1 * 1 = n)%nat. Proof. rewrite Nat.div_1_r. lia. Qed.
Lemma bit_test_isbit b : isbit b -> bit_test b 0 = b. Proof. intros [->| ->]; reflexivity. Qed.

Lemma roundtrip_bits (k : nat) (bs : list Z) f : (1 <= k)%nat -> bits bs ->
  (k = 1%nat \/ length bs / k <> 1 \/ (inv_msb f = false /\ inv_lsb f = false /\ bit_order_inv f = false))%nat ->
  exists syms, bin2symbol bs (2 ^ Z.of_nat k) f = Ok syms /\
    symbol2bin syms (2 ^ Z.of_nat k) f = Ok (firstn (length bs / k * k) bs).
Proof.
  intros Hk Hb Hc. destruct (Nat.eq_dec k 1) as [->|Hk1].
  - change (2 ^ Z.of_nat 1) with 2. eexists. split; [reflexivity|]. rewrite symbol2bin_one, div1, firstn_all.
    f_equal. assert (E : map (fun s => bit_test s 0) (when (pn_inv f) inv_all bs) = when (pn_inv f) inv_all bs).
    { assert (B : bits (when (pn_inv f) inv_all bs)) by (apply when_bits; auto; apply inv_all_bits).
      rewrite <- (map_id (when _ _ _)) at 2. apply map_ext_in. intros x Hx. apply bit_test_isbit.
      unfold bits in B. rewrite Forall_forall in B. auto. }
    rewrite E. apply when_invol. apply inv_all_invol.
  - rewrite bin2symbol_rows by lia. eexists. split; [reflexivity|].
    rewrite symbol2bin_rows; [|lia|].
    + rewrite map_map. rewrite <- chunks_concat_full by lia. f_equal. f_equal.
      rewrite <- (map_id (chunks k bs)) at 2. apply map_ext_in. intros r Hr.
      assert (R := chunks_rows k bs ltac:(lia)). assert (B := chunks_bits k bs Hb).
      rewrite Forall_forall in R, B. specialize (R r Hr). specialize (B r Hr). cbn beta in R.
      rewrite enc_row_eq, R, bits_of_val.
      * apply unmod_mod. lia.
      * now apply mod_row_bits.
      * now rewrite mod_row_length.
    + rewrite map_length, chunks_count. destruct Hc as [?|Hc]; [lia|]. tauto.
Qed.

Lemma lsb_bits_length k x : length (map (bit_test x) (seq 0 k)) = k.
Proof. now rewrite map_length, seq_length. Qed.
Lemma lsb_bits_bits k x : bits (map (bit_test x) (seq 0 k)).
Proof. rewrite lsb_bits. apply Forall_rev_iff. apply bits_msb_bits. Qed.
Lemma val_of_bits k x : 0 <= x < 2 ^ Z.of_nat k -> dotZ (map (bit_test x) (seq 0 k)) (weights k) = x.
Proof.
  intros H. rewrite <- (lsb_bits_length k x) at 2. rewrite val_lsb, lsb_bits, rev_involutive, val_bits_msb by lia.
  apply Z.mod_small; auto.
Qed.
Lemma roundtrip_syms (k : nat) (syms : list Z) f : (1 <= k)%nat ->
  Forall (fun s => 0 <= s < 2 ^ Z.of_nat k) syms ->
  (k = 1%nat \/ length syms <> 1 \/ (inv_msb f = false /\ inv_lsb f = false /\ bit_order_inv f = false))%nat ->
  exists bs, symbol2bin syms (2 ^ Z.of_nat k) f = Ok bs /\ length bs = (length syms * k)%nat /\ bits bs /\
    bin2symbol bs (2 ^ Z.of_nat k) f = Ok syms.
Proof.
  intros Hk Hs Hc. destruct (Nat.eq_dec k 1) as [->|Hk1].
  - change (2 ^ Z.of_nat 1) with 2 in *. rewrite symbol2bin_one. eexists. split; [reflexivity|].
    assert (E : map (fun s => bit_test s 0) syms = syms).
    { rewrite <- (map_id syms) at 2. apply map_ext_in. intros x Hx. rewrite Forall_forall in Hs. specialize (Hs x Hx).
      apply bit_test_isbit. unfold isbit. lia. }
    rewrite E. split; [rewrite when_length; auto using inv_all_length; lia|]. split.
    + apply when_bits; [apply inv_all_bits|]. apply Forall_forall. intros x Hx. rewrite Forall_forall in Hs.
      specialize (Hs x Hx). unfold isbit. lia.
    + rewrite bin2symbol_one, when_invol; auto using inv_all_invol.
  - rewrite symbol2bin_rows by (try lia; tauto). eexists. split; [reflexivity|].
    set (R := map (fun s => unmod_row f (map (bit_test s) (seq 0 k))) syms).
    assert (HR : Forall (fun r => length r = k) R).
    { apply Forall_forall. intros r Hr. apply in_map_iff in Hr. destruct Hr as [s [<- _]].
      now rewrite unmod_row_length, lsb_bits_length. }
    assert (HB : Forall bits R).
    { apply Forall_forall. intros r Hr. apply in_map_iff in Hr. destruct Hr as [s [<- _]].
      apply unmod_row_bits, lsb_bits_bits. }
    split; [rewrite (concat_length_const k) by auto; unfold R; rewrite map_length; reflexivity|].
    split; [now apply bits_concat|].
    rewrite bin2symbol_rows by lia. rewrite chunks_of_concat by (auto; lia). unfold R. rewrite map_map.
    f_equal. rewrite <- (map_id syms) at 2. apply map_ext_in. intros s Hin. rewrite Forall_forall in Hs. specialize (Hs s Hin).
    rewrite enc_row_eq, unmod_row_length, lsb_bits_length, mod_unmod by (rewrite lsb_bits_length; lia).
    now apply val_of_bits.
Qed.
Lemma single_symbol_raises (k : nat) (s : Z) f : (2 <= k)%nat ->
  inv_msb f = true \/ inv_lsb f = true \/ bit_order_inv f = true ->
  symbol2bin [s] (2 ^ Z.of_nat k) f = Raise (if inv_msb f || inv_lsb f then IndexError else ValueError).
Proof.
  intros Hk Hf. unfold symbol2bin, log2_floor. rewrite Z.log2_pow2, Nat2Z.id by lia.
  replace (1 <? k)%nat with true by (symmetry; apply Nat.ltb_lt; lia). cbn [length Nat.eqb].
  destruct f as [bo im il pn]. simpl in *. destruct im; [reflexivity|]. destruct il; [reflexivity|]. destruct bo; [reflexivity|].
  destruct Hf as [|[|]]; discriminate.
Qed.

(** C07 *)
Lemma nth_inv_all r i : (i < length r)%nat -> nth i (inv_all r) 0 = 1 - nth i r 0.
Proof. intros. unfold inv_all. now rewrite (map_nth_lt _ _ _ 0). Qed.
Lemma nth_inv_first r i : (i < length r)%nat -> nth i (inv_first r) 0 = if (i =? 0)%nat then 1 - nth i r 0 else nth i r 0.
Proof. intros. destruct r; simpl in *; [lia|]. destruct i; reflexivity. Qed.
Lemma nth_inv_last r i : (i < length r)%nat -> nth i (inv_last r) 0 = if (i =? length r - 1)%nat then 1 - nth i r 0 else nth i r 0.
Proof.
  destruct r as [|b r _] using rev_ind; [simpl; lia|]. rewrite inv_last_snoc, app_length. cbn [length]. intros Hi.
  destruct (i =? _)%nat eqn:E.
  - apply Nat.eqb_eq in E. assert (E2 : i = length r) by lia. rewrite E2. rewrite !app_nth2 by lia. rewrite Nat.sub_diag. reflexivity.
  - apply Nat.eqb_neq in E. rewrite !app_nth1 by lia. reflexivity.
Qed.
Lemma nth_mod_row f k r i : length r = k -> (2 <= k)%nat -> (i < k)%nat ->
  nth i (mod_row f r) 0 = symbol_bit k f r 0 i.
Proof.
  intros L Hk Hi. unfold mod_row, symbol_bit. destruct f as [bo im il pn]. simpl.
  replace (1 <? k)%nat with true by (symmetry; apply Nat.ltb_lt; lia). rewrite !andb_true_r.
  set (r0 := when bo (@rev Z) r).
  assert (L0 : length r0 = k) by (unfold r0; rewrite when_length; auto using rev_length).
  assert (N0 : nth i r0 0 = nth (if bo then k - 1 - i else i) r 0).
  { unfold r0. destruct bo; simpl; auto. rewrite rev_nth by lia. f_equal. lia. }
  rewrite <- N0. set (r1 := when im inv_last r0).
  assert (L1 : length r1 = k) by (unfold r1; rewrite when_length; auto using inv_last_length).
  assert (N1 : nth i r1 0 = flip (im && (i =? k - 1)%nat) (nth i r0 0)).
  { unfold r1. destruct im; simpl; auto. rewrite nth_inv_last by lia. now rewrite L0. }
  rewrite <- N1. set (r2 := when il inv_first r1).
  assert (L2 : length r2 = k) by (unfold r2; rewrite when_length; auto using inv_first_length).
  assert (N2 : nth i r2 0 = flip (il && (i =? 0)%nat) (nth i r1 0)).
  { unfold r2. destruct il; simpl; auto. now rewrite nth_inv_first by lia. }
  rewrite <- N2. destruct pn; simpl; auto. rewrite nth_inv_all by lia. reflexivity.
Qed.
Lemma dot_weights r : dotZ r (weights (length r)) = sumZ (map (fun i => 2 ^ Z.of_nat i * nth i r 0) (seq 0 (length r))).
Proof.
  rewrite dotZ_sum_nth by (unfold weights; now rewrite map_length, seq_length). 
  apply sumZ_map_ext. intros i Hi. apply in_seq in Hi. unfold weights. rewrite nth_map_seq by lia. apply Z.mul_comm.
Qed.
Lemma symbol_bit_chunk k f bs j i : (2 <= k)%nat -> (j < length bs / k)%nat -> (i < k)%nat ->
  symbol_bit k f (nth j (chunks k bs) []) 0 i = symbol_bit k f bs j i.
Proof.
  intros Hk Hj Hi. unfold symbol_bit. rewrite chunks_nth by auto.
  assert (E : forall p, (p < k)%nat -> nth (0 * k + p) (firstn k (skipn (j * k) bs)) 0 = nth (j * k + p) bs 0).
  { intros p Hp. simpl. rewrite nth_firstn, nth_skipn by auto. reflexivity. }
  destruct (bit_order_inv f); rewrite E by lia; reflexivity.
Qed.
Lemma bin2symbol_value (k : nat) (bs : list Z) f : (1 <= k)%nat ->
  exists syms, bin2symbol bs (2 ^ Z.of_nat k) f = Ok syms /\ length syms = (length bs / k)%nat /\
    (forall j, (j < length bs / k)%nat -> nth j syms 0 = symbol_value k f bs j) /\
    (bits bs -> Forall (fun s => 0 <= s < 2 ^ Z.of_nat k) syms).
Proof.
  intros Hk. destruct (Nat.eq_dec k 1) as [->|Hk1].
  - change (2 ^ Z.of_nat 1) with 2. rewrite bin2symbol_one, Nat.div_1_r. eexists; split; [reflexivity|].
    split; [rewrite when_length; auto using inv_all_length|]. split.
    + intros j Hj. unfold symbol_value, symbol_bit. cbn [seq map fold_right Nat.ltb Nat.leb]. rewrite !andb_false_r. cbn [andb flip].
      change (2 ^ Z.of_nat 0) with 1.
      replace (j * 1 + (if bit_order_inv f then 1 - 1 - 0 else 0))%nat with j by (destruct (bit_order_inv f); lia).
      destruct (pn_inv f); cbn [when flip]; [rewrite nth_inv_all by auto|]; lia.
    + intros Hb. assert (B : bits (when (pn_inv f) inv_all bs)) by (apply when_bits; auto; apply inv_all_bits).
      revert B. apply Forall_impl. unfold isbit. lia.
  - rewrite bin2symbol_rows by lia. eexists; split; [reflexivity|]. rewrite map_length, chunks_count. split; auto. split.
    + intros j Hj. rewrite (map_nth_lt _ _ _ []) by (now rewrite chunks_count).
      set (r := nth j (chunks k bs) []).
      assert (L : length r = k).
      { assert (R := chunks_rows k bs ltac:(lia)). apply (Forall_nth_lt _ _ _ [] R). now rewrite chunks_count. }
      rewrite enc_row_eq, <- (mod_row_length f r), dot_weights, mod_row_length, L.
      unfold symbol_value. apply sumZ_map_ext. intros i Hi. apply in_seq in Hi. f_equal.
      rewrite (nth_mod_row f k) by lia. apply symbol_bit_chunk; lia.
    + intros Hb. apply Forall_forall. intros s Hs. apply in_map_iff in Hs. destruct Hs as [r [<- Hr]].
      assert (R := chunks_rows k bs ltac:(lia)). assert (B := chunks_bits k bs Hb).
      rewrite Forall_forall in R, B. specialize (R r Hr). specialize (B r Hr). cbn beta in R.
      rewrite enc_row_eq, <- (mod_row_length f r), val_lsb. rewrite <- R.
      assert (V := val_msb_range (rev (mod_row f r))). rewrite rev_length, mod_row_length in V.
      apply V. apply Forall_rev_iff. now apply mod_row_bits.
Qed.

(** Non powers of two *)
Lemma bernoulli2 (m : Z) (q : nat) : 0 < m -> 2 ^ Z.of_nat q * m ^ (m * Z.of_nat q) <= (m + 1) ^ (m * Z.of_nat q).
Proof.
  intros Hm.
  assert (B : forall n : nat, m ^ Z.of_nat n + Z.of_nat n * m ^ (Z.of_nat n - 1) <= (m + 1) ^ Z.of_nat n).
  { induction n.
    - change (Z.of_nat 0) with 0. rewrite !Z.pow_0_r. lia.
    - rewrite Nat2Z.inj_succ. replace (Z.succ (Z.of_nat n) - 1) with (Z.of_nat n) by lia.
      rewrite !Z.pow_succ_r by lia. destruct n.
      + change (Z.of_nat 0) with 0 in *. rewrite !Z.pow_0_r. lia.
      + set (N := Z.of_nat (S n)) in *. assert (HN : 1 <= N) by lia.
        assert (P : m ^ N = m * m ^ (N - 1)) by (rewrite <- Z.pow_succ_r by lia; f_equal; lia).
        assert (0 <= m ^ (N - 1)) by (apply Z.pow_nonneg; lia). nia. }
  induction q.
  - rewrite Nat2Z.inj_0, !Z.mul_0_r, !Z.pow_0_r. lia.
  - rewrite Nat2Z.inj_succ, Z.pow_succ_r by lia. replace (m * Z.succ (Z.of_nat q)) with (m * Z.of_nat q + m) by lia.
    rewrite !Z.pow_add_r by lia.
    assert (C := B (Z.to_nat m)). rewrite Z2Nat.id in C by lia.
    assert (P : m * m ^ (m - 1) = m ^ m) by (rewrite <- Z.pow_succ_r by lia; f_equal; lia).
    assert (C2 : 2 * m ^ m <= (m + 1) ^ m) by lia.
    assert (0 <= 2 ^ Z.of_nat q * m ^ (m * Z.of_nat q)) by (apply Z.mul_nonneg_nonneg; apply Z.pow_nonneg; lia).
    assert (0 <= m ^ m) by (apply Z.pow_nonneg; lia).
    replace (2 * 2 ^ Z.of_nat q * (m ^ (m * Z.of_nat q) * m ^ m)) with ((2 ^ Z.of_nat q * m ^ (m * Z.of_nat q)) * (2 * m ^ m)) by ring.
    apply Z.mul_le_mono_nonneg; lia.
Qed.
Lemma isclose_small n : 2 < n <= 8192 -> (forall k, 0 <= k -> n <> 2 ^ k) -> isclose_log2 n = false.
Proof.
  intros Hn Hnp. unfold isclose_log2. set (k := Z.log2 n).
  assert (Hk := Z.log2_spec n ltac:(lia)). fold k in Hk. assert (Hk0 : 0 <= k) by apply Z.log2_nonneg.
  replace (n =? 2 ^ k) with false by (symmetry; apply Z.eqb_neq; auto).
  assert (Hk13 : k <= 12).
  { assert (n < 8192) by (specialize (Hnp 13 ltac:(lia)); change (2 ^ 13) with 8192 in Hnp; lia).
    assert (~ 13 <= k); [|lia]. intros C. assert (2 ^ 13 <= 2 ^ k) by (apply Z.pow_le_mono_r; lia). change (2 ^ 13) with 8192 in *. lia. }
  apply Z.leb_gt.
  set (m := 2 ^ k). assert (Hm : 0 < m) by (apply Z.pow_pos_nonneg; lia).
  assert (Hmn : m + 1 <= n) by (specialize (Hnp k Hk0); fold m in Hnp; lia).
  set (N := 100000000) in *.
  set (q := N / m).
  assert (Hq : 1 + 1000 * k < q).
  { assert (m <= 4096) by (unfold m; change 4096 with (2 ^ 12); apply Z.pow_le_mono_r; lia).
    assert (24414 <= q); [|lia]. unfold q. apply Z.div_le_lower_bound; unfold N; lia. }
  assert (Hr : m * q <= N) by (unfold q; apply Z.mul_div_le; lia).
  assert (B := bernoulli2 m (Z.to_nat q) Hm). rewrite Z2Nat.id in B by lia.
  assert (E : 2 ^ (N * k + 1 + 1000 * k) < 2 ^ q * m ^ N).
  { unfold m. rewrite <- Z.pow_mul_r by (unfold N; lia). rewrite <- Z.pow_add_r by (unfold N; lia).
    apply Z.pow_lt_mono_r; unfold N in *; lia. }
  apply Z.lt_le_trans with (1 := E).
  replace N with (m * q + (N - m * q)) by lia. rewrite !Z.pow_add_r by lia.
  assert (0 <= m ^ (N - m * q) <= n ^ (N - m * q)) by (split; [apply Z.pow_nonneg; lia|apply Z.pow_le_mono_l; lia]).
  assert (2 ^ q * m ^ (m * q) <= n ^ (m * q)) by (etransitivity; [exact B|]; apply Z.pow_le_mono_l; lia).
  assert (0 <= 2 ^ q * m ^ (m * q)) by (apply Z.mul_nonneg_nonneg; apply Z.pow_nonneg; lia).
  rewrite Z.mul_assoc. apply Z.mul_le_mono_nonneg; lia.
Qed.
Lemma bin2symbol_rejects bs n f : 1 <= n <= 8192 -> (forall k, 1 <= k -> n <> 2 ^ k) -> bin2symbol bs n f = Raise ValueError.
Proof.
  intros Hn Hnp. unfold bin2symbol. destruct (n <=? 1) eqn:E; auto. apply Z.leb_gt in E.
  assert (n <> 2) by (specialize (Hnp 1 ltac:(lia)); auto).
  replace (n =? 2) with false by (symmetry; apply Z.eqb_neq; auto).
  rewrite isclose_small; [now rewrite andb_false_r|lia|]. intros k Hk.
  destruct (Z.eq_dec k 0) as [->|]; [rewrite Z.pow_0_r; lia|]. apply Hnp. lia.
Qed.
(** ... while 16385 passes the closeness test. *)
Lemma isclose_gen (N q r m e : Z) : 0 <= N -> 0 <= q -> 0 <= r -> 0 <= e -> m = 2 ^ e -> N + r = m * q ->
  (m + 1) ^ m <= 4 * m ^ m -> (m + 1) ^ N <= 2 ^ (N * e + 2 * q).
Proof.
  intros HN Hq Hr He Hm E A.
  assert (Hm0 : 0 < m) by (rewrite Hm; apply Z.pow_pos_nonneg; lia).
  assert (P : forall x, 0 <= x -> 0 <= m ^ x) by (intros; apply Z.pow_nonneg; lia).
  assert (Hmr : 0 < m ^ r) by (apply Z.pow_pos_nonneg; lia).
  apply Zmult_le_reg_r with (m ^ r); [lia|].
  apply Z.le_trans with ((m + 1) ^ N * (m + 1) ^ r).
  { apply Z.mul_le_mono_nonneg_l; [apply Z.pow_nonneg; lia|apply Z.pow_le_mono_l; lia]. }
  rewrite <- Z.pow_add_r by lia. rewrite E, Z.pow_mul_r by lia.
  apply Z.le_trans with ((4 * m ^ m) ^ q).
  { apply Z.pow_le_mono_l. split; [apply Z.pow_nonneg; lia|exact A]. }
  rewrite Z.pow_mul_l. rewrite <- Z.pow_mul_r, <- E, Z.pow_add_r by lia.
  replace (2 ^ (N * e + 2 * q)) with (m ^ N * 4 ^ q).
  2:{ rewrite Z.pow_add_r by nia. f_equal.
      - rewrite Hm, <- Z.pow_mul_r by lia. f_equal. lia.
      - change 4 with (2 ^ 2). now rewrite <- Z.pow_mul_r by lia. }
  apply Z.eq_le_incl. ring.
Qed.
Lemma A3 : (16384 + 1) ^ 16384 <= 4 * 16384 ^ 16384.
Proof.
  assert (A1 : 16385 ^ 128 * 127 <= 16384 ^ 128 * 128) by (apply Z.leb_le; vm_compute; reflexivity).
  assert (A2 : 128 ^ 128 <= 4 * 127 ^ 128) by (apply Z.leb_le; vm_compute; reflexivity).
  change (16384 + 1) with 16385.
  assert (PE : forall x, x ^ 16384 = (x ^ 128) ^ 128).
  { intros x. rewrite <- Z.pow_mul_r by lia. change (128 * 128) with 16384. reflexivity. }
  rewrite !PE. clear PE.
  set (u := 16385 ^ 128) in *. set (v := 16384 ^ 128) in *.
  assert (Hu : 0 <= u) by (unfold u; apply Z.pow_nonneg; lia). assert (Hv : 0 <= v) by (unfold v; apply Z.pow_nonneg; lia).
  clearbody u v.
  assert (P : (u * 127) ^ 128 <= (v * 128) ^ 128) by (apply Z.pow_le_mono_l; lia).
  rewrite !Z.pow_mul_l in P.
  assert (H : 0 < 127 ^ 128) by (apply Z.pow_pos_nonneg; lia).
  assert (0 <= v ^ 128) by (apply Z.pow_nonneg; lia).
  set (w := 127 ^ 128) in *. set (z := 128 ^ 128) in *. clearbody w z.
  apply Zmult_le_reg_r with w; [lia|].
  etransitivity; [exact P|]. rewrite (Z.mul_comm 4), <- Z.mul_assoc. apply Z.mul_le_mono_nonneg_l; auto.
Qed.
Lemma isclose_16385 : isclose_log2 16385 = true.
Proof.
  unfold isclose_log2. change (Z.log2 16385) with 14. change (16385 =? 2 ^ 14) with false. cbv iota.
  apply Z.leb_le. assert (H := isclose_gen 100000000 6104 7936 16384 14 ltac:(lia) ltac:(lia) ltac:(lia) ltac:(lia) eq_refl eq_refl A3).
  etransitivity; [exact H|]. clear H. apply Z.pow_le_mono_r; [reflexivity|discriminate].
Qed.
