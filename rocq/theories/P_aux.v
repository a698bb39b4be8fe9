(** Proofs about the helper functions of auxiliary.py and help_functions.py. *)
From Verif Require Import Py B_list M_aux P_gf2 P_prbs S_aux.
From Coq Require Import Permutation.
Ltac Zify.zify_post_hook ::= Z.div_mod_to_equations.

(** * bits *)
Lemma bit_test_b2z x j : 0 <= x -> bit_test x j = Z.b2z (Z.testbit x (Z.of_nat j)).
Proof.
  intros Hx. unfold bit_test. rewrite Z.shiftl_mul_pow2 by lia. rewrite Z.mul_1_l.
  destruct (Z.testbit x (Z.of_nat j)) eqn:E.
  - replace (Z.land x (2 ^ Z.of_nat j)) with (2 ^ Z.of_nat j).
    + assert (0 < 2 ^ Z.of_nat j) by (apply Z.pow_pos_nonneg; lia).
      replace (0 <? 2 ^ Z.of_nat j) with true by (symmetry; apply Z.ltb_lt; lia). reflexivity.
    + apply Z.bits_inj'. intros n Hn. rewrite Z.land_spec, Z.pow2_bits_eqb by lia.
      destruct (Z.of_nat j =? n) eqn:E2; [|now rewrite andb_false_r].
      apply Z.eqb_eq in E2. subst. now rewrite E.
  - replace (Z.land x (2 ^ Z.of_nat j)) with 0; auto.
    symmetry. apply Z.bits_inj'. intros n Hn. rewrite Z.land_spec, Z.pow2_bits_eqb, Z.bits_0 by lia.
    destruct (Z.of_nat j =? n) eqn:E2; [|now rewrite andb_false_r].
    apply Z.eqb_eq in E2. subst. now rewrite E.
Qed.
Lemma bits_msb_S k x : bits_msb (S k) x = bit_test x k :: bits_msb k x.
Proof. unfold bits_msb. rewrite seq_S, rev_app_distr. reflexivity. Qed.
Lemma bits_weights_S k : bits_weights (S k) = 2 ^ Z.of_nat k :: bits_weights k.
Proof.
  unfold bits_weights. rewrite seq_S, rev_app_distr. cbn [rev app map]. f_equal.
  rewrite Z.shiftl_mul_pow2 by lia. apply Z.mul_1_l.
Qed.
Lemma bits_weights_length k : length (bits_weights k) = k.
Proof. unfold bits_weights. now rewrite map_length, rev_length, seq_length. Qed.
Lemma bits_msb_length k x : length (bits_msb k x) = k.
Proof. unfold bits_msb. now rewrite map_length, rev_length, seq_length. Qed.
Lemma bits_msb_bits k x : bits (bits_msb k x).
Proof.
  unfold bits_msb. apply Forall_forall. intros y H. apply in_map_iff in H. destruct H as [j [<- _]].
  unfold bit_test. destruct (0 <? _); [right|left]; auto.
Qed.
Lemma fold_horner row acc : fold_left (fun acc b => 2 * acc + b) row acc = 2 ^ Z.of_nat (length row) * acc + val_msb row.
Proof.
  unfold val_msb. revert acc; induction row as [|b row IH]; intros acc.
  - cbn [length fold_left]. change (Z.of_nat 0) with 0. rewrite Z.pow_0_r. lia.
  - cbn [fold_left length]. rewrite IH, (IH (2 * 0 + b)). rewrite Nat2Z.inj_succ, Z.pow_succ_r by lia. ring.
Qed.
Lemma val_msb_cons b row : val_msb (b :: row) = 2 ^ Z.of_nat (length row) * b + val_msb row.
Proof. unfold val_msb at 1. cbn [fold_left]. rewrite fold_horner. ring. Qed.
Lemma val_msb_app u v : val_msb (u ++ v) = 2 ^ Z.of_nat (length v) * val_msb u + val_msb v.
Proof. unfold val_msb at 1. rewrite fold_left_app. fold (val_msb u). apply fold_horner. Qed.
Lemma bin2uint_val row : bin2uint row = val_msb row.
Proof.
  unfold bin2uint. induction row as [|b row IH]; auto.
  cbn [length]. rewrite bits_weights_S. cbn [dotZ]. rewrite IH, val_msb_cons. lia.
Qed.
Lemma val_msb_range row : bits row -> 0 <= val_msb row < 2 ^ Z.of_nat (length row).
Proof.
  induction 1 as [|b row Hb Hr IH]; [unfold val_msb; simpl; lia|]. rewrite val_msb_cons. cbn [length].
  rewrite Nat2Z.inj_succ, Z.pow_succ_r by lia. destruct Hb; subst; lia.
Qed.
Lemma bit_test_spec x k : 0 <= x -> bit_test x k = (x / 2 ^ Z.of_nat k) mod 2.
Proof. intros H. rewrite bit_test_b2z by auto. rewrite Z.testbit_spec' by lia. reflexivity. Qed.
Lemma val_bits_msb k x : 0 <= x -> val_msb (bits_msb k x) = x mod 2 ^ Z.of_nat k.
Proof.
  intros Hx. induction k.
  - unfold val_msb. simpl. now rewrite Z.mod_1_r.
  - rewrite bits_msb_S, val_msb_cons, bits_msb_length, IHk, bit_test_spec by auto.
    rewrite Nat2Z.inj_succ, Z.pow_succ_r by lia. rewrite (Z.mul_comm 2).
    rewrite Z.rem_mul_r by (try apply Z.pow_nonzero; lia). lia.
Qed.
Lemma bits_msb_val row : bits row -> bits_msb (length row) (val_msb row) = row.
Proof.
  intros H. assert (Hl : forall k x y, 0 <= x -> 0 <= y -> x mod 2 ^ Z.of_nat k = y mod 2 ^ Z.of_nat k -> bits_msb k x = bits_msb k y).
  { intros k x y Hx Hy E. unfold bits_msb. apply map_ext_in. intros j Hj. apply in_rev, in_seq in Hj.
    rewrite !bit_test_b2z by auto. f_equal.
    rewrite <- (Z.mod_pow2_bits_low x (Z.of_nat k)), <- (Z.mod_pow2_bits_low y (Z.of_nat k)) by lia. now rewrite E. }
  induction H as [|b row Hb Hr IH]; auto.
  cbn [length]. rewrite bits_msb_S.
  assert (R := val_msb_range row Hr).
  assert (P : 0 < 2 ^ Z.of_nat (length row)) by lia.
  rewrite val_msb_cons. f_equal.
  - rewrite bit_test_spec by (destruct Hb; subst; lia).
    rewrite Z.mul_comm, Z.div_add_l, Z.div_small by lia. destruct Hb; subst; reflexivity.
  - rewrite <- IH at 4. apply Hl; try lia. destruct Hb; subst; lia.
    rewrite Z.add_comm, Z.mul_comm, Z.mod_add by lia. reflexivity.
Qed.
Lemma uint2bin_bin2uint row : bits row -> uint2bin (length row) (bin2uint row) = row.
Proof. intros. rewrite bin2uint_val. now apply bits_msb_val. Qed.
Lemma bin2uint_uint2bin k x : 0 <= x < 2 ^ Z.of_nat k -> bin2uint (uint2bin k x) = x.
Proof. intros. rewrite bin2uint_val. unfold uint2bin. rewrite val_bits_msb by lia. now apply Z.mod_small. Qed.

(** get_bin_perm *)
Lemma get_bin_perm_length k : length (get_bin_perm k) = (2 ^ k)%nat.
Proof. unfold get_bin_perm. now rewrite map_length, seq_length. Qed.
Lemma get_bin_perm_nth k i : (i < 2 ^ k)%nat -> nth i (get_bin_perm k) [] = bits_msb k (Z.of_nat i).
Proof. intros. unfold get_bin_perm. now rewrite nth_map_seq. Qed.
Lemma get_bin_perm_vals k : map val_msb (get_bin_perm k) = map Z.of_nat (seq 0 (2 ^ k)).
Proof.
  unfold get_bin_perm. rewrite map_map. apply map_ext_in. intros i Hi. apply in_seq in Hi.
  rewrite val_bits_msb by lia. apply Z.mod_small. rewrite <- pow_nat_Z. lia.
Qed.
Lemma get_bin_perm_In k v : In v (get_bin_perm k) <-> bv k v.
Proof.
  unfold get_bin_perm. rewrite in_map_iff. split.
  - intros [i [<- _]]. split; [apply bits_msb_length|apply bits_msb_bits].
  - intros [H1 H2]. exists (Z.to_nat (val_msb v)). assert (R := val_msb_range v H2). split.
    + rewrite Z2Nat.id by lia. rewrite <- H1. now apply bits_msb_val.
    + apply in_seq. rewrite H1, <- pow_nat_Z in R. lia.
Qed.
Lemma NoDup_map_inv' {A B} (f : A -> B) l : NoDup (map f l) -> NoDup l.
Proof. induction l; simpl; intros H; constructor; inversion H; subst; auto. intros Hi. apply H2. now apply in_map. Qed.
Lemma get_bin_perm_NoDup k : NoDup (get_bin_perm k).
Proof.
  apply (NoDup_map_inv' val_msb). rewrite get_bin_perm_vals. apply NoDup_map_inj; [lia|apply seq_NoDup].
Qed.
Lemma get_bin_perm_spec k :
  map val_msb (get_bin_perm k) = map Z.of_nat (seq 0 (2 ^ k)) /\ NoDup (get_bin_perm k) /\
  (forall v, In v (get_bin_perm k) <-> length v = k /\ bits v).
Proof. split; [apply get_bin_perm_vals|]. split; [apply get_bin_perm_NoDup|]. apply get_bin_perm_In. Qed.

(** * Hamming distance *)
Lemma hdist_cons a b u v : hdist (a :: u) (b :: v) = ((if (a =? b)%Z then 0 else 1) + hdist u v)%nat.
Proof.
  unfold hdist. change (seq 0 (length (a :: u))) with (0%nat :: seq 1 (length u)). cbn [filter].
  change (nth 0 (a :: u) 0) with a. change (nth 0 (b :: v) 0) with b.
  assert (E : length (filter (fun i => negb (nth i (a :: u) 0 =? nth i (b :: v) 0)) (seq 1 (length u))) =
              length (filter (fun i => negb (nth i u 0 =? nth i v 0)) (seq 0 (length u)))).
  { rewrite <- seq_shift. generalize (seq 0 (length u)). induction l as [|z l IHl]; auto. cbn [map filter].
    change (nth (S z) (a :: u) 0) with (nth z u 0). change (nth (S z) (b :: v) 0) with (nth z v 0).
    destruct (negb (nth z u 0 =? nth z v 0)); cbn [length]; rewrite IHl; auto. }
  destruct (a =? b); cbn [negb length]; rewrite E; auto.
Qed.
Lemma hdistZ_hdist u v : bits u -> bits v -> length u = length v -> hdistZ u v = Z.of_nat (hdist u v).
Proof.
  intros Hu. revert v; induction Hu as [|a u Ha Hu IH]; intros [|b v] Hv Hl; simpl in Hl; try lia; auto.
  rewrite hdist_cons. unfold hdistZ in *. cbn [map2]. change (sumZ (?x :: ?l)) with (x + sumZ l).
  inversion Hv; subst. rewrite IH by (auto; lia).
  rewrite Nat2Z.inj_add. generalize (Z.of_nat (hdist u v)). intros z.
  destruct Ha, H1; subst; simpl; lia.
Qed.
Lemma hdistZ_nonneg u v : 0 <= hdistZ u v.
Proof.
  unfold hdistZ. revert v; induction u; intros [|b v]; simpl; lia.
Qed.
Lemma hdistZ_zero u v : length u = length v -> hdistZ u v = 0 -> u = v.
Proof.
  revert v; induction u as [|a u IH]; intros [|b v]; simpl; intros Hl H; try lia; auto.
  unfold hdistZ in H. cbn [map2] in H. change (sumZ (?x :: ?l)) with (x + sumZ l) in H.
  fold (hdistZ u v) in H. assert (N := hdistZ_nonneg u v). f_equal; [lia|apply IH; lia].
Qed.
Lemma hdistZ_refl u : hdistZ u u = 0.
Proof. induction u; auto. unfold hdistZ in *. cbn [map2]. change (sumZ (?x :: ?l)) with (x + sumZ l). lia. Qed.
Lemma hdistZ_sym u v : hdistZ u v = hdistZ v u.
Proof. unfold hdistZ. f_equal. apply map2_comm. intros; lia. Qed.
Lemma hdistZ_tri u v w : length u = length v -> length v = length w -> hdistZ u w <= hdistZ u v + hdistZ v w.
Proof.
  revert v w; induction u as [|a u IH]; intros [|b v] [|c w]; simpl; intros; try lia; try (unfold hdistZ; simpl; lia).
  unfold hdistZ. cbn [map2]. change (sumZ (?x :: ?l)) with (x + sumZ l).
  specialize (IH v w ltac:(lia) ltac:(lia)). unfold hdistZ in IH. lia.
Qed.

Lemma hamming_ok blocks cb : cb <> [] ->
  exists idx, hamming blocks cb = Ok (map (hamming_col cb) blocks, idx) /\ length idx = length blocks /\
   forall i, (i < length blocks)%nat -> argmin (hamming_col cb (nth i blocks [])) = Ok (nth i idx 0%nat).
Proof.
  intros Hcb. unfold hamming.
  assert (E : exists idx, map_res argmin (map (hamming_col cb) blocks) = Ok idx).
  { induction blocks as [|b bl [idx IH]]; [exists []; auto|]. simpl.
    destruct (argmin_ok (hamming_col cb b)) as [r Hr]; [destruct cb; simpl; congruence|].
    rewrite Hr. simpl. rewrite IH. simpl. eexists; reflexivity. }
  destruct E as [idx E]. rewrite E. exists idx. split; [reflexivity|].
  apply map_res_inv in E. rewrite map_length in E. destruct E as [E1 E2]. split; auto.
  intros i Hi. rewrite <- (E2 i (hamming_col cb []) 0%nat Hi). f_equal. now rewrite map_nth.
Qed.

(** * check_binary *)
Lemma two_values l : (length (nodup Z.eq_dec l) <= 2)%nat <-> exists a b, forall x, In x l -> x = a \/ x = b.
Proof.
  split.
  - intros H. destruct (nodup Z.eq_dec l) as [|a [|b [|c r]]] eqn:E; simpl in H; try lia.
    + exists 0, 0. intros x Hx. rewrite <- (nodup_In Z.eq_dec), E in Hx. destruct Hx.
    + exists a, a. intros x Hx. rewrite <- (nodup_In Z.eq_dec), E in Hx. destruct Hx as [->|[]]; auto.
    + exists a, b. intros x Hx. rewrite <- (nodup_In Z.eq_dec), E in Hx. destruct Hx as [->|[->|[]]]; auto.
  - intros [a [b H]]. assert (L : (length (nodup Z.eq_dec l) <= length [a; b])%nat); [|exact L].
    apply NoDup_incl_length; [apply NoDup_nodup|]. intros x Hx. apply nodup_In in Hx.
    destruct (H x Hx) as [->| ->]; simpl; auto.
Qed.
Lemma memZ_In x l : memZ x l = true <-> In x l.
Proof. unfold memZ. rewrite existsb_exists. split; [intros [y [H1 H2]]; apply Z.eqb_eq in H2; subst; auto|]. intros H. exists x. split; auto. apply Z.eqb_refl. Qed.
Lemma check_binary_char l : check_binary l = Ok tt <->
  l = [] \/ ((In 0 l \/ In 1 l) /\ exists a b, forall x, In x l -> x = a \/ x = b).
Proof.
  rewrite <- two_values. unfold check_binary, np_unique.
  assert (H0 : In 0 l <-> memZ 0 (nodup Z.eq_dec l) = true) by (rewrite memZ_In, nodup_In; tauto).
  assert (H1 : In 1 l <-> memZ 1 (nodup Z.eq_dec l) = true) by (rewrite memZ_In, nodup_In; tauto).
  rewrite H0, H1. clear H0 H1.
  assert (Hnil : l = [] <-> nodup Z.eq_dec l = []).
  { split; [intros ->; auto|]. intros E. destruct l; auto. exfalso.
    assert (In z (nodup Z.eq_dec (z :: l))) by (apply nodup_In; simpl; auto). rewrite E in H. destruct H. }
  rewrite Hnil.
  destruct (nodup Z.eq_dec l) as [|a [|b [|c r]]].
  - simpl. tauto.
  - destruct (memZ 0 [a]), (memZ 1 [a]); simpl; split; intros; auto; try discriminate;
      try (right; split; auto; lia); destruct H as [H|[[H|H] _]]; discriminate.
  - destruct (memZ 0 [a; b]), (memZ 1 [a; b]); simpl; split; intros; auto; try discriminate;
      try (right; split; auto; lia); destruct H as [H|[[H|H] _]]; discriminate.
  - simpl. split; [discriminate|]. intros [H|[_ H]]; [discriminate|lia].
Qed.
Lemma check_binary_bits l : bits l -> check_binary l = Ok tt.
Proof.
  intros H. apply check_binary_char. destruct l as [|x l]; [auto|right]. split.
  - inversion H; subst. destruct H2; subst; simpl; auto.
  - exists 0, 1. intros y Hy. unfold bits in H. rewrite Forall_forall in H. apply H. auto.
Qed.
Lemma check_binary_raise l : check_binary l = Ok tt \/ check_binary l = Raise ValueError.
Proof. unfold check_binary. destruct (_ && _); auto. destruct (_ && _); auto. destruct (_ <? _)%nat; auto. Qed.

(** * upsample and zoh *)
Section Ups.
  Context {A : Type} (zero : A).
  Lemma upsample_char (x : list A) (r : nat) : (1 <= r)%nat ->
    upsample zero x (Z.of_nat r) = Ok (concat (map (fun v => v :: repeat zero (r - 1)) x)).
  Proof.
    intros Hr. unfold upsample. replace (Z.of_nat r <? 1) with false by (symmetry; apply Z.ltb_ge; lia).
    f_equal. f_equal. unfold transpose_rows.
    replace (Z.to_nat (Z.of_nat r - 1)) with (r - 1)%nat by lia.
    apply nth_ext_def with (d := []). { now rewrite !map_length, seq_length. }
    intros i Hi. rewrite map_length, seq_length in Hi.
    rewrite nth_map_seq by auto. rewrite (map_nth_lt _ _ i zero) by auto. cbn [map]. simpl Nat.add. f_equal.
    induction (r - 1)%nat; auto. simpl. rewrite repeat_nth by auto. f_equal. apply IHn.
  Qed.
  Lemma rows_len (x : list A) (g : A -> list A) r : (forall v, length (g v) = r) -> Forall (fun l => length l = r) (map g x).
  Proof. intros H. apply Forall_forall. intros l Hl. apply in_map_iff in Hl. destruct Hl as [v [<- _]]. auto. Qed.
  Lemma upsample_spec (x : list A) (r : nat) : (1 <= r)%nat ->
    exists y, upsample zero x (Z.of_nat r) = Ok y /\ length y = (length x * r)%nat /\
      forall i, (i < length x * r)%nat -> nth i y zero = if (i mod r =? 0)%nat then nth (i / r) x zero else zero.
  Proof.
    intros Hr. rewrite upsample_char by auto. eexists; split; [reflexivity|].
    assert (F : Forall (fun l => length l = r) (map (fun v => v :: repeat zero (r - 1)) x)).
    { apply rows_len. intros. simpl. rewrite repeat_length. lia. }
    split. { rewrite (concat_length_const r) by auto. now rewrite map_length. }
    intros i Hi. rewrite (concat_nth_const zero r) by (auto; lia).
    assert (i / r < length x)%nat by (apply Nat.div_lt_upper_bound; lia).
    rewrite (map_nth_lt _ _ _ zero) by auto.
    destruct (i mod r)%nat eqn:E; auto. simpl.
    apply repeat_nth. assert (i mod r < r)%nat by (apply Nat.mod_upper_bound; lia). lia.
  Qed.
  Lemma zoh_spec (x : list A) (r : nat) : 
    exists y, zoh x (Z.of_nat r) = Ok y /\ length y = (length x * r)%nat /\
      forall i, (i < length x * r)%nat -> nth i y zero = nth (i / r) x zero.
  Proof.
    unfold zoh. replace (Z.of_nat r <? 0) with false by (symmetry; apply Z.ltb_ge; lia).
    eexists; split; [reflexivity|]. rewrite Nat2Z.id.
    assert (F : Forall (fun l => length l = r) (map (fun v => repeat v r) x)).
    { apply rows_len. intros. apply repeat_length. }
    split. { rewrite (concat_length_const r) by auto. now rewrite map_length. }
    intros i Hi. assert (0 < r)%nat by lia. rewrite (concat_nth_const zero r) by auto.
    assert (i / r < length x)%nat by (apply Nat.div_lt_upper_bound; lia).
    rewrite (map_nth_lt _ _ _ zero) by auto.
    apply repeat_nth. apply Nat.mod_upper_bound; lia.
  Qed.
  Lemma upsample_app (x y : list A) r : (1 <= r)%nat -> exists ux uy,
    upsample zero x (Z.of_nat r) = Ok ux /\ upsample zero y (Z.of_nat r) = Ok uy /\
    upsample zero (x ++ y) (Z.of_nat r) = Ok (ux ++ uy).
  Proof. intros. rewrite !upsample_char by auto. do 2 eexists. repeat split. now rewrite map_app, concat_app. Qed.
  Lemma zoh_app (x y : list A) r : exists ux uy,
    zoh x (Z.of_nat r) = Ok ux /\ zoh y (Z.of_nat r) = Ok uy /\
    zoh (x ++ y) (Z.of_nat r) = Ok (ux ++ uy).
  Proof.
    unfold zoh. replace (Z.of_nat r <? 0) with false by (symmetry; apply Z.ltb_ge; lia).
    do 2 eexists. repeat split. now rewrite map_app, concat_app. Qed.
End Ups.

(** * Gray levels *)
Definition gray_of (i : Z) : Z := Z.lxor i (Z.shiftr i 1).
Definition gray_rows (k : nat) : list (list Z) := fold_left gray_reflect (seq 1 k) [[0]; [1]].
Lemma gray_rows_S k : gray_rows (S k) = gray_reflect (gray_rows k) (S k).
Proof. unfold gray_rows. rewrite seq_S, fold_left_app. reflexivity. Qed.
Lemma gray_rows_length k : length (gray_rows k) = (2 ^ S k)%nat.
Proof.
  induction k; auto. rewrite gray_rows_S. unfold gray_reflect. rewrite map2_length.
  rewrite !app_length, !repeat_length, rev_length, IHk. simpl. lia.
Qed.
Lemma map2_repeat_cons (b : Z) (l : list (list Z)) : map2 (fun b r => b :: r) (repeat b (length l)) l = map (cons b) l.
Proof. induction l; simpl; auto. f_equal; auto. Qed.
Lemma gray_reflect_eq k : gray_rows (S k) = map (cons 0) (gray_rows k) ++ map (cons 1) (rev (gray_rows k)).
Proof.
  rewrite gray_rows_S. unfold gray_reflect. rewrite map2_app by (rewrite repeat_length, gray_rows_length; auto).
  rewrite <- gray_rows_length at 1. rewrite map2_repeat_cons.
  replace (2 ^ S k)%nat with (length (rev (gray_rows k))) by (rewrite rev_length; apply gray_rows_length).
  rewrite map2_repeat_cons. reflexivity.
Qed.
Lemma gray_rows_width k : Forall (fun r => length r = S k) (gray_rows k).
Proof.
  induction k; [repeat constructor|]. rewrite gray_reflect_eq. apply Forall_app. split; apply Forall_forall; intros r Hr;
    apply in_map_iff in Hr; destruct Hr as [s [<- Hs]]; simpl; f_equal; rewrite Forall_forall in IHk; apply IHk; auto.
  now apply in_rev.
Qed.
Lemma gray_of_bits i n : 0 <= n -> Z.testbit (gray_of i) n = xorb (Z.testbit i n) (Z.testbit i (n + 1)).
Proof. intros. unfold gray_of. rewrite Z.lxor_spec, Z.shiftr_spec by lia. reflexivity. Qed.
Lemma gray_of_nonneg i : 0 <= i -> 0 <= gray_of i.
Proof. intros. unfold gray_of. apply Z.lxor_nonneg. rewrite Z.shiftr_nonneg. tauto. Qed.
Lemma testbit_high x n : 0 <= x < 2 ^ n -> 0 <= n -> forall m, n <= m -> Z.testbit x m = false.
Proof.
  intros H Hn m Hm. destruct (Z.eq_dec x 0) as [->|]; [apply Z.bits_0|].
  apply Z.bits_above_log2; [lia|]. assert (Z.log2 x < n) by (apply Z.log2_lt_pow2; lia). lia.
Qed.
Lemma testbit_low_compl k j n : 0 <= j < 2 ^ k -> 0 <= n < k -> Z.testbit (2 ^ k - 1 - j) n = negb (Z.testbit j n).
Proof.
  intros Hj Hn.
  replace (2 ^ k - 1 - j) with (Z.lnot j mod 2 ^ k).
  - rewrite Z.mod_pow2_bits_low by lia. rewrite Z.lnot_spec by lia. reflexivity.
  - unfold Z.lnot. rewrite <- (Z_mod_plus_full _ 1). rewrite Z.mod_small; lia.
Qed.
Lemma gray_of_reflect k j : 0 <= k -> 0 <= j < 2 ^ k -> gray_of (2 ^ k + j) = 2 ^ k + gray_of (2 ^ k - 1 - j).
Proof.
  intros Hk Hj.
  assert (Hc : 0 <= 2 ^ k - 1 - j < 2 ^ k) by lia.
  assert (Hg : 0 <= gray_of (2 ^ k - 1 - j) < 2 ^ k).
  { split; [apply gray_of_nonneg; lia|].
    destruct (Z.eq_dec (gray_of (2 ^ k - 1 - j)) 0) as [->|]; [lia|].
    assert (0 < gray_of (2 ^ k - 1 - j)) by (assert (0 <= gray_of (2 ^ k - 1 - j)) by (apply gray_of_nonneg; lia); lia).
    apply Z.log2_lt_pow2; auto. destruct (Z.lt_ge_cases (Z.log2 (gray_of (2 ^ k - 1 - j))) k); auto.
    exfalso. assert (T := Z.bit_log2 _ H). rewrite gray_of_bits in T by apply Z.log2_nonneg.
    rewrite !(testbit_high (2 ^ k - 1 - j) k) in T by lia. discriminate. }
  assert (Epl : forall x, 0 <= x < 2 ^ k -> forall n, 0 <= n ->
      Z.testbit (2 ^ k + x) n = if n =? k then true else if n <? k then Z.testbit x n else false).
  { intros x Hx n Hn. replace (2 ^ k + x) with (Z.lor (2 ^ k) x).
    - rewrite Z.lor_spec, Z.pow2_bits_eqb by lia. rewrite (Z.eqb_sym k n). destruct (n =? k) eqn:E; auto. simpl.
      destruct (n <? k) eqn:E2; auto. apply Z.eqb_neq in E. apply Z.ltb_ge in E2. apply (testbit_high x k); lia.
    - assert (HL : Z.land (2 ^ k) x = 0); [|now rewrite <- Z.lxor_lor, <- Z.add_nocarry_lxor].
      apply Z.bits_inj'. intros m Hm. rewrite Z.land_spec, Z.pow2_bits_eqb, Z.bits_0 by lia.
      destruct (k =? m) eqn:E; auto. apply Z.eqb_eq in E. subst. simpl. apply (testbit_high x m); lia. }
  apply Z.bits_inj'. intros n Hn. rewrite gray_of_bits by lia. rewrite !Epl by lia. rewrite gray_of_bits by lia.
  destruct (n =? k) eqn:E1.
  - apply Z.eqb_eq in E1. subst. replace (k + 1 =? k) with false by (symmetry; apply Z.eqb_neq; lia).
    replace (k + 1 <? k) with false by (symmetry; apply Z.ltb_ge; lia). reflexivity.
  - apply Z.eqb_neq in E1. destruct (n <? k) eqn:E2.
    + apply Z.ltb_lt in E2. rewrite testbit_low_compl by lia.
      destruct (n + 1 =? k) eqn:E3.
      * apply Z.eqb_eq in E3. rewrite (testbit_high (2 ^ k - 1 - j) k) by lia. now destruct (Z.testbit j n).
      * apply Z.eqb_neq in E3. replace (n + 1 <? k) with true by (symmetry; apply Z.ltb_lt; lia).
        rewrite testbit_low_compl by lia. now destruct (Z.testbit j n), (Z.testbit j (n + 1)).
    + apply Z.ltb_ge in E2. replace (n + 1 =? k) with false by (symmetry; apply Z.eqb_neq; lia).
      replace (n + 1 <? k) with false by (symmetry; apply Z.ltb_ge; lia). reflexivity.
Qed.
Lemma gray_rows_val k i : (i < 2 ^ S k)%nat -> val_msb (nth i (gray_rows k) []) = gray_of (Z.of_nat i).
Proof.
  revert i; induction k; intros i Hi.
  - destruct i as [|[|i]]; try reflexivity. simpl in Hi. lia.
  - rewrite gray_reflect_eq. assert (L := gray_rows_length k). assert (W := gray_rows_width k).
    destruct (Nat.lt_ge_cases i (2 ^ S k)).
    + rewrite app_nth1 by (rewrite map_length; lia). rewrite (map_nth_lt _ _ _ []) by lia.
      rewrite val_msb_cons, IHk by auto. lia.
    + rewrite app_nth2 by (rewrite map_length; lia). rewrite map_length, L.
      assert (i - 2 ^ S k < 2 ^ S k)%nat by (change (2 ^ S (S k))%nat with (2 * 2 ^ S k)%nat in Hi; lia).
      rewrite (map_nth_lt _ _ _ []) by (rewrite rev_length; lia). rewrite rev_nth by lia. rewrite L.
      rewrite val_msb_cons, IHk by lia.
      rewrite (Forall_nth_lt _ _ _ [] W) by lia.
      replace (Z.of_nat i) with (2 ^ Z.of_nat (S k) + Z.of_nat (i - 2 ^ S k)) by (rewrite <- pow_nat_Z; lia).
      rewrite gray_of_reflect by (rewrite <- ?pow_nat_Z; lia).
      replace (2 ^ Z.of_nat (S k) - 1 - Z.of_nat (i - 2 ^ S k)) with (Z.of_nat (2 ^ S k - S (i - 2 ^ S k))) by (rewrite <- pow_nat_Z; lia).
      lia.
Qed.
Lemma gray_vec_spec m : (1 <= m)%nat ->
  length (get_gray_level_vec m) = m /\ forall i, (i < m)%nat -> nth i (get_gray_level_vec m) 0 = gray_of (Z.of_nat i).
Proof.
  intros Hm. unfold get_gray_level_vec. fold (gray_rows (ceil_log2 m - 1)). set (k := (ceil_log2 m - 1)%nat).
  assert (Hle : (m <= 2 ^ S k)%nat).
  { destruct (Nat.eq_dec m 1) as [->|]; [simpl; lia|].
    assert (H := Nat.log2_up_spec m ltac:(lia)). assert (0 < Nat.log2_up m)%nat by (apply Nat.log2_up_pos; lia).
    unfold k, ceil_log2. replace (S (Nat.log2_up m - 1)) with (Nat.log2_up m) by lia. lia. }
  assert (L := gray_rows_length k). split.
  - rewrite firstn_length, map_length. lia.
  - intros i Hi. rewrite nth_firstn by auto. rewrite (map_nth_lt _ _ _ []) by lia.
    fold (bin2uint (nth i (gray_rows k) [])). rewrite bin2uint_val. apply gray_rows_val. lia.
Qed.
Lemma succ_xor_ones i : 0 <= i -> exists j, 0 <= j /\ Z.lxor i (i + 1) = Z.ones (j + 1).
Proof.
  intros Hi. assert (H : forall n, (Z.to_nat i < n)%nat -> exists j, 0 <= j /\ Z.lxor i (i + 1) = Z.ones (j + 1)).
  { intros n. revert i Hi. induction n; intros i Hi Hn; [lia|].
    destruct (Z.Even_or_Odd i) as [[a Ha]|[a Ha]].
    - exists 0. split; [lia|]. rewrite Ha.
      apply Z.bits_inj'. intros m Hm. rewrite Z.lxor_spec. destruct (Z.eq_dec m 0) as [->|].
      + rewrite Z.testbit_even_0, Z.testbit_odd_0. reflexivity.
      + replace m with (Z.succ (m - 1)) by lia. rewrite Z.testbit_even_succ, Z.testbit_odd_succ by lia.
        rewrite xorb_nilpotent. rewrite Z.ones_spec_high; auto. lia.
    - destruct (IHn a) as [j [Hj E]]; [lia|lia|]. exists (j + 1). split; [lia|].
      replace (i + 1) with (2 * (a + 1)) by lia. rewrite Ha.
      apply Z.bits_inj'. intros m Hm. rewrite Z.lxor_spec. destruct (Z.eq_dec m 0) as [->|].
      + rewrite Z.testbit_even_0, Z.testbit_odd_0. symmetry. apply Z.ones_spec_low. lia.
      + replace m with (Z.succ (m - 1)) by lia. rewrite Z.testbit_even_succ, Z.testbit_odd_succ by lia.
        rewrite <- Z.lxor_spec, E. rewrite !Z.testbit_ones by lia.
        apply eq_true_iff_eq. rewrite !andb_true_iff, !Z.leb_le, !Z.ltb_lt. lia. }
  apply (H (S (Z.to_nat i))). lia.
Qed.
Lemma gray_adjacent i : 0 <= i -> one_bit_apart (gray_of i) (gray_of (i + 1)).
Proof.
  intros Hi. destruct (succ_xor_ones i Hi) as [j [Hj E]]. exists j. split; auto. intros n Hn.
  rewrite !gray_of_bits by lia.
  assert (E1 : forall m, 0 <= m -> xorb (Z.testbit i m) (Z.testbit (i + 1) m) = (m <? j + 1)).
  { intros m Hm. rewrite <- Z.lxor_spec, E, Z.testbit_ones by lia. destruct (0 <=? m) eqn:X; auto. apply Z.leb_gt in X. lia. }
  assert (A := E1 n Hn). assert (B := E1 (n + 1) ltac:(lia)).
  destruct (Z.testbit i n), (Z.testbit (i + 1) n), (Z.testbit i (n + 1)), (Z.testbit (i + 1) (n + 1)); simpl in *;
   symmetry in A, B; try (apply Z.ltb_lt in A || apply Z.ltb_ge in A); try (apply Z.ltb_lt in B || apply Z.ltb_ge in B);
   split; intros; try congruence; try lia.
Qed.
Lemma gray_inj a b : 0 <= a -> 0 <= b -> gray_of a = gray_of b -> a = b.
Proof.
  intros Ha Hb E. apply Z.lxor_eq. set (x := Z.lxor a b).
  assert (Hx : 0 <= x) by (unfold x; apply Z.lxor_nonneg; tauto).
  assert (Ex : x = Z.shiftr x 1).
  { apply Z.lxor_eq_0_iff. apply Z.bits_inj'. intros n Hn. unfold x.
    rewrite Z.bits_0, !Z.lxor_spec, Z.shiftr_spec, !Z.lxor_spec by lia.
    assert (En : Z.testbit (gray_of a) n = Z.testbit (gray_of b) n) by now rewrite E.
    rewrite !gray_of_bits in En by lia.
    destruct (Z.testbit a n), (Z.testbit b n), (Z.testbit a (n + 1)), (Z.testbit b (n + 1)); simpl in *; congruence. }
  rewrite Z.shiftr_div_pow2 in Ex by lia. change (2 ^ 1) with 2 in Ex. lia.
Qed.

(** Statements used by Prop_aux. *)
Lemma gray_table m : (1 <= m)%nat ->
  length (get_gray_level_vec m) = m /\
  (forall i, (i < m)%nat -> nth i (get_gray_level_vec m) 0 = Z.lxor (Z.of_nat i) (Z.shiftr (Z.of_nat i) 1)) /\
  (forall i, (i + 1 < m)%nat -> one_bit_apart (nth i (get_gray_level_vec m) 0) (nth (i + 1) (get_gray_level_vec m) 0)) /\
  NoDup (get_gray_level_vec m).
Proof.
  intros Hm. destruct (gray_vec_spec m Hm) as [L N]. split; auto. split; [exact N|]. split.
  - intros i Hi. rewrite !N by lia. rewrite Nat2Z.inj_add. apply gray_adjacent. lia.
  - apply (NoDup_nth _ 0). intros i j Hi Hj E. rewrite L in *. rewrite !N in E by auto.
    apply gray_inj in E; lia.
Qed.

Lemma hamming_spec (k : nat) blocks cb : cb <> [] ->
  Forall (fun c => length c = k /\ bits c) cb -> Forall (fun b => length b = k /\ bits b) blocks ->
  exists table idx, hamming blocks cb = Ok (table, idx) /\ length table = length blocks /\ length idx = length blocks /\
    forall i, (i < length blocks)%nat ->
      (forall j, (j < length cb)%nat -> nth j (nth i table []) 0 = Z.of_nat (hdist (nth j cb []) (nth i blocks []))) /\
      (nth i idx 0 < length cb)%nat /\
      (forall j, (j < length cb)%nat ->
        (hdist (nth (nth i idx 0) cb []) (nth i blocks []) <= hdist (nth j cb []) (nth i blocks []))%nat) /\
      (forall j, (j < nth i idx 0)%nat ->
        (hdist (nth (nth i idx 0) cb []) (nth i blocks []) < hdist (nth j cb []) (nth i blocks []))%nat).
Proof.
  intros Hne Hcb Hb. destruct (hamming_ok blocks cb Hne) as (idx & E & Li & Hi).
  do 2 eexists. split; [exact E|]. rewrite map_length. split; auto. split; auto. intros i Hil.
  rewrite (map_nth_lt _ _ _ []) by auto. assert (Bi := Forall_nth_lt _ _ _ [] Hb Hil). cbn beta in Bi.
  assert (T : forall j, (j < length cb)%nat -> nth j (hamming_col cb (nth i blocks [])) 0 = Z.of_nat (hdist (nth j cb []) (nth i blocks []))).
  { intros j Hj. unfold hamming_col. rewrite (map_nth_lt _ _ _ []) by auto. assert (Cj := Forall_nth_lt _ _ _ [] Hcb Hj). cbn beta in Cj.
    apply hdistZ_hdist; [tauto|tauto|]. destruct Cj, Bi; congruence. }
  split; auto. specialize (Hi i Hil). apply argmin_spec in Hi. destruct Hi as (A & B & C).
  unfold hamming_col in A. rewrite map_length in A. split; auto.
  assert (LC : length (hamming_col cb (nth i blocks [])) = length cb) by (unfold hamming_col; now rewrite map_length).
  split.
  - intros j Hj. specialize (B j ltac:(lia)). rewrite !T in B by auto. lia.
  - intros j Hj. specialize (C j Hj). rewrite !T in C by lia. lia.
Qed.
