(** Proofs about pattern locking (C35, C36). *)
From Verif Require Import Py B_list PyQ B_qc M_lock S_lock S_aux P_linear.
Open Scope Z_scope.
Ltac Zify.zify_post_hook ::= Z.div_mod_to_equations.

Lemma argmax_spec l : l <> [] -> exists k, argmax l = Ok k /\ (k < length l)%nat /\
  (forall j, (j < length l)%nat -> nth j l 0 <= nth k l 0) /\ (forall j, (j < k)%nat -> nth j l 0 < nth k l 0).
Proof.
  intros N. unfold argmax. destruct (argmin_ok (map Z.opp l)) as [k E]; [destruct l; [congruence|discriminate]|].
  exists k. split; auto. apply argmin_spec in E. rewrite map_length in E. destruct E as (L & M & F). split; auto.
  assert (A : forall j, (j < length l)%nat -> nth j (map Z.opp l) 0 = - nth j l 0) by (intros j Hj; now rewrite (map_nth_lt _ _ j 0)).
  split; intros j Hj; [specialize (M j Hj)|specialize (F j Hj)]; rewrite !A in * by lia; lia.
Qed.
Lemma rotated_length {A} (d : A) s p : length (rotated d s p) = length p.
Proof. unfold rotated. now rewrite map_length, seq_length. Qed.
Lemma rotated_nth {A} (d : A) s p i : (i < length p)%nat -> nth i (rotated d s p) d = nth ((s + i) mod length p) p d.
Proof. intros H. unfold rotated. now rewrite nth_map_seq. Qed.
Lemma mod_add_mod s i n : (0 < n)%nat -> ((s mod n + i) mod n = (s + i) mod n)%nat.
Proof. intros H. now rewrite Nat.add_mod_idemp_l by lia. Qed.
Lemma rotated_mod {A} (d : A) s p : p <> [] -> rotated d (s mod length p) p = rotated d s p.
Proof. intros N. apply map_ext. intros i. rewrite mod_add_mod; auto. destruct p; [congruence|cbn; lia]. Qed.
Lemma slice_rotated {A} (d : A) s p : (s < length p)%nat -> firstn (length p) (skipn s (tile 2 p)) = rotated d s p.
Proof.
  intros H. apply (nth_ext_def d).
  - rewrite firstn_length, skipn_length, tile_length, rotated_length. lia.
  - intros i Hi. rewrite firstn_length, skipn_length, tile_length in Hi. rewrite nth_firstn by lia. rewrite nth_skipn.
    rewrite tile_nth by lia. now rewrite rotated_nth by lia.
Qed.
Lemma corr_bits_mod p sig m s : p <> [] -> corr_bits p sig m (s mod length p) = corr_bits p sig m s.
Proof. intros N. apply sumZ_map_ext. intros i _. rewrite mod_add_mod; auto. destruct p; [congruence|cbn; lia]. Qed.
Lemma corr_samples_mod p sig m s : p <> [] -> corr_samples p sig m (s mod length p) = corr_samples p sig m s.
Proof. intros N. apply sumQ_map_ext. intros i _. rewrite mod_add_mod; auto. destruct p; [congruence|cbn; lia]. Qed.

(** First maximum of a periodic correlation. *)
Lemma periodic_first (lt : nat -> nat -> Prop) (P L k : nat) : (0 < P)%nat -> (P <= L)%nat -> (k < L)%nat ->
  (forall j, (j < k)%nat -> lt j k) -> ~ lt (k mod P)%nat k -> (k < P)%nat.
Proof.
  intros HP HL Hk F N. destruct (Nat.lt_ge_cases k P); auto. exfalso. apply N, F.
  assert (k mod P < P)%nat by (apply Nat.mod_upper_bound; lia). lia.
Qed.

Lemma lock_binary_spec pattern signal : pattern <> [] -> signal <> [] ->
  let P := length pattern in let m := Nat.min P (length signal) in
  exists s xc, lock_pattern_to_signal_binary pattern signal = Ok (rotated 0 s pattern, xc) /\ (s < P)%nat /\
    xc = map (corr_bits pattern signal m) (seq 0 (2 * P - m + 1)) /\
    (forall s', corr_bits pattern signal m s' <= corr_bits pattern signal m s) /\
    (forall s', (s' < s)%nat -> corr_bits pattern signal m s' < corr_bits pattern signal m s).
Proof.
  intros NP NS P m. assert (HP : (0 < P)%nat) by (unfold P; destruct pattern; [congruence|cbn; lia]).
  assert (Hm : (0 < m <= P)%nat) by (unfold m; destruct signal; [congruence|cbn [length]; lia]).
  set (xc := map (corr_bits pattern signal m) (seq 0 (2 * P - m + 1))).
  assert (E : correlate_valid (map (fun x => x * 2 - 1) (tile 2 pattern)) (map (fun x => x * 2 - 1) (firstn m signal)) = xc).
  { unfold correlate_valid. rewrite !map_length, tile_length, firstn_length. fold P. replace (Nat.min m (length signal)) with m by lia.
    replace ((2 * P =? 0)%nat || (m =? 0)%nat) with false by (symmetry; apply orb_false_iff; split; apply Nat.eqb_neq; lia).
    apply map_ext_in. intros k Hk. apply in_seq in Hk. rewrite dotZ_sum_nth by (rewrite firstn_length, skipn_length, !map_length, tile_length, firstn_length; fold P; lia).
    rewrite firstn_length, skipn_length, map_length, tile_length. fold P. replace (Nat.min m (2 * P - k)) with m by lia.
    apply sumZ_map_ext. intros i Hi. apply in_seq in Hi. rewrite nth_firstn, nth_skipn by lia.
    rewrite (map_nth_lt _ _ (k + i) 0) by (rewrite tile_length; fold P; lia). rewrite (map_nth_lt _ _ i 0) by (rewrite firstn_length; lia).
    rewrite tile_nth by (fold P; lia). rewrite nth_firstn by lia. fold P. ring. }
  destruct (argmax_spec xc) as (k & Ek & Lk & Mk & Fk).
  { intros Q. apply (f_equal (@length Z)) in Q. unfold xc in Q. rewrite map_length, seq_length in Q. cbn [length] in Q. lia. }
  unfold xc in Lk, Mk, Fk. rewrite map_length, seq_length in Lk, Mk.
  assert (X : forall j, (j < 2 * P - m + 1)%nat -> nth j (map (corr_bits pattern signal m) (seq 0 (2 * P - m + 1))) 0 = corr_bits pattern signal m j) by (intros; now rewrite nth_map_seq).
  assert (KP : (k < P)%nat).
  { destruct (Nat.lt_ge_cases k P) as [H|H]; auto. exfalso. assert (B : (k mod P < P)%nat) by (apply Nat.mod_upper_bound; lia).
    specialize (Fk (k mod P)%nat ltac:(lia)). rewrite !X in Fk by lia. unfold P in Fk at 1. rewrite corr_bits_mod in Fk by auto. lia. }
  exists k, xc. split; [|split; [auto|split; [auto|split]]].
  - unfold lock_pattern_to_signal_binary. fold P m. rewrite E, Ek. cbn [bind]. do 2 f_equal. now apply slice_rotated.
  - intros s'. rewrite <- (corr_bits_mod _ _ _ s') by auto. fold P. assert (B : (s' mod P < P)%nat) by (apply Nat.mod_upper_bound; lia).
    specialize (Mk (s' mod P)%nat ltac:(lia)). rewrite !X in Mk by lia. auto.
  - intros s' H. specialize (Fk s' H). rewrite !X in Fk by lia. auto.
Qed.
(** For bits, correlation counts agreements minus disagreements. *)
Lemma corr_bits_hdist p sig m s : bits p -> bits sig -> p <> [] -> (m <= length p)%nat -> (m <= length sig)%nat ->
  corr_bits p sig m s = Z.of_nat m - 2 * Z.of_nat (hdist (firstn m (rotated 0 s p)) (firstn m sig)).
Proof.
  intros Bp Bs N M1 M2. unfold corr_bits, hdist. rewrite firstn_length, rotated_length. replace (Nat.min m (length p)) with m by lia.
  assert (G : forall l, (forall i, In i l -> (i < m)%nat) ->
    sumZ (map (fun i => (2 * nth ((s + i) mod length p) p 0 - 1) * (2 * nth i sig 0 - 1)) l) =
    Z.of_nat (length l) - 2 * Z.of_nat (length (filter (fun i => negb (nth i (firstn m (rotated 0 s p)) 0 =? nth i (firstn m sig) 0)) l))).
  { induction l as [|i l IH]; intros H; [reflexivity|]. cbn [map filter length]. change (sumZ (?a :: ?b)) with (a + sumZ b). rewrite IH by (intros; apply H; now right).
    assert (Hi := H i (or_introl eq_refl)). rewrite !nth_firstn by auto. rewrite rotated_nth by lia.
    destruct (bits_nth p ((s + i) mod length p) Bp) as [-> | ->], (bits_nth sig i Bs) as [-> | ->]; cbn [negb Z.eqb length Pos.eqb]; cbn [length]; lia. }
  rewrite G by (intros i Hi; apply in_seq in Hi; lia). now rewrite seq_length.
Qed.

Lemma lock_samples_spec pattern signal : pattern <> [] -> signal <> [] ->
  let P := length pattern in let m := Nat.min P (length signal) in
  exists s xc, lock_pattern_to_signal pattern signal = Ok (rotated 0%Qc s pattern, xc) /\ (s < P)%nat /\
    xc = map (corr_samples pattern signal m) (seq 0 (2 * P - m + 1)) /\
    (forall s', (corr_samples pattern signal m s' <= corr_samples pattern signal m s)%Qc) /\
    (forall s', (s' < s)%nat -> (corr_samples pattern signal m s' < corr_samples pattern signal m s)%Qc).
Proof.
  intros NP NS P m. assert (HP : (0 < P)%nat) by (unfold P; destruct pattern; [congruence|cbn; lia]).
  assert (Hm : (0 < m <= P)%nat) by (unfold m; destruct signal; [congruence|cbn [length]; lia]).
  set (xc := map (corr_samples pattern signal m) (seq 0 (2 * P - m + 1))).
  assert (E : correlate_validQ (tile 2 pattern) (firstn m signal) = xc).
  { unfold correlate_validQ. rewrite tile_length, firstn_length. fold P. replace (Nat.min m (length signal)) with m by lia.
    replace ((2 * P =? 0)%nat || (m =? 0)%nat) with false by (symmetry; apply orb_false_iff; split; apply Nat.eqb_neq; lia).
    apply map_ext_in. intros k Hk. apply in_seq in Hk. unfold dotQ, corr_samples. f_equal.
    assert (L1 : length (firstn m (skipn k (tile 2 pattern))) = m) by (rewrite firstn_length, skipn_length, tile_length; fold P; lia).
    assert (L2 : length (firstn m signal) = m) by (rewrite firstn_length; lia).
    apply (nth_ext_def 0%Qc).
    - rewrite map2_length, map_length, seq_length. lia.
    - intros i Hi. rewrite map2_length in Hi. rewrite (map2_nth _ _ _ i 0%Qc 0%Qc 0%Qc) by lia. rewrite nth_map_seq by lia.
      rewrite !nth_firstn, nth_skipn by lia. rewrite tile_nth by (fold P; lia). reflexivity. }
  destruct (argmaxQ_spec xc) as (k & Ek & Lk & Mk & Fk).
  { intros Q. apply (f_equal (@length Qc)) in Q. unfold xc in Q. rewrite map_length, seq_length in Q. cbn [length] in Q. lia. }
  unfold xc in Lk, Mk, Fk. rewrite map_length, seq_length in Lk, Mk.
  assert (X : forall j, (j < 2 * P - m + 1)%nat -> nth j (map (corr_samples pattern signal m) (seq 0 (2 * P - m + 1))) 0%Qc = corr_samples pattern signal m j) by (intros; now rewrite nth_map_seq).
  assert (KP : (k < P)%nat).
  { destruct (Nat.lt_ge_cases k P) as [H|H]; auto. exfalso. assert (B : (k mod P < P)%nat) by (apply Nat.mod_upper_bound; lia).
    specialize (Fk (k mod P)%nat ltac:(lia)). rewrite !X in Fk by lia. unfold P in Fk at 1. rewrite corr_samples_mod in Fk by auto. qlra. }
  exists k, xc. split; [|split; [auto|split; [auto|split]]].
  - unfold lock_pattern_to_signal. fold P m. rewrite E, Ek. cbn [bind]. do 2 f_equal. now apply slice_rotated.
  - intros s'. rewrite <- (corr_samples_mod _ _ _ s') by auto. fold P. assert (B : (s' mod P < P)%nat) by (apply Nat.mod_upper_bound; lia).
    specialize (Mk (s' mod P)%nat ltac:(lia)). rewrite !X in Mk by lia. auto.
  - intros s' H. specialize (Fk s' H). rewrite !X in Fk by lia. auto.
Qed.

(** Energy argument: at full length the largest correlation identifies the rotation. *)
Lemma sum_rotation (f : nat -> Qc) n s : (0 < n)%nat ->
  sumQ (map (fun i => f ((s + i) mod n)%nat) (seq 0 n)) = sumQ (map f (seq 0 n)).
Proof.
  intros Hn. rewrite <- (map_map (fun i => (s + i) mod n)%nat f).
  assert (Pm : Permutation.Permutation (map (fun i => (s + i) mod n)%nat (seq 0 n)) (seq 0 n)).
  { apply Permutation.NoDup_Permutation_bis.
    - apply (NoDup_nth _ 0%nat). rewrite map_length, seq_length. intros i j Hi Hj. rewrite !nth_map_seq by auto. cbn [Nat.add].
      intros E. assert (forall x, (s + x = n * ((s + x) / n) + (s + x) mod n)%nat) by (intros; apply Nat.div_mod; lia).
      assert (Ei := H i). assert (Ej := H j). rewrite E in Ei. clear H E.
      generalize dependent ((s + i) / n)%nat. generalize dependent ((s + j) / n)%nat. generalize dependent ((s + j) mod n)%nat. intros r q Ej q' Ei.
      destruct (Nat.lt_trichotomy q q') as [C|[C|C]]; [|subst; lia|].
      + assert (n * S q <= n * q')%nat by (apply Nat.mul_le_mono_l; lia). lia.
      + assert (n * S q' <= n * q)%nat by (apply Nat.mul_le_mono_l; lia). lia.
    - rewrite map_length, seq_length. lia.
    - intros x Hx. apply in_map_iff in Hx. destruct Hx as (i & <- & _). apply in_seq. assert ((s + i) mod n < n)%nat by (apply Nat.mod_upper_bound; lia). lia. }
  apply (Permutation.Permutation_map f) in Pm. clear - Pm. induction Pm; rewrite ?sumQ_cons; auto; [now rewrite IHPm|ring|congruence].
Qed.
Lemma lock_samples_rotation pattern signal s0 g : pattern <> [] -> (0 < g)%Qc -> (length pattern <= length signal)%nat ->
  (forall i, (i < length pattern)%nat -> nth i signal 0%Qc = (g * nth ((s0 + i) mod length pattern) pattern 0)%Qc) ->
  exists xc, lock_pattern_to_signal pattern signal = Ok (rotated 0%Qc s0 pattern, xc).
Proof.
  intros NP G L H. assert (NS : signal <> []) by (destruct pattern; [congruence|destruct signal; [cbn in L; lia|discriminate]]).
  destruct (lock_samples_spec pattern signal NP NS) as (s & xc & E & Ls & _ & M & _). exists xc. rewrite E. do 2 f_equal.
  replace (Nat.min (length pattern) (length signal)) with (length pattern) in M by lia. specialize (M s0).
  set (P := length pattern) in *. assert (HP : (0 < P)%nat) by lia.
  set (a := fun i => nth ((s + i) mod P) pattern 0%Qc). set (b := fun i => nth ((s0 + i) mod P) pattern 0%Qc).
  assert (C : forall s', corr_samples pattern signal P s' = (g * sumQ (map (fun i => nth ((s' + i) mod P) pattern 0 * b i)%Qc (seq 0 P)))%Qc).
  { intros s'. unfold corr_samples. fold P. rewrite <- sumQ_map_scale. apply sumQ_map_ext. intros i Hi. apply in_seq in Hi. rewrite H by lia. unfold b. ring. }
  rewrite !C in M. fold a in M.
  assert (EA : sumQ (map (fun i => a i * a i)%Qc (seq 0 P)) = sumQ (map (fun i => b i * b i)%Qc (seq 0 P))).
  { unfold a, b. rewrite (sum_rotation (fun k => nth k pattern 0 * nth k pattern 0)%Qc P s) by auto. now rewrite (sum_rotation (fun k => nth k pattern 0 * nth k pattern 0)%Qc P s0) by auto. }
  assert (D : sumQ (map (fun i => (a i - b i) * (a i - b i))%Qc (seq 0 P)) =
     (sumQ (map (fun i => a i * a i)%Qc (seq 0 P)) + (sumQ (map (fun i => b i * b i)%Qc (seq 0 P)) + (- ofZ 2) * sumQ (map (fun i => a i * b i)%Qc (seq 0 P))))%Qc).
  { rewrite <- sumQ_map_scale, <- !sumQ_map_add. apply sumQ_map_ext. intros i _. change (ofZ 2) with (1 + 1)%Qc. ring. }
  assert (Z0 : Forall (fun x => x = 0%Qc) (map (fun i => (a i - b i) * (a i - b i))%Qc (seq 0 P))).
  { apply sumQ_zero.
    - apply Forall_forall. intros x Hx. apply in_map_iff in Hx. destruct Hx as (i & <- & _). generalize (a i - b i)%Qc. intros d.
      destruct (Qclt_le_dec d 0) as [Q|Q].
      + replace (d * d)%Qc with ((- d) * (- d))%Qc by ring. replace 0%Qc with (0 * (- d))%Qc by ring. apply Qcmult_le_compat_r; qlra.
      + replace 0%Qc with (0 * d)%Qc by ring. apply Qcmult_le_compat_r; auto.
    - rewrite D, EA. change (sumQ (map (fun i => nth ((s0 + i) mod P) pattern 0 * b i)%Qc (seq 0 P))) with (sumQ (map (fun i => b i * b i)%Qc (seq 0 P))) in M.
      change (sumQ (map (fun i => nth ((s + i) mod P) pattern 0 * b i)%Qc (seq 0 P))) with (sumQ (map (fun i => a i * b i)%Qc (seq 0 P))) in M.
      assert (M' : (sumQ (map (fun i => b i * b i)%Qc (seq 0 P)) <= sumQ (map (fun i => a i * b i)%Qc (seq 0 P)))%Qc).
      { apply Qcmult_lt_0_le_reg_r with g; auto. rewrite !(Qcmult_comm _ g). exact M. }
      clear - M'. qlra. }
  apply map_ext_in. intros i Hi. fold P. change (a i = b i). rewrite Forall_forall in Z0. specialize (Z0 _ (in_map _ _ _ Hi)). cbv beta in Z0.
  apply Qcmult_integral in Z0. destruct Z0 as [Z0|Z0]; qlra.
Qed.
