(** Proofs about the PRBS checkers (C37, C38). *)
From Verif Require Import Py B_list M_aux M_prbs P_gf2 S_prbs P_prbs P_prbs_cert P_prbs_gen PyQ M_lock S_lock P_lock S_aux P_linear.
From Coq Require Import Permutation.
Open Scope Z_scope.
Ltac Zify.zify_post_hook ::= Z.div_mod_to_equations.

(** Errors of a flipped stream against the clean one. *)
Lemma flip_neq b e : isbit b -> negb ((if e : bool then 1 - b else b) =? b) = e.
Proof. intros [-> | ->]; destruct e; reflexivity. Qed.
Lemma flipped_length c e : length e = length c -> length (flipped c e) = length c.
Proof. intros H. unfold flipped. rewrite map2_length. lia. Qed.
Lemma flipped_nth c e i : (i < length c)%nat -> length e = length c -> nth i (flipped c e) 0 = if nth i e false then 1 - nth i c 0 else nth i c 0.
Proof. intros H L. unfold flipped. rewrite (map2_nth _ _ _ i 0 false 0) by lia. reflexivity. Qed.
Lemma flipped_bits c e : bits c -> bits (flipped c e).
Proof.
  unfold bits, flipped. intros H. revert e. induction H as [|b c Hb Hc IH]; intros [|x e]; cbn [map2]; constructor; auto.
  destruct Hb as [-> | ->], x; (left; reflexivity) || (right; reflexivity).
Qed.
Lemma not_equal_flipped c e : bits c -> length e = length c -> not_equal (flipped c e) c = Ok e.
Proof.
  intros B L. unfold not_equal. rewrite flipped_length by auto. rewrite Nat.eqb_refl. f_equal.
  revert e L. induction B as [|b c Hb Hc IH]; intros [|x e] L; try discriminate; auto. cbn [flipped map2]. f_equal; [now apply flip_neq|]. apply IH. cbn in L. lia.
Qed.
Lemma not_equal_self l : not_equal l l = Ok (repeat false (length l)).
Proof.
  unfold not_equal. rewrite Nat.eqb_refl. f_equal. induction l as [|x l IH]; auto. cbn [map2 length repeat]. rewrite IH, Z.eqb_refl. reflexivity.
Qed.
Lemma not_equal_spec u v : length u = length v -> exists e, not_equal u v = Ok e /\ length e = length u /\
  forall i, (i < length u)%nat -> nth i e false = negb (nth i u 0 =? nth i v 0).
Proof.
  intros L. unfold not_equal. rewrite L, Nat.eqb_refl. eexists. split; [reflexivity|]. rewrite map2_length. split; [lia|].
  intros i Hi. now rewrite (map2_nth _ _ _ i 0 0) by lia.
Qed.
Lemma n_errors_false k : n_errors (repeat false k) = 0%nat.
Proof. induction k; auto. Qed.
Lemma count_true_errors e : count_true e = Z.of_nat (n_errors e).
Proof. reflexivity. Qed.
Lemma n_errors_app a b : n_errors (a ++ b) = (n_errors a + n_errors b)%nat.
Proof. apply count_occ_app. Qed.
Lemma n_errors_sum e m : (m <= length e)%nat -> sumZ (map (fun i => if nth i e false then 1 else 0) (seq 0 m)) = Z.of_nat (n_errors (firstn m e)).
Proof.
  revert e. induction m as [|m IH]; intros e H; [reflexivity|]. destruct e as [|x e]; [cbn in H; lia|]. cbn [length] in H.
  cbn [seq map firstn]. rewrite <- seq_shift, map_map. change (sumZ (?a :: ?b)) with (a + sumZ b).
  rewrite (sumZ_map_ext _ (fun i => if nth i e false then 1 else 0)) by reflexivity. rewrite IH by lia.
  unfold n_errors. cbn [count_occ nth]. destruct x; destruct (Bool.bool_dec _ true); try congruence; lia.
Qed.
Lemma n_errors_le e : (n_errors e <= length e)%nat.
Proof. unfold n_errors. induction e as [|x e IH]; [auto|]. cbn [count_occ length]. destruct (Bool.bool_dec x true); lia. Qed.
Lemma firstn_split {A} k (l : list A) : l = firstn k l ++ skipn k l.
Proof. symmetry. apply firstn_skipn. Qed.

(** Tiling one period and cutting. *)
Lemma tile_period t s D : length s = prbs_value t -> bits s ->
  let P := (2 ^ prbs_value t - 1)%nat in
  firstn D (tile (Z.to_nat (- (- Z.of_nat D / (2 ^ Z.of_nat (prbs_value t) - 1)))) (outbits (get_polynomial t) s P)) = outbits (get_polynomial t) s D.
Proof.
  intros L B P. assert (Hper := prbs_full_period t s L B). fold P in Hper. assert (HP := maxlen_pos _ (value_gt1 t)). fold P in HP.
  rewrite <- maxlen_Z by apply value_gt1. fold P. clearbody P.
  set (R := Z.to_nat (- (- Z.of_nat D / Z.of_nat P))).
  assert (HR : (D <= R * P)%nat).
  { unfold R. assert (Z.of_nat P * (- Z.of_nat D / Z.of_nat P) <= - Z.of_nat D) by (apply Z.mul_div_le; lia). nia. }
  clearbody R. apply (nth_ext_def 0).
  - rewrite firstn_length, tile_length, !outbits_length. lia.
  - intros i Hi. rewrite firstn_length, tile_length, outbits_length in Hi. rewrite nth_firstn by lia.
    rewrite tile_nth by (rewrite outbits_length; lia). rewrite outbits_length. assert (i mod P < P)%nat by (apply Nat.mod_upper_bound; lia).
    rewrite !outbits_nth by lia. f_equal. symmetry. now apply iter_mod.
Qed.
Lemma ones_seed t : length (repeat 1 (prbs_value t)) = prbs_value t /\ bits (repeat 1 (prbs_value t)) /\ repeat 1 (prbs_value t) <> repeat 0 (prbs_value t).
Proof.
  split; [apply repeat_length|]. split; [apply Forall_forall; intros x Hx; apply repeat_spec in Hx; subst; now right|].
  destruct t; discriminate.
Qed.
Lemma gen_ones t : prbs_generator (get_polynomial t) (repeat 1 (prbs_value t)) (2 ^ Z.of_nat (prbs_value t) - 1) =
  Ok (outbits (get_polynomial t) (repeat 1 (prbs_value t)) (2 ^ prbs_value t - 1), Nat.iter (2 ^ prbs_value t - 1) (lfsr_step (get_polynomial t)) (repeat 1 (prbs_value t))).
Proof. rewrite <- maxlen_Z by apply value_gt1. apply gen_char; apply ones_seed. Qed.

(** The rotations of one period are the periods from the other seeds. *)
Lemma rotation_seed t s k : length s = prbs_value t -> bits s -> let P := (2 ^ prbs_value t - 1)%nat in let p := get_polynomial t in
  rotated 0 k (outbits p s P) = outbits p (Nat.iter k (lfsr_step p) s) P.
Proof.
  intros L B P p. assert (Hper := prbs_full_period t s L B). fold P p in Hper. assert (HP := maxlen_pos _ (value_gt1 t)). fold P in HP. clearbody P.
  apply (nth_ext_def 0).
  - now rewrite rotated_length, !outbits_length.
  - rewrite rotated_length, outbits_length. intros i Hi. rewrite rotated_nth by (rewrite outbits_length; auto). rewrite outbits_length.
    assert ((k + i) mod P < P)%nat by (apply Nat.mod_upper_bound; lia). rewrite !outbits_nth by auto. rewrite <- iter_mod by auto.
    replace (k + i)%nat with (i + k)%nat by lia. now rewrite iter_add.
Qed.
Lemma seed_phase t s : length s = prbs_value t -> bits s -> s <> repeat 0 (prbs_value t) ->
  exists k, (k < 2 ^ prbs_value t - 1)%nat /\ Nat.iter k (lfsr_step (get_polynomial t)) (repeat 1 (prbs_value t)) = s.
Proof.
  intros L B N. destruct (ones_seed t) as (L1 & B1 & N1). destruct (visits_unique t _ s L1 B1 N1 L B N) as [k [[Hk [out E]] _]].
  exists k. split; auto. rewrite gen_char in E by auto. congruence.
Qed.

Section Lock.
  Context (t : prbs_type) (s : list Z) (D : nat) (err : list bool).
  Context (Ls : length s = prbs_value t) (Bs : bits s) (Ns : s <> repeat 0 (prbs_value t)).
  Let p := get_polynomial t.
  Let P := (2 ^ prbs_value t - 1)%nat.
  Let clean := outbits p s D.
  Let data := flipped clean err.
  Context (Le : length err = D).
  Lemma data_nth i : (i < D)%nat -> nth i data 0 = if nth i err false then 1 - nth i clean 0 else nth i clean 0.
  Proof. intros H. apply flipped_nth; unfold clean; rewrite outbits_length; auto. Qed.
  (** Correlation with the period from another seed, errors included. *)
  Lemma corr_with u m : (m <= D)%nat -> bits u ->
    Z.abs (sumZ (map (fun i => (2 * nth i (outbits p u m) 0 - 1) * (2 * nth i data 0 - 1)) (seq 0 m)) -
           sumZ (map (fun i => nrz (nth i (outbits p u m) 0) * nrz (nth i (outbits p s m) 0)) (seq 0 m))) <= 2 * Z.of_nat (n_errors (firstn m err)).
  Proof.
    intros Hm Bu. rewrite <- n_errors_sum by lia.
    assert (G : forall l, (forall i, In i l -> (i < m)%nat) ->
      Z.abs (sumZ (map (fun i => (2 * nth i (outbits p u m) 0 - 1) * (2 * nth i data 0 - 1)) l) -
           sumZ (map (fun i => nrz (nth i (outbits p u m) 0) * nrz (nth i (outbits p s m) 0)) l)) <= 2 * sumZ (map (fun i => if nth i err false then 1 else 0) l)).
    { induction l as [|i l IH]; intros H; [cbn; lia|]. cbn [map]. change (sumZ (?a :: ?b)) with (a + sumZ b).
      specialize (IH (fun j Hj => H j (or_intror Hj))). assert (Hi := H i (or_introl eq_refl)). rewrite data_nth by lia.
      assert (E : nth i clean 0 = nth i (outbits p s m) 0) by (unfold clean; now rewrite !outbits_nth by lia). rewrite E. unfold nrz in *.
      destruct (bits_nth (outbits p u m) i (outbits_bits _ _ _)) as [-> | ->], (bits_nth (outbits p s m) i (outbits_bits _ _ _)) as [-> | ->], (nth i err false); cbv iota;
      revert IH; generalize (sumZ (map (fun i => (2 * nth i (outbits p u m) 0 - 1) * (2 * nth i data 0 - 1)) l));
      generalize (sumZ (map (fun i => (1 - 2 * nth i (outbits p u m) 0) * (1 - 2 * nth i (outbits p s m) 0)) l));
      generalize (sumZ (map (fun i => if nth i err false then 1 else 0) l)); lia. }
    apply G. intros i Hi. apply in_seq in Hi. lia.
  Qed.
  Lemma lock_phase xcr s1 : (P <= D)%nat -> (4 * Z.of_nat (n_errors (firstn P err)) < 2 ^ Z.of_nat (prbs_value t)) ->
    (forall s', corr_bits (outbits p (repeat 1 (prbs_value t)) P) data P s' <= corr_bits (outbits p (repeat 1 (prbs_value t)) P) data P s1) ->
    xcr = rotated 0 s1 (outbits p (repeat 1 (prbs_value t)) P) -> xcr = outbits p s P.
  Proof.
    intros HD HE HM ->. destruct (ones_seed t) as (L1 & B1 & N1). unfold P, p. rewrite rotation_seed by auto. fold P p.
    destruct (seed_phase t s Ls Bs Ns) as (k & Hk & Ek). fold p in Ek. specialize (HM k).
    assert (HP := maxlen_Z _ (value_gt1 t)). assert (HP0 := maxlen_pos _ (value_gt1 t)). fold P in HP, HP0, Hk.
    assert (C : forall k, corr_bits (outbits p (repeat 1 (prbs_value t)) P) data P k =
       sumZ (map (fun i => (2 * nth i (outbits p (Nat.iter k (lfsr_step p) (repeat 1 (prbs_value t))) P) 0 - 1) * (2 * nth i data 0 - 1)) (seq 0 P))).
    { intros k'. unfold corr_bits. apply sumZ_map_ext. intros i Hi. apply in_seq in Hi.
      assert (R := rotation_seed t (repeat 1 (prbs_value t)) k' L1 B1). cbv zeta in R. fold P p in R. rewrite <- R.
      rewrite rotated_nth by (rewrite outbits_length; lia). reflexivity. }
    rewrite !C in HM. rewrite Ek in HM. set (u := Nat.iter s1 (lfsr_step p) (repeat 1 (prbs_value t))) in *.
    assert (Bu : bv (prbs_value t) u) by (apply (iter_bv (prbs_value t) p [] (value_gt1 t)); split; auto).
    destruct (list_eq_dec Z.eq_dec u s) as [->|Q]; auto. exfalso.
    assert (C1 := corr_with u P HD (proj2 Bu)). assert (C2 := corr_with s P HD Bs).
    assert (X1 := corr_phases t u s Bu (conj Ls Bs) Q). cbv zeta in X1. fold p P in X1. rewrite X1 in C1.
    rewrite (sumZ_map_ext (fun i => nrz (nth i (outbits p s P) 0) * nrz (nth i (outbits p s P) 0)) (fun _ => 1)) in C2.
    - rewrite sumZ_map_const, seq_length in C2. lia.
    - intros i _. destruct (bits_nth (outbits p s P) i (outbits_bits _ _ _)) as [-> | ->]; reflexivity.
  Qed.
  Lemma checker_end init th sq seq1 : (if negb init then r <- lock_pattern_to_signal_binary (match sq with None => outbits p (repeat 1 (prbs_value t)) P | Some q => q end) data ;; Ok (fst r)
      else Ok (match sq with None => outbits p (repeat 1 (prbs_value t)) P | Some q => q end)) = Ok seq1 ->
    firstn D (tile (Z.to_nat (- (- Z.of_nat D / (2 ^ Z.of_nat (prbs_value t) - 1)))) seq1) = clean ->
    prbs_checker t data init th sq = Ok (th <=? Z.of_nat (n_errors err), Z.of_nat D - Z.of_nat (n_errors err), err).
  Proof.
    intros E1 E2. unfold prbs_checker. rewrite repeat_length.
    assert (E0 : match sq with None => r <- prbs_generator (get_polynomial t) (repeat 1 (prbs_value t)) (2 ^ Z.of_nat (prbs_value t) - 1) ;; Ok (fst r) | Some q => Ok q end
       = Ok (match sq with None => outbits p (repeat 1 (prbs_value t)) P | Some q => q end)).
    { destruct sq; auto. now rewrite gen_ones. }
    rewrite E0. cbn [bind]. rewrite E1. cbn [bind].
    assert (Ld : length data = D) by (unfold data; rewrite flipped_length; unfold clean; now rewrite outbits_length). rewrite Ld, E2.
    unfold data. rewrite not_equal_flipped by (unfold clean; rewrite ?outbits_length; auto using outbits_bits). reflexivity.
  Qed.
  Lemma checker_locks th : (P <= D)%nat -> (4 * Z.of_nat (n_errors (firstn P err)) < 2 ^ Z.of_nat (prbs_value t)) ->
    prbs_checker t data false th None = Ok (th <=? Z.of_nat (n_errors err), Z.of_nat D - Z.of_nat (n_errors err), err).
  Proof.
    intros HD HE. assert (HP0 := maxlen_pos _ (value_gt1 t)). fold P in HP0.
    assert (Ld : length data = D) by (unfold data; rewrite flipped_length; unfold clean; now rewrite outbits_length).
    destruct (lock_binary_spec (outbits p (repeat 1 (prbs_value t)) P) data) as (s1 & xc & E & _ & _ & M & _).
    { intros Q. apply (f_equal (@length Z)) in Q. rewrite outbits_length in Q. cbn [length] in Q. lia. }
    { intros Q. apply (f_equal (@length Z)) in Q. rewrite Ld in Q. cbn [length] in Q. lia. }
    rewrite outbits_length, Ld in M. replace (Nat.min P D) with P in M by lia.
    apply checker_end with (seq1 := outbits p s P).
    - cbn [negb]. rewrite E. cbn [bind fst]. f_equal. now apply (lock_phase _ s1).
    - apply tile_period; auto.
  Qed.
End Lock.

(** Error-free data of any length, locked or not. *)
Lemma flipped_none c : flipped c (repeat false (length c)) = c.
Proof. unfold flipped. induction c as [|x c IH]; auto. cbn [length repeat map2]. now rewrite IH. Qed.
Lemma checker_clean t s D th : length s = prbs_value t -> bits s -> s <> repeat 0 (prbs_value t) -> (0 < D)%nat ->
  prbs_checker t (outbits (get_polynomial t) s D) false th None = Ok (th <=? 0, Z.of_nat D, repeat false D).
Proof.
  intros L B N HD. assert (HP0 := maxlen_pos _ (value_gt1 t)). set (P := (2 ^ prbs_value t - 1)%nat) in *. set (p := get_polynomial t).
  destruct (ones_seed t) as (L1 & B1 & N1).
  destruct (lock_binary_spec (outbits p (repeat 1 (prbs_value t)) P) (outbits p s D)) as (s1 & xc & E & _ & _ & M & _).
  { intros Q. apply (f_equal (@length Z)) in Q. rewrite outbits_length in Q. cbn [length] in Q. lia. }
  { intros Q. apply (f_equal (@length Z)) in Q. rewrite outbits_length in Q. cbn [length] in Q. lia. }
  rewrite !outbits_length in M. set (m := Nat.min P D) in *.
  destruct (seed_phase t s L B N) as (k & Hk & Ek). fold p in Ek. fold P in Hk. specialize (M k).
  rewrite !corr_bits_hdist in M by (rewrite ?outbits_length; auto using outbits_bits; try lia; intros Q; apply (f_equal (@length Z)) in Q; rewrite outbits_length in Q; cbn [length] in Q; lia).
  assert (R := fun k => rotation_seed t (repeat 1 (prbs_value t)) k L1 B1). cbv zeta in R. fold P p in R. rewrite !R in M. rewrite Ek in M.
  assert (F : forall u n, (m <= n)%nat -> firstn m (outbits p u n) = outbits p u m).
  { intros u n H. replace n with (m + (n - m))%nat by lia. rewrite outbits_app, firstn_app, outbits_length, Nat.sub_diag, app_nil_r. rewrite firstn_all2; auto. rewrite outbits_length. lia. }
  rewrite !F in M by lia. rewrite hdist_refl in M.
  assert (E2 : outbits p (Nat.iter s1 (lfsr_step p) (repeat 1 (prbs_value t))) m = outbits p s m).
  { apply hdist_zero; [now rewrite !outbits_length|lia]. }
  set (u := Nat.iter s1 (lfsr_step p) (repeat 1 (prbs_value t))) in *.
  assert (Bu : bv (prbs_value t) u) by (apply (iter_bv (prbs_value t) p [] (value_gt1 t)); split; auto).
  assert (FE : flipped (outbits p s D) (repeat false D) = outbits p s D) by (rewrite <- (outbits_length p s D) at 2; apply flipped_none).
  rewrite <- FE.
  replace (Z.of_nat D) with (Z.of_nat D - Z.of_nat (n_errors (repeat false D))) by (rewrite n_errors_false; lia).
  replace (th <=? 0) with (th <=? Z.of_nat (n_errors (repeat false D))) by (now rewrite n_errors_false).
  assert (LF : length (repeat false D) = D) by apply repeat_length.
  apply (checker_end t s D (repeat false D) LF false th None (outbits p u P)).
  - cbn [negb]. fold p P. rewrite FE, E. cbn [bind fst]. now rewrite R.
  - rewrite tile_period by apply Bu. fold p. destruct (Nat.le_gt_cases P D) as [H|H].
    + (* a full period of agreement: same seed *)
      assert (Q : u = s).
      { destruct (list_eq_dec Z.eq_dec u s) as [|Q]; auto. exfalso.
        assert (X1 := corr_phases t u s Bu (conj L B) Q). cbv zeta in X1. fold p P in X1. replace m with P in E2 by lia. rewrite E2 in X1.
        rewrite (sumZ_map_ext _ (fun _ => 1)) in X1.
        - rewrite sumZ_map_const, seq_length in X1. lia.
        - intros i _. destruct (bits_nth (outbits p s P) i (outbits_bits _ _ _)) as [-> | ->]; reflexivity. }
      now rewrite Q.
    + replace m with D in E2 by lia. exact E2.
Qed.
(** With init_lock the reference is the stream from the all-ones seed. *)
Lemma checker_init t data th :
  exists ref sd err, prbs_generator (get_polynomial t) (repeat 1 (prbs_value t)) (Z.of_nat (length data)) = Ok (ref, sd) /\
    prbs_checker t data true th None = Ok (th <=? Z.of_nat (n_errors err), Z.of_nat (length data) - Z.of_nat (n_errors err), err) /\
    length err = length data /\ length ref = length data /\ forall i, (i < length data)%nat -> nth i err false = negb (nth i data 0 =? nth i ref 0).
Proof.
  destruct (ones_seed t) as (L1 & B1 & N1). rewrite gen_char by auto.
  destruct (not_equal_spec data (outbits (get_polynomial t) (repeat 1 (prbs_value t)) (length data))) as (e & E & Le & He); [now rewrite outbits_length|].
  do 2 eexists. exists e. split; [reflexivity|]. split; [|split; [auto|split; [apply outbits_length|auto]]].
  unfold prbs_checker. rewrite repeat_length, gen_ones. cbn [bind fst negb]. rewrite tile_period by auto. rewrite E. reflexivity.
Qed.

(** * Economy checker *)
Lemma gen_nonpositive p s L : (0 < length p)%nat -> L <= 0 -> exists sd, prbs_generator p s L = Ok ([], sd).
Proof.
  intros Hp HL. unfold prbs_generator. assert (HP : 2 ^ 1 <= 2 ^ Z.of_nat (length p)) by (apply Z.pow_le_mono_r; lia). change (2 ^ 1) with 2 in HP.
  set (N := 2 ^ Z.of_nat (length p) - 1) in *. assert (0 < N) by lia. clearbody N.
  destruct (Z.eqb_spec N 0); [lia|]. rewrite Z.min_l by lia. destruct (Z.ltb_spec 0 L); [lia|]. cbn [andb].
  replace (Z.to_nat L) with 0%nat by lia. cbn [lfsr_loop]. destruct (1 <? _) eqn:Q.
  - apply Z.ltb_lt in Q. exfalso. assert (0 <= - L / N) by (apply Z.div_pos; lia). lia.
  - unfold slice_to. rewrite firstn_nil. eexists. reflexivity.
Qed.
Definition econ_ref (t : prbs_type) (data : list Z) (ss : nat) : list Z :=
  firstn (prbs_value t) (skipn ss data) ++ outbits (get_polynomial t) (rev (firstn (prbs_value t) (skipn ss data))) (length data - ss - prbs_value t).
Lemma econ_ref_length t data ss : length (econ_ref t data ss) = length (skipn ss data).
Proof. unfold econ_ref. rewrite app_length, firstn_length, outbits_length, skipn_length. lia. Qed.
Lemma econ_try_ok t data th ss : bits data -> exists e, not_equal (skipn ss data) (econ_ref t data ss) = Ok e /\ length e = (length data - ss)%nat /\
  econ_try t data th ss = Ok (th <=? Z.of_nat (n_errors e), Z.of_nat (length data) - Z.of_nat (n_errors e), e).
Proof.
  intros B. destruct (not_equal_spec (skipn ss data) (econ_ref t data ss)) as (e & E & Le & _); [now rewrite econ_ref_length|].
  exists e. split; auto. split; [rewrite Le; apply skipn_length|]. unfold econ_try.
  assert (G : exists sd, prbs_generator (get_polynomial t) (rev (firstn (prbs_value t) (skipn ss data))) (Z.of_nat (length data) - Z.of_nat ss - Z.of_nat (prbs_value t)) =
     Ok (outbits (get_polynomial t) (rev (firstn (prbs_value t) (skipn ss data))) (length data - ss - prbs_value t), sd)).
  { destruct (Z.le_gt_cases (Z.of_nat (length data) - Z.of_nat ss - Z.of_nat (prbs_value t)) 0) as [H|H].
    - destruct (gen_nonpositive (get_polynomial t) (rev (firstn (prbs_value t) (skipn ss data))) _ ltac:(rewrite poly_length; assert (X := value_gt1 t); lia) H) as [sd ->].
      exists sd. replace (length data - ss - prbs_value t)%nat with 0%nat by lia. reflexivity.
    - replace (Z.of_nat (length data) - Z.of_nat ss - Z.of_nat (prbs_value t)) with (Z.of_nat (length data - ss - prbs_value t)) by lia.
      rewrite gen_char; [eexists; reflexivity| |].
      + rewrite rev_length, firstn_length, skipn_length. lia.
      + apply Forall_rev_iff, Forall_firstn, Forall_skipn, B. }
  destruct G as [sd ->]. cbn [bind fst]. fold (econ_ref t data ss). rewrite E. reflexivity.
Qed.
(** A clean window predicts the clean stream. *)
Lemma econ_ref_clean t s err ss D : length s = prbs_value t -> bits s -> length err = D ->
  firstn (prbs_value t) (skipn ss err) = repeat false (Nat.min (prbs_value t) (D - ss)) ->
  econ_ref t (flipped (outbits (get_polynomial t) s D) err) ss = skipn ss (outbits (get_polynomial t) s D).
Proof.
  intros L B Le W. set (p := get_polynomial t). set (n := prbs_value t) in *. unfold econ_ref. fold n p. rewrite flipped_length by (now rewrite outbits_length). rewrite outbits_length.
  assert (Hn := value_gt1 t). fold n in Hn.
  assert (E : firstn n (skipn ss (flipped (outbits p s D) err)) = firstn n (skipn ss (outbits p s D))).
  { apply (nth_ext_def 0).
    - rewrite !firstn_length, !skipn_length, flipped_length, outbits_length by (now rewrite outbits_length). lia.
    - intros i Hi. rewrite firstn_length, skipn_length, flipped_length, outbits_length in Hi by (now rewrite outbits_length).
      rewrite !nth_firstn, !nth_skipn by lia. rewrite flipped_nth by (rewrite outbits_length; lia).
      assert (F : nth (ss + i) err false = false).
      { assert (Q : nth i (firstn n (skipn ss err)) false = false) by (rewrite W; apply repeat_nth; lia). rewrite nth_firstn, nth_skipn in Q by lia. exact Q. }
      now rewrite F. }
  rewrite E. clear E. destruct (Nat.le_gt_cases D (ss + n)) as [H|H].
  - replace (D - ss - n)%nat with 0%nat by lia. cbn [outbits seq map]. rewrite app_nil_r. apply firstn_all2. rewrite skipn_length, outbits_length. lia.
  - assert (E1 : outbits p s D = outbits p s ss ++ outbits p (Nat.iter ss (lfsr_step p) s) n ++ outbits p (Nat.iter n (lfsr_step p) (Nat.iter ss (lfsr_step p) s)) (D - ss - n)).
    { rewrite <- !outbits_app. f_equal. lia. }
    rewrite E1. rewrite skipn_app, outbits_length, Nat.sub_diag. rewrite (skipn_all2 (outbits p s ss)) by (rewrite outbits_length; lia). cbn [app skipn].
    set (v := Nat.iter ss (lfsr_step p) s). assert (Lv : length v = n) by (unfold v; rewrite iter_length; lia).
    rewrite firstn_app, outbits_length, Nat.sub_diag. cbn [firstn]. rewrite app_nil_r, firstn_all2 by (rewrite outbits_length; lia). f_equal. f_equal.
    rewrite iter_register by lia. rewrite Lv, firstn_app, rev_length, outbits_length, Nat.sub_diag. cbn [firstn]. rewrite app_nil_r.
    rewrite firstn_all2; auto. rewrite rev_length, outbits_length. lia.
Qed.
Lemma skipn_flipped c e ss : skipn ss (flipped c e) = flipped (skipn ss c) (skipn ss e).
Proof.
  revert c e. induction ss as [|ss IH]; intros c e; auto. destruct c as [|x c], e as [|y e]; cbn [skipn flipped map2]; auto.
  unfold flipped. destruct (skipn ss c); reflexivity.
Qed.
Lemma econ_try_clean t s err ss D th : length s = prbs_value t -> bits s -> length err = D ->
  firstn (prbs_value t) (skipn ss err) = repeat false (Nat.min (prbs_value t) (D - ss)) ->
  econ_try t (flipped (outbits (get_polynomial t) s D) err) th ss =
  Ok (th <=? Z.of_nat (n_errors (skipn ss err)), Z.of_nat D - Z.of_nat (n_errors (skipn ss err)), skipn ss err).
Proof.
  intros L B Le W. assert (LD : length (flipped (outbits (get_polynomial t) s D) err) = D) by (rewrite flipped_length; now rewrite outbits_length).
  destruct (econ_try_ok t (flipped (outbits (get_polynomial t) s D) err) th ss) as (e & E & _ & R); [apply flipped_bits, outbits_bits|].
  rewrite R. rewrite econ_ref_clean in E by auto. rewrite skipn_flipped in E.
  rewrite not_equal_flipped in E; [|apply Forall_skipn, outbits_bits|rewrite !skipn_length, outbits_length; lia]. injection E as <-. now rewrite LD.
Qed.
Lemma econ_first t data th r : econ_try t data th 0 = Ok r -> fst (fst r) = false -> prbs_checker_econ t data th = Ok r.
Proof.
  intros E F. unfold prbs_checker_econ. destruct (prbs_value t - 1)%nat; cbn [econ_loop]; rewrite E; cbn [bind]; auto. now rewrite F.
Qed.
(** What the loop returns in general. *)
Lemma econ_loop_spec t data th : bits data -> forall k ss, exists j e, (ss <= j <= ss + k)%nat /\
  econ_loop t data th k ss = Ok (th <=? Z.of_nat (n_errors e), Z.of_nat (length data) - Z.of_nat (n_errors e), e) /\
  not_equal (skipn j data) (econ_ref t data j) = Ok e /\ length e = (length data - j)%nat /\
  ((j < ss + k)%nat -> Z.of_nat (n_errors e) < th) /\
  (forall i, (ss <= i < j)%nat -> exists e', not_equal (skipn i data) (econ_ref t data i) = Ok e' /\ th <= Z.of_nat (n_errors e')).
Proof.
  intros B. induction k as [|k IH]; intros ss; cbn [econ_loop]; destruct (econ_try_ok t data th ss B) as (e & E & Le & ->); cbn [bind fst].
  - exists ss, e. repeat split; auto; try lia.
  - destruct (Z.leb_spec th (Z.of_nat (n_errors e))) as [Q|Q]; cbn [negb].
    + destruct (IH (S ss)) as (j & e' & J & R & N & Le' & T & F). exists j, e'. split; [lia|]. split; [exact R|]. split; auto. split; auto. split; [intros; apply T; lia|].
      intros i Hi. destruct (Nat.eq_dec i ss) as [->|]; [exists e; auto|apply F; lia].
    + exists ss, e. split; [lia|]. split; [f_equal; f_equal; f_equal; symmetry; apply Z.leb_gt; lia|]. repeat split; auto; try lia.
Qed.
Lemma econ_prediction t data j e : not_equal (skipn j data) (econ_ref t data j) = Ok e -> prediction_errors t data j e.
Proof.
  intros E. destruct (not_equal_spec (skipn j data) (econ_ref t data j)) as (e' & E' & Le & F); [now rewrite econ_ref_length|].
  rewrite E in E'. injection E' as <-. rewrite skipn_length in Le. assert (Hn := value_gt1 t).
  assert (LW : length (firstn (prbs_value t) (skipn j data)) = Nat.min (prbs_value t) (length data - j)) by (rewrite firstn_length, skipn_length; lia).
  assert (FW : firstn (prbs_value t) (econ_ref t data j) = firstn (prbs_value t) (skipn j data)).
  { unfold econ_ref. destruct (Nat.le_gt_cases (prbs_value t) (length data - j)) as [H|H].
    - rewrite firstn_app, LW, firstn_all2 by lia. replace (prbs_value t - _)%nat with 0%nat by lia. cbn [firstn]. apply app_nil_r.
    - replace (length data - j - prbs_value t)%nat with 0%nat by lia. cbn [outbits seq map]. rewrite app_nil_r. apply firstn_all2. lia. }
  exists (econ_ref t data j). split; [now rewrite econ_ref_length, skipn_length|]. split; auto. split; [exact FW|]. rewrite FW. split.
  - destruct (Nat.le_gt_cases (length data - j) (prbs_value t)) as [H|H].
    + intros i Hi. exfalso. rewrite skipn_length, econ_ref_length, skipn_length in Hi. lia.
    + unfold econ_ref. rewrite skipn_app, LW, (skipn_all2 (firstn (prbs_value t) (skipn j data))) by (rewrite LW; lia). replace (prbs_value t - _)%nat with 0%nat by lia. cbn [skipn app].
      apply outbits_recurrence; rewrite rev_length, LW, ?poly_length; lia.
  - intros i Hi. rewrite F by (rewrite skipn_length; lia). now rewrite nth_skipn.
Qed.
Lemma recurrence_unique p s o1 o2 : length o1 = length o2 -> recurrence p s o1 -> recurrence p s o2 -> o1 = o2.
Proof.
  intros L R1 R2. apply (nth_ext_def 0); auto. intros i. induction i as [i IH] using (well_founded_induction lt_wf). intros Hi.
  rewrite R1, R2 by lia. f_equal. apply sumZ_map_ext. intros j _. f_equal. unfold history. destruct (Nat.ltb_spec j i); auto. apply IH; lia.
Qed.
Lemma prediction_unique t data j e1 e2 : prediction_errors t data j e1 -> prediction_errors t data j e2 -> e1 = e2.
Proof.
  intros (r1 & L1 & M1 & W1 & R1 & F1) (r2 & L2 & M2 & W2 & R2 & F2).
  assert (E : r1 = r2).
  { rewrite (firstn_split (prbs_value t) r1), (firstn_split (prbs_value t) r2). rewrite W1 in R1. rewrite W2 in R2. f_equal; [congruence|].
    eapply recurrence_unique; eauto. rewrite !skipn_length. lia. }
  subst r2. apply (nth_ext_def false); [lia|]. intros i Hi. rewrite F1, F2 by lia. reflexivity.
Qed.
