(** Proofs: the generator and the iterator realise the recurrence; period, balance, correlation. *)
From Verif Require Import Py B_list M_aux M_prbs P_gf2 S_prbs P_prbs P_prbs_cert.
From Coq Require Import Permutation.
Ltac Zify.zify_post_hook ::= Z.div_mod_to_equations.

Definition outbits (p s : list Z) (L : nat) : list Z :=
  map (fun i => lfsr_bit p (Nat.iter i (lfsr_step p) s)) (seq 0 L).
Lemma outbits_length p s L : length (outbits p s L) = L.
Proof. unfold outbits. now rewrite map_length, seq_length. Qed.
Lemma outbits_nth p s L i : (i < L)%nat -> nth i (outbits p s L) 0 = lfsr_bit p (Nat.iter i (lfsr_step p) s).
Proof. intros. unfold outbits. now rewrite nth_map_seq. Qed.
Lemma iter_succ_r {A} (f : A -> A) n x : Nat.iter (S n) f x = Nat.iter n f (f x).
Proof. replace (S n) with (n + 1)%nat by lia. now rewrite iter_add. Qed.
Lemma outbits_S p s L : outbits p s (S L) = lfsr_bit p s :: outbits p (lfsr_step p s) L.
Proof.
  unfold outbits. cbn [seq map]. f_equal. rewrite <- seq_shift, map_map. apply map_ext. intros i.
  now rewrite iter_succ_r.
Qed.
Lemma outbits_app p s a b : outbits p s (a + b) = outbits p s a ++ outbits p (Nat.iter a (lfsr_step p) s) b.
Proof.
  revert s; induction a; intros s; auto.
  change (S a + b)%nat with (S (a + b)). rewrite outbits_S, IHa, outbits_S. cbn [app]. f_equal. f_equal.
  now rewrite iter_succ_r.
Qed.
Lemma lfsr_loop_char p s L : lfsr_loop p s L = (outbits p s L, Nat.iter L (lfsr_step p) s).
Proof.
  revert s; induction L; intros s; auto. cbn [lfsr_loop].
  change (lfsr_bit p s :: removelast s) with (lfsr_step p s). rewrite IHL.
  rewrite outbits_S, iter_succ_r. reflexivity.
Qed.
Lemma step_length p s : (0 < length s)%nat -> length (lfsr_step p s) = length s.
Proof. intros. unfold lfsr_step. simpl. rewrite removelast_length. lia. Qed.
Lemma iter_length p s L : (0 < length s)%nat -> length (Nat.iter L (lfsr_step p) s) = length s.
Proof. intros. induction L; auto. simpl. rewrite removelast_length, IHL. lia. Qed.
Lemma iter_register p s L : (0 < length s)%nat ->
  Nat.iter L (lfsr_step p) s = firstn (length s) (rev (outbits p s L) ++ s).
Proof.
  intros Hs. induction L.
  - simpl. now rewrite firstn_all.
  - replace (S L) with (L + 1)%nat at 2 by lia. rewrite outbits_app, rev_app_distr.
    change (rev (outbits p (Nat.iter L (lfsr_step p) s) 1)) with [lfsr_bit p (Nat.iter L (lfsr_step p) s)].
    cbn [Nat.iter nat_rect]. unfold lfsr_step at 1.
    change (nat_rect (fun _ : nat => list Z) s (fun _ : nat => lfsr_step p) L) with (Nat.iter L (lfsr_step p) s).
    destruct (length s) as [|n] eqn:El; [lia|]. cbn [app firstn]. f_equal.
    rewrite removelast_firstn_eq, iter_length, El by lia.
    rewrite IHL. rewrite firstn_firstn. f_equal. lia.
Qed.
Lemma register_history p s L j : (0 < length s)%nat -> (j < length s)%nat ->
  nth j (Nat.iter L (lfsr_step p) s) 0 = history s (outbits p s L) L j.
Proof.
  intros Hs Hj. rewrite iter_register by auto. rewrite nth_firstn by auto. unfold history.
  destruct (j <? L)%nat eqn:E.
  - apply Nat.ltb_lt in E. rewrite app_nth1 by (rewrite rev_length, outbits_length; auto).
    rewrite rev_nth by (rewrite outbits_length; auto). rewrite outbits_length. f_equal. lia.
  - apply Nat.ltb_ge in E. rewrite app_nth2 by (rewrite rev_length, outbits_length; auto).
    rewrite rev_length, outbits_length. reflexivity.
Qed.
Lemma outbits_recurrence p s L : length p = length s -> (0 < length s)%nat -> recurrence p s (outbits p s L).
Proof.
  intros Hp Hs i Hi. rewrite outbits_length in Hi. rewrite outbits_nth by auto. unfold lfsr_bit. f_equal.
  rewrite dotZ_sum_nth by (rewrite iter_length; auto).
  apply sumZ_map_ext. intros j Hj. apply in_seq in Hj. f_equal.
  rewrite register_history by lia. unfold history. destruct (j <? i)%nat eqn:E; auto.
  apply Nat.ltb_lt in E. rewrite !outbits_nth by lia. reflexivity.
Qed.

(** The generator, any polynomial, at most one period. *)
Lemma gen_char_short p s L : length p = length s -> (0 < length s)%nat ->
  Z.of_nat L <= 2 ^ Z.of_nat (length p) - 1 ->
  prbs_generator p s (Z.of_nat L) = Ok (outbits p s L, Nat.iter L (lfsr_step p) s).
Proof.
  intros Hp Hs HL. unfold prbs_generator.
  assert (HP : 2 ^ 1 <= 2 ^ Z.of_nat (length p)) by (apply Z.pow_le_mono_r; lia).
  replace (2 ^ Z.of_nat (length p) - 1 =? 0) with false by (symmetry; apply Z.eqb_neq; lia).
  rewrite Z.min_l by lia. rewrite Nat2Z.id.
  replace (length p =? length s)%nat with true by (symmetry; apply Nat.eqb_eq; lia). rewrite andb_false_r.
  rewrite lfsr_loop_char.
  replace (1 <? - (- Z.of_nat L / (2 ^ Z.of_nat (length p) - 1))) with false.
  2:{ symmetry. apply Z.ltb_ge. assert (-1 <= - Z.of_nat L / (2 ^ Z.of_nat (length p) - 1)); [|lia].
      apply Z.div_le_lower_bound; lia. }
  rewrite slice_to_nat, firstn_all2 by (rewrite outbits_length; lia).
  f_equal. f_equal. rewrite iter_length by auto.
  destruct (Z.of_nat (length s) <=? Z.of_nat L) eqn:E; auto. apply Z.leb_le in E.
  rewrite slice_from_neg by lia. rewrite iter_register by auto.
  rewrite outbits_length. rewrite firstn_app, rev_length, outbits_length.
  replace (length s - L)%nat with 0%nat by lia. rewrite app_nil_r.
  rewrite firstn_rev, outbits_length. f_equal. f_equal. lia.
Qed.

(** The generator, one of the six polynomials, any length. *)
Lemma poly_length t : length (get_polynomial t) = prbs_value t.
Proof. destruct t; reflexivity. Qed.
Lemma value_gt1 t : (1 < prbs_value t)%nat.
Proof. destruct t; simpl; lia. Qed.
Lemma prbs_full_period t s : length s = prbs_value t -> bits s ->
  Nat.iter (2 ^ prbs_value t - 1) (lfsr_step (get_polynomial t)) s = s.
Proof.
  intros H1 H2. apply (full_period _ _ _ (value_gt1 t) (prbs_cert t)). split; auto.
Qed.
Lemma gen_char t s L : length s = prbs_value t -> bits s ->
  prbs_generator (get_polynomial t) s (Z.of_nat L) =
  Ok (outbits (get_polynomial t) s L, Nat.iter L (lfsr_step (get_polynomial t)) s).
Proof.
  intros H1 H2. assert (Hv := value_gt1 t). assert (Hlen := poly_length t).
  remember (get_polynomial t) as p eqn:Ep.
  destruct (Z_le_gt_dec (Z.of_nat L) (2 ^ Z.of_nat (length p) - 1)) as [Hle|Hgt].
  { apply gen_char_short; lia. }
  assert (HN := maxlen_Z _ Hv). assert (HNp := maxlen_pos _ Hv). rewrite <- Hlen in HN, HNp.
  set (N := (2 ^ length p - 1)%nat) in *.
  unfold prbs_generator. rewrite <- HN in *.
  replace (Z.of_nat N =? 0) with false by (symmetry; apply Z.eqb_neq; lia).
  rewrite Z.min_r by lia. rewrite Nat2Z.id.
  replace (length p =? length s)%nat with true by (symmetry; apply Nat.eqb_eq; lia). rewrite andb_false_r.
  rewrite lfsr_loop_char.
  set (R := - (- Z.of_nat L / Z.of_nat N)).
  assert (HR : Z.of_nat L <= R * Z.of_nat N).
  { unfold R. assert (Z.of_nat N * (- Z.of_nat L / Z.of_nat N) <= - Z.of_nat L) by (apply Z.mul_div_le; lia). lia. }
  assert (HR1 : 1 < R) by nia.
  replace (1 <? R) with true by (symmetry; apply Z.ltb_lt; auto).
  assert (Hper : Nat.iter N (lfsr_step p) s = s).
  { subst p. unfold N. rewrite poly_length. now apply prbs_full_period. }
  assert (Hseq : slice_to (tile (Z.to_nat R) (outbits p s N)) (Z.of_nat L) = outbits p s L).
  { rewrite slice_to_nat.
    assert (HLT : (L <= Z.to_nat R * N)%nat) by nia.
    apply nth_ext_def with (d := 0).
    - rewrite firstn_length, tile_length, !outbits_length. lia.
    - intros i Hi. rewrite firstn_length, tile_length, outbits_length in Hi.
      rewrite nth_firstn by lia. rewrite tile_nth by (rewrite outbits_length; lia).
      rewrite outbits_length. assert (i mod N < N)%nat by (apply Nat.mod_upper_bound; lia).
      rewrite !outbits_nth by lia. f_equal. symmetry. now apply iter_mod. }
  rewrite Hseq. f_equal. f_equal. rewrite iter_length by lia.
  destruct (Z.of_nat (length s) <=? Z.of_nat L) eqn:E.
  - apply Z.leb_le in E. rewrite slice_from_neg by lia. rewrite iter_register by lia.
    rewrite outbits_length. rewrite firstn_app, rev_length, outbits_length.
    replace (length s - L)%nat with 0%nat by lia. rewrite app_nil_r.
    rewrite firstn_rev, outbits_length. f_equal. f_equal. lia.
  - apply Z.leb_gt in E. exfalso.
    assert (length p < 2 ^ length p)%nat by (apply Nat.pow_gt_lin_r; lia). lia.
Qed.

Lemma prbs_spec t s L : length s = prbs_value t -> bits s ->
  exists out sd, prbs_generator (get_polynomial t) s (Z.of_nat L) = Ok (out, sd) /\
    length out = L /\ tap_recurrence (standard_taps t) s out /\ register_after s out sd.
Proof.
  intros H1 H2. exists (outbits (get_polynomial t) s L), (Nat.iter L (lfsr_step (get_polynomial t)) s).
  assert (Hv := value_gt1 t).
  split; [now apply gen_char|]. split; [apply outbits_length|]. split.
  - intros i Hi. rewrite (outbits_recurrence (get_polynomial t) s L) by (rewrite ?poly_length; lia).
    f_equal. set (h := history s (outbits (get_polynomial t) s L) i). clearbody h.
    destruct t; cbn -[Z.mul Z.add]; lia.
  - split; [apply iter_length; lia|]. intros j Hj. rewrite outbits_length. apply register_history; lia.
Qed.

Lemma prbs_spec_short p s L : length p = length s -> (0 < length s)%nat -> Z.of_nat L <= 2 ^ Z.of_nat (length p) - 1 ->
  exists out sd, prbs_generator p s (Z.of_nat L) = Ok (out, sd) /\
    length out = L /\ recurrence p s out /\ register_after s out sd.
Proof.
  intros H1 H2 HL. exists (outbits p s L), (Nat.iter L (lfsr_step p) s).
  split; [now apply gen_char_short|]. split; [apply outbits_length|]. split.
  - now apply outbits_recurrence.
  - split; [now apply iter_length|]. intros j Hj. rewrite outbits_length. now apply register_history.
Qed.

Lemma period_exact t s k : length s = prbs_value t -> bits s -> s <> repeat 0 (prbs_value t) ->
  exists out sd, prbs_generator (get_polynomial t) s (Z.of_nat k) = Ok (out, sd) /\
    (sd = s <-> Nat.divide (2 ^ prbs_value t - 1) k).
Proof.
  intros H1 H2 H3. rewrite gen_char by auto. eexists; eexists; split; [reflexivity|].
  split.
  - intros E. destruct k as [|k]; [exists 0%nat; auto|].
    apply (least_period _ _ _ (value_gt1 t) (prbs_cert t) s); auto; try lia. split; auto.
  - intros [q ->]. apply iter_mul. now apply prbs_full_period.
Qed.
Lemma visits_unique t s target : length s = prbs_value t -> bits s -> s <> repeat 0 (prbs_value t) ->
  length target = prbs_value t -> bits target -> target <> repeat 0 (prbs_value t) ->
  exists! k, (k < 2 ^ prbs_value t - 1)%nat /\
    exists out, prbs_generator (get_polynomial t) s (Z.of_nat k) = Ok (out, target).
Proof.
  intros H1 H2 H3 H4 H5 H6.
  assert (Hs : bv (prbs_value t) s) by (split; auto).
  assert (V := visits_all _ _ _ (value_gt1 t) (prbs_cert t) s Hs H3).
  assert (Hin : In target (tl (all_bv (prbs_value t)))).
  { assert (In target (all_bv (prbs_value t))) by (apply all_bv_In; split; auto).
    rewrite all_bv_head in H. destruct H as [H|H]; auto. exfalso. apply H6. rewrite <- H. reflexivity. }
  apply (Permutation_in _ (Permutation_sym V)) in Hin. apply in_map_iff in Hin.
  destruct Hin as [k [Hk Hkl]]. apply in_seq in Hkl. exists k. split.
  - split; [lia|]. exists (outbits (get_polynomial t) s k). rewrite gen_char by auto. now rewrite Hk.
  - intros k' [Hk'1 [out Hk'2]]. rewrite gen_char in Hk'2 by auto. inversion Hk'2.
    apply (iter_inj _ _ _ (value_gt1 t) (prbs_cert t) s); auto; try lia. congruence.
Qed.
Lemma zero_seed t L : prbs_generator (get_polynomial t) (repeat 0 (prbs_value t)) (Z.of_nat L) =
  Ok (repeat 0 L, repeat 0 (prbs_value t)).
Proof.
  assert (Hb : bits (repeat 0 (prbs_value t))) by apply bv_zero.
  rewrite gen_char by (rewrite ?repeat_length; auto).
  assert (Hv := value_gt1 t).
  assert (Hi : forall k, Nat.iter k (lfsr_step (get_polynomial t)) (repeat 0 (prbs_value t)) = repeat 0 (prbs_value t)).
  { intros k. apply (lin_zero _ (fun v => Nat.iter k (lfsr_step (get_polynomial t)) v)). apply lin_iter, lfsr_step_lin; lia. }
  rewrite Hi. f_equal. f_equal. unfold outbits.
  rewrite (map_ext _ (fun _ => 0)).
  - clear. assert (H : forall s, map (fun _ : nat => 0) (seq s L) = repeat 0 L); [|apply H].
    induction L; intros s; simpl; f_equal; auto.
  - intros i. rewrite Hi. destruct t; reflexivity.
Qed.
Lemma resume t s a b : length s = prbs_value t -> bits s ->
  exists o1 s1 o2 s2, prbs_generator (get_polynomial t) s (Z.of_nat a) = Ok (o1, s1) /\
    prbs_generator (get_polynomial t) s1 (Z.of_nat b) = Ok (o2, s2) /\
    prbs_generator (get_polynomial t) s (Z.of_nat (a + b)) = Ok (o1 ++ o2, s2).
Proof.
  intros H1 H2. assert (Hv := value_gt1 t).
  assert (B : bv (prbs_value t) (Nat.iter a (lfsr_step (get_polynomial t)) s)).
  { apply iter_bv; auto. split; auto. }
  do 4 eexists. split; [now apply gen_char|]. split; [apply gen_char; apply B|].
  rewrite gen_char by auto. rewrite outbits_app. f_equal. f_equal.
  rewrite Nat.add_comm, iter_add. reflexivity.
Qed.

(** The iterator *)
Lemma it_run_char p s k pv : length p = length s -> (0 < length s)%nat ->
  it_run k (mk_it p s pv) = Ok (outbits p s k,
     mk_it p (Nat.iter k (lfsr_step p) s)
       (match k with O => pv | S k' => Some (Nat.iter k' (lfsr_step p) s) end)).
Proof.
  intros H1 H2. revert s pv H1 H2; induction k; intros s pv H1 H2; auto.
  cbn [it_run]. unfold it_next. cbn [it_poly it_seed].
  replace (length p =? length s)%nat with true by (symmetry; apply Nat.eqb_eq; lia). cbn [bind snd fst].
  change (dotZ p s mod 2 :: removelast s) with (lfsr_step p s).
  rewrite IHk by (rewrite step_length; lia). cbn [bind snd fst].
  rewrite outbits_S, iter_succ_r. f_equal. f_equal. f_equal.
  destruct k; auto. f_equal. now rewrite iter_succ_r.
Qed.
Lemma iterator_agrees t s k : length s = prbs_value t -> bits s ->
  exists out st sd,
    it_run k (it_init (get_polynomial t) s) = Ok (out, st) /\
    prbs_generator (get_polynomial t) s (Z.of_nat k) = Ok (out, sd) /\
    it_get_seed st = sd /\
    (k = 0%nat -> it_get_prev_seed st = None) /\
    (forall k', k = S k' -> exists out' sd', prbs_generator (get_polynomial t) s (Z.of_nat k') = Ok (out', sd') /\
         it_get_prev_seed st = Some sd').
Proof.
  intros H1 H2. assert (Hv := value_gt1 t). unfold it_init.
  rewrite it_run_char by (rewrite ?poly_length; lia). rewrite gen_char by auto.
  do 3 eexists. split; [reflexivity|]. split; [reflexivity|]. cbn. split; [reflexivity|]. split.
  - intros ->. reflexivity.
  - intros k' ->. rewrite gen_char by auto. do 2 eexists. split; reflexivity.
Qed.

(** Balance and correlation *)
Lemma sum_heads n : sumZ (map (hd 0) (all_bv (S n))) = Z.of_nat (2 ^ n).
Proof.
  cbn [all_bv]. rewrite map_app, !map_map, sumZ_app. cbn [hd].
  rewrite !sumZ_map_const, all_bv_length. lia.
Qed.
Lemma step_head p s : hd 0 (lfsr_step p s) = lfsr_bit p s.
Proof. reflexivity. Qed.
Lemma sum_period t s : length s = prbs_value t -> bits s -> s <> repeat 0 (prbs_value t) ->
  sumZ (outbits (get_polynomial t) s (2 ^ prbs_value t - 1)) = 2 ^ (Z.of_nat (prbs_value t) - 1).
Proof.
  intros H1 H2 H3. assert (Hv := value_gt1 t).
  assert (Hs : bv (prbs_value t) s) by (split; auto).
  assert (C := prbs_cert t).
  set (n := prbs_value t) in *. set (p := get_polynomial t) in *.
  assert (V := visits_all n p _ Hv C (lfsr_step p s)).
  assert (Hs' : bv n (lfsr_step p s)) by (apply (lfsr_step_lin n p); auto; lia).
  assert (Hs1 : lfsr_step p s <> zerov n).
  { apply (iter_nonzero n p _ Hv C s 1 Hs H3). }
  specialize (V Hs' Hs1).
  assert (Eo : outbits p s (2 ^ n - 1) = map (hd 0) (map (fun k => Nat.iter k (lfsr_step p) (lfsr_step p s)) (seq 0 (2 ^ n - 1)))).
  { unfold outbits. rewrite map_map. apply map_ext. intros i. rewrite <- iter_succ_r. reflexivity. }
  rewrite Eo. rewrite (sumZ_perm _ _ (Permutation_map (hd 0) V)).
  assert (Hz : sumZ (map (hd 0) (all_bv n)) = sumZ (map (hd 0) (tl (all_bv n)))).
  { rewrite all_bv_head at 1. cbn [map tl]. destruct n; [lia|]. simpl. reflexivity. }
  rewrite <- Hz. destruct n as [|n]; [lia|]. rewrite sum_heads.
  rewrite Nat2Z.inj_pow. f_equal. lia.
Qed.
Lemma bits_ones l : bits l -> Z.of_nat (ones_count l) = sumZ l.
Proof.
  unfold ones_count. induction 1 as [|x l Hx Hl IH]; auto. cbn [count_occ].
  change (sumZ (x :: l)) with (x + sumZ l).
  destruct (Z.eq_dec x 1) as [->|]; [lia|]. destruct Hx; subst; lia.
Qed.
Lemma outbits_bits p s L : bits (outbits p s L).
Proof. apply Forall_forall. intros x Hx. apply in_map_iff in Hx. destruct Hx as [i [<- _]]. apply isbit_mod. Qed.
Lemma balance t s : length s = prbs_value t -> bits s -> s <> repeat 0 (prbs_value t) ->
  exists out sd, prbs_generator (get_polynomial t) s (Z.of_nat (2 ^ prbs_value t - 1)) = Ok (out, sd) /\
    ones_count out = (2 ^ (prbs_value t - 1))%nat.
Proof.
  intros H1 H2 H3. rewrite gen_char by auto. do 2 eexists. split; [reflexivity|].
  apply Nat2Z.inj. rewrite bits_ones by apply outbits_bits. rewrite sum_period by auto.
  rewrite Nat2Z.inj_pow. f_equal. assert (Hv := value_gt1 t). lia.
Qed.
Lemma nrz_mul a b : isbit a -> isbit b -> nrz a * nrz b = 1 - 2 * xorZ a b.
Proof. intros [->| ->] [->| ->]; reflexivity. Qed.
Lemma outbits_xor p u v L : (0 < length u)%nat -> bv (length u) u -> bv (length u) v ->
  forall i, (i < L)%nat -> xorZ (nth i (outbits p u L) 0) (nth i (outbits p v L) 0) = nth i (outbits p (xorv u v) L) 0.
Proof.
  intros Hu Hbu Hbv i Hi. rewrite !outbits_nth by auto.
  assert (Hlin := lin_iter (length u) (lfsr_step p) i (lfsr_step_lin _ p Hu)). destruct Hlin as [Hl1 Hl2].
  rewrite Hl2 by auto. unfold lfsr_bit. rewrite dotZ_xorv.
  - unfold xorZ. rewrite <- Z.add_mod by lia. reflexivity.
  - destruct (Hl1 u Hbu), (Hl1 v Hbv). lia.
Qed.
(** Correlation of two phases of the same period: -1 unless the phases agree. *)
Lemma corr_phases t u v : let n := prbs_value t in let p := get_polynomial t in
  let N := (2 ^ n - 1)%nat in
  bv n u -> bv n v -> u <> v ->
  sumZ (map (fun i => nrz (nth i (outbits p u N) 0) * nrz (nth i (outbits p v N) 0)) (seq 0 N)) = -1.
Proof.
  intros n p N Hu Hv Huv. assert (Hn := value_gt1 t). fold n in Hn.
  assert (Hx : xorv u v <> repeat 0 n).
  { intros E. apply Huv. apply (xorv_eq_zero n); auto. }
  assert (Hxb : bv n (xorv u v)) by (apply xorv_bv; auto).
  assert (S := sum_period t (xorv u v) (proj1 Hxb) (proj2 Hxb) Hx). fold n p in S. fold N in S.
  rewrite (sumZ_map_ext _ (fun i => 1 + (-2) * nth i (outbits p (xorv u v) N) 0)).
  - rewrite sumZ_map_add, sumZ_map_const, sumZ_map_mul, seq_length.
    assert (E : map (fun i => nth i (outbits p (xorv u v) N) 0) (seq 0 N) = outbits p (xorv u v) N).
    { apply nth_ext_def with (d := 0).
      - now rewrite map_length, seq_length, outbits_length.
      - intros i Hi. rewrite map_length, seq_length in Hi. rewrite nth_map_seq by auto. reflexivity. }
    rewrite E, S. unfold N. rewrite maxlen_Z by auto.
    replace (Z.of_nat n) with (1 + (Z.of_nat n - 1)) at 1 by lia. rewrite Z.pow_add_r by lia. lia.
  - intros i Hi. apply in_seq in Hi.
    rewrite nrz_mul by (apply bits_nth, outbits_bits).
    destruct Hu as [Hu1 Hu2]. rewrite (outbits_xor p u v N); try lia; rewrite Hu1; auto; split; auto.
Qed.
Lemma autocorr_two_valued t s k : length s = prbs_value t -> bits s -> s <> repeat 0 (prbs_value t) ->
  (k < 2 ^ prbs_value t - 1)%nat ->
  exists out sd, prbs_generator (get_polynomial t) s (Z.of_nat (2 ^ prbs_value t - 1)) = Ok (out, sd) /\
    autocorr out k = if (k =? 0)%nat then 2 ^ Z.of_nat (prbs_value t) - 1 else -1.
Proof.
  intros H1 H2 H3 Hk. rewrite gen_char by auto. do 2 eexists. split; [reflexivity|].
  assert (Hs : bv (prbs_value t) s) by (split; auto).
  assert (Hn := value_gt1 t). assert (Hper := prbs_full_period t s H1 H2). assert (C := prbs_cert t).
  assert (HCP := corr_phases t s (Nat.iter k (lfsr_step (get_polynomial t)) s)). cbv zeta in HCP.
  set (n := prbs_value t) in *. set (p := get_polynomial t) in *. set (N := (2 ^ n - 1)%nat) in *.
  unfold autocorr. rewrite outbits_length.
  assert (Erot : forall i, (i < N)%nat -> nth ((i + k) mod N) (outbits p s N) 0 =
     nth i (outbits p (Nat.iter k (lfsr_step p) s) N) 0).
  { intros i Hi. assert ((i + k) mod N < N)%nat by (apply Nat.mod_upper_bound; lia).
    rewrite !outbits_nth by auto. rewrite <- iter_mod by auto. now rewrite iter_add. }
  destruct (k =? 0)%nat eqn:E.
  - apply Nat.eqb_eq in E. subst k.
    rewrite (sumZ_map_ext _ (fun _ => 1)).
    + rewrite sumZ_map_const, seq_length. unfold N. rewrite maxlen_Z by auto. lia.
    + intros i Hi. apply in_seq in Hi. rewrite Nat.add_0_r, Nat.mod_small by lia.
      destruct (bits_nth (outbits p s N) i (outbits_bits _ _ _)) as [-> | ->]; reflexivity.
  - apply Nat.eqb_neq in E.
    rewrite <- HCP; auto.
    + apply sumZ_map_ext. intros i Hi. apply in_seq in Hi. rewrite Erot by lia. reflexivity.
    + now apply iter_bv.
    + intros E2. assert (0%nat = k); [|lia].
      apply (iter_inj n p _ Hn C s); auto; fold N; lia.
Qed.
