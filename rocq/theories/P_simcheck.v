(** Proofs about the pattern source and the bit error counter of the example link. *)
From Verif Require Import Py B_list M_aux M_prbs P_gf2 S_prbs P_prbs P_prbs_cert P_prbs_gen PyQ M_lock S_lock P_lock S_aux P_linear P_checker.
From Verif Require Import M_simcheck S_simcheck.
From Coq Require Import QArith.
Open Scope Z_scope.
Ltac Zify.zify_post_hook ::= Z.div_mod_to_equations.

Lemma ones_map t : map (fun _ : Z => 1) (get_polynomial t) = repeat 1 (prbs_value t).
Proof. rewrite <- (poly_length t). induction (get_polynomial t) as [|a l IH]; [reflexivity|]. cbn [map length repeat]. now rewrite IH. Qed.

(** *** PrbsGen *)
Lemma gen_run t : forall k g, pg_poly g = get_polynomial t -> length (pg_seed g) = prbs_value t -> bits (pg_seed g) ->
  exists g' l, prbs_gen_run k g = (g', Ok l) /\ length l = k /\ Forall (fun c => length c = pg_chunk g) l /\
    pg_poly g' = pg_poly g /\ pg_chunk g' = pg_chunk g /\
    prbs_generator (get_polynomial t) (pg_seed g) (Z.of_nat (k * pg_chunk g)) = Ok (concat l, pg_seed g').
Proof.
  induction k as [|k IH]; intros g Hp L B.
  - exists g, []. repeat split; auto. rewrite gen_char by auto. reflexivity.
  - cbn [prbs_gen_run]. unfold prbs_gen_next. rewrite Hp. rewrite gen_char by auto.
    set (g1 := mk_pg _ _ _).
    assert (BV : bv (prbs_value t) (pg_seed g1)) by (apply (iter_bv (prbs_value t) (get_polynomial t) [] (value_gt1 t)); split; auto).
    destruct (IH g1 eq_refl (proj1 BV) (proj2 BV)) as (g' & l & E & Ll & F & P1 & P2 & G). rewrite E.
    exists g', (outbits (get_polynomial t) (pg_seed g) (pg_chunk g) :: l). split; [reflexivity|]. split; [cbn; lia|].
    split; [constructor; [apply outbits_length|exact F]|]. split; [now rewrite P1|]. split; [exact P2|].
    rewrite gen_char in G by (apply BV). rewrite gen_char by auto. injection G as G1 G2. cbn [pg_chunk g1] in G1, G2. cbn [concat].
    change (S k * pg_chunk g)%nat with (pg_chunk g + k * pg_chunk g)%nat. rewrite outbits_app. f_equal. f_equal.
    + f_equal. exact G1.
    + rewrite <- G2. cbn [pg_seed g1]. rewrite (Nat.add_comm (pg_chunk g)), iter_add. reflexivity.
Qed.

(** *** Checker *)
Lemma firstn_snoc {A} (d : A) k l : (k < length l)%nat -> firstn (S k) l = firstn k l ++ [nth k l d].
Proof.
  revert k. induction l as [|x l IH]; intros [|k] H; cbn [length] in H; try lia; [reflexivity|]. cbn [firstn nth app]. f_equal. apply IH. lia.
Qed.
Lemma differences_hdist u v n : (n <= length u)%nat -> (n <= length v)%nat -> differences u v n = hdist (firstn n u) (firstn n v).
Proof.
  intros H1 H2. unfold differences, hdist. rewrite firstn_length. replace (Nat.min n (length u)) with n by lia.
  f_equal. apply filter_ext_in. intros i Hi. apply in_seq in Hi. rewrite !nth_firstn by lia. reflexivity.
Qed.
Lemma n_errors_differences e u v : length e = length u -> (forall i, (i < length u)%nat -> nth i e false = negb (nth i u 0 =? nth i v 0)) ->
  n_errors e = differences u v (length u).
Proof.
  intros L H. unfold n_errors, differences. rewrite <- L.
  assert (G : forall k, (k <= length e)%nat -> count_occ Bool.bool_dec (firstn k e) true = length (filter (fun i => negb (nth i u 0 =? nth i v 0)) (seq 0 k))).
  { induction k as [|k IH]; intros Hk; [reflexivity|]. rewrite seq_S, filter_app, app_length. cbn [Nat.add filter].
    rewrite <- (H k) by lia. rewrite (firstn_snoc false k e) by lia. rewrite count_occ_app, IH by lia. f_equal.
    cbn [count_occ]. destruct (nth k e false); destruct (Bool.bool_dec _ true); try congruence; reflexivity. }
  rewrite <- (firstn_all e) at 1. now apply G.
Qed.

Lemma live_iter t s k : live_seed t s -> live_seed t (Nat.iter k (lfsr_step (get_polynomial t)) s).
Proof.
  intros (L & B & N). assert (BV : bv (prbs_value t) (Nat.iter k (lfsr_step (get_polynomial t)) s)) by (apply (iter_bv (prbs_value t) (get_polynomial t) [] (value_gt1 t)); split; auto).
  split; [apply BV|]. split; [apply BV|]. apply (iter_nonzero (prbs_value t) (get_polynomial t) _ (value_gt1 t) (prbs_cert t)); auto. now split.
Qed.
Lemma live_reach t s u : live_seed t s -> live_seed t u -> exists k, (k < 2 ^ prbs_value t - 1)%nat /\ Nat.iter k (lfsr_step (get_polynomial t)) s = u.
Proof.
  intros (L & B & N) (L' & B' & N'). destruct (visits_unique t s u L B N L' B' N') as [k [[Hk [out E]] _]].
  exists k. split; auto. rewrite gen_char in E by auto. congruence.
Qed.
Lemma from_outbits t s ref n : live_seed t s -> prbs_from t s ref n -> ref = outbits (get_polynomial t) s n.
Proof. intros (L & B & _) (sd & E). rewrite gen_char in E by auto. congruence. Qed.
Lemma outbits_from t s n : live_seed t s -> prbs_from t s (outbits (get_polynomial t) s n) n.
Proof. intros (L & B & _). eexists. now apply gen_char. Qed.
Lemma firstn_outbits p s m n : (m <= n)%nat -> firstn m (outbits p s n) = outbits p s m.
Proof.
  intros H. replace n with (m + (n - m))%nat by lia. rewrite outbits_app, firstn_app, outbits_length, Nat.sub_diag, app_nil_r.
  rewrite firstn_all2; auto. rewrite outbits_length. lia.
Qed.
Lemma differences_sym u v n : differences u v n = differences v u n.
Proof. unfold differences. f_equal. apply filter_ext. intros i. now rewrite Z.eqb_sym. Qed.
Lemma differences_ext u u' v v' n : (forall i, (i < n)%nat -> nth i u 0 = nth i u' 0) -> (forall i, (i < n)%nat -> nth i v 0 = nth i v' 0) ->
  differences u v n = differences u' v' n.
Proof. intros H H'. unfold differences. f_equal. apply filter_ext_in. intros i Hi. apply in_seq in Hi. rewrite H, H' by lia. reflexivity. Qed.
Lemma differences_S u v n : differences u v (S n) = (differences u v n + if (nth n u 0 =? nth n v 0)%Z then 0 else 1)%nat.
Proof. unfold differences. rewrite seq_S, filter_app, app_length. cbn [Nat.add filter]. destruct (_ =? _); reflexivity. Qed.
Lemma differences_zero u v n : differences u v n = 0%nat <-> forall i, (i < n)%nat -> nth i u 0 = nth i v 0.
Proof.
  induction n as [|n IH]; [split; [intros; lia|reflexivity]|]. rewrite differences_S. destruct (Z.eqb_spec (nth n u 0) (nth n v 0)) as [E|E].
  - rewrite Nat.add_0_r, IH. split; intros H i Hi; [|apply H; lia]. destruct (Nat.eq_dec i n) as [->|]; auto. apply H. lia.
  - split; [lia|]. intros H. exfalso. apply E, H. lia.
Qed.
Lemma differences_tri u v w n : (differences u w n <= differences u v n + differences v w n)%nat.
Proof.
  induction n as [|n IH]; [cbn; lia|]. rewrite !differences_S. destruct (Z.eqb_spec (nth n u 0) (nth n w 0)), (Z.eqb_spec (nth n u 0) (nth n v 0)), (Z.eqb_spec (nth n v 0) (nth n w 0)); try lia; congruence.
Qed.
Lemma differences_le u v n : (differences u v n <= n)%nat.
Proof. induction n as [|n IH]; [auto|]. rewrite differences_S. destruct (_ =? _); lia. Qed.
(** Two different phases differ in 2^(n-1) places of a period. *)
Lemma phase_distance t u v : live_seed t u -> live_seed t v -> u <> v ->
  let P := (2 ^ prbs_value t - 1)%nat in
  2 * Z.of_nat (differences (outbits (get_polynomial t) u P) (outbits (get_polynomial t) v P) P) = 2 ^ Z.of_nat (prbs_value t).
Proof.
  intros (L & B & _) (L' & B' & _) N P. assert (HP := maxlen_Z _ (value_gt1 t)). fold P in HP.
  assert (X := corr_phases t u v (conj L B) (conj L' B') N). cbv zeta in X. fold P in X.
  set (a := outbits (get_polynomial t) u P) in *. set (b := outbits (get_polynomial t) v P) in *.
  assert (G : forall n, sumZ (map (fun i => nrz (nth i a 0) * nrz (nth i b 0)) (seq 0 n)) = Z.of_nat n - 2 * Z.of_nat (differences a b n)).
  { induction n as [|n IH]; [reflexivity|]. rewrite seq_S, map_app, sumZ_app, IH, differences_S. cbn [map Nat.add].
    change (sumZ [?x]) with (x + 0). unfold nrz.
    destruct (bits_nth a n (outbits_bits _ _ _)) as [-> | ->], (bits_nth b n (outbits_bits _ _ _)) as [-> | ->]; cbn [Z.eqb Pos.eqb]; lia. }
  rewrite G in X. lia.
Qed.

(** What one call does, in general. *)
Lemma check_general t ck data : counts_for t ck -> bits data -> data <> [] -> let D := length data in let m := Nat.min (2 ^ prbs_value t - 1) D in
  exists u ref, live_seed t u /\ prbs_from t u ref D /\
    (forall u' ref', live_seed t u' -> prbs_from t u' ref' D -> (differences data ref m <= differences data ref' m)%nat) /\
    check_ber ck data = (mk_ck t (ck_vec ck) (ck_seqs ck ++ [data]) (ck_errors ck + Z.of_nat (differences data ref D)) (ck_symbols ck + Z.of_nat D),
      Ok (Z.of_nat (differences data ref D) # Pos.of_nat D)%Q).
Proof.
  intros (Ht & s & Hs & Fs) Bd Nd D m. assert (HP0 := maxlen_pos _ (value_gt1 t)). set (P := (2 ^ prbs_value t - 1)%nat) in *. set (p := get_polynomial t).
  assert (Ev := from_outbits t s _ _ Hs Fs). fold p in Ev.
  assert (HD : (0 < D)%nat) by (unfold D; destruct data; [congruence|cbn [length]; lia]).
  assert (NE : outbits p s P <> []) by (intros Q; apply (f_equal (@length Z)) in Q; rewrite outbits_length in Q; cbn [length] in Q; lia).
  destruct (lock_binary_spec (outbits p s P) data NE Nd) as (s1 & xc & E & _ & _ & M & _).
  rewrite outbits_length in M. fold D in M. change (Nat.min P D) with m in M.
  set (u := Nat.iter s1 (lfsr_step p) s). assert (Lu : live_seed t u) by (apply live_iter; auto).
  assert (R := fun k => rotation_seed t s k (proj1 Hs) (proj1 (proj2 Hs))). cbv zeta in R. fold P p in R.
  exists u, (outbits p u D). split; [exact Lu|]. split; [now apply outbits_from|]. split.
  - intros u' ref' Lu' Fr. apply from_outbits in Fr; auto. fold p in Fr. subst ref'. destruct (live_reach t s u' Hs Lu') as (k & _ & Ek). fold p in Ek.
    specialize (M k). rewrite !corr_bits_hdist in M by (rewrite ?outbits_length; auto using outbits_bits; unfold m, D; lia).
    rewrite !R, Ek in M. fold u in M. rewrite <- !differences_hdist in M by (rewrite ?outbits_length; unfold m, D; lia).
    rewrite (differences_sym (outbits p u' P)), (differences_sym (outbits p u P)) in M.
    assert (X : forall w, differences data (outbits p w D) m = differences data (outbits p w P) m).
    { intros w. apply differences_ext; auto. intros i Hi. rewrite !outbits_nth by (unfold m in Hi; lia). reflexivity. }
    rewrite !X. lia.
  - unfold check_ber. rewrite Ht. unfold prbs_checker. cbn [bind negb]. rewrite Ev. rewrite E. cbn [bind fst]. rewrite R. fold u.
    rewrite repeat_length. fold D. unfold P, p. rewrite (tile_period t u D) by apply Lu. fold p.
    destruct (not_equal_spec data (outbits p u D)) as (e & Ee & Le & He); [now rewrite outbits_length|]. rewrite Ee. cbn [bind].
    rewrite count_true_errors, (n_errors_differences e data (outbits p u D) Le He). rewrite Le. fold D. f_equal.
    destruct D eqn:ED; [lia|]. rewrite <- ED. reflexivity.
Qed.
Lemma counts_next t ck data ck' r : counts_for t ck -> check_ber ck data = (ck', r) -> counts_for t ck'.
Proof.
  intros (Ht & s & Hs & Fs) E. unfold check_ber in E. destruct (prbs_checker _ _ _ _ _) as [[[a b] c]|x]; injection E as <- _; split; auto; exists s; auto.
Qed.
Lemma check_empty ck : check_ber ck [] = (ck, Raise ValueError).
Proof.
  unfold check_ber, prbs_checker. cbn [bind negb].
  assert (E : lock_pattern_to_signal_binary (ck_vec ck) [] = Raise ValueError).
  { unfold lock_pattern_to_signal_binary. rewrite firstn_nil. cbn [map]. unfold correlate_valid. cbn [length Nat.eqb]. rewrite orb_true_r. reflexivity. }
  rewrite E. reflexivity.
Qed.
Lemma init_counts t chunk seed : match seed with Some s => live_seed t s | None => True end ->
  exists ck, checker_init (prbs_data_init t chunk seed) = Ok ck /\ counts_for t ck /\ ck_seqs ck = [] /\ ck_errors ck = 0 /\ ck_symbols ck = 0.
Proof.
  intros H. set (s := pd_seed (prbs_data_init t chunk seed)).
  assert (Hs : live_seed t s) by (unfold s; destruct seed; [exact H|]; cbn [prbs_data_init pd_seed]; rewrite ones_map; apply ones_seed).
  unfold checker_init. fold s. change (pd_poly _) with (get_polynomial t). change (pd_type _) with t. rewrite <- (maxlen_Z _ (value_gt1 t)).
  rewrite gen_char by apply Hs. cbn [bind fst]. eexists. split; [reflexivity|]. split; [|repeat split; reflexivity].
  split; [reflexivity|]. exists s. split; auto. now apply outbits_from.
Qed.

(** Error-free chunks. *)
Lemma check_clean t ck u data : counts_for t ck -> live_seed t u -> prbs_from t u data (length data) -> data <> [] ->
  check_ber ck data = (mk_ck t (ck_vec ck) (ck_seqs ck ++ [data]) (ck_errors ck) (ck_symbols ck + Z.of_nat (length data)), Ok (0 # Pos.of_nat (length data))%Q).
Proof.
  intros C Lu F Nd. assert (Ed := from_outbits _ _ _ _ Lu F). assert (Bd : bits data) by (rewrite Ed; apply outbits_bits).
  destruct (check_general t ck data C Bd Nd) as (v & ref & Lv & Fv & Min & E). specialize (Min u data Lu F).
  assert (Er := from_outbits _ _ _ _ Lv Fv).
  assert (Z0 : forall n, differences data data n = 0%nat) by (intros n; now apply differences_zero).
  rewrite Z0 in Min. assert (Mz : differences data ref (Nat.min (2 ^ prbs_value t - 1) (length data)) = 0%nat) by lia.
  assert (All : differences data ref (length data) = 0%nat).
  { destruct (Nat.le_gt_cases (length data) (2 ^ prbs_value t - 1)) as [H|H]; [now rewrite Nat.min_r in Mz|].
    rewrite Nat.min_l in Mz by lia. destruct (list_eq_dec Z.eq_dec u v) as [Q|Q].
    - rewrite Er, <- Q, <- Ed. apply Z0.
    - exfalso. assert (X := phase_distance t u v Lu Lv Q). cbv zeta in X.
      rewrite (differences_ext _ data _ ref) in X.
      + rewrite Mz in X. assert (0 < 2 ^ Z.of_nat (prbs_value t)) by (apply Z.pow_pos_nonneg; lia). lia.
      + intros i Hi. rewrite Ed. rewrite !outbits_nth by lia. reflexivity.
      + intros i Hi. rewrite Er. rewrite !outbits_nth by lia. reflexivity. }
  rewrite E, All. cbn [Z.of_nat]. now rewrite Z.add_0_r.
Qed.
(** At least one period with few errors in it. *)
Lemma check_exact t ck u clean data : counts_for t ck -> live_seed t u -> prbs_from t u clean (length data) -> bits data ->
  (2 ^ prbs_value t - 1 <= length data)%nat -> 4 * Z.of_nat (differences data clean (2 ^ prbs_value t - 1)) < 2 ^ Z.of_nat (prbs_value t) ->
  check_ber ck data = (mk_ck t (ck_vec ck) (ck_seqs ck ++ [data]) (ck_errors ck + Z.of_nat (differences data clean (length data))) (ck_symbols ck + Z.of_nat (length data)),
    Ok (Z.of_nat (differences data clean (length data)) # Pos.of_nat (length data))%Q).
Proof.
  intros C Lu F Bd HD HE. assert (HP0 := maxlen_pos _ (value_gt1 t)).
  assert (Nd : data <> []) by (intros ->; cbn [length] in HD; lia).
  destruct (check_general t ck data C Bd Nd) as (v & ref & Lv & Fv & Min & E). specialize (Min u clean Lu F).
  assert (Er := from_outbits _ _ _ _ Lv Fv). assert (Ec := from_outbits _ _ _ _ Lu F).
  rewrite Nat.min_l in Min by lia. destruct (list_eq_dec Z.eq_dec u v) as [Q|Q]; [|exfalso].
  - rewrite E. rewrite Er, Ec, Q. reflexivity.
  - assert (X := phase_distance t u v Lu Lv Q). cbv zeta in X. rewrite (differences_ext _ clean _ ref) in X.
    + assert (T := differences_tri clean data ref (2 ^ prbs_value t - 1)). rewrite (differences_sym clean data) in T. lia.
    + intros i Hi. rewrite Ec. rewrite !outbits_nth by lia. reflexivity.
    + intros i Hi. rewrite Er. rewrite !outbits_nth by lia. reflexivity.
Qed.
(** At most one period: never more than the true number. *)
Lemma check_under t ck u clean data : counts_for t ck -> live_seed t u -> prbs_from t u clean (length data) -> bits data -> data <> [] ->
  (length data <= 2 ^ prbs_value t - 1)%nat ->
  exists e, 0 <= e <= Z.of_nat (differences data clean (length data)) /\
  check_ber ck data = (mk_ck t (ck_vec ck) (ck_seqs ck ++ [data]) (ck_errors ck + e) (ck_symbols ck + Z.of_nat (length data)), Ok (e # Pos.of_nat (length data))%Q).
Proof.
  intros C Lu F Bd Nd HD. destruct (check_general t ck data C Bd Nd) as (v & ref & Lv & Fv & Min & E). specialize (Min u clean Lu F).
  rewrite Nat.min_r in Min by lia. eexists. split; [|exact E]. lia.
Qed.
(** Every short stream of bits is a piece of the PRBS. *)
Lemma short_piece t data : bits data -> (length data <= prbs_value t)%nat -> data <> repeat 0 (prbs_value t) ->
  exists u, live_seed t u /\ prbs_from t u data (length data).
Proof.
  intros B L N. set (n := prbs_value t) in *. set (D := length data).
  set (w := rev data ++ repeat 1 (n - D)).
  assert (Lw : length w = n) by (unfold w; rewrite app_length, rev_length, repeat_length; lia).
  assert (Hw : live_seed t w).
  { split; [exact Lw|]. split.
    - apply bits_app. split; [apply Forall_rev; exact B|]. apply Forall_forall. intros x Hx. apply repeat_spec in Hx. subst. now right.
    - fold n. intros Q. unfold w in Q. destruct (Nat.eq_dec D n) as [H|H].
      + rewrite H, Nat.sub_diag, app_nil_r in Q. apply (f_equal (@rev Z)) in Q. rewrite rev_involutive in Q. apply N. rewrite Q. clear.
        induction n as [|k IH]; [reflexivity|]. cbn [repeat rev]. rewrite IH. symmetry. apply repeat_cons.
      + assert (X : nth (n - 1) (rev data ++ repeat 1 (n - D)) 0 = 0) by (rewrite Q; apply nth_repeat).
        rewrite app_nth2 in X by (rewrite rev_length; fold D; lia). rewrite repeat_nth in X by (rewrite rev_length; fold D; lia). discriminate X. }
  assert (H1 : live_seed t (repeat 1 n)) by apply ones_seed.
  destruct (live_reach t _ _ H1 Hw) as (k & Hk & Ek). fold n in Hk. set (p := get_polynomial t) in *.
  set (P := (2 ^ n - 1)%nat) in *.
  assert (HnP : (n <= P)%nat) by (assert (G := Nat.pow_gt_lin_r 2 n ltac:(lia)); unfold P; lia).
  set (u := Nat.iter (k + P - D) (lfsr_step p) (repeat 1 n)). assert (Lu : live_seed t u) by (apply live_iter; auto).
  exists u. split; [exact Lu|]. fold D.
  assert (E : Nat.iter D (lfsr_step p) u = w).
  { unfold u. rewrite <- iter_add. replace (D + (k + P - D))%nat with (k + P)%nat by lia. rewrite iter_add. unfold P, p, n. rewrite (prbs_full_period t) by apply H1. exact Ek. }
  assert (Hv := value_gt1 t). rewrite iter_register in E by (rewrite (proj1 Lu); lia). rewrite (proj1 Lu) in E. fold n in E.
  assert (E2 : rev (outbits p u D) = rev data).
  { apply (f_equal (firstn D)) in E. rewrite firstn_firstn in E. replace (Nat.min D n) with D in E by lia.
    rewrite firstn_app, rev_length, outbits_length, Nat.sub_diag, app_nil_r in E. unfold w in E. rewrite firstn_app, rev_length in E. fold D in E. rewrite Nat.sub_diag, app_nil_r in E.
    rewrite !firstn_all2 in E by (rewrite rev_length, ?outbits_length; auto). exact E. }
  apply (f_equal (@rev Z)) in E2. rewrite !rev_involutive in E2. rewrite <- E2. unfold p, D. apply outbits_from. exact Lu.
Qed.

(** Histories *)
Lemma check_step t ck data : counts_for t ck -> bits data -> exists ck' r, check_ber ck data = (ck', r) /\ counts_for t ck' /\
  ((data = [] /\ ck' = ck /\ r = Raise ValueError) \/
   exists e, data <> [] /\ 0 <= e <= Z.of_nat (length data) /\ r = Ok (e # Pos.of_nat (length data))%Q /\
     ck_errors ck' = ck_errors ck + e /\ ck_symbols ck' = ck_symbols ck + Z.of_nat (length data) /\ ck_seqs ck' = ck_seqs ck ++ [data] /\ ck_vec ck' = ck_vec ck).
Proof.
  intros C B. destruct data as [|b data].
  - exists ck, (Raise ValueError). split; [apply check_empty|]. split; [exact C|]. left. auto.
  - destruct (check_general t ck (b :: data) C B ltac:(discriminate)) as (u & ref & _ & _ & _ & E).
    eexists _, _. split; [exact E|]. split; [exact (counts_next _ _ _ _ _ C E)|]. right. eexists. split; [discriminate|].
    assert (X := differences_le (b :: data) ref (length (b :: data))).
    split; [|split; [reflexivity|repeat split; reflexivity]]. lia.
Qed.

Lemma check_history t : forall chunks ck, counts_for t ck -> Forall bits chunks ->
  let (ck', rs) := check_all ck chunks in
  counts_for t ck' /\ ck_vec ck' = ck_vec ck /\ length rs = length chunks /\
  ck_symbols ck' - ck_symbols ck = total_bits chunks /\
  0 <= ck_errors ck' - ck_errors ck <= total_bits chunks /\
  (inject_Z (ck_errors ck' - ck_errors ck) == weighted_rates rs chunks)%Q /\
  ck_seqs ck' = ck_seqs ck ++ filter (fun c => negb (length c =? 0)%nat) chunks /\
  (forall i, (i < length chunks)%nat ->
     (nth i chunks [] = [] -> nth i rs (Raise KeyError) = Raise ValueError) /\
     (nth i chunks [] <> [] -> exists q, nth i rs (Raise KeyError) = Ok q /\ (0 <= q <= 1)%Q)).
Proof.
  induction chunks as [|c chunks IH]; intros ck C F.
  - cbn [check_all total_bits weighted_rates filter length]. rewrite app_nil_r, !Z.sub_diag. repeat split; auto; try apply C; try (intros; lia); try lia.
  - inversion F as [|? ? Bc F']; subst. destruct (check_step t ck c C Bc) as (ck1 & r & E & C1 & H).
    cbn [check_all]. rewrite E. specialize (IH ck1 C1 F'). destruct (check_all ck1 chunks) as (ck2 & rs).
    destruct IH as (I1 & I2 & I3 & I4 & I5 & I6 & I7 & I8).
    split; [exact I1|]. cbn [total_bits weighted_rates filter length].
    destruct H as [(-> & -> & ->) | (e & Nc & He & -> & H1 & H2 & H3 & H4)].
    + cbn [length Nat.eqb negb]. repeat split; auto; try lia.
      * rewrite I6. ring.
      * intros Hn. destruct i as [|i]; [reflexivity|]. apply I8; auto. lia.
      * intros Hn. destruct i as [|i]; [cbn [nth] in Hn; congruence|]. apply I8; auto. lia.
    + assert (Hl : (0 < length c)%nat) by (destruct c; [congruence|cbn [length]; lia]).
      destruct (Nat.eqb_spec (length c) 0) as [|_]; [lia|]. cbn [negb].
      split; [congruence|]. split; [lia|]. split; [lia|]. split; [lia|]. split.
      { rewrite <- I6. replace (ck_errors ck2 - ck_errors ck) with (e + (ck_errors ck2 - ck_errors ck1)) by lia. rewrite inject_Z_plus.
        apply Qplus_comp; [|reflexivity]. unfold Qeq, Qmult, inject_Z. cbn [Qnum Qden].
        rewrite Pos2Z.inj_mul. rewrite <- (positive_nat_Z (Pos.of_nat (length c))). rewrite Nat2Pos.id by lia. ring. }
      split; [rewrite I7, H3, <- app_assoc; reflexivity|].
      intros [|i] Hi; cbn [nth].
      * split; [congruence|]. intros _. eexists. split; [reflexivity|]. unfold Qle. cbn [Qnum Qden].
        rewrite <- (positive_nat_Z (Pos.of_nat (length c))). rewrite Nat2Pos.id by lia. lia.
      * apply I8. cbn [length] in Hi. lia.
Qed.
