(** The coded PRBS of the model is the reference pattern; independence of its windows for NRZ. *)
From Verif Require Import Py PyQ B_list B_qc M_aux M_prbs M_symbol M_coding M_lock M_estim S_prbs S_symbol S_lock S_estim S_chanest P_prbs P_prbs_gen P_checker P_symbol P_map P_coding P_lock P_linalg P_estim P_chanest.
Open Scope Z_scope.

Lemma tap_unique t s o1 o2 : length o1 = length o2 -> tap_recurrence (standard_taps t) s o1 -> tap_recurrence (standard_taps t) s o2 -> o1 = o2.
Proof.
  intros L R1 R2. apply (nth_ext_def 0); auto. intros i. induction i as [i IH] using (well_founded_induction lt_wf). intros Hi.
  rewrite R1, R2 by lia. f_equal. apply sumZ_map_ext. intros j _. unfold history. destruct (Nat.ltb_spec (j - 1) i); auto. apply IH; lia.
Qed.
Lemma reference_unique t c a b g i p q : reference_pattern t c a b g i p -> reference_pattern t c a b g i q -> p = q.
Proof.
  intros (bs & Lb & Rb & Lp & Hp) (bs' & Lb' & Rb' & Lq & Hq). assert (bs = bs') by (eapply tap_unique; eauto; lia). subst bs'.
  apply (nth_ext_def 0%Qc); [lia|]. intros n Hn. cbv zeta in *. change (at_ p n = at_ q n). now rewrite Hp, Hq by lia.
Qed.
Lemma outbits_tap t L : tap_recurrence (standard_taps t) (repeat 1 (prbs_value t)) (outbits (get_polynomial t) (repeat 1 (prbs_value t)) L).
Proof.
  destruct (ones_seed t) as (L1 & B1 & _). pose proof (value_gt1 t) as Hv.
  intros i Hi. rewrite (outbits_recurrence (get_polynomial t) _ L) by (rewrite ?poly_length, ?L1; lia).
  f_equal. set (h := history _ (outbits _ _ L) i). clearbody h. destruct t; cbn -[Z.mul Z.add]; lia.
Qed.
Lemma coded_reference t c a b g i : c <> PAM3 -> exists pc, prbs_coded t c a b g i = Ok pc /\ reference_pattern t c a b g i pc.
Proof.
  intros Hc. unfold prbs_coded. rewrite repeat_length, plen_Z. replace (2 * Z.of_nat (plen t)) with (Z.of_nat (2 * plen t)) by lia.
  destruct (ones_seed t) as (L1 & B1 & _). rewrite gen_char by auto. cbn [bind fst]. set (bs := outbits _ _ _). assert (Bb : bits bs) by apply outbits_bits. assert (Lb : length bs = (2 * plen t)%nat) by apply outbits_length.
  assert (Tb : tap_recurrence (standard_taps t) (repeat 1 (prbs_value t)) bs) by apply outbits_tap.
  set (k := bits_per c). destruct (bin2symbol_value k bs (mk_flags a false false b)) as (sy & E & Ls & Vs & Rs); [unfold k; destruct c; cbn; lia|].
  assert (Ek : 2 ^ Z.of_nat k = Z.of_nat (length (get_levels c))) by (destruct c; try reflexivity; congruence). rewrite Ek in E, Rs. rewrite E. cbn [bind]. specialize (Rs Bb). rewrite <- Ls in Vs.
  assert (X : (if g then coding_gray c (vec sy) else Ok (vec sy)) = Ok (vec (map (fun v => if g then gray_of v else v) sy)) /\ Forall (fun v => 0 <= v < Z.of_nat (length (get_levels c))) (map (fun v => if g then gray_of v else v) sy)).
  { destruct g; [|rewrite map_id; auto]. change (map (fun v => gray_of v) sy) with (map gray_of sy). destruct c; [| |congruence|].
    1,2: assert (G : map gray_of sy = sy) by (transitivity (map (fun v => v) sy); [|apply map_id]; apply map_ext_in; intros v Hv; rewrite Forall_forall in Rs; specialize (Rs v Hv); cbn in Rs; assert (D : v = 0 \/ v = 1) by lia; destruct D as [-> | ->]; reflexivity); rewrite G; split; [reflexivity|exact Rs].
    assert (G : map gray_of sy = map (fun z => nth (Z.to_nat z) [0; 1; 3; 2] 0) sy). { apply map_ext_in. intros v Hv. rewrite Forall_forall in Rs. specialize (Rs v Hv). cbn in Rs. assert (D : v = 0 \/ v = 1 \/ v = 2 \/ v = 3) by lia. destruct D as [-> | [-> | [-> | ->]]]; reflexivity. }
    rewrite G. split.
    - unfold coding_gray. cbn [get_levels length]; change (1 <? ceil_log2 4)%nat with true. cbv iota. cbn [vec data shape]. rewrite (np_take_map _ 0) by exact Rs. cbn [bind]. unfold vec. rewrite map_length. f_equal.
    - apply Forall_forall. intros v Hv. apply in_map_iff in Hv as (z & <- & Hz). rewrite Forall_forall in Rs. specialize (Rs z Hz). cbn in Rs. assert (D : z = 0 \/ z = 1 \/ z = 2 \/ z = 3) by lia. destruct D as [-> | [-> | [-> | ->]]]; vm_compute; split; congruence. }
  destruct X as (-> & Rq). cbn [bind]. set (q := map _ sy) in *. rewrite (mapping_ok _ 0) by (cbn [vec data]; eapply Forall_impl; [|exact Rq]; intros; cbv beta in *; lia). cbn [bind data vec]. eexists. split; [reflexivity|].
  exists bs. split; auto. split; auto. assert (Lq : length q = length sy) by (unfold q; apply map_length). rewrite !map_length, Lq. split; auto. intros j Hj v.
  unfold at_. rewrite (map_nth_lt ofZ _ _ 0) by (rewrite map_length; lia). f_equal. rewrite (map_nth_lt _ q _ 0) by lia. assert (Nq : nth j q 0 = if g then gray_of v else v) by (unfold q; rewrite (map_nth_lt _ sy _ 0) by lia; now rewrite Vs by lia). rewrite Nq.
  assert (Rv : 0 <= (if g then gray_of v else v) < Z.of_nat (length (get_levels c))). { rewrite Forall_forall in Rq. apply Rq. unfold q. apply in_map_iff. exists (nth j sy 0). split; [now rewrite Vs by lia|apply nth_In; lia]. }
  cbv beta zeta. set (u := if g then gray_of v else v) in *. clearbody u. rewrite Z.mod_small by lia.
  destruct c; [| |congruence|]; cbn in Rv; [assert (D : u = 0 \/ u = 1) by lia; destruct D as [-> | ->]; destruct i; reflexivity|assert (D : u = 0 \/ u = 1) by lia; destruct D as [-> | ->]; destruct i; reflexivity|].
  assert (D : u = 0 \/ u = 1 \/ u = 2 \/ u = 3) by lia. destruct D as [-> | [-> | [-> | ->]]]; destruct i; reflexivity.
Qed.
Open Scope Qc_scope.
(** NRZ: the pattern is +-1 with the two valued correlation of the PRBS. *)
Lemma nrz_entry t a b g i pc : reference_pattern t NRZ a b g i pc -> exists bs e, (e * e = 1)%Z /\ length bs = period t /\
  (forall j, (j < period t)%nat -> at_ pc j = ofZ (e * nrz (nth j bs 0%Z))) /\
  forall k, (k < period t)%nat -> autocorr bs k = (if (k =? 0)%nat then 2 ^ Z.of_nat (prbs_value t) - 1 else -1)%Z.
Proof.
  intros (bs & Lb & Rb & Lp & Hp). destruct (ones_seed t) as (L1 & B1 & N1). set (s0 := repeat 1%Z (prbs_value t)) in *. assert (E2 : bs = outbits (get_polynomial t) s0 (2 * period t)).
  { eapply tap_unique; [|exact Rb|apply outbits_tap]. now rewrite outbits_length. }
  exists (outbits (get_polynomial t) s0 (period t)). exists ((if i then 1 else -1) * (if b then -1 else 1))%Z. split; [destruct i, b; reflexivity|]. split; [apply outbits_length|]. split.
  - intros j Hj. cbn [bits_per] in Lp. rewrite Nat.div_1_r in Lp. rewrite Hp by lia. cbv zeta. f_equal.
    unfold symbol_value, symbol_bit. cbn [bits_per seq map fold_right bit_order_inv inv_msb inv_lsb pn_inv andb]. replace (if a then 1 - 1 - 0 else 0)%nat with 0%nat by (now destruct a). cbn [flip]. change (2 ^ Z.of_nat 0)%Z with 1%Z.
    replace (j * 1 + 0)%nat with j by lia. assert (Eb : nth j bs 0%Z = nth j (outbits (get_polynomial t) s0 (period t)) 0%Z) by (rewrite E2, !outbits_nth by lia; reflexivity). rewrite <- Eb.
    assert (Bj : nth j bs 0%Z = 0%Z \/ nth j bs 0%Z = 1%Z). { rewrite E2. assert (Bb : bits (outbits (get_polynomial t) s0 (2 * period t))) by apply outbits_bits. unfold bits in Bb. rewrite Forall_forall in Bb. apply Bb. apply nth_In. rewrite outbits_length. lia. }
    destruct Bj as [-> | ->]; destruct g, i, b; reflexivity.
  - intros k Hk. destruct (autocorr_two_valued t s0 k L1 B1 N1 Hk) as (out & sd & E & A). rewrite gen_char in E by auto. injection E as <- _. exact A.
Qed.
Lemma ofZ_sumZ (f : nat -> Z) n : ofZ (sumZ (map f (seq 0 n))) = sm n (fun i => ofZ (f i)).
Proof. unfold sum_below. induction (seq 0 n) as [|x l IH]; [reflexivity|]. cbn [map sumZ fold_right]. change (sumZ (f x :: map f l)) with (f x + sumZ (map f l))%Z. rewrite ofZ_add. f_equal. exact IH. Qed.
Lemma nrz_gram t a b g i pc s j k : reference_pattern t NRZ a b g i pc -> (j < period t)%nat -> (k < period t)%nat ->
  sm (period t) (fun n => symbol_at (period t) pc s (n + j) * symbol_at (period t) pc s (n + k)) = if (j =? k)%nat then ofZ (Z.of_nat (period t)) else - (1).
Proof.
  intros R. destruct (nrz_entry t a b g i pc R) as (bs & e & Ee & Lb & Hb & Hc). set (P := period t) in *. assert (PP : (0 < P)%nat) by apply plen_pos.
  assert (Main : forall j k, (j <= k < P)%nat -> sm P (fun n => symbol_at P pc s (n + j) * symbol_at P pc s (n + k)) = if (j =? k)%nat then ofZ (Z.of_nat P) else - (1)).
  { clear j k. intros j k H. set (f := fun n => at_ pc n * at_ pc ((n + (k - j)) mod P)%nat). transitivity (sm P (fun n => f ((n + (s + j)) mod P)%nat)).
    { apply sm_ext. intros n Hn. unfold f, symbol_at. f_equal; [do 2 f_equal; lia|]. rewrite Nat.add_mod_idemp_l by lia. do 2 f_equal. lia. }
    rewrite sm_shift by auto. transitivity (ofZ (autocorr bs (k - j))).
    - unfold autocorr. rewrite Lb, ofZ_sumZ. apply sm_ext. intros n Hn. unfold f. rewrite !Hb by (auto; apply Nat.mod_upper_bound; lia). rewrite <- ofZ_mul. f_equal.
      set (u := nrz (nth n bs 0%Z)). set (v := nrz _). clearbody u v. transitivity ((e * e) * (u * v))%Z; [ring|rewrite Ee; ring].
    - rewrite Hc by lia. unfold P. rewrite plen_Z. fold P. destruct (Nat.eqb_spec j k).
      + subst k. now rewrite Nat.sub_diag.
      + destruct (Nat.eqb_spec (k - j) 0); [lia|]. apply Qc_is_canon. reflexivity. }
  intros Hj Hk. destruct (Nat.le_gt_cases j k) as [Q|Q]; [apply Main; lia|]. rewrite (sm_ext _ _ (fun n => symbol_at P pc s (n + k) * symbol_at P pc s (n + j))) by (intros; ring). rewrite Main by lia. now rewrite Nat.eqb_sym.
Qed.
Lemma nrz_independent t a b g i pc s w : reference_pattern t NRZ a b g i pc -> (w <= period t)%nat -> independent w (ch_matrix (period t) w (symbol_at (period t) pc s)).
Proof.
  intros R Hw x Lx H. rewrite ch_matrix_length in H. set (P := period t) in *. set (p := symbol_at P pc s) in *.
  (* (P+1) x_j = sum of x *)
  assert (Eq : forall j, (j < w)%nat -> ofZ (Z.of_nat (P + 1)) * at_ x j = sm w (at_ x)).
  { intros j Hj. assert (Z : sm P (fun n => p (n + j)%nat * sm w (fun l => entry (ch_matrix P w p) n l * at_ x l)) = 0) by (apply sm_0; intros n Hn; rewrite H by auto; ring).
    rewrite (sm_ext P _ (fun n => sm w (fun l => at_ x l * (p (n + j)%nat * p (n + l)%nat)))) in Z.
    2:{ intros n Hn. rewrite <- sm_scale. apply sm_ext. intros l Hl. rewrite ch_matrix_entry by auto. ring. }
    rewrite (sm_swap P w (fun n l => at_ x l * (p (n + j)%nat * p (n + l)%nat))) in Z.
    rewrite (sm_ext w _ (fun l => (if (j =? l)%nat then ofZ (Z.of_nat (P + 1)) * at_ x l else 0) - at_ x l)) in Z.
    2:{ intros l Hl. rewrite sm_scale. unfold p, P. rewrite (nrz_gram t a b g i) by (auto; lia). fold P. destruct (j =? l)%nat; [|ring]. replace (Z.of_nat (P + 1)) with (Z.of_nat P + 1)%Z by lia. rewrite ofZ_add. change (ofZ 1) with 1. ring. }
    rewrite (sm_sub w (fun l => if (j =? l)%nat then ofZ (Z.of_nat (P + 1)) * at_ x l else 0) (at_ x)) in Z. rewrite (sm_single w (fun l => if (j =? l)%nat then ofZ (Z.of_nat (P + 1)) * at_ x l else 0) j) in Z by (auto; intros l _ Hl; now rewrite (proj2 (Nat.eqb_neq j l) (not_eq_sym Hl))). rewrite Nat.eqb_refl in Z.
    transitivity (ofZ (Z.of_nat (P + 1)) * at_ x j - sm w (at_ x) + sm w (at_ x)); [ring|rewrite Z; ring]. }
  assert (Nz : ofZ (Z.of_nat (P + 1)) <> 0) by (apply ofZ_nat_nz; lia).
  assert (S0 : sm w (at_ x) = 0).
  { assert (K : ofZ (Z.of_nat (P + 1)) * sm w (at_ x) = ofZ (Z.of_nat w) * sm w (at_ x)). { rewrite <- sm_scale. rewrite (sm_ext w _ (fun _ => sm w (at_ x))) by apply Eq. rewrite sm_const. ring. }
    assert (D : ofZ (Z.of_nat (P + 1 - w)) * sm w (at_ x) = 0). { replace (Z.of_nat (P + 1 - w)) with (Z.of_nat (P + 1) - Z.of_nat w)%Z by lia. rewrite ofZ_sub. transitivity (ofZ (Z.of_nat (P + 1)) * sm w (at_ x) - ofZ (Z.of_nat w) * sm w (at_ x)); [ring|rewrite K; ring]. }
    apply Qcmult_integral in D as [D|D]; auto. exfalso. revert D. apply ofZ_nat_nz. lia. }
  apply (nth_ext_def 0); [now rewrite repeat_length|]. intros j Hj. rewrite repeat_nth by lia. change (at_ x j = 0). specialize (Eq j ltac:(lia)). rewrite S0 in Eq. apply Qcmult_integral in Eq as [C|C]; auto. contradiction.
Qed.
