(** Proofs for C89: where a PRBS received through a channel is locked, and the phase loop. *)
From Verif Require Import Py PyQ B_list B_qc M_aux M_prbs M_symbol M_lms M_estim M_lock M_cdr S_prbs S_symbol S_aux S_lms S_lock S_mmprbs P_prbs P_prbs_gen P_buffer P_lms P_lock P_mmprbs.
Open Scope Z_scope.

Section Lock.
  Context (t : prbs_type) (b : list Z) (Hb : full_period t b) (k : nat) (f : flags) (c : constellation) (Hk : carries k c).
  Context (h : list Qc) (Hlen : (k * length h + 1 < length b)%nat).
  Let P := length b.
  Let x := line b k f c.
  Let taps := instants (length h).
  Let hit (l : Z) : Z := if l mod Z.of_nat P =? 0 then 1 else 0.
  Let len := Z.of_nat (length h).
  Lemma P_big : 126 < Z.of_nat P. Proof. pose proof (P_pos t b Hb). unfold P. lia. Qed.
  Lemma k_cases : Z.of_nat k = 1 \/ Z.of_nat k = 2. Proof. destruct Hk as [[E _]|[E _]]; rewrite E; auto. Qed.
  Lemma cc_hit l : cc b l = (Z.of_nat P + 1) * hit l - 1.
  Proof. unfold cc, hit, P. destruct (_ =? 0); lia. Qed.
  Lemma corr_hits : exists B ab, (k = 1%nat -> ab = 0) /\ (k = 2%nat -> ab = 8 \/ ab = -8) /\
    forall l, 4 * corr b k f c l = B + (Z.of_nat P + 1) * (four_var c * hit (Z.of_nat k * l) + ab * (hit (Z.of_nat k * l + 1) + hit (Z.of_nat k * l - 1))).
  Proof.
    destruct (corr_value t b Hb k f c Hk) as (ga & al & be & E & K1 & K2 & V). exists (ga - four_var c - 2 * (al * be)), (al * be). split; [intros K; rewrite (K1 K); ring|]. split; [exact K2|]. intros l. rewrite V, !cc_hit, E. ring.
  Qed.
  (** A whole multiple of the period at two taps means the same tap. *)
  Lemma hit_unique (u d : Z) i j : 0 <= i < len -> 0 <= j < len -> (Z.of_nat k * (u - i) + d) mod Z.of_nat P = 0 -> (Z.of_nat k * (u - j) + d) mod Z.of_nat P = 0 -> i = j.
  Proof.
    intros Hi Hj A B. pose proof P_big. apply Z.mod_divide in A as [p A]; [|lia]. apply Z.mod_divide in B as [q B]; [|lia]. pose proof k_cases as K. unfold len, P in *.
    assert (E : Z.of_nat k * (j - i) = (p - q) * Z.of_nat (length b)) by lia. assert (p = q) by (destruct K as [K|K]; rewrite K in *; nia). subst q. destruct K as [K|K]; rewrite K in *; lia.
  Qed.
  Open Scope Qc_scope.
  Let S d u := sumQ (map (fun j => signal h j * ofZ (hit (Z.of_nat k * (u - j) + d)%Z)) taps).
  Lemma S_cases d u : (S d u = 0 /\ forall j, (0 <= j < len)%Z -> hit (Z.of_nat k * (u - j) + d) = 0%Z) \/ exists j, (0 <= j < len)%Z /\ hit (Z.of_nat k * (u - j) + d) = 1%Z /\ S d u = signal h j.
  Proof.
    assert (O : forall l, hit l = 1%Z <-> (l mod Z.of_nat P =? 0)%Z = true) by (intros l; unfold hit; destruct (_ =? 0)%Z; split; intros; auto; discriminate).
    destruct (pick_one h (fun j => (Z.of_nat k * (u - j) + d) mod Z.of_nat P =? 0)%Z) as [[E F]|(j & Hj & A & E)].
    - intros i j Hi Hj A B. apply Z.eqb_eq in A, B. now apply (hit_unique u d).
    - left. split; [exact E|]. intros j Hj. unfold hit. now rewrite (F j Hj).
    - right. exists j. split; [auto|]. split; [now apply O|exact E].
  Qed.
  (** Correlation of the pattern, rotated to start at [s], with the samples. *)
  Let score ab u := ofZ (four_var c) * S 0 u + ofZ ab * (S 1 u + S (-1) u).
  Lemma tap_corr : exists B ab, (k = 1%nat -> ab = 0%Z) /\ (k = 2%nat -> ab = 8%Z \/ ab = (-8)%Z) /\
    forall u, ofZ 4 * sumQ (map (fun j => signal h j * ofZ (corr b k f c (u - j))) taps) = B + ofZ (Z.of_nat P + 1) * score ab u.
  Proof.
    destruct corr_hits as (B & ab & K1 & K2 & V). exists (ofZ B * sumQ (map (fun j => signal h j) taps)), ab. split; [auto|]. split; [auto|]. intros u. unfold score, S.
    rewrite <- !sumQ_map_scale, <- sumQ_map_add. rewrite <- (sumQ_map_scale (ofZ ab)), <- sumQ_map_add, <- (sumQ_map_scale (ofZ (Z.of_nat P + 1))), <- sumQ_map_add. apply sumQ_map_ext. intros j _.
    replace (Z.of_nat k * (u - j) + 0)%Z with (Z.of_nat k * (u - j))%Z by lia. replace (Z.of_nat k * (u - j) + -1)%Z with (Z.of_nat k * (u - j) - 1)%Z by lia.
    specialize (V (u - j)%Z). apply (f_equal ofZ) in V. rewrite !ofZ_mul, (ofZ_add B), !ofZ_mul, !ofZ_add, !ofZ_mul, !ofZ_add in V. transitivity (signal h j * (ofZ 4 * ofZ (corr b k f c (u - j)))); [ring|]. rewrite V, !ofZ_add. ring.
  Qed.
  Context (m : Z) (Hm : (0 <= m < len)%Z) (Hpos : 0 < signal h m) (Hmax : forall j, (0 <= j < len)%Z -> j <> m -> signal h j < signal h m /\ Qcabs (signal h j) <= signal h m).
  Lemma four_pos : (4 <= four_var c \/ k = 1%nat)%Z /\ (0 < four_var c)%Z /\ (k = 2%nat -> four_var c = 20%Z).
  Proof. destruct Hk as [[E [-> | ->]]|[E ->]]; cbn; rewrite E; repeat split; auto; try lia. Qed.
  Lemma S_bound d u : Qcabs (S d u) <= signal h m.
  Proof.
    destruct (S_cases d u) as [[-> _]|(j & Hj & _ & ->)]; [rewrite Qcabs_pos by apply Qcle_refl; now apply Qclt_le_weak|]. destruct (Z.eq_dec j m) as [-> |N]; [rewrite Qcabs_pos by (now apply Qclt_le_weak); apply Qcle_refl|]. now apply Hmax.
  Qed.
  (** With a whole hit at tap [j] no other products count. *)
  Lemma score_hit ab u j : (k = 1%nat -> ab = 0%Z) -> (0 <= j < len)%Z -> hit (Z.of_nat k * (u - j)) = 1%Z -> score ab u = ofZ (four_var c) * signal h j.
  Proof.
    intros K1 Hj A. unfold score. assert (E0 : S 0 u = signal h j).
    { destruct (S_cases 0 u) as [[_ F]|(i & Hi & Ai & ->)]; [specialize (F j Hj); rewrite Z.add_0_r in F; lia|]. f_equal. apply (hit_unique u 0); auto; [unfold hit in Ai; destruct (Z.eqb_spec ((Z.of_nat k * (u - i) + 0) mod Z.of_nat P) 0); [auto|discriminate]|]. rewrite Z.add_0_r. unfold hit in A. destruct (Z.eqb_spec ((Z.of_nat k * (u - j)) mod Z.of_nat P) 0); [auto|discriminate]. }
    rewrite E0. destruct Hk as [[E _]|[E _]]; [rewrite (K1 E); change (ofZ 0) with (0 : Qc); ring|].
    assert (N : forall d, (d = 1 \/ d = -1)%Z -> S d u = 0).
    { intros d Hd. destruct (S_cases d u) as [[-> _]|(i & Hi & Ai & _)]; auto. exfalso. unfold hit in A, Ai. destruct (Z.eqb_spec ((Z.of_nat k * (u - j)) mod Z.of_nat P) 0) as [D1|]; [|discriminate]. destruct (Z.eqb_spec ((Z.of_nat k * (u - i) + d) mod Z.of_nat P) 0) as [D2|]; [|discriminate].
      pose proof P_big. apply Z.mod_divide in D1 as [p D1]; [|lia]. apply Z.mod_divide in D2 as [q D2]; [|lia]. rewrite E in *. unfold len, P in *. change (Z.of_nat 2) with 2%Z in *. assert (F : (2 * (j - i) + d = (q - p) * Z.of_nat (length b))%Z) by lia. assert (q = p) by nia. lia. }
    rewrite !N by auto. ring.
  Qed.
  Lemma score_max ab u : (k = 1%nat -> ab = 0%Z) -> (k = 2%nat -> ab = 8%Z \/ ab = (-8)%Z) -> (u - m) mod Z.of_nat P <> 0%Z -> score ab u < ofZ (four_var c) * signal h m.
  Proof.
    intros K1 K2 N. destruct four_pos as (_ & F0 & F2). assert (F0q : 0 < ofZ (four_var c)) by (change 0 with (ofZ 0); now apply ofZ_lt). pose proof P_big as PB.
    destruct (S_cases 0 u) as [[E0 _]|(j & Hj & Aj & E0)].
    - unfold score. rewrite E0. destruct Hk as [[E _]|[E _]].
      + rewrite (K1 E). change (ofZ 0) with (0 : Qc). assert (0 * signal h m < ofZ (four_var c) * signal h m) by (now apply Qcmult_lt_compat_r). replace (ofZ (four_var c) * 0 + 0 * (S 1 u + S (-1) u)) with (0 * signal h m) by ring. exact H.
      + rewrite (F2 E). pose proof (S_bound 1 u) as B1. pose proof (S_bound (-1) u) as B2. change (ofZ 20 * 0) with (ofZ 20 * 0). replace (ofZ 20 * 0) with (0 : Qc) by ring. set (v := S 1 u) in *. set (w := S (-1) u) in *. set (y := signal h m) in *. clearbody v w y.
        apply Qcabs_Qcle_condition in B1. apply Qcabs_Qcle_condition in B2. destruct B1 as [B1 B1'], B2 as [B2 B2']. destruct (K2 E) as [-> | ->]; qlra.
    - rewrite (score_hit ab u j) by (auto; now rewrite Z.add_0_r in Aj). destruct (Z.eq_dec j m) as [-> |Nj].
      + exfalso. apply N. rewrite Z.add_0_r in Aj. unfold hit in Aj. destruct (Z.eqb_spec ((Z.of_nat k * (u - m)) mod Z.of_nat P) 0) as [D|]; [|discriminate]. apply Z.mod_divide in D as [p D]; [|lia]. apply Z.mod_divide; [lia|].
        destruct k_cases as [K|K]; rewrite K in D; [exists p; lia|]. destruct (P_odd t b Hb) as (hh & Eh). fold P in Eh. assert (Z.even p = true). { destruct (Z.even p) eqn:Ev; auto. exfalso. assert (Z.odd p = true) by (rewrite <- Z.negb_even, Ev; reflexivity). apply Z.odd_spec in H as [r ->]. rewrite Eh in D. lia. } apply Z.even_spec in H as [r ->]. exists r. lia.
      + rewrite !(Qcmult_comm (ofZ (four_var c))). apply Qcmult_lt_compat_r; auto. now apply Hmax.
  Qed.
  Lemma score_main ab : (k = 1%nat -> ab = 0%Z) -> forall u, (u - m) mod Z.of_nat P = 0%Z -> score ab u = ofZ (four_var c) * signal h m.
  Proof.
    intros K1 u D. apply score_hit; auto. unfold hit. pose proof P_big. apply Z.mod_divide in D as [p D]; [|lia]. replace (Z.of_nat k * (u - m))%Z with (Z.of_nat k * p * Z.of_nat P)%Z by lia. rewrite Z.mod_mul by lia. reflexivity.
  Qed.
  Lemma line_mod i : x (i mod Z.of_nat P) = x i.
  Proof.
    pose proof P_big. unfold x, line. do 3 f_equal. unfold bits_of. apply map_ext. intros l. unfold bit_at. fold P. f_equal. f_equal. rewrite <- (Z.add_mod_idemp_l (Z.of_nat k * (i mod Z.of_nat P))), Z.mul_mod_idemp_r, Z.add_mod_idemp_l by lia. reflexivity.
  Qed.
  Lemma reference_at g a N i : (i < N)%nat -> nth i (reference g x a N) 0 = g * ofZ (x (a + Z.of_nat i)%Z).
  Proof. intros H. unfold reference, instants. now rewrite map_map, nth_map_seq. Qed.
  Lemma received_at main a N i : (i < N)%nat -> nth i (received h main x a N) 0 = sumQ (map (fun j => signal h j * ofZ (x (a + Z.of_nat i + main - j)%Z)) taps).
  Proof. intros H. unfold received. unfold instants at 2. now rewrite map_map, nth_map_seq. Qed.
  Lemma corr_samples_line g main a N s : (P <= N)%nat ->
    corr_samples (reference g x 0 P) (received h main x a N) P s = g * sumQ (map (fun j => signal h j * ofZ (corr b k f c (a + main - Z.of_nat s - j)%Z)) taps).
  Proof.
    intros HN. pose proof P_big as PB. unfold corr_samples. rewrite reference_length.
    transitivity (sumQ (map (fun i => sumQ (map (fun j => g * (signal h j * ofZ (x (Z.of_nat s + Z.of_nat i) * x (a + Z.of_nat i + main - j))%Z)) taps)) (seq 0 P))).
    - apply sumQ_map_ext. intros i Hi. apply in_seq in Hi. assert ((s + i) mod P < P)%nat by (apply Nat.mod_upper_bound; lia). rewrite reference_at, received_at by lia. rewrite Z.add_0_l, Nat2Z.inj_mod, line_mod, Nat2Z.inj_add. rewrite <- sumQ_map_scale. apply sumQ_map_ext. intros j _. rewrite ofZ_mul. ring.
    - rewrite sumQ_swap, <- sumQ_map_scale. apply sumQ_map_ext. intros j _. rewrite sumQ_map_scale, sumQ_map_scale. f_equal. f_equal. rewrite (sumQ_ofZ (fun i => (x (Z.of_nat s + Z.of_nat i) * x (a + Z.of_nat i + main - j))%Z)). f_equal.
      pose proof (corr_start t b Hb k f c (Z.of_nat s) 0 (a + main - j - Z.of_nat s)) as C. replace (a + main - j - Z.of_nat s - 0)%Z with (a + main - Z.of_nat s - j)%Z in C by lia. rewrite <- C. unfold sums. fold P. fold x. apply sumZ_map_ext. intros i _. rewrite Z.add_0_r. f_equal. f_equal. lia.
  Qed.
  (** The lock puts the start of the pattern where the largest tap puts it. *)
  Lemma lock_largest g main a N : 0 < g -> (P <= N)%nat -> exists xc, lock_pattern_to_signal (reference g x 0 P) (received h main x a N) = Ok (reference g x (a + main - m) P, xc).
  Proof.
    intros Hg HN. pose proof P_big as PB. destruct (lock_samples_spec (reference g x 0 P) (received h main x a N)) as (s & xc & E & Ls & _ & Mx & _).
    { intros X. apply (f_equal (@length Qc)) in X. rewrite reference_length in X. cbn in X. lia. } { intros X. apply (f_equal (@length Qc)) in X. rewrite received_length in X. cbn in X. lia. }
    rewrite reference_length, received_length, Nat.min_l in * by lia. exists xc. rewrite E. do 2 f_equal. destruct tap_corr as (B & ab & K1 & K2 & V).
    assert (D : (a + main - Z.of_nat s - m) mod Z.of_nat P = 0%Z).
    { destruct (Z.eq_dec ((a + main - Z.of_nat s - m) mod Z.of_nat P) 0) as [|N0]; auto. exfalso. set (s0 := Z.to_nat ((a + main - m) mod Z.of_nat P)). assert (Es0 : Z.of_nat s0 = ((a + main - m) mod Z.of_nat P)%Z) by (unfold s0; apply Z2Nat.id, Z.mod_pos_bound; lia).
      assert (D0 : (a + main - Z.of_nat s0 - m) mod Z.of_nat P = 0%Z). { rewrite Es0. replace (a + main - (a + main - m) mod Z.of_nat P - m)%Z with ((a + main - m) - (a + main - m) mod Z.of_nat P)%Z by lia. rewrite Zminus_mod_idemp_r, Z.sub_diag. apply Z.mod_0_l. lia. }
      specialize (Mx s0). rewrite !corr_samples_line in Mx by auto. pose proof (V (a + main - Z.of_nat s)%Z) as V1. pose proof (V (a + main - Z.of_nat s0)%Z) as V2. rewrite (score_main ab K1 _ D0) in V2. pose proof (score_max ab _ K1 K2 N0) as L.
      set (q1 := sumQ (map (fun j => signal h j * ofZ (corr b k f c (a + main - Z.of_nat s0 - j)%Z)) taps)) in *. set (q2 := sumQ (map (fun j => signal h j * ofZ (corr b k f c (a + main - Z.of_nat s - j)%Z)) taps)) in *.
      assert (PP : 0 < ofZ (Z.of_nat P + 1)) by (change 0 with (ofZ 0); apply ofZ_lt; lia). assert (L2 : score ab (a + main - Z.of_nat s) * ofZ (Z.of_nat P + 1) < ofZ (four_var c) * signal h m * ofZ (Z.of_nat P + 1)) by (now apply Qcmult_lt_compat_r).
      rewrite Qcmult_comm, <- (Qcmult_comm (ofZ (Z.of_nat P + 1))) in L2. assert (L3 : q2 < q1). { set (w1 := ofZ (Z.of_nat P + 1) * score ab _) in *. set (w2 := ofZ (Z.of_nat P + 1) * (ofZ (four_var c) * signal h m)) in *. clearbody w1 w2. clear - V1 V2 L2. qlra. }
      assert (L4 : q2 * g < q1 * g) by (now apply Qcmult_lt_compat_r). rewrite !(Qcmult_comm g) in Mx. now apply (Qclt_not_le _ _ L4). }
    apply (nth_ext_def 0); [now rewrite rotated_length, !reference_length|]. intros i Hi. rewrite rotated_length, reference_length in Hi. rewrite rotated_nth by (now rewrite reference_length). rewrite reference_length, !reference_at by (auto; apply Nat.mod_upper_bound; lia). do 2 f_equal.
    rewrite Z.add_0_l, Nat2Z.inj_mod. apply Z.mod_divide in D as [p D]; [|lia]. rewrite <- (line_mod (a + main - m + Z.of_nat i)), Nat2Z.inj_add. f_equal. replace (a + main - m + Z.of_nat i)%Z with (Z.of_nat s + Z.of_nat i + p * Z.of_nat P)%Z by lia. symmetry. apply Z.mod_add. lia.
  Qed.
  Lemma tile_reference g a n N : (N <= n * P)%nat -> firstn N (tile n (reference g x a P)) = reference g x a N.
  Proof.
    intros HN. pose proof P_big as PB. assert (E : tile n (reference g x a P) = reference g x a (n * P)).
    { clear HN. apply (nth_ext_def 0); [now rewrite tile_length, !reference_length|]. intros i Hi. rewrite tile_length, reference_length in Hi. rewrite (tile_nth 0) by (now rewrite reference_length). rewrite reference_length, !reference_at by (auto; apply Nat.mod_upper_bound; lia). do 2 f_equal.
      rewrite Nat2Z.inj_mod, <- (line_mod (a + Z.of_nat i mod Z.of_nat P)), Z.add_mod_idemp_r by lia. apply line_mod. }
    rewrite E. apply (nth_ext_def 0); [rewrite firstn_length, !reference_length; lia|]. intros i Hi. rewrite firstn_length, reference_length in Hi. rewrite nth_firstn by lia. rewrite !reference_at by lia. reflexivity.
  Qed.
End Lock.

(** * The detector on a chunk of any length *)
Open Scope Qc_scope.
Lemma step_direction tol d : exists s, (let v := d in Ok (Some (if Qcltb (Qcabs v) tol then 0%Z else np_sign v))) = Ok (Some s) /\ direction tol d s.
Proof.
  eexists. split; [reflexivity|]. unfold direction. destruct (Qcltb (Qcabs d) tol) eqn:E; [left; split; auto; now apply Qcltb_spec|]. apply Qcltb_false in E. right. unfold np_sign.
  destruct (Qcltb 0 d) eqn:A; [left; repeat split; auto; now apply Qcltb_spec|]. right. destruct (Qcltb d 0) eqn:B; [left; repeat split; auto; now apply Qcltb_spec|]. right. repeat split; auto. apply Qcltb_false in A, B. now apply Qcle_antisym.
Qed.
Lemma direction_pos tol d s : direction tol d s -> 0 < tol -> tol <= d -> s = 1%Z.
Proof.
  intros D T H. assert (P : 0 < d) by (eapply Qclt_le_trans; eauto). assert (A : Qcabs d = d) by (destruct (abs_cases d) as [[_ ->]|[X ->]]; auto; clear - P X; qlra). destruct D as [[X _]|[(_ & _ & ->)|[(_ & X & _)|(_ & X & _)]]]; auto; exfalso.
  - rewrite A in X. now apply (Qclt_not_le _ _ X).
  - apply (Qclt_not_le _ _ X). now apply Qclt_le_weak.
  - rewrite X in P. now apply (Qclt_not_eq _ _ P).
Qed.
Lemma direction_neg tol d s : direction tol d s -> 0 < tol -> d <= - tol -> s = (-1)%Z.
Proof.
  intros D T H. assert (P : d < 0) by (clear - T H; qlra). assert (A : Qcabs d = - d) by (destruct (abs_cases d) as [[X ->]|[_ ->]]; auto; clear - P X; qlra). destruct D as [[X _]|[(_ & X & _)|[(_ & _ & ->)|(_ & X & _)]]]; auto; exfalso.
  - rewrite A in X. clear - X H. qlra.
  - clear - P X. qlra.
  - rewrite X in P. now apply (Qclt_not_eq _ _ P).
Qed.
Lemma direction_zero tol d s : direction tol d s -> Qcabs d < tol -> s = 0%Z.
Proof. intros D H. destruct D as [[_ ->]|[(X & _)|[(X & _)|(_ & _ & ->)]]]; auto; exfalso; now apply (Qclt_not_le _ _ H). Qed.
Lemma chunk_step t b k f c h cur g a m q tol : full_period t b -> carries k c -> (0 <= cur < Z.of_nat (length h))%Z -> (k * length h + 1 < length b)%nat -> (0 < m * length b + q)%nat -> 0 < g ->
  let M := (m * length b + q)%nat in let x := line b k f c in
  exists s rem, mueller_muller_step (received h cur x a (S M)) (reference g x a (S M)) 1 1 tol = Ok (Some s) /\ Qcabs rem <= blur c q h /\
    direction tol (g * (drift (prbs_value t) c m h cur + rem) / ofZ (Z.of_nat M)) s.
Proof.
  intros Hb Hk Hc Hl HM Hg M x. destruct (mm_cursors t b k f c h cur g a m q Hb Hk Hc Hl HM) as (rem & B & E). fold M x in E. fold (drift (prbs_value t) c m h cur) in E. rewrite mm_eq by (rewrite ?received_length, ?reference_length; fold M in HM; lia).
  rewrite !Qcmult_1_r. cbv zeta. rewrite E. destruct (step_direction tol (g * (drift (prbs_value t) c m h cur + rem) / ofZ (Z.of_nat M))) as (s & Es & D). exists s, rem. split; [exact Es|]. split; [exact B|exact D].
Qed.
Lemma div_le u v w : 0 < w -> (u <= v / w <-> u * w <= v).
Proof.
  intros H. assert (N : w <> 0) by (intros X; rewrite X in H; now apply (Qclt_not_eq _ _ H)). assert (E : v / w * w = v) by (field; exact N). split; intros A.
  - rewrite <- E. apply Qcmult_le_compat_r; auto. now apply Qclt_le_weak.
  - apply (Qcmult_lt_0_le_reg_r _ _ w); auto. now rewrite E.
Qed.
Lemma div_ge u v w : 0 < w -> (v / w <= u <-> v <= u * w).
Proof.
  intros H. assert (N : w <> 0) by (intros X; rewrite X in H; now apply (Qclt_not_eq _ _ H)). assert (E : v / w * w = v) by (field; exact N). split; intros A.
  - rewrite <- E. apply Qcmult_le_compat_r; auto. now apply Qclt_le_weak.
  - apply (Qcmult_lt_0_le_reg_r _ _ w); auto. now rewrite E.
Qed.
Lemma chunk_signs t b k f c h cur g a m q tol : full_period t b -> carries k c -> (0 <= cur < Z.of_nat (length h))%Z -> (k * length h + 1 < length b)%nat -> (0 < m * length b + q)%nat -> 0 < g -> 0 < tol ->
  let M := (m * length b + q)%nat in let x := line b k f c in let n := prbs_value t in
  let step := mueller_muller_step (received h cur x a (S M)) (reference g x a (S M)) 1 1 tol in
  (forward n c m q M g tol h cur -> step = Ok (Some 1%Z)) /\ (backward n c m q M g tol h cur -> step = Ok (Some (-1)%Z)) /\ (still n c m q M g tol h cur -> step = Ok (Some 0%Z)).
Proof.
  intros Hb Hk Hc Hl HM Hg Ht M x n step. destruct (chunk_step t b k f c h cur g a m q tol Hb Hk Hc Hl HM Hg) as (s & rem & E & B & D). fold M x n in E, D. fold step in E. rewrite E. clear E step.
  assert (W : 0 < ofZ (Z.of_nat M)) by (change 0 with (ofZ 0); apply ofZ_lt; unfold M; lia). set (w := ofZ (Z.of_nat M)) in *. set (d := drift n c m h cur) in *. set (bl := blur c q h) in *.
  assert (R : - bl <= rem /\ rem <= bl) by (destruct (abs_cases rem) as [[A A2]|[A A2]]; rewrite A2 in B; clear - A B; split; qlra). destruct R as [R1 R2].
  assert (G1 : g * (d - bl) <= g * (d + rem)). { rewrite !(Qcmult_comm g). apply Qcmult_le_compat_r; [|now apply Qclt_le_weak]. clear - R1. qlra. }
  assert (G2 : g * (d + rem) <= g * (d + bl)). { rewrite !(Qcmult_comm g). apply Qcmult_le_compat_r; [|now apply Qclt_le_weak]. clear - R2. qlra. }
  repeat apply conj.
  - unfold forward. fold w d bl. intros F. do 2 f_equal. apply (direction_pos _ _ _ D Ht). apply div_le; auto. eapply Qcle_trans; eauto.
  - unfold backward. fold w d bl. intros F. do 2 f_equal. apply (direction_neg _ _ _ D Ht). apply div_ge; auto. replace (- tol * w) with (- (tol * w)) by ring. eapply Qcle_trans; eauto.
  - unfold still. fold w d bl. intros F. do 2 f_equal. apply (direction_zero _ _ _ D).
    assert (A1 : g * (d + bl) <= g * (Qcabs d + bl)). { rewrite !(Qcmult_comm g). apply Qcmult_le_compat_r; [|now apply Qclt_le_weak]. destruct (abs_cases d) as [[X ->]|[X ->]]; clear - X; qlra. }
    assert (A2 : - (g * (Qcabs d + bl)) <= g * (d - bl)). { replace (- (g * (Qcabs d + bl))) with (g * (- (Qcabs d + bl))) by ring. rewrite !(Qcmult_comm g). apply Qcmult_le_compat_r; [|now apply Qclt_le_weak]. destruct (abs_cases d) as [[X ->]|[X ->]]; clear - X; qlra. }
    set (v := g * (d + rem)) in *. assert (N : w <> 0) by (intros X; rewrite X in W; now apply (Qclt_not_eq _ _ W)). assert (Ev : v / w * w = v) by (field; exact N).
    assert (L1 : v < tol * w) by (clear - G2 A1 F; clearbody v; qlra). assert (L2 : - (tol * w) < v) by (clear - G1 A2 F; clearbody v; qlra).
    destruct (abs_cases (v / w)) as [[_ ->]|[_ ->]]; apply Qcnot_le_lt; intros X.
    + apply div_le in X; auto. now apply (Qclt_not_le _ _ L1).
    + assert (Y : v / w <= - tol) by (clear - X; qlra). apply div_ge in Y; auto. clear - Y L2. apply (Qclt_not_le _ _ L2). replace (- tol * w) with (- (tol * w)) in Y by ring. exact Y.
Qed.

(** * The loop *)
Lemma received_shift h main cur x a N : received h main x a N = received h cur x (a + main - cur)%Z N.
Proof. unfold received. apply map_ext. intros n. apply sumQ_map_ext. intros j _. do 3 f_equal. lia. Qed.
Lemma reference_firstn g x a n N : (n <= N)%nat -> firstn n (reference g x a N) = reference g x a n.
Proof. intros H. unfold reference, instants. rewrite !map_map, firstn_map. f_equal. replace N with (n + (N - n))%nat by lia. rewrite seq_app, firstn_app, seq_length, Nat.sub_diag, firstn_O, app_nil_r. apply firstn_all2. now rewrite seq_length. Qed.
Lemma ceil_cover L P : (0 < P)%nat -> (L <= (L + P - 1) / P * P)%nat.
Proof. intros H. pose proof (Nat.div_mod (L + P - 1) P ltac:(lia)). pose proof (Nat.mod_upper_bound (L + P - 1) P ltac:(lia)). nia. Qed.
Lemma pass_signs t b k f c cols p h main cur a m q L : full_period t b -> carries k c -> (k * length h + 1 < length b)%nat -> largest h cur -> (0 < m)%nat ->
  let M := (m * length b + q)%nat in let x := line b k f c in let n := prbs_value t in let tol := ofZ 1 / ofZ 1000 in
  np_get cols p = Ok (received h main x a (S M)) -> (length b <= L)%nat -> (S M <= (L + length b - 1) / length b * length b)%nat ->
  let step := cdr_pass cols (reference 1 x 0 L) (length b) p in
  (forward n c m q M 1 tol h cur -> step = Ok (Some 1%Z)) /\ (backward n c m q M 1 tol h cur -> step = Ok (Some (-1)%Z)) /\ (still n c m q M 1 tol h cur -> step = Ok (Some 0%Z)).
Proof.
  intros Hb Hk Hl (Hc & Hp & Hx) Hm M x n tol G HL HN step. assert (Pb : (126 < Z.of_nat (length b))%Z) by (exact (P_big t b Hb k f c h Hl)).
  assert (E : step = mueller_muller_step (received h cur x (a + main - cur) (S M)) (reference 1 x (a + main - cur) (S M)) 1 1 tol).
  { unfold step, cdr_pass. rewrite G. cbn [bind]. rewrite reference_firstn by auto. destruct (lock_largest t b Hb k f c Hk h Hl cur Hc Hp Hx 1 main a (S M)) as (xc & E); [reflexivity|unfold M; nia|]. fold x in E. rewrite E. cbn [bind fst].
    rewrite received_length, reference_length. unfold x at 2. rewrite (tile_reference t b Hb k f c h Hl cur) by auto. fold x. now rewrite (received_shift h main cur). }
  rewrite E. apply (chunk_signs t b k f c h cur 1 (a + main - cur) m q tol); auto; [nia|reflexivity..].
Qed.
Lemma columns_sampled osr x : (0 < osr)%nat -> x <> [] -> exists mat, buffer (ofZ 0) Qceqb x (Z.of_nat osr) 0 0 false = Ok mat /\ transpose osr mat = map (fun p => sampled osr p x) (seq 0 osr).
Proof.
  intros Ho Nx. eexists. split; [apply (buffer_noclip (ofZ 0) Qceqb x osr 0 0%Z); auto; lia|]. unfold transpose. apply map_ext_in. intros p Hp. apply in_seq in Hp. rewrite map_map. unfold sampled.
  replace (ceil_div (Z.of_nat 0 + Z.of_nat (length x) - Z.max 0 0)%Z (Z.of_nat osr - 0)%Z) with ((length x + osr - 1) / osr)%nat.
  - apply map_ext. intros j. unfold vec_at, frame. rewrite nth_map_seq by lia. unfold delayed. cbn [Nat.ltb Nat.leb]. rewrite Nat.sub_0_r. change (ofZ 0) with 0. f_equal. rewrite Z.sub_0_r, Nat2Z.id. lia.
  - unfold ceil_div. change (Z.max 0 0) with 0%Z. rewrite !Z.sub_0_r. change (Z.of_nat 0) with 0%Z. rewrite Z.add_0_l. replace (Z.of_nat (length x) + Z.of_nat osr - 1)%Z with (Z.of_nat (length x + osr - 1)) by lia. rewrite <- Nat2Z.inj_div. now rewrite Nat2Z.id.
Qed.
Open Scope Z_scope.
Lemma loop_reaches pass osr n phase goal : 0 <= phase < osr -> 0 <= goal < osr -> Z.abs (goal - phase) < Z.of_nat n -> pass goal = Ok (Some 0) ->
  (forall p, phase <= p < goal -> pass p = Ok (Some 1)) -> (forall p, goal < p <= phase -> pass p = Ok (Some (-1))) -> cdr_loop pass osr n phase = Ok (Some (mk_end goal true)).
Proof.
  revert phase. induction n as [|n IH]; intros phase Hp Hg Hn Z0 F B; [lia|]. cbn [cdr_loop]. destruct (Z.lt_trichotomy phase goal) as [H|[H|H]].
  - rewrite (F phase) by lia. cbn [bind Z.eqb]. rewrite Z.mod_small by lia. apply IH; auto; try lia; intros p P; first [apply F; lia|apply B; lia].
  - subst phase. rewrite Z0. cbn [bind Z.eqb]. rewrite Z.add_0_r, Z.mod_small by lia. reflexivity.
  - rewrite (B phase) by lia. cbn [bind Z.eqb]. rewrite Z.mod_small by lia. apply IH; auto; try lia; intros p P; first [apply F; lia|apply B; lia].
Qed.
Lemma loop_between pass osr n phase low : 0 <= phase < osr -> 0 <= low -> low + 1 < osr ->
  (forall p, Z.min phase low <= p <= low -> pass p = Ok (Some 1)) -> (forall p, low < p <= Z.max phase (low + 1) -> pass p = Ok (Some (-1))) ->
  exists q, cdr_loop pass osr n phase = Ok (Some (mk_end q false)) /\ (Z.max (low - phase) (phase - low - 1) <= Z.of_nat n -> q = low \/ q = low + 1).
Proof.
  revert phase. induction n as [|n IH]; intros phase Hp Hl Ho F B; [exists phase; split; [reflexivity|lia]|]. cbn [cdr_loop]. destruct (Z.le_gt_cases phase low) as [H|H].
  - rewrite (F phase) by lia. cbn [bind Z.eqb]. rewrite Z.mod_small by lia. destruct (IH (phase + 1)) as (q & -> & D); try lia; try (intros p P; first [apply F; lia|apply B; lia]). exists q. split; [reflexivity|].
    intros A. apply D. lia.
  - rewrite (B phase) by lia. cbn [bind Z.eqb]. rewrite Z.mod_small by lia. destruct (IH (phase + -1)) as (q & -> & D); try lia; try (intros p P; first [apply F; lia|apply B; lia]). exists q. split; [reflexivity|]. intros A. apply D. lia.
Qed.
