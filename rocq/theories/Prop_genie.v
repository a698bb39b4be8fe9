(** C85: the documented "Genie error checker" script reports exactly the wrong bits of the link. *)
From Coq Require Import ZArith Reals Lra Lia.
From Flocq Require Import Core BinarySingleNaN.
From Verif Require Import Py PyQ B_list M_aux S_aux M_prbs S_prbs P_prbs_gen M_symbol S_symbol M_coding M_lock S_lock M_f64 S_f64 P_f64 M_genie S_genie S_reach P_genie P_genienrz P_linear.
Import List ListNotations.
Open Scope Z_scope.

(** C85: the double-precision full-scale levels are the levels divided by their root mean square, to within 2^-52; without
    full_scale they are the integers. *)
Theorem C85_levels : forall (c : constellation) (i : nat), c <> PAM3 -> (i < length (get_levels c))%nat ->
  (Rabs (val (level (levels64 c true) i) - IZR (nth i (get_levels c) 0%Z) / rms (get_levels c)) <= two (-52))%R /\
  val (level (levels64 c false) i) = IZR (nth i (get_levels c) 0%Z).
Proof.
  intros c i Nc Hi. split; [now apply levels_near|]. rewrite levels_ints by auto.
  destruct c; try congruence; cbn [get_levels length] in Hi; level_cases i; try lia; unfold level, ints64, level_ints; cbn [get_levels map nth fst snd]; ovals; lra.
Qed.
Print Assumptions C85_levels.

(** C85: tx_example returns for every PRBS, seed, length, bit arrangement, scale and coding: the bits are the PRBS from the
    seed and the i-th sample is the level whose number is the i-th symbol, Gray coded if asked. *)
Theorem C85_tx : forall (t : prbs_type) (seed : list Z) (N k : nat) (f : flags) (c : constellation) (fs gray : bool),
  prbs_seed t seed -> bits_select k c ->
  exists b q sd, tx_example t seed N k f c fs gray = Ok (b, levels_of (levels64 c fs) q) /\ prbs_generator (get_polynomial t) seed (Z.of_nat (N * k)) = Ok (b, sd) /\
    length b = (N * k)%nat /\ length q = N /\ in_range c q /\
    forall i, (i < N)%nat -> nth i q 0 = (if gray then reflected (symbol_value k f b i) else symbol_value k f b i).
Proof.
  intros t seed N k f c fs gray Hs Hk. destruct (tx_char t seed N k f c fs gray Hs Hk) as (syms & _ & L & R & V & T). destruct (seed_bv _ _ Hs) as (Ls & B & _).
  do 3 eexists. split; [exact T|]. split; [now apply gen_char|]. split; [apply outbits_length|]. split; [now rewrite map_length|]. split; [now apply gmap_range|].
  intros i Hi. rewrite (map_nth_lt _ _ _ 0) by lia. rewrite gmap_reflected, V; auto; [|now apply (select_not_pam3 k)]. apply (Forall_nth_lt _ _ i 0 R). lia.
Qed.
Print Assumptions C85_tx.

(** C85: samples that are nearest to the sent levels, from any symbol j of the transmission on, make the checker report no
    error and count every bit as correct. *)
Theorem C85_clean : forall (t : prbs_type) (seed : list Z) (N k : nat) (f : flags) (c : constellation) (fs gray : bool) b y (j : nat) (rx : list f64) (th : Z),
  prbs_seed t seed -> bits_select k c -> tx_example t seed N k f c fs gray = Ok (b, y) -> (j < N)%nat ->
  Forall2 (nearest_sent (levels64 c fs)) (skipn j y) rx -> convertible k (N - j) f ->
  received_bits k f c fs fs gray rx = Ok (skipn (j * k) b) /\
  genie_checker t k f c fs fs gray rx th = Ok (th <=? 0, Z.of_nat ((N - j) * k), repeat false ((N - j) * k)).
Proof.
  intros t seed N k f c fs gray b y j rx th Hs Hk E Hj F C. split; [|now apply (genie_clean t seed N k f c fs gray b y)].
  destruct (tx_tail _ _ _ _ _ _ _ _ _ _ j Hs Hk E ltac:(lia)) as (s' & Hs' & E'). exact (received_clean _ _ _ _ _ _ _ _ _ _ _ Hs' Hk E' F C).
Qed.
Print Assumptions C85_clean.

(** C85: samples within half the level distance of the sent levels are nearest to them, so that noise below half the level
    distance never makes the checker report an error. *)
Theorem C85_margin : forall (t : prbs_type) (seed : list Z) (N k : nat) (f : flags) (c : constellation) (fs gray : bool) b y (j : nat) (rx : list f64) (th : Z),
  prbs_seed t seed -> bits_select k c -> tx_example t seed N k f c fs gray = Ok (b, y) -> (j < N)%nat ->
  Forall2 (within_half (levels64 c fs)) (skipn j y) rx -> convertible k (N - j) f ->
  genie_checker t k f c fs fs gray rx th = Ok (th <=? 0, Z.of_nat ((N - j) * k), repeat false ((N - j) * k)).
Proof.
  intros t seed N k f c fs gray b y j rx th Hs Hk E Hj F C. apply (genie_clean t seed N k f c fs gray b y); auto.
  destruct (tx_char t seed N k f c fs gray Hs Hk) as (syms & _ & _ & R & _ & T). rewrite E in T. apply ok_pair in T. destruct T as (_ & ->).
  unfold levels_of in *. rewrite skipn_map in *. assert (R' := gmap_range c gray _ R). set (q := map (gmap c gray) syms) in *. clearbody q.
  assert (RQ : in_range c (skipn j q)) by (unfold in_range in *; rewrite <- (firstn_skipn j q) in R'; apply Forall_app in R'; apply R').
  revert rx F. induction RQ as [|i l Hi RQ IH]; intros rx F; cbn [map] in *; inversion F; subst; constructor; auto.
  apply within_nearest; auto; [now apply (select_not_pam3 k)|lia].
Qed.
Print Assumptions C85_margin.

(** C85: whatever the samples are, as long as at least one period is received and fewer than a quarter of the bits of the
    first period are wrong, the error vector marks exactly the received bits that differ from the sent ones. *)
Theorem C85_counts : forall (t : prbs_type) (seed : list Z) (N k : nat) (f : flags) (c : constellation) (fs gray : bool) b y (j : nat) (rx : list f64) (th : Z),
  prbs_seed t seed -> bits_select k c -> tx_example t seed N k f c fs gray = Ok (b, y) -> (j <= N)%nat ->
  length rx = (N - j)%nat -> Forall fine rx -> convertible k (N - j) f -> (2 ^ prbs_value t - 1 <= (N - j) * k)%nat ->
  exists got, received_bits k f c fs fs gray rx = Ok got /\ length got = ((N - j) * k)%nat /\ let e := wrong_at (skipn (j * k) b) got in
    (4 * Z.of_nat (n_errors (firstn (2 ^ prbs_value t - 1) e)) < 2 ^ Z.of_nat (prbs_value t) ->
     genie_checker t k f c fs fs gray rx th = Ok (th <=? Z.of_nat (n_errors e), Z.of_nat ((N - j) * k) - Z.of_nat (n_errors e), e)).
Proof. exact genie_counts. Qed.
Print Assumptions C85_counts.

(** C85: with Gray coding, if every decision is the sent level or a neighbour of it, the number of bit errors reported is
    the number of wrong symbols. *)
Theorem C85_gray_counts : forall (t : prbs_type) (seed : list Z) (N k : nat) (f : flags) (c : constellation) (fs : bool) b y (j : nat) (q r : list Z) (rx : list f64) (th : Z),
  prbs_seed t seed -> bits_select k c -> tx_example t seed N k f c fs true = Ok (b, y) -> (j <= N)%nat ->
  in_range c q -> in_range c r -> neighbours q r -> skipn j y = levels_of (levels64 c fs) q -> Forall2 (nearest_sent (levels64 c fs)) (levels_of (levels64 c fs) r) rx ->
  (2 ^ prbs_value t - 1 <= (N - j) * k)%nat -> 4 * Z.of_nat (hdist q r) < 2 ^ Z.of_nat (prbs_value t) ->
  exists e, genie_checker t k f c fs fs true rx th = Ok (th <=? Z.of_nat (hdist q r), Z.of_nat ((N - j) * k) - Z.of_nat (hdist q r), e) /\ n_errors e = hdist q r.
Proof. exact genie_gray_counts. Qed.
Print Assumptions C85_gray_counts.

(** (Finding.) The error checking script of README.md slices with the full-scale levels but demaps without full_scale
    (README.md:414; example_runs.py:362 passes it).  PAM4 symbols 0, 1, 2, 3 then come out as 1, 1, 2, 2, and on a link without
    any wrong decision the checker reports at least 2^(n-1) - 1 errors in the first two periods of a PRBS of order n,
    however it aligns itself: about one bit in four, and lost lock for any threshold up to that. *)
Theorem C85_readme_refuted : forall (t : prbs_type) (seed : list Z) (N : nat) (gray : bool) b y (rx : list f64) (th : Z),
  prbs_seed t seed -> tx_example t seed N 2 noflags PAM4 true gray = Ok (b, y) ->
  Forall2 (nearest_sent (levels64 PAM4 true)) y rx -> (2 ^ prbs_value t - 1 <= N)%nat ->
  exists e, genie_checker t 2 noflags PAM4 true false gray rx th = Ok (th <=? Z.of_nat (n_errors e), Z.of_nat (2 * N) - Z.of_nat (n_errors e), e) /\
    2 ^ (Z.of_nat (prbs_value t) - 1) - 1 <= Z.of_nat (n_errors (firstn (2 * (2 ^ prbs_value t - 1)) e)).
Proof. exact genie_readme. Qed.
Print Assumptions C85_readme_refuted.
(** (Finding.) The transmitter of test/example_scripts/example_runs.py (lines 12-18) sends NRZ with one bit per symbol while its receivers and
    its checker (lines 115, 231, 342) take PAM4 with two: with every sample within 1/16 of the sent one the checker reports at least 2^(n-1) errors in the first two periods of a PRBS of order n. *)
Theorem C85_runs_refuted : forall (t : prbs_type) (seed : list Z) (N : nat) (gray : bool) b y (rx : list f64) (th : Z),
  prbs_seed t seed -> tx_example t seed N 1 noflags NRZ true gray = Ok (b, y) ->
  Forall2 (fun x r => is_finite r = true /\ (Rabs (val r - val x) <= / 16)%R) y rx -> (2 ^ prbs_value t - 1 <= N)%nat ->
  exists e, genie_checker t 2 noflags PAM4 true true false rx th = Ok (th <=? Z.of_nat (n_errors e), Z.of_nat (2 * N) - Z.of_nat (n_errors e), e) /\
    2 ^ (Z.of_nat (prbs_value t) - 1) <= Z.of_nat (n_errors (firstn (2 * (2 ^ prbs_value t - 1)) e)).
Proof. exact genie_nrz. Qed.
Print Assumptions C85_runs_refuted.

(** Cases. *)
Definition ones7 : list Z := repeat 1 7.
Example C85_case_seed : prbs_seed PRBS7 ones7 /\ bits_select 2 PAM4 /\ bits_select 1 NRZ /\ bits_select 1 OOK /\ convertible 2 200 (mk_flags true true false true).
Proof.
  split; [|split; [reflexivity|split; [reflexivity|split; [reflexivity|right; left; discriminate]]]]. split; [reflexivity|]. split; [|discriminate].
  repeat (apply Forall_cons; [now right|]). apply Forall_nil.
Qed.
Lemma sent_itself c fs q : c <> PAM3 -> in_range c q -> Forall2 (nearest_sent (levels64 c fs)) (levels_of (levels64 c fs) q) (levels_of (levels64 c fs) q).
Proof.
  intros Nc R. unfold levels_of. induction R as [|i l Hi R IH]; cbn [map]; constructor; auto. apply within_nearest; auto; [lia|]. split.
  - apply (proj1 (Forall_forall _ _) (levels_fine c fs Nc) _ (level_in c fs (Z.to_nat i) ltac:(lia))).
  - replace (val (level (levels64 c fs) (Z.to_nat i)) - val (level (levels64 c fs) (Z.to_nat i)))%R with 0%R by ring. rewrite Rabs_R0.
    assert (I := levels_increasing c fs Nc 0%nat 1%nat ltac:(rewrite levels_length; destruct c; cbn; lia)). assert (two (-50) < 1)%R by (change (two (-50)) with (/ 1125899906842624)%R; lra).
    apply Rmult_le_pos; lra.
Qed.
(** 200 PAM4 symbols with Gray coding and inverted bit order, the first three lost: 394 correct bits. *)
Example C85_case_clean : exists b y, tx_example PRBS7 ones7 200 2 (mk_flags true false true false) PAM4 true true = Ok (b, y) /\
  genie_checker PRBS7 2 (mk_flags true false true false) PAM4 true true true (skipn 3 y) 5 = Ok (false, 394, repeat false 394).
Proof.
  destruct C85_case_seed as (Hs & Hk & _). destruct (C85_tx PRBS7 ones7 200 2 (mk_flags true false true false) PAM4 true true Hs Hk) as (b & q & sd & E & _ & _ & _ & R & _).
  exists b, (levels_of (levels64 PAM4 true) q). split; auto.
  apply (C85_clean PRBS7 ones7 200 2 (mk_flags true false true false) PAM4 true true b (levels_of (levels64 PAM4 true) q) 3); auto; try lia; [|right; left; discriminate].
  unfold levels_of. rewrite skipn_map. apply sent_itself; [discriminate|]. unfold in_range in *. rewrite <- (firstn_skipn 3 q) in R. apply Forall_app in R. apply R.
Qed.
Lemma p3 : bpow radix2 (-3) = (/ 8)%R. Proof. reflexivity. Qed.
Lemma p2 : bpow radix2 (-2) = (/ 4)%R. Proof. reflexivity. Qed.
(** Three NRZ symbols received at -0.125, -1.75 and 0.375. *)
Example C85_case_margin : exists b, tx_example PRBS7 [0; 1; 0; 1; 0; 0; 0] 3 1 noflags NRZ false false = Ok (b, [of_int (-1) 0; of_int (-1) 0; of_int 1 0]) /\
  genie_checker PRBS7 1 noflags NRZ false false false [of_int (-1) (-3); of_int (-7) (-2); of_int 3 (-3)] 1 = Ok (false, 3, [false; false; false]).
Proof.
  assert (Hs : prbs_seed PRBS7 [0; 1; 0; 1; 0; 0; 0]) by (split; [reflexivity|]; split; [repeat (apply Forall_cons; [now (left + right)|]); apply Forall_nil|discriminate]).
  destruct (C85_tx PRBS7 _ 3 1 noflags NRZ false false Hs eq_refl) as (b & q & sd & E & G & _ & Lq & _ & V).
  assert (Eb : b = [0; 0; 1]) by (vm_compute in G; congruence). subst b.
  assert (Eq : q = [0; 0; 1]) by (apply (nth_ext_def 0); [exact Lq|]; intros i Hi; rewrite Lq in Hi; rewrite V by auto; destruct i as [|[|[|i]]]; try lia; reflexivity). subst q.
  rewrite levels_ints in E by discriminate. exists [0; 0; 1]. split; [exact E|].
  refine (C85_margin PRBS7 _ 3 1 noflags NRZ false false _ _ 0 _ 1 Hs eq_refl E _ _ _); [lia| |now left].
  rewrite levels_ints by discriminate. unfold within_half, level, ints64, level_ints. cbn [skipn levels_of level get_levels map nth fst snd Z.to_nat Pos.to_nat Pos.iter_op].
  change (two (-50)) with (/ 1125899906842624)%R.
  repeat (apply Forall2_cons; [split; [reflexivity|]; change (Pos.to_nat 1) with 1%nat; cbv iota; ovals|]); [..|apply Forall2_nil]; rewrite ?p3, ?p2; apply Rabs_le; lra.
Qed.
(** README script on a perfect PRBS7 link of 127 symbols: lost lock for threshold 63. *)
Example C85_case_readme : exists b y e, tx_example PRBS7 ones7 127 2 noflags PAM4 true false = Ok (b, y) /\
  genie_checker PRBS7 2 noflags PAM4 true false false y 63 = Ok (true, 254 - Z.of_nat (n_errors e), e) /\ 63 <= Z.of_nat (n_errors e).
Proof.
  destruct C85_case_seed as (Hs & Hk & _). destruct (C85_tx PRBS7 ones7 127 2 noflags PAM4 true false Hs Hk) as (b & q & sd & E & _ & _ & _ & R & _).
  destruct (C85_readme_refuted PRBS7 ones7 127 false b _ _ 63 Hs E (sent_itself PAM4 true q ltac:(discriminate) R)) as (e & G & L); [cbn; lia|].
  exists b, (levels_of (levels64 PAM4 true) q), e. split; auto. change (2 ^ (Z.of_nat (prbs_value PRBS7) - 1) - 1) with 63 in L.
  assert (X := P_checker.n_errors_app (firstn (2 * (2 ^ prbs_value PRBS7 - 1)) e) (skipn (2 * (2 ^ prbs_value PRBS7 - 1)) e)). rewrite firstn_skipn in X.
  assert (Q : 63 <= Z.of_nat (n_errors e)) by lia. split; [|exact Q]. rewrite G. rewrite (proj2 (Z.leb_le 63 (Z.of_nat (n_errors e))) Q). reflexivity.
Qed.
(** One neighbouring decision in 130 Gray coded PAM4 symbols: one bit error. *)
Example C85_case_gray : exists b y rx e, tx_example PRBS7 ones7 130 2 noflags PAM4 true true = Ok (b, y) /\ length rx = 130%nat /\
  genie_checker PRBS7 2 noflags PAM4 true true true rx 10 = Ok (false, 259, e) /\ n_errors e = 1%nat.
Proof.
  destruct C85_case_seed as (Hs & Hk & _). destruct (C85_tx PRBS7 ones7 130 2 noflags PAM4 true true Hs Hk) as (b & q & sd & E & _ & _ & Lq & R & _).
  destruct q as [|a q]; [discriminate|]. set (m := if a =? 0 then 1 else a - 1). set (r := m :: q). unfold in_range in R. inversion R as [|? ? R0 R1]; subst.
  assert (M : 0 <= m < Z.of_nat (length (get_levels PAM4)) /\ Z.abs (m - a) <= 1 /\ (a =? m) = false) by (unfold m; destruct (Z.eqb_spec a 0); cbn [get_levels length] in *; lia).
  destruct M as (M1 & M2 & M3). assert (Rr : in_range PAM4 r) by (constructor; auto).
  assert (HD : hdist (a :: q) r = 1%nat) by (unfold r; now rewrite P_aux.hdist_cons, P_linear.hdist_refl, M3).
  assert (Nb : neighbours (a :: q) r) by (split; [reflexivity|]; intros [|i]; cbn [r nth]; lia).
  destruct (C85_gray_counts PRBS7 ones7 130 2 noflags PAM4 true b _ 0 (a :: q) r (levels_of (levels64 PAM4 true) r) 10 Hs Hk E) as (e & G & L); auto; try lia.
  - apply sent_itself; [discriminate|exact Rr].
  - cbn; lia.
  - rewrite HD. reflexivity.
  - rewrite HD in G, L. exists b, (levels_of (levels64 PAM4 true) (a :: q)), (levels_of (levels64 PAM4 true) r), e. split; auto. split; [unfold levels_of; rewrite map_length; exact Lq|]. split; auto.
Qed.
(** The script of example_runs.py with PRBS7 and every sample received exactly: lost lock for threshold 64. *)
Example C85_case_runs : exists b y e, tx_example PRBS7 ones7 127 1 noflags NRZ true false = Ok (b, y) /\
  genie_checker PRBS7 2 noflags PAM4 true true false y 64 = Ok (true, 254 - Z.of_nat (n_errors e), e) /\ 64 <= Z.of_nat (n_errors e).
Proof.
  destruct C85_case_seed as (Hs & _ & Hk & _). destruct (C85_tx PRBS7 ones7 127 1 noflags NRZ true false Hs Hk) as (b & q & sd & E & _ & _ & _ & R & _).
  destruct (C85_runs_refuted PRBS7 ones7 127 false b _ (levels_of (levels64 NRZ true) q) 64 Hs E) as (e & G & L); [|cbn; lia|].
  { unfold levels_of. refine (f2_imp _ (fun i => level (levels64 NRZ true) (Z.to_nat i)) _ _ _ q _ R (fun a r H X => X) _). clear - R. induction R as [|i l Hi R IH]; cbn [map]; constructor; auto. split.
    - apply (proj1 (Forall_forall _ _) (levels_fine NRZ true ltac:(discriminate)) _ (level_in NRZ true (Z.to_nat i) ltac:(lia))).
    - rewrite Rminus_eq_0, Rabs_R0. lra. }
  exists b, (levels_of (levels64 NRZ true) q), e. split; auto. change (2 ^ (Z.of_nat (prbs_value PRBS7) - 1)) with 64 in L.
  assert (X := P_checker.n_errors_app (firstn (2 * (2 ^ prbs_value PRBS7 - 1)) e) (skipn (2 * (2 ^ prbs_value PRBS7 - 1)) e)). rewrite firstn_skipn in X.
  assert (Q : 64 <= Z.of_nat (n_errors e)) by lia. split; [|exact Q]. rewrite G. rewrite (proj2 (Z.leb_le 64 (Z.of_nat (n_errors e))) Q). reflexivity.
Qed.
