(** C89: Mueller-Muller timing recovery on a PRBS (rx/clock_data_recovery.py, rx/lock_pattern.py and the loop of test/test_cdr.py). *)
From Verif Require Import Py PyQ B_list B_qc M_aux M_prbs M_symbol M_levels M_lms M_estim M_lock M_cdr S_symbol S_lms S_mmprbs P_prbs P_prbs_gen P_lms P_mmprbs P_mmlock.
Import List ListNotations.
Open Scope Z_scope.

(** [b] is what the generator gives for one period from a seed which is not all zero. *)
Definition period_of (t : prbs_type) (b : list Z) : Prop := exists seed sd, length seed = prbs_value t /\ Forall (fun v => v = 0 \/ v = 1) seed /\ seed <> repeat 0 (prbs_value t) /\
  prbs_generator (get_polynomial t) seed (2 ^ Z.of_nat (prbs_value t) - 1) = Ok (b, sd).
Lemma period_full t b : period_of t b -> full_period t b.
Proof. intros (seed & sd & H1 & H2 & H3 & G). exact (generated_period t seed b sd H1 H2 H3 G). Qed.

(** * The line: generator, symbols and levels for any number of symbols repeat one period for ever *)
Theorem C89_line : forall t seed b sd N k f c, length seed = prbs_value t -> Forall (fun v => v = 0 \/ v = 1) seed -> carries k c ->
  prbs_generator (get_polynomial t) seed (2 ^ Z.of_nat (prbs_value t) - 1) = Ok (b, sd) ->
  exists bs sd' syms, prbs_generator (get_polynomial t) seed (Z.of_nat (N * k)) = Ok (bs, sd') /\ bin2symbol bs (2 ^ Z.of_nat k) f = Ok syms /\
    mapping Qcopp (map ofZ (get_levels c)) None false (vec syms) = Ok (vec (reference 1 (line b k f c) 0 N)).
Proof. exact sent_line. Qed.
Print Assumptions C89_line.

(** * One period and one symbol: the detector sees the two taps beside the cursor and nothing else *)
Theorem C89_step : forall t b k f c h cur g w tol a m, period_of t b -> carries k c -> (0 <= cur < Z.of_nat (length h)) -> (k * length h + 1 < length b)%nat -> (0 < m)%nat ->
  let x := line b k f c in let N := (m * length b + 1)%nat in
  exists s, mueller_muller_step (received h cur x a N) (reference g x a N) w w tol = Ok (Some s) /\
    direction tol (w * g * variance c * (ofZ (2 ^ Z.of_nat (prbs_value t)) / ofZ (2 ^ Z.of_nat (prbs_value t) - 1)) * (signal h (cur + 1) - signal h (cur - 1)))%Qc s.
Proof.
  intros t b k f c h cur g w tol a m Hb Hk Hc Hl Hm x N. apply period_full in Hb. pose proof (P_big t b Hb k f c h Hl) as PB. assert (HM : (0 < m * length b + 0)%nat) by nia.
  destruct (mm_cursors t b k f c h cur g a m 0 Hb Hk Hc Hl HM) as (rem & B & E). rewrite Nat.add_0_r in E. replace (S (m * length b)) with N in E by (unfold N; lia). fold x in E.
  assert (R0 : rem = 0%Qc). { change (2 * Z.of_nat 0 * (top c * top c)) with 0 in B. change (ofZ 0) with 0%Qc in B. rewrite Qcmult_0_l in B. destruct (abs_cases rem) as [[A A2]|[A A2]]; rewrite A2 in B; clear - A B; apply Qcle_antisym; qlra. }
  rewrite mm_eq by (rewrite ?received_length, ?reference_length; unfold N; nia). cbv zeta.
  match goal with |- exists s, Ok (Some (if Qcltb (Qcabs ?d) tol then _ else _)) = _ /\ direction tol ?e _ => assert (D : d = e) end.
  { replace (postcursor (received h cur x a N) (reference g x a N) * w - precursor (received h cur x a N) (reference g x a N) * w)%Qc with (w * (postcursor (received h cur x a N) (reference g x a N) - precursor (received h cur x a N) (reference g x a N)))%Qc by ring.
    rewrite E, R0. rewrite Nat2Z.inj_mul, ofZ_mul. pose proof (fp_len t b Hb) as LP. assert (EP : Z.of_nat (length b) = 2 ^ Z.of_nat (prbs_value t) - 1) by (rewrite LP, <- maxlen_Z by apply value_gt1; reflexivity). rewrite EP in *. field. split; intros Z0; change 0%Qc with (ofZ 0) in Z0; apply ofZ_inj in Z0; lia. }
  rewrite D. apply step_direction.
Qed.
Print Assumptions C89_step.

(** * Any length: [m] periods and [q] symbols more give the step of the taps as soon as these outweigh what the rest can add *)
Theorem C89_length : forall t b k f c h cur g a m q tol, period_of t b -> carries k c -> (0 <= cur < Z.of_nat (length h)) -> (k * length h + 1 < length b)%nat -> (0 < m * length b + q)%nat -> (0 < g)%Qc -> (0 < tol)%Qc ->
  let M := (m * length b + q)%nat in let x := line b k f c in let n := prbs_value t in
  let step := mueller_muller_step (received h cur x a (S M)) (reference g x a (S M)) 1 1 tol in
  (forward n c m q M g tol h cur -> step = Ok (Some 1)) /\ (backward n c m q M g tol h cur -> step = Ok (Some (-1))) /\ (still n c m q M g tol h cur -> step = Ok (Some 0)).
Proof. intros t b k f c h cur g a m q tol Hb. apply period_full in Hb. now apply chunk_signs. Qed.
Print Assumptions C89_length.

(** * The lock: the pattern is put where the largest tap puts it, whatever the other taps are *)
Theorem C89_lock : forall t b k f c h main cur g a N, period_of t b -> carries k c -> (k * length h + 1 < length b)%nat -> largest h cur -> (0 < g)%Qc -> (length b <= N)%nat ->
  let x := line b k f c in
  exists xc, lock_pattern_to_signal (reference g x 0 (length b)) (received h main x a N) = Ok (reference g x (a + main - cur) (length b), xc) /\
    received h main x a N = received h cur x (a + main - cur) N.
Proof.
  intros t b k f c h main cur g a N Hb Hk Hl (Hc & Hp & Hx) Hg HN x. apply period_full in Hb. destruct (lock_largest t b Hb k f c Hk h Hl cur Hc Hp Hx g main a N Hg HN) as (xc & E). exists xc. split; [exact E|]. apply received_shift.
Qed.
Print Assumptions C89_lock.

(** * The loop of the test *)
(** [N] symbols of the line at every phase [p], each behind its own channel; the pattern is [L] symbols, [N] of which are in whole periods of it. *)
Record stream (t : prbs_type) (b : list Z) (k : nat) (f : flags) (c : constellation) (osr : nat) (adc : list Qc) (N L : nat) (h : nat -> list Qc) (cur : nat -> Z) : Prop := {
  st_period : period_of t b ;
  st_carries : carries k c ;
  st_osr : (0 < osr)%nat ;
  st_pattern : (length b <= L)%nat /\ (N <= (L + length b - 1) / length b * length b)%nat ;
  st_phase : forall p, (p < osr)%nat -> (k * length (h p) + 1 < length b)%nat /\ largest (h p) (cur p) /\ exists main a, sampled osr p adc = received (h p) main (line b k f c) a N }.
Definition thousandth : Qc := (ofZ 1 / ofZ 1000)%Qc.
(** What the taps at phase [p] ask for, with [N = m P + q + 1] symbols. *)
Definition later t (b : list Z) c (m q : nat) (h : nat -> list Qc) (cur : nat -> Z) (p : nat) : Prop := forward (prbs_value t) c m q (m * length b + q) 1 thousandth (h p) (cur p).
Definition earlier t (b : list Z) c (m q : nat) (h : nat -> list Qc) (cur : nat -> Z) (p : nat) : Prop := backward (prbs_value t) c m q (m * length b + q) 1 thousandth (h p) (cur p).
Definition centred t (b : list Z) c (m q : nat) (h : nat -> list Qc) (cur : nat -> Z) (p : nat) : Prop := still (prbs_value t) c m q (m * length b + q) 1 thousandth (h p) (cur p).
Lemma run_passes t b k f c osr adc m q L h cur : stream t b k f c osr adc (S (m * length b + q)) L h cur -> (0 < m)%nat -> exists pass,
  mueller_muller_run adc (Z.of_nat osr) (reference 1 (line b k f c) 0 L) (length b) = cdr_loop pass (Z.of_nat osr) osr (Z.of_nat osr / 2) /\
  forall p, (p < osr)%nat -> (later t b c m q h cur p -> pass (Z.of_nat p) = Ok (Some 1)) /\ (earlier t b c m q h cur p -> pass (Z.of_nat p) = Ok (Some (-1))) /\ (centred t b c m q h cur p -> pass (Z.of_nat p) = Ok (Some 0)).
Proof.
  intros [Hb Hk Ho [HL HN] Hp] Hm. apply period_full in Hb. assert (Nx : adc <> []).
  { intros ->. destruct (Hp 0%nat Ho) as (_ & _ & main & a & E). apply (f_equal (@length Qc)) in E. unfold sampled in E. rewrite map_length, seq_length, received_length in E. cbn [length] in E. rewrite Nat.div_small in E by lia. discriminate. }
  destruct (columns_sampled osr adc Ho Nx) as (mat & E & T). exists (cdr_pass (transpose osr mat) (reference 1 (line b k f c) 0 L) (length b)). split; [unfold mueller_muller_run; rewrite E; cbn [bind]; now rewrite Nat2Z.id|].
  intros p Lp. destruct (Hp p Lp) as (Hl & Hx & main & a & Es). apply (pass_signs t b k f c _ _ (h p) main (cur p) a m q L); auto.
  rewrite T, (np_get_nth _ p []) by (now rewrite map_length, seq_length). f_equal. rewrite nth_map_seq by auto. exact Es.
Qed.
(** When every phase between the first one and [goal] asks for [goal], the loop goes there and stops. *)
Theorem C89_run : forall t b k f c osr adc m q L h cur goal, stream t b k f c osr adc (S (m * length b + q)) L h cur -> (0 < m)%nat -> (goal < osr)%nat ->
  (forall p, (osr / 2 <= p < goal)%nat -> later t b c m q h cur p) -> (forall p, (goal < p <= osr / 2)%nat -> earlier t b c m q h cur p) -> centred t b c m q h cur goal ->
  mueller_muller_run adc (Z.of_nat osr) (reference 1 (line b k f c) 0 L) (length b) = Ok (Some (mk_end (Z.of_nat goal) true)).
Proof.
  intros t b k f c osr adc m q L h cur goal St Hm Hg F B C. destruct (run_passes _ _ _ _ _ _ _ _ _ _ _ _ St Hm) as (pass & -> & Ps). assert (H2 : Z.of_nat osr / 2 = Z.of_nat (osr / 2)) by (rewrite Nat2Z.inj_div; reflexivity).
  pose proof (Nat.div_lt osr 2 ltac:(lia) ltac:(lia)) as D. apply loop_reaches; try lia.
  - now apply (Ps goal Hg).
  - intros p Hp. rewrite <- (Z2Nat.id p) by lia. apply (Ps (Z.to_nat p)); [lia|]. apply F. lia.
  - intros p Hp. rewrite <- (Z2Nat.id p) by lia. apply (Ps (Z.to_nat p)); [lia|]. apply B. lia.
Qed.
Print Assumptions C89_run.
(** When the taps change their verdict between two neighbours, neither of which is within the tolerance, the loop never stops by itself and ends at one of the two. *)
Theorem C89_dither : forall t b k f c osr adc m q L h cur low, stream t b k f c osr adc (S (m * length b + q)) L h cur -> (0 < m)%nat -> (low + 1 < osr)%nat ->
  (forall p, (Nat.min (osr / 2) low <= p <= low)%nat -> later t b c m q h cur p) -> (forall p, (low < p <= Nat.max (osr / 2) (low + 1))%nat -> earlier t b c m q h cur p) ->
  exists e, mueller_muller_run adc (Z.of_nat osr) (reference 1 (line b k f c) 0 L) (length b) = Ok (Some (mk_end (Z.of_nat e) false)) /\ (e = low \/ e = low + 1)%nat.
Proof.
  intros t b k f c osr adc m q L h cur low St Hm Hg F B. destruct (run_passes _ _ _ _ _ _ _ _ _ _ _ _ St Hm) as (pass & -> & Ps). assert (H2 : Z.of_nat osr / 2 = Z.of_nat (osr / 2)) by (rewrite Nat2Z.inj_div; reflexivity).
  pose proof (Nat.div_lt osr 2 ltac:(lia) ltac:(lia)) as D. destruct (loop_between pass (Z.of_nat osr) osr (Z.of_nat osr / 2) (Z.of_nat low)) as (e & -> & E); try lia.
  - intros p Hp. rewrite <- (Z2Nat.id p) by lia. apply (Ps (Z.to_nat p)); [lia|]. apply F. lia.
  - intros p Hp. rewrite <- (Z2Nat.id p) by lia. apply (Ps (Z.to_nat p)); [lia|]. apply B. lia.
  - exists (Z.to_nat e). rewrite Z2Nat.id by lia. split; [reflexivity|lia].
Qed.
Print Assumptions C89_dither.

(** * Cases meeting the hypotheses *)
Definition no_flags : flags := mk_flags false false false false.
Definition prbs7 : list Z := match prbs_generator (get_polynomial PRBS7) (repeat 1 7) 127 with Ok (b, _) => b | _ => [] end.
Lemma prbs7_period : period_of PRBS7 prbs7.
Proof.
  exists (repeat 1 7). eexists. split; [reflexivity|]. split; [apply Forall_forall; intros v Hv; right; exact (repeat_spec _ _ _ Hv)|]. split; [discriminate|]. vm_compute. reflexivity.
Qed.
Lemma prbs7_length : length prbs7 = 127%nat. Proof. vm_compute. reflexivity. Qed.
Definition q (l : list Z) : list Qc := map ofZ l.
(** Taps [hs p] at phase [p] of [osr], 128 symbols of PRBS7. *)
Definition three (hs : nat -> list Z) (k : nat) (c : constellation) (p : nat) : list Qc := received (q (hs p)) 1 (line prbs7 k no_flags c) 0 128.
Definition demo (hs : nat -> list Z) (k : nat) (c : constellation) (osr : nat) : list Qc :=
  let cols := map (three hs k c) (seq 0 osr) in concat (map (fun n => map (fun col => nth n col 0%Qc) cols) (seq 0 128)).
Definition to_later (p : nat) : list Z := match p with O => [1; 5; 3] | 1%nat => [1; 5; 2] | _ => [1; 5; 1] end.
Definition to_cross (p : nat) : list Z := match p with O => [1; 5; 2] | _ => [2; 5; 1] end.
Lemma largest_middle x z : Z.abs x < 5 -> Z.abs z < 5 -> largest (q [x; 5; z]) 1.
Proof.
  intros Hx Hz. split; [cbn [q map length]; lia|]. split; [change (signal (q [x; 5; z]) 1) with (ofZ 5); reflexivity|]. intros j Hj Nj. cbn [q map length] in Hj. assert (C : forall y, Z.abs y < 5 -> (ofZ y < ofZ 5)%Qc /\ (Qcabs (ofZ y) <= ofZ 5)%Qc).
  { intros y Hy. split; [apply ofZ_lt; lia|]. destruct (abs_cases (ofZ y)) as [[_ ->]|[_ ->]]; [apply ofZ_le; lia|]. rewrite <- ofZ_opp. apply ofZ_le. lia. }
  assert (J : j = 0 \/ j = 2) by lia. destruct J as [-> | ->]; [apply (C x)|apply (C z)]; auto.
Qed.
Lemma demo_stream hs k c osr : (k <= 3)%nat -> carries k c -> (0 < osr)%nat -> (forall p, (p < osr)%nat -> exists x z, hs p = [x; 5; z] /\ Z.abs x < 5 /\ Z.abs z < 5) ->
  (forall p, (p < osr)%nat -> map this (sampled osr p (demo hs k c osr)) = map this (three hs k c p)) ->
  stream PRBS7 prbs7 k no_flags c osr (demo hs k c osr) (S (1 * length prbs7 + 0)) 254 (fun p => q (hs p)) (fun _ => 1).
Proof.
  intros K Hk Ho Hh Hs. split; auto; [apply prbs7_period|rewrite prbs7_length; split; [lia|apply Nat.leb_le; vm_compute; reflexivity]|]. intros p Hp. destruct (Hh p Hp) as (x & z & E & Hx & Hz). split; [rewrite E, prbs7_length; cbn [q map length]; lia|].
  split; [rewrite E; now apply largest_middle|]. exists 1, 0. rewrite prbs7_length. now apply list_this_eq, Hs.
Qed.
(** Three phases; the one in the middle sees more behind the cursor than before it, the last one is balanced. *)
Example C89_run_ex : mueller_muller_run (demo to_later 1 NRZ 3) 3 (reference 1 (line prbs7 1 no_flags NRZ) 0 254) 127 = Ok (Some (mk_end 2 true)).
Proof.
  rewrite <- prbs7_length. apply (C89_run PRBS7 prbs7 1 no_flags NRZ 3 (demo to_later 1 NRZ 3) 1 0 254 (fun p => q (to_later p)) (fun _ => 1) 2%nat); [|lia|lia| | |].
  - apply demo_stream; [lia|left; auto|lia| |]; intros [|[|[|p]]] Hp; try lia; try (do 2 eexists; split; [reflexivity|split; reflexivity]); vm_compute; reflexivity.
  - intros p Hp. cbn in Hp. assert (p = 1%nat) by lia. subst p. vm_compute. discriminate.
  - intros p Hp. cbn in Hp. lia.
  - vm_compute. reflexivity.
Qed.
(** Two phases of PAM4 with the balance between them. *)
Example C89_dither_ex : exists e, mueller_muller_run (demo to_cross 2 PAM4 2) 2 (reference 1 (line prbs7 2 no_flags PAM4) 0 254) 127 = Ok (Some (mk_end (Z.of_nat e) false)) /\ (e = 0 \/ e = 1)%nat.
Proof.
  rewrite <- prbs7_length. apply (C89_dither PRBS7 prbs7 2 no_flags PAM4 2 (demo to_cross 2 PAM4 2) 1 0 254 (fun p => q (to_cross p)) (fun _ => 1) 0%nat); [|lia|lia| |].
  - apply demo_stream; [lia|right; auto|lia| |]; intros [|[|p]] Hp; try lia; try (do 2 eexists; split; [reflexivity|split; reflexivity]); vm_compute; reflexivity.
  - intros p Hp. cbn in Hp. assert (p = 0%nat) by lia. subst p. vm_compute. discriminate.
  - intros p Hp. cbn in Hp. assert (p = 1%nat) by lia. subst p. vm_compute. discriminate.
Qed.
Example C89_step_ex : exists s, mueller_muller_step (received (q [1; 5; 2]) 1 (line prbs7 2 no_flags PAM4) 3 128) (reference 1 (line prbs7 2 no_flags PAM4) 3 128) 1 1 (ofZ 1) = Ok (Some s) /\ s = 1.
Proof.
  destruct (C89_step PRBS7 prbs7 2 no_flags PAM4 (q [1; 5; 2]) 1 1 1 (ofZ 1) 3 1 prbs7_period) as (s & E & D); [right; auto|cbn; lia|rewrite prbs7_length; cbn; lia|lia|].
  exists s. split; [rewrite prbs7_length in E; exact E|]. apply (direction_pos _ _ _ D); [reflexivity|vm_compute; discriminate].
Qed.
(** Thirty symbols more than two periods. *)
Example C89_length_ex : mueller_muller_step (received (q [1; 5; 4]) 1 (line prbs7 1 no_flags NRZ) 7 (S (2 * length prbs7 + 30))) (reference 1 (line prbs7 1 no_flags NRZ) 7 (S (2 * length prbs7 + 30))) 1 1 thousandth = Ok (Some 1).
Proof.
  apply (C89_length PRBS7 prbs7 1 no_flags NRZ (q [1; 5; 4]) 1 1 7 2 30 thousandth prbs7_period); try reflexivity; [left; auto|cbn; lia|rewrite prbs7_length; cbn; lia|rewrite prbs7_length; lia|]. vm_compute. discriminate.
Qed.
Example C89_lock_ex : exists xc, lock_pattern_to_signal (reference 1 (line prbs7 2 no_flags PAM4) 0 127) (received (q [-3; 5; 4]) 0 (line prbs7 2 no_flags PAM4) 40 200) = Ok (reference 1 (line prbs7 2 no_flags PAM4) 39 127, xc).
Proof.
  destruct (C89_lock PRBS7 prbs7 2 no_flags PAM4 (q [-3; 5; 4]) 0 1 1 40 200 prbs7_period) as (xc & E & _); [right; auto|rewrite prbs7_length; cbn; lia|now apply largest_middle|reflexivity|rewrite prbs7_length; lia|]. exists xc. rewrite prbs7_length in E. exact E.
Qed.

(** (Finding.) A chunk of exactly one period, the natural choice, can drive the phase the wrong way: the detector forms one product less than
    the chunk has symbols, so one product of the period is missing.  With a first postcursor one percent above the precursor it may see the precursor larger. *)
Theorem C89_period_refuted : ~ forall t b k f c h cur a, period_of t b -> carries k c -> largest h cur -> (k * length h + 1 < length b)%nat -> (signal h (cur - 1) < signal h (cur + 1))%Qc ->
  mueller_muller_step (received h cur (line b k f c) a (length b)) (reference 1 (line b k f c) a (length b)) 1 1 thousandth <> Ok (Some (-1)).
Proof.
  intros H. apply (H PRBS7 prbs7 1%nat no_flags NRZ (map (fun z => (z / ofZ 100)%Qc) (q [100; 300; 101])) 1 1 prbs7_period); [left; auto| | | |].
  - split; [cbn; lia|]. split; [vm_compute; reflexivity|]. intros j Hj Nj. cbn [q map length] in Hj. assert (J : j = 0 \/ j = 2) by lia. destruct J as [-> | ->]; split; vm_compute; (reflexivity || discriminate).
  - rewrite prbs7_length. cbn. lia.
  - vm_compute. reflexivity.
  - vm_compute. reflexivity.
Qed.
Print Assumptions C89_period_refuted.
