(** Proofs about the Viterbi decoder on arbitrary received bits. *)
From Verif Require Import Py B_list M_aux S_aux P_gf2 P_aux M_coding M_linear S_linear P_coding P_linear M_conv S_conv P_conv P_trellis M_convdec P_convdec P_viterbi S_viterbitot.
From Coq Require Import QArith.
Import List ListNotations.
Open Scope Z_scope.
Ltac Zify.zify_post_hook ::= Z.div_mod_to_equations.

Lemma dist_missing : forall ch N, bits ch -> length ch = N -> hdistZ ch (repeat (-1) N) = Z.of_nat N + sumZ ch.
Proof.
  induction ch as [|a ch IH]; intros N B L; subst N; [reflexivity|]. inversion B as [|? ? Ba Bc]; subst. specialize (IH _ Bc eq_refl). unfold hdistZ in *. cbn [length repeat map2]. change (sumZ (?a :: ?l)) with (a + sumZ l). rewrite IH. destruct Ba; subst; lia.
Qed.
Lemma sum_bits ch : bits ch -> 0 <= sumZ ch.
Proof. induction 1 as [|a ch Ba Bc IH]; [cbn; lia|]. change (sumZ (a :: ch)) with (a + sumZ ch). destruct Ba; subst; lia. Qed.
Lemma dist_there : forall ch o, bits ch -> bits o -> length ch = length o -> hdistZ ch o <= Z.of_nat (length ch) + sumZ ch /\ (hdistZ ch o = Z.of_nat (length ch) + sumZ ch -> o = repeat 1 (length o)).
Proof.
  induction ch as [|a ch IH]; intros [|b o] B Bo L; try discriminate L; [split; [cbn; lia|reflexivity]|]. inversion B as [|? ? Ba Bc]; inversion Bo as [|? ? Bb Bo']; subst. injection L as L. destruct (IH o Bc Bo' L) as (I1 & I2).
  unfold hdistZ in *. cbn [length repeat map2]. change (sumZ (?a :: ?l)) with (a + sumZ l) in *. split; [destruct Ba, Bb; subst; lia|]. intros E. assert (S := sum_bits ch Bc).
  destruct Ba, Bb; subst; try (exfalso; lia). f_equal. apply I2. lia.
Qed.
Section tot.
Variable c : conv_code.
Hypothesis HS : code_shape c.
Hypothesis HT : trellis_shape c.
Hypothesis HV : check_valid_conv [] c = Ok tt.
Notation n := (length (gen c)).
Notation N := (n_out c).
Let M := all_cells c.
Definition digit (v : Z) : Prop := v = -1 \/ isbit v.
Lemma in_shape i j : length (in_tensor c (entries c) i j) = n /\ Forall digit (in_tensor c (entries c) i j).
Proof.
  unfold in_tensor. destruct (io_get _ _ _) as [[u o]|] eqn:E.
  - destruct (io_get_some c _ _ _ _ E) as (_ & (L & B) & _). split; [exact L|]. eapply Forall_impl; [|exact B]. intros v Hv. right. exact Hv.
  - split; [apply repeat_length|]. apply Forall_forall. intros v Hv. apply repeat_spec in Hv. left. exact Hv.
Qed.
Lemma goes_step s u o e : goes c s u o e <-> isstate c s /\ isinput c u /\ step_fun c s u = (o, e).
Proof.
  unfold goes. split; intros (A & B & C).
  - destruct C as (C & D). split; [exact A|]. split; [exact B|]. rewrite (conv_from_one c s u HS B) in D. rewrite <- D, <- C. cbn [step_fun]. reflexivity.
  - split; [exact A|]. split; [exact B|]. rewrite (conv_from_one c s u HS B), C. split; [|reflexivity]. apply (f_equal snd) in C. exact C.
Qed.
(** the tensors at an existing transition *)
Lemma there i j : (i < 2 ^ M)%nat -> (j < 2 ^ M)%nat -> (exists u o, goes c (st_of c i) u o (st_of c j)) ->
  goes c (st_of c i) (in_tensor c (entries c) i j) (out_tensor c (entries c) i j) (st_of c j).
Proof.
  intros Hi Hj (u & o & G). apply goes_step in G. destruct G as (A & B & E). unfold in_tensor, out_tensor. rewrite !(st_of_uint c) by auto.
  destruct (io_get (entries c) (st_of c i) (st_of c j)) as [[u' o']|] eqn:F.
  - destruct (io_get_some c _ _ _ _ F) as (F1 & F2 & F3). apply goes_step. auto.
  - exfalso. apply (io_get_none c (st_of c i) u A B). rewrite E. exact F.
Qed.
Lemma col_safe ch j from : safe_code c -> bits ch -> length ch = N -> (j < 2 ^ M)%nat ->
  argmin (map (fun ii => hdistZ ch (out_tensor c (entries c) ii j)) (seq 0 (2 ^ M))) = Ok from -> bits (in_tensor c (entries c) from j).
Proof.
  intros SC B L Hj E. destruct (argmin_spec _ _ E) as (A & Mn & _). rewrite map_length, seq_length in A, Mn.
  assert (D : (exists u o, goes c (st_of c from) u o (st_of c j)) \/ io_get (entries c) (uint2bin (mem_total c) (Z.of_nat from)) (uint2bin (mem_total c) (Z.of_nat j)) = None).
  { rewrite !(st_of_uint c) by auto. destruct (io_get (entries c) (st_of c from) (st_of c j)) as [[u o]|] eqn:F; [|auto]. left. exists u, o. apply goes_step. destruct (io_get_some c _ _ _ _ F) as (F1 & F2 & F3). auto. }
  destruct D as [D|D]; [apply (there from j A Hj) in D; apply D|]. exfalso.
  destruct (SC (st_of c j) (st_of_state c j Hj)) as [All|(s & Ex & NO)].
  - destruct (All (st_of c from) (st_of_state c from A)) as (u & o & G). apply goes_step in G. destruct G as (G1 & G2 & G3). apply (io_get_none c (st_of c from) u G1 G2). rewrite G3. cbn [snd]. rewrite !(st_of_uint c) in D by auto. exact D.
  - assert (Hs : isstate c s) by (destruct Ex as (u & o & G); apply G). destruct (st_of_inv c s Hs) as (i & Hi & Ei). subst s.
    assert (G := there i j Hi Hj Ex). assert (NE := NO _ _ G). specialize (Mn i Hi). rewrite !nth_map_seq in Mn by auto. cbn [Nat.add] in Mn.
    assert (OM : out_tensor c (entries c) from j = repeat (-1) N) by (unfold out_tensor; now rewrite D). rewrite OM in Mn. rewrite (dist_missing ch N B L) in Mn.
    apply goes_step in G. destruct G as (_ & _ & G). assert (SO := step_fun_out c (st_of c i) (in_tensor c (entries c) i j)). rewrite G in SO. cbn [fst] in SO. destruct SO as (SO1 & SO2).
    destruct (dist_there ch (out_tensor c (entries c) i j) B SO2 ltac:(congruence)) as (D1 & D2). rewrite L in *. rewrite SO1 in D2. apply NE, D2. lia.
Qed.
Definition fits (t : nat) (p : list (Z * list Z)) : Prop :=
  length p = (2 ^ M)%nat /\ Forall (fun q => 0 <= fst q /\ length (snd q) = (n * t)%nat /\ Forall digit (snd q) /\ (safe_code c -> bits (snd q))) p.
Lemma step_total t prev ch : bits ch -> length ch = N -> (match prev with None => t = 0%nat | Some pl => fits t pl end) ->
  exists p, viterbi_step c (entries c) prev ch = Ok p /\ fits (S t) p.
Proof.
  intros B L I. unfold viterbi_step. rewrite mem_total_cells. fold M.
  destruct (map_res_seq (fun jj =>
    let col := map (fun ii => hdistZ ch (out_tensor c (entries c) ii jj)) (seq 0 (2 ^ M)) in
    from <- argmin col ;; mn <- np_min col ;;
    match prev with
    | None => Ok (mn, in_tensor c (entries c) from jj)
    | Some pl => p <- np_get pl (Z.of_nat from) ;; Ok (mn + fst p, snd p ++ in_tensor c (entries c) from jj)
    end)
    (fun _ q => 0 <= fst q /\ length (snd q) = (n * S t)%nat /\ Forall digit (snd q) /\ (safe_code c -> bits (snd q))) (seq 0 (2 ^ M))) as (p & E1 & E2 & E3).
  { intros j Hj. apply in_seq in Hj. cbv zeta. set (col := map _ (seq 0 (2 ^ M))).
    destruct (argmin_ok col) as [from Ef]. { intros X. apply (f_equal (@length _)) in X. unfold col in X. rewrite map_length, seq_length in X. pose proof (pow2_pos M). cbn in X. lia. }
    destruct (argmin_spec _ _ Ef) as (A & _). unfold col in A. rewrite map_length, seq_length in A. rewrite Ef, (np_min_spec _ _ Ef). cbn [bind].
    assert (C0 : 0 <= nth from col 0) by (unfold col; rewrite nth_map_seq by auto; apply hdistZ_nonneg). destruct (in_shape from j) as (I1 & I2).
    assert (I3 : safe_code c -> bits (in_tensor c (entries c) from j)) by (intros SC; apply (col_safe ch j from SC B L ltac:(lia) Ef)).
    destruct prev as [pl|].
    - destruct I as (Lp & Fp). rewrite (np_get_nth pl from (0, [])) by lia. cbn [bind]. eexists. split; [reflexivity|]. cbn [fst snd]. rewrite Forall_forall in Fp. destruct (Fp (nth from pl (0, []))) as (F1 & F2 & F3 & F4); [apply nth_In; lia|].
      split; [lia|]. split; [rewrite app_length; lia|]. split; [apply Forall_app; auto|]. intros SC. apply bits_app. auto.
    - eexists. split; [reflexivity|]. cbn [fst snd]. subst t. split; [lia|]. split; [lia|]. auto. }
  rewrite seq_length in E2, E3. exists p. split; [exact E1|]. split; [exact E2|]. apply Forall_forall. intros q Hq. apply (In_nth _ _ (0, [])) in Hq. destruct Hq as (k & Hk & <-). apply (E3 k 0%nat). lia.
Qed.
Lemma run_total : forall chs t prev, Forall (fun ch => bits ch /\ length ch = N) chs -> (match prev with None => t = 0%nat | Some pl => fits t pl end) ->
  exists p, viterbi_run c (entries c) prev chs = Ok p /\ match p with None => prev = None /\ chs = [] | Some pl => fits (t + length chs) pl end.
Proof.
  induction chs as [|ch chs IH]; intros t prev F I; cbn [viterbi_run length].
  - exists prev. split; [reflexivity|]. destruct prev; [now rewrite Nat.add_0_r|auto].
  - inversion F as [|? ? (B & L) F']; subst. destruct (step_total t prev ch B L I) as (p & E & Fp). rewrite E. cbn [bind]. destruct (IH (S t) (Some p) F' Fp) as (q & Eq & Fq). exists q. split; [exact Eq|]. destruct q as [pl|]; [|destruct Fq; discriminate]. now replace (t + S (length chs))%nat with (S t + length chs)%nat by lia.
Qed.
Lemma block_total blk : bits blk -> (N <= length blk)%nat ->
  exists d last q, viterbi_block c (entries c) blk = Ok (d, last, q) /\ length d = (n * (length blk / N))%nat /\ (last < 2 ^ M)%nat /\ Forall digit d /\ (safe_code c -> bits d) /\ (0 <= q <= 1 # 2)%Q.
Proof.
  intros B L. assert (Ho := cs_out c HS). destruct (run_total (chunks N blk) 0 None) as (p & E & I); [|reflexivity|].
  { apply Forall_forall. intros ch Hch. split; [|assert (R := chunks_rows N blk ltac:(lia)); rewrite Forall_forall in R; auto]. rewrite chunks_blocks in Hch by lia. apply in_map_iff in Hch. destruct Hch as (b & <- & _). now apply block_bits. }
  assert (D : (1 <= length blk / N)%nat) by (apply Nat.div_str_pos; lia).
  unfold viterbi_block. rewrite E. cbn [bind]. destruct p as [fin|]; [|destruct I as (_ & I); apply (f_equal (@length _)) in I; rewrite chunks_count in I; cbn in I; lia].
  destruct I as (Lf & Ff). rewrite chunks_count in Ff. cbn [Nat.add] in Ff. assert (P := pow2_pos M).
  destruct (argmin_ok (map fst fin)) as [last El]; [intros X; apply (f_equal (@length _)) in X; rewrite map_length, Lf in X; cbn in X; lia|].
  rewrite El. cbn [bind]. destruct (argmin_spec _ _ El) as (A & _). rewrite map_length, Lf in A.
  rewrite (np_get_nth _ last []) by (rewrite map_length; lia). cbn [bind]. rewrite (np_min_spec _ _ El). cbn [bind]. rewrite !(map_nth_lt _ _ _ (0, [])) by lia. eexists _, last, _. split; [reflexivity|].
  rewrite Forall_forall in Ff. destruct (Ff (nth last fin (0, []))) as (F1 & F2 & F3 & F4); [apply nth_In; lia|]. split; [exact F2|]. split; [exact A|]. split; [exact F3|]. split; [exact F4|].
  match goal with |- context [Nat.ltb 1 ?k] => set (cnt := k) end. destruct (Nat.ltb_spec 1 cnt); [|split; discriminate]. unfold Qle. cbn [Qnum Qden]. split; [lia|]. rewrite Z.mul_1_l. assert (Z.pos (Pos.of_nat cnt) = Z.of_nat cnt) by (rewrite <- positive_nat_Z, Nat2Pos.id; lia). lia.
Qed.
Lemma viterbi_total r tb : bits r -> (N <= tb)%nat -> (tb <= length r)%nat ->
  exists d last p, decoding_conv_viterbi r c tb = Ok (d, last, p) /\ length d = (length r / tb * (n * (tb / N)))%nat /\ (last < 2 ^ M)%nat /\ length p = (length r / tb)%nat /\
    Forall (fun v => v = -1 \/ isbit v) d /\ (safe_code c -> bits d) /\ Forall (fun q => 0 <= q <= 1 # 2)%Q p.
Proof.
  intros B HN L. assert (Ho := cs_out c HS). unfold decoding_conv_viterbi. rewrite (check_any [] r c HV B). cbn [bind]. rewrite (gen_match c HS).
  replace (N =? 0)%nat with false by (symmetry; apply Nat.eqb_neq; lia). replace (tb =? 0)%nat with false by (symmetry; apply Nat.eqb_neq; lia).
  cbn [orb]. rewrite trellis_entries_ok by auto. cbn [bind]. rewrite trunc_reshape_ok by lia. cbn [bind].
  destruct (map_res_seq (viterbi_block c (entries c)) (fun _ t => length (fst (fst t)) = (n * (tb / N))%nat /\ (snd (fst t) < 2 ^ M)%nat /\ Forall digit (fst (fst t)) /\ (safe_code c -> bits (fst (fst t))) /\ (0 <= snd t <= 1 # 2)%Q) (chunks tb r)) as (l & E1 & E2 & E3).
  { intros blk Hb. assert (Lb : length blk = tb) by (assert (R := chunks_rows tb r ltac:(lia)); rewrite Forall_forall in R; auto).
    assert (Bb : bits blk) by (rewrite chunks_blocks in Hb by lia; apply in_map_iff in Hb; destruct Hb as (b & <- & _); now apply block_bits).
    destruct (block_total blk Bb ltac:(lia)) as (d & last & q & E & H1 & H2 & H3 & H4 & H5). exists (d, last, q). cbn [fst snd]. rewrite Lb in H1. split; [exact E|]. repeat (split; [assumption|]). assumption. }
  rewrite chunks_count in E2, E3. assert (Hnb : (1 <= length r / tb)%nat) by (apply Nat.div_str_pos; lia).
  assert (F : Forall (fun t => length (fst (fst t)) = (n * (tb / N))%nat /\ (snd (fst t) < 2 ^ M)%nat /\ Forall digit (fst (fst t)) /\ (safe_code c -> bits (fst (fst t))) /\ (0 <= snd t <= 1 # 2)%Q) l).
  { apply Forall_forall. intros t Ht. apply (In_nth _ _ ([], 0%nat, 0%Q)) in Ht. destruct Ht as (k & Hk & <-). apply (E3 k []). lia. }
  rewrite E1. cbn [bind]. destruct (rev l) as [|[[dl last] ql] rl] eqn:R; [apply (f_equal (@length _)) in R; rewrite rev_length, E2 in R; cbn in R; lia|].
  eexists _, last, _. split; [reflexivity|]. split; [|split; [|split; [now rewrite map_length|split; [|split]]]].
  - rewrite (concat_length_const (n * (tb / N))); [now rewrite map_length, E2|]. apply Forall_forall. intros w Hw. apply in_map_iff in Hw. destruct Hw as (t & <- & Ht). rewrite Forall_forall in F. apply F, Ht.
  - rewrite Forall_forall in F. apply (F (dl, last, ql)). apply in_rev. rewrite R. now left.
  - apply Forall_concat, Forall_forall. intros w Hw. apply in_map_iff in Hw. destruct Hw as (t & <- & Ht). rewrite Forall_forall in F. apply F, Ht.
  - intros SC. apply Forall_concat, Forall_forall. intros w Hw. apply in_map_iff in Hw. destruct Hw as (t & <- & Ht). rewrite Forall_forall in F. now apply F.
  - apply Forall_forall. intros w Hw. apply in_map_iff in Hw. destruct Hw as (t & <- & Ht). rewrite Forall_forall in F. apply F, Ht.
Qed.
End tot.
Lemma one_cell_safe c : one_cell c -> safe_code c.
Proof.
  intros O e (Le & Be). left. intros s (Ls & Bs). set (u := map (fun i => (nth 0 (unpack c e i) 0 - dotZ (fb_taps c i) (unpack c s i)) mod 2) (seq 0 (length (gen c)))). exists u, (conv_from c (unpack c s) u).
  split; [split; auto|]. split; [split; [unfold u; now rewrite map_length, seq_length|apply Forall_forall; intros x Hx; apply in_map_iff in Hx; destruct Hx as (i & <- & _); apply isbit_mod]|]. split; [|reflexivity].
  unfold state_after. rewrite <- (pack_unpack c e Le). f_equal. apply map_ext_in. intros i Hi. apply in_seq in Hi. cbn [reg_hist].
  assert (LU := unpack_length c e i ltac:(lia) Le). assert (BU := unpack_bits c e i Be). specialize (O i ltac:(lia)). destruct (cells c i) as [|[|k]]; [|clear O|lia].
  - destruct (unpack c e i); [reflexivity|discriminate LU].
  - destruct (unpack c e i) as [|x [|y l]] eqn:E; try discriminate LU. cbn [firstn]. f_equal. unfold in_bit. cbn [Nat.mul Nat.add]. unfold u. rewrite nth_map_seq by lia. cbn [Nat.add]. rewrite E. cbn [nth].
    inversion BU as [|? ? Bx _]; subst. destruct Bx; subst; lia.
Qed.
Lemma viterbi_returns c r tb : code_shape c -> trellis_shape c -> check_valid_conv [] c = Ok tt -> bits r ->
  ((exists v, decoding_conv_viterbi r c tb = Ok v) <-> (n_out c <= tb <= length r)%nat) /\
  (tb = 0%nat -> decoding_conv_viterbi r c tb = Raise ZeroDivisionError) /\
  ((length r < tb)%nat -> decoding_conv_viterbi r c tb = Raise UnboundLocalError) /\
  ((0 < tb < n_out c)%nat -> (tb <= length r)%nat -> decoding_conv_viterbi r c tb = Raise IndexError).
Proof.
  intros HS HT HV B. assert (Ho := cs_out c HS).
  assert (A0 : tb = 0%nat -> decoding_conv_viterbi r c tb = Raise ZeroDivisionError).
  { intros ->. unfold decoding_conv_viterbi. rewrite (check_any [] r c HV B). cbn [bind]. rewrite (gen_match c HS). rewrite Nat.eqb_refl, orb_true_r. reflexivity. }
  assert (A1 : (length r < tb)%nat -> decoding_conv_viterbi r c tb = Raise UnboundLocalError) by (intros L; now apply viterbi_short).
  assert (A2 : (0 < tb < n_out c)%nat -> (tb <= length r)%nat -> decoding_conv_viterbi r c tb = Raise IndexError).
  { intros T L. unfold decoding_conv_viterbi. rewrite (check_any [] r c HV B). cbn [bind]. rewrite (gen_match c HS).
    replace (n_out c =? 0)%nat with false by (symmetry; apply Nat.eqb_neq; lia). replace (tb =? 0)%nat with false by (symmetry; apply Nat.eqb_neq; lia).
    cbn [orb]. rewrite trellis_entries_ok by auto. cbn [bind]. rewrite trunc_reshape_ok by lia. cbn [bind].
    destruct (chunks tb r) as [|blk bl] eqn:E; [apply (f_equal (@length _)) in E; rewrite chunks_count in E; assert (1 <= length r / tb)%nat by (apply Nat.div_str_pos; lia); cbn in E; lia|].
    assert (Lb : length blk = tb) by (assert (R := chunks_rows tb r ltac:(lia)); rewrite E in R; now inversion R).
    cbn [map_res]. unfold viterbi_block at 1. replace (chunks (n_out c) blk) with (@nil (list Z)); [reflexivity|]. unfold chunks. rewrite Lb, Nat.div_small by lia. reflexivity. }
  split; [|auto]. split.
  - intros (v & E). destruct (Nat.eq_dec tb 0) as [T0|T0]; [rewrite A0 in E by auto; discriminate E|]. destruct (le_lt_dec tb (length r)) as [L|L]; [|rewrite A1 in E by auto; discriminate E].
    destruct (le_lt_dec (n_out c) tb) as [L2|L2]; [lia|]. rewrite A2 in E by lia. discriminate E.
  - intros (L1 & L2). destruct (viterbi_total c HS HT HV r tb B L1 L2) as (d & last & p & E & _). eauto.
Qed.
