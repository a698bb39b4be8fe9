(** Proofs for the block ML decoder of convolutional codes, and linearity of the encoder. *)
From Verif Require Import Py B_list M_aux S_aux P_gf2 P_aux M_coding M_linear S_linear P_coding P_linear M_conv S_conv P_conv P_trellis M_convdec.
From Coq Require Import QArith Permutation.
Open Scope Z_scope.
Ltac Zify.zify_post_hook ::= Z.div_mod_to_equations.

(** * Linearity and causality *)
Definition xsum (x y : nat -> Z) : nat -> Z := fun t => (x t + y t) mod 2.
Lemma dotZ_xor r u v : length u = length v -> dotZ r (xor_bits u v) mod 2 = (dotZ r u + dotZ r v) mod 2.
Proof.
  intros L. rewrite <- dotZ_map2_add by auto. apply dotZ_mod_ext; [unfold xor_bits; now rewrite !map2_length|].
  intros i. unfold xor_bits. destruct (lt_dec i (length u)) as [H|H].
  - rewrite !(map2_nth _ _ _ _ 0 0) by lia. now rewrite Z.mod_mod by lia.
  - rewrite !nth_overflow by (rewrite map2_length; lia). reflexivity.
Qed.
Lemma reg_hist_xor f x y t : reg_hist f [] (xsum x y) t = xor_bits (reg_hist f [] x t) (reg_hist f [] y t).
Proof.
  induction t; [reflexivity|]. cbn [reg_hist]. change (xor_bits (?a :: ?u) (?b :: ?v)) with ((a + b) mod 2 :: xor_bits u v).
  rewrite <- IHt. f_equal. unfold xsum at 1. rewrite IHt.
  rewrite Zplus_mod, dotZ_xor by (now rewrite !reg_hist_length). rewrite Z.mod_mod by lia.
  rewrite <- Zplus_mod, <- (Zplus_mod (x t + _)). f_equal. lia.
Qed.
Lemma conv_bit_xor c x y t j : length x = length y -> conv_bit c zero_regs (xor_bits x y) t j = (conv_bit c zero_regs x t j + conv_bit c zero_regs y t j) mod 2.
Proof.
  intros L. unfold conv_bit. rewrite <- Zplus_mod, <- sumZ_map_add. apply sumZ_mod. intros i _.
  rewrite (reg_hist_ext _ _ _ (xsum (in_bit c x i) (in_bit c y i))).
  - rewrite reg_hist_xor. apply dotZ_xor. now rewrite !reg_hist_length.
  - intros s _. unfold in_bit, xsum, xor_bits. set (k := (s * length (gen c) + i)%nat). destruct (lt_dec k (length x)) as [H|H].
    + now rewrite (map2_nth _ _ _ _ 0 0) by lia.
    + rewrite !nth_overflow by (rewrite ?map2_length; lia). reflexivity.
Qed.
Lemma conv_from_xor c x y : length x = length y -> conv_from c zero_regs (xor_bits x y) = xor_bits (conv_from c zero_regs x) (conv_from c zero_regs y).
Proof.
  intros L. unfold conv_from. assert (E : conv_steps c (xor_bits x y) = conv_steps c x /\ conv_steps c y = conv_steps c x).
  { unfold conv_steps. rewrite xor_bits_length by auto. now rewrite L. }
  destruct E as [-> ->]. rewrite <- (xor_concat _ _ (n_out c)) by (intros; now rewrite !map_length, seq_length).
  f_equal. apply map_ext. intros t. apply (nth_ext_def 0).
  - rewrite xor_bits_length by (now rewrite !map_length). now rewrite !map_length.
  - rewrite map_length, seq_length. intros j Hj. unfold xor_bits at 2. rewrite (map2_nth _ _ _ _ 0 0) by (now rewrite map_length, seq_length).
    rewrite !nth_map_seq by auto. now apply conv_bit_xor.
Qed.
Lemma conv_bit_ext c init u v t j : (forall i s, (i < length (gen c))%nat -> (s <= t)%nat -> in_bit c u i s = in_bit c v i s) -> conv_bit c init u t j = conv_bit c init v t j.
Proof.
  intros H. unfold conv_bit. f_equal. f_equal. apply map_ext_in. intros i Hi. apply in_seq in Hi. f_equal. apply reg_hist_ext. intros s Hs. apply H; lia.
Qed.
Lemma conv_steps_mult c u k : (0 < length (gen c))%nat -> length u = (k * length (gen c))%nat -> conv_steps c u = k.
Proof. intros H E. unfold conv_steps. rewrite E. symmetry. apply Nat.div_unique with (length (gen c) - 1)%nat; [lia|]. nia. Qed.
Lemma conv_from_prefix c init x z k : (0 < length (gen c))%nat -> length x = (k * length (gen c))%nat ->
  firstn (k * n_out c) (conv_from c init (x ++ z)) = conv_from c init x.
Proof.
  intros Hn L. unfold conv_from. rewrite (conv_steps_mult c x k) by auto.
  assert (Hk : (k <= conv_steps c (x ++ z))%nat).
  { unfold conv_steps. rewrite app_length, L. apply Nat.div_le_lower_bound; [lia|]. nia. }
  replace (conv_steps c (x ++ z)) with (k + (conv_steps c (x ++ z) - k))%nat by lia. rewrite seq_app, map_app, concat_app, firstn_app.
  assert (E : concat (map (fun t => map (conv_bit c init (x ++ z) t) (seq 0 (n_out c))) (seq 0 k)) =
              concat (map (fun t => map (conv_bit c init x t) (seq 0 (n_out c))) (seq 0 k))).
  { f_equal. apply map_ext_in. intros t Ht. apply in_seq in Ht. apply map_ext. intros j. apply conv_bit_ext. intros i s Hi Hs. unfold in_bit.
    apply app_nth1. rewrite L. nia. }
  rewrite E. assert (Le : length (concat (map (fun t => map (conv_bit c init x t) (seq 0 (n_out c))) (seq 0 k))) = (k * n_out c)%nat).
  { rewrite (concat_length_const (n_out c)); [now rewrite map_length, seq_length|]. apply Forall_forall. intros r Hr.
    apply in_map_iff in Hr. destruct Hr as (t & <- & _). now rewrite map_length, seq_length. }
  rewrite Le, Nat.sub_diag, firstn_O, app_nil_r. apply firstn_all2. lia.
Qed.

Lemma gen_match c : code_shape c -> forall (A : Type) (a b : A), match gen c with [] => a | _ :: _ => b end = b.
Proof. intros H. assert (X := cs_in c H). intros. destruct (gen c); congruence. Qed.
(** * Splitting a stream at a state *)
Section dec.
Variable c : conv_code.
Hypothesis HS : code_shape c.
Hypothesis HT : trellis_shape c.
Hypothesis HV : check_valid_conv [] c = Ok tt.
Notation n := (length (gen c)).
Lemma conv_split st x t0 v T : isstate c st -> bits x -> bits v -> (forall t, (t < T)%nat -> chunk_at c v t = chunk_at c x (t0 + t)) ->
  (forall t, (t <= T)%nat -> state_after c st x (t0 + t) = state_after c (state_after c st x t0) v t) /\
  (forall t, (t < T)%nat -> map (conv_bit c (unpack c st) x (t0 + t)) (seq 0 (n_out c)) =
     map (conv_bit c (unpack c (state_after c st x t0)) v t) (seq 0 (n_out c))).
Proof.
  intros Hs Bx Bv H. set (st' := state_after c st x t0).
  assert (Hs' : isstate c st') by (destruct Hs; split; [now apply state_after_length|now apply state_after_bits]).
  assert (A : forall t, (t <= T)%nat -> state_after c st x (t0 + t) = state_after c st' v t).
  { induction t; intros Ht.
    - rewrite Nat.add_0_r, state_after_0 by apply Hs'. reflexivity.
    - assert (E1 := step_fun_at c HS HT HV st x (t0 + t) Hs Bx). assert (E2 := step_fun_at c HS HT HV st' v t Hs' Bv).
      rewrite H, <- IHt in E2 by lia. rewrite E1 in E2. replace (t0 + S t)%nat with (S (t0 + t)) by lia. congruence. }
  split; auto. intros t Ht. assert (E1 := step_fun_at c HS HT HV st x (t0 + t) Hs Bx). assert (E2 := step_fun_at c HS HT HV st' v t Hs' Bv).
  rewrite H, <- A in E2 by lia. rewrite E1 in E2. congruence.
Qed.
Lemma chunk_block_at x b T t : (t < T)%nat -> chunk_at c (block (n * T) b x) t = chunk_at c x (b * T + t).
Proof.
  intros Ht. unfold chunk_at. apply map_ext_in. intros i Hi. apply in_seq in Hi. unfold in_bit. rewrite block_nth by nia. f_equal. nia.
Qed.
Lemma conv_from_block st x T b : isstate c st -> bits x -> (0 < T)%nat -> (b * T + T <= conv_steps c x)%nat ->
  block (T * n_out c) b (conv_from c (unpack c st) x) = conv_from c (unpack c (state_after c st x (b * T))) (block (n * T) b x).
Proof.
  intros Hs Bx HT0 Hb. assert (Hn := gen_pos c HS). assert (Ho := cs_out c HS).
  destruct (conv_split st x (b * T) (block (n * T) b x) T Hs Bx) as [_ A]; [now apply block_bits| |].
  { intros t Ht. now apply chunk_block_at. }
  apply (nth_ext_def 0).
  - rewrite block_length, conv_from_length. rewrite (conv_steps_mult c _ T); [auto|auto|]. rewrite block_length. lia.
  - rewrite block_length. intros k Hk. rewrite block_nth by auto. unfold conv_from.
    set (N := n_out c) in *. set (t := (k / N)%nat). set (j := (k mod N)%nat).
    assert (Hj : (j < N)%nat) by (apply Nat.mod_upper_bound; lia). assert (Ek : (k = N * t + j)%nat) by (apply Nat.div_mod; lia).
    assert (Htt : (t < T)%nat) by nia.
    rewrite !(concat_nth_const 0 N).
    2,4: lia.
    2,3: apply Forall_forall; intros r Hr; apply in_map_iff in Hr; destruct Hr as (? & <- & _); now rewrite map_length, seq_length.
    replace ((b * (T * N) + k) / N)%nat with (b * T + t)%nat by (apply Nat.div_unique with j; nia).
    replace ((b * (T * N) + k) mod N)%nat with j by (apply Nat.mod_unique with (b * T + t)%nat; nia).
    fold t j. assert (CS : conv_steps c (block (n * T) b x) = T) by (apply conv_steps_mult; [auto|rewrite block_length; lia]).
    rewrite (nth_map_seq _ (conv_steps c x)) by lia. rewrite (nth_map_seq _ (conv_steps c (block (n * T) b x))) by lia. cbn [Nat.add]. now rewrite A.
Qed.

(** * ML decoder *)
Section ml.
Variables (T : nat).
Hypothesis HT0 : (0 < T)%nat.
Let tb := (T * n_out c)%nat.
Let K := (n * T)%nat.
Let M := all_cells c.
Lemma tb_div : (tb / n_out c = T)%nat.
Proof. unfold tb. apply Nat.div_mul. assert (X := cs_out c HS). lia. Qed.
Definition codeword_of (st u : list Z) : list Z := conv_from c (unpack c st) u.
Lemma cw_length st u : length u = K -> length (codeword_of st u) = tb.
Proof. intros L. unfold codeword_of. rewrite conv_from_length, (conv_steps_mult c _ T); [reflexivity|now apply gen_pos|rewrite L; unfold K; lia]. Qed.
Lemma conv_cw_ok st u : isstate c st -> length u = K -> bits u -> conv_cw c (entries c) tb st u = Ok (codeword_of st u).
Proof.
  intros Hs L B. assert (Hn := gen_pos c HS). unfold conv_cw, reshape_rows.
  replace (length u mod n =? 0)%nat with true by (symmetry; apply Nat.eqb_eq; rewrite L; unfold K; rewrite Nat.mul_comm; apply Nat.mod_mul; lia).
  replace (n =? 0)%nat with false by (symmetry; apply Nat.eqb_neq; lia). cbn [bind negb andb orb].
  rewrite chunks_blocks by auto. replace (length u / n)%nat with T by (rewrite L; unfold K; rewrite Nat.mul_comm, Nat.div_mul; lia).
  rewrite (map_ext (fun b => block n b u) (chunk_at c u)) by (intros; now rewrite chunk_at_block).
  rewrite walk_ok by auto. cbn [bind fst]. f_equal.
  assert (E : concat (map (fun t => map (conv_bit c (unpack c st) u t) (seq 0 (n_out c))) (seq 0 T)) = codeword_of st u).
  { unfold codeword_of, conv_from. rewrite (conv_steps_mult c u T); auto. rewrite L. unfold K. lia. }
  rewrite E, cw_length, Nat.sub_diag by auto. apply app_nil_r.
Qed.
Definition cbook : list (list Z) :=
  concat (map (fun st => map (codeword_of st) (get_bin_perm K)) (get_bin_perm M)).
Lemma codebook_ok : conv_codebook c (entries c) tb = Ok cbook.
Proof.
  unfold conv_codebook. rewrite tb_div. fold K. rewrite mem_total_cells. fold M.
  rewrite (map_res_ok _ (fun st => map (codeword_of st) (get_bin_perm K))); [reflexivity|].
  intros st Hs. apply map_res_ok. intros u Hu. unfold M in Hs. rewrite <- mem_total_cells, states_In in Hs. apply get_bin_perm_In in Hu. apply conv_cw_ok; auto; apply Hu.
Qed.
Lemma cbook_rows : Forall (fun r => length r = (2 ^ K)%nat) (map (fun st => map (codeword_of st) (get_bin_perm K)) (get_bin_perm M)).
Proof. apply Forall_forall. intros r Hr. apply in_map_iff in Hr. destruct Hr as (st & <- & _). now rewrite map_length, get_bin_perm_length. Qed.
Lemma cbook_length : length cbook = (2 ^ M * 2 ^ K)%nat.
Proof. unfold cbook. rewrite (concat_length_const (2 ^ K)) by apply cbook_rows. now rewrite map_length, get_bin_perm_length. Qed.
Lemma cbook_nth s i : (s < 2 ^ M)%nat -> (i < 2 ^ K)%nat ->
  nth (s * 2 ^ K + i) cbook [] = codeword_of (nth s (get_bin_perm M) []) (nth i (get_bin_perm K) []).
Proof.
  intros Hs Hi. unfold cbook. rewrite (concat_nth_const [] (2 ^ K)) by (auto using cbook_rows; apply pow2_pos).
  replace ((s * 2 ^ K + i) / 2 ^ K)%nat with s by (apply Nat.div_unique with i; lia).
  replace ((s * 2 ^ K + i) mod 2 ^ K)%nat with i by (apply Nat.mod_unique with s; lia).
  rewrite (map_nth_lt _ _ _ []) by (now rewrite get_bin_perm_length). rewrite (map_nth_lt _ _ _ []) by (now rewrite get_bin_perm_length). reflexivity.
Qed.
Lemma cbook_Forall : Forall (fun w => length w = tb /\ bits w) cbook.
Proof.
  apply Forall_forall. intros w Hw. unfold cbook in Hw. apply in_concat in Hw. destruct Hw as (r & Hr & Hw). apply in_map_iff in Hr. destruct Hr as (st & <- & _).
  apply in_map_iff in Hw. destruct Hw as (u & <- & Hu). apply get_bin_perm_In in Hu. split; [apply cw_length, Hu|apply conv_from_bits].
Qed.
Lemma perms_eq : conv_perms c tb = tile (2 ^ M) (get_bin_perm K).
Proof. unfold conv_perms. rewrite tb_div, mem_total_cells. reflexivity. Qed.
Lemma perms_length : length (conv_perms c tb) = length cbook.
Proof. rewrite perms_eq, tile_length, get_bin_perm_length, cbook_length. reflexivity. Qed.
Lemma perms_nth s i : (s < 2 ^ M)%nat -> (i < 2 ^ K)%nat -> nth (s * 2 ^ K + i) (conv_perms c tb) [] = nth i (get_bin_perm K) [].
Proof.
  intros Hs Hi. rewrite perms_eq, tile_nth by (rewrite get_bin_perm_length; nia). rewrite get_bin_perm_length.
  now replace ((s * 2 ^ K + i) mod 2 ^ K)%nat with i by (apply Nat.mod_unique with s; lia).
Qed.
Definition ml_best (r w : list Z) : Prop :=
  length w = K /\ bits w /\ exists st, isstate c st /\
    forall st' w', isstate c st' -> length w' = K -> bits w' -> (hdist (codeword_of st w) r <= hdist (codeword_of st' w') r)%nat.
(** the index of the first nearest codeword, decomposed *)
Lemma first_best r i : first_nearest cbook r i ->
  exists st, isstate c st /\ length (nth i (conv_perms c tb) []) = K /\ bits (nth i (conv_perms c tb) []) /\
    nth i cbook [] = codeword_of st (nth i (conv_perms c tb) []) /\
    forall st' w', isstate c st' -> length w' = K -> bits w' -> (hdist (nth i cbook []) r <= hdist (codeword_of st' w') r)%nat.
Proof.
  intros (Hi & Hm & _). rewrite cbook_length in Hi. set (P := (2 ^ K)%nat) in *. assert (HP : (0 < P)%nat) by apply pow2_pos.
  set (s := (i / P)%nat). set (j := (i mod P)%nat). assert (Ei : (i = s * P + j)%nat) by (unfold s, j; assert (D := Nat.div_mod i P); lia).
  assert (Hj : (j < P)%nat) by (apply Nat.mod_upper_bound; lia). assert (Hs : (s < 2 ^ M)%nat) by nia.
  exists (nth s (get_bin_perm M) []).
  assert (Is : bv M (nth s (get_bin_perm M) [])) by (apply get_bin_perm_In, nth_In; now rewrite get_bin_perm_length).
  assert (Iw : bv K (nth j (get_bin_perm K) [])) by (apply get_bin_perm_In, nth_In; now rewrite get_bin_perm_length).
  assert (Ep : nth i (conv_perms c tb) [] = nth j (get_bin_perm K) []) by (rewrite Ei; now apply perms_nth).
  rewrite Ep. split; [exact Is|]. split; [apply Iw|]. split; [apply Iw|]. split; [rewrite Ei; now apply cbook_nth|].
  intros st' w' [Ls Bs] Lw Bw. destruct (word_index M st' Ls Bs) as (s' & Hs' & _ & <-). destruct (word_index K w' Lw Bw) as (j' & Hj' & _ & <-).
  rewrite <- cbook_nth by auto. apply Hm. rewrite cbook_length. unfold P. nia.
Qed.
Lemma filter_map_length {A B} (f : A -> B) p (l : list A) : length (filter p (map f l)) = length (filter (fun a => p (f a)) l).
Proof. induction l as [|a l IH]; [reflexivity|]. cbn [map filter]. destruct (p (f a)); simpl; auto. Qed.
Lemma list_prod_perm {A B} (a a' : list A) (b b' : list B) : Permutation a a' -> Permutation b b' -> Permutation (list_prod a b) (list_prod a' b').
Proof.
  intros Ha Hb. transitivity (list_prod a' b).
  - clear Hb. induction Ha; cbn [list_prod]; [reflexivity|now apply Permutation_app_head| |etransitivity; eauto].
    rewrite !app_assoc. apply Permutation_app_tail, Permutation_app_comm.
  - clear Ha. induction a' as [|x a' IH]; [reflexivity|]. cbn [list_prod]. apply Permutation_app; auto. now apply Permutation_map.
Qed.
Lemma count_pairs r d : length (filter (fun w => (hdist w r =? d)%nat) cbook) = pairs_at c K r d.
Proof.
  unfold pairs_at. assert (E : cbook = map (fun p => codeword_of (fst p) (snd p)) (list_prod (get_bin_perm M) (get_bin_perm K))).
  { unfold cbook. induction (get_bin_perm M) as [|s l IH]; [reflexivity|]. cbn [map concat list_prod]. rewrite map_app, IH, map_map. reflexivity. }
  rewrite E, filter_map_length. apply filter_perm_length. apply list_prod_perm; apply words_perm.
Qed.
Lemma cbook_ne : cbook <> [].
Proof. intros E. apply (f_equal (@length _)) in E. rewrite cbook_length in E. assert (X := pow2_pos M). assert (Y := pow2_pos K). simpl in E. nia. Qed.
Lemma tb_pos : (0 < tb)%nat. Proof. assert (X := cs_out c HS). unfold tb. nia. Qed.
Lemma n_out_ne : (n_out c =? 0)%nat = false. Proof. assert (X := cs_out c HS). apply Nat.eqb_neq. lia. Qed.
Lemma decoding_conv_ml_ep_spec r : bits r ->
  exists d p a, decoding_conv_ml_ep r c tb = Ok (d, p, a) /\ decoding_conv_ml r c tb = Ok d /\
    length d = (length r / tb * K)%nat /\ length p = (length r / tb)%nat /\ length a = length r /\
    (forall b, (b < length r / tb)%nat ->
       ml_best (block tb b r) (block K b d) /\
       exists st, isstate c st /\ block tb b a = codeword_of st (block K b d) /\
       (forall st' w', isstate c st' -> length w' = K -> bits w' -> (hdist (block tb b a) (block tb b r) <= hdist (codeword_of st' w') (block tb b r))%nat) /\
       nth b p 0%Q = (if (hdist (block tb b a) (block tb b r) =? 0)%nat then 0%Q else (1 # Pos.of_nat (pairs_at c K (block tb b r) (hdist (block tb b a) (block tb b r))))%Q)) /\
    (forall i, (length r / tb * tb <= i)%nat -> nth i a 0 = nth i r 0).
Proof.
  intros Br. assert (V := check_any [] r c HV Br). assert (Htb := tb_pos).
  set (nb := (length r / tb)%nat).
  assert (BK := blocks_ok tb r Br Htb).
  destruct (map_res_seq (ml_block_ep (conv_perms c tb) cbook)
     (fun blk t => exists i, first_nearest cbook blk i /\ t = (nth i (conv_perms c tb) [],
        if (hdist (nth i cbook []) blk =? 0)%nat then 0%Q else (1 # Pos.of_nat (length (filter (fun w => (hdist w blk =? hdist (nth i cbook []) blk)%nat) cbook)))%Q,
        nth i cbook [])) (chunks tb r)) as (ts & E1 & E2 & E3).
  { intros blk Hb. destruct (BK blk Hb) as [Lb Bb].
    destruct (ml_block_ep_ok tb cbook cbook_ne cbook_Forall (conv_perms c tb) blk perms_length Lb Bb) as (i & F & E).
    eexists. split; [exact E|]. exists i. split; auto. }
  assert (E0 : map_res (ml_block (conv_perms c tb) cbook) (chunks tb r) = Ok (map (fun t => fst (fst t)) ts)).
  { destruct (map_res_seq (ml_block (conv_perms c tb) cbook) (fun blk t => exists i, first_nearest cbook blk i /\ t = nth i (conv_perms c tb) []) (chunks tb r)) as (ts' & F1 & F2 & F3).
    { intros blk Hb. destruct (BK blk Hb) as [Lb Bb]. destruct (ml_block_ok tb cbook cbook_ne cbook_Forall (conv_perms c tb) blk perms_length Lb Bb) as (i & F & E).
      eexists. split; [exact E|]. exists i. split; auto. }
    rewrite F1. f_equal. apply (nth_ext_def []); [rewrite map_length; lia|]. intros b Hb. rewrite F2 in Hb.
    rewrite (map_nth_lt _ _ _ ([], 0%Q, [])) by lia.
    destruct (F3 b [] [] Hb) as (i & Fi & ->). destruct (E3 b [] ([], 0%Q, []) Hb) as (i' & Fi' & ->). cbn [fst]. f_equal. eapply first_nearest_unique; eauto. }
  assert (Lc : length (chunks tb r) = nb) by apply chunks_count. rewrite Lc in *.
  set (d := concat (map (fun t => fst (fst t)) ts)). set (p := map (fun t => snd (fst t)) ts).
  set (a := concat (map snd ts) ++ skipn (length r - length r mod tb) r).
  exists d, p, a.
  assert (EG := gen_match c HS).
  assert (FD : Forall (fun w => length w = K) (map (fun t => fst (fst t)) ts)).
  { apply Forall_forall. intros w Hw. apply (In_nth _ _ []) in Hw. destruct Hw as (b & Hb & <-). rewrite map_length in Hb.
    rewrite (map_nth_lt _ _ _ ([], 0%Q, [])) by lia. destruct (E3 b [] ([], 0%Q, []) ltac:(lia)) as (i & Fi & ->). cbn [fst]. destruct (first_best _ _ Fi) as (st & _ & L & _). exact L. }
  assert (FA : Forall (fun w => length w = tb) (map snd ts)).
  { apply Forall_forall. intros w Hw. apply (In_nth _ _ []) in Hw. destruct Hw as (b & Hb & <-). rewrite map_length in Hb.
    rewrite (map_nth_lt _ _ _ ([], 0%Q, [])) by lia. destruct (E3 b [] ([], 0%Q, []) ltac:(lia)) as (i & Fi & ->). cbn [snd].
    destruct Fi as (Hi & _). exact (proj1 (Forall_nth_lt _ _ _ [] cbook_Forall Hi)). }
  assert (HK : (0 < K)%nat) by (assert (X := gen_pos c HS); unfold K; nia).
  assert (Lsn : length (concat (map snd ts)) = (nb * tb)%nat) by (rewrite (concat_length_const tb) by auto; now rewrite map_length, E2).
  assert (Dm := Nat.div_mod (length r) tb ltac:(lia)). fold nb in Dm.
  split; [|split; [|split; [|split; [|split; [|split]]]]].
  - unfold decoding_conv_ml_ep. rewrite V. cbn [bind]. rewrite EG, n_out_ne, trellis_entries_ok by auto. cbn [bind].
    rewrite codebook_ok. cbn [bind]. rewrite trunc_reshape_ok by auto. cbn [bind]. unfold ml_decoding_ep. rewrite E1. reflexivity.
  - unfold decoding_conv_ml. rewrite V. cbn [bind]. rewrite EG, n_out_ne, trellis_entries_ok by auto. cbn [bind].
    rewrite codebook_ok. cbn [bind]. rewrite trunc_reshape_ok by auto. cbn [bind]. unfold ml_decoding. rewrite E0. reflexivity.
  - unfold d. rewrite (concat_length_const K) by auto. now rewrite map_length, E2.
  - unfold p. now rewrite map_length.
  - unfold a. rewrite app_length, Lsn, skipn_length. lia.
  - intros b Hb. fold nb in Hb. destruct (E3 b [] ([], 0%Q, []) Hb) as (i & Fi & Et). rewrite chunk_block in Fi, Et by auto.
    destruct (first_best _ _ Fi) as (st & Hst & L & B & Ec & Hm).
    assert (Ed : block K b d = nth i (conv_perms c tb) []).
    { unfold d. rewrite block_concat by (auto; rewrite map_length; lia). rewrite (map_nth_lt _ _ _ ([], 0%Q, [])) by lia. now rewrite Et. }
    assert (Ea : block tb b a = nth i cbook []).
    { assert (Eb : block tb b a = block tb b (concat (map snd ts))).
      { unfold block. apply map_ext_in. intros k Hk. apply in_seq in Hk. unfold a. apply app_nth1. rewrite Lsn. nia. }
      rewrite Eb, block_concat by (auto; rewrite map_length; lia). rewrite (map_nth_lt _ _ _ ([], 0%Q, [])) by lia. now rewrite Et. }
    rewrite Ed, Ea. split.
    + split; auto. split; auto. exists st. split; auto. rewrite <- Ec. exact Hm.
    + exists st. split; auto. split; auto. split; auto. unfold p. rewrite (map_nth_lt _ _ _ ([], 0%Q, [])) by lia. rewrite Et. cbn [fst snd]. now rewrite count_pairs.
  - intros i Hi. fold nb in Hi. unfold a. rewrite app_nth2 by lia. rewrite Lsn, nth_skipn. f_equal. lia.
Qed.
(** t errors per block are corrected *)
Definition separated (t : nat) : Prop := forall st st' u u', isstate c st -> isstate c st' -> length u = K -> bits u -> length u' = K -> bits u' ->
  u <> u' -> (2 * t + 1 <= hdist (codeword_of st u) (codeword_of st' u'))%nat.
Lemma ml_best_unique t st u r w : separated t -> isstate c st -> length u = K -> bits u -> length r = tb -> bits r ->
  (hdist (codeword_of st u) r <= t)%nat -> ml_best r w -> w = u.
Proof.
  intros Sep Hst Lu Bu Lr Br Hd (Lw & Bw & st' & Hst' & Hm). destruct (list_eq_dec Z.eq_dec w u) as [|ne]; auto. exfalso.
  assert (X := Sep st' st w u Hst' Hst Lw Bw Lu Bu ne). assert (Y := Hm st u Hst Lu Bu).
  assert (Tr := hdist_tri (codeword_of st' w) r (codeword_of st u)).
  assert (L1 := cw_length st u Lu). assert (L2 := cw_length st' w Lw).
  assert (Sy := hdist_sym r (codeword_of st u)).
  specialize (Tr (conv_from_bits _ _ _) Br (conv_from_bits _ _ _) ltac:(congruence) ltac:(congruence)).
  specialize (Sy Br (conv_from_bits _ _ _) ltac:(congruence)). lia.
Qed.
Lemma decoding_conv_ml_corrects t x zi y r : separated t -> bits x -> x <> [] -> coding_conv x c zi = Ok y -> bits r -> length r = length y ->
  (forall b, (b < length y / tb)%nat -> (hdist (block tb b y) (block tb b r) <= t)%nat) ->
  exists d, decoding_conv_ml r c tb = Ok d /\ length d = (length y / tb * K)%nat /\ forall i, (i < length d)%nat -> nth i d 0 = nth i x 0.
Proof.
  intros Sep Bx Nx Ey Br Lr He. assert (V := check_any [] x c HV Bx). rewrite coding_conv_eq in Ey by auto. injection Ey as Ey.
  destruct (decoding_conv_ml_ep_spec r Br) as (d & p & a & _ & E & L & _ & _ & Hb & _). exists d. split; auto. rewrite <- Lr. split; auto.
  intros i Hi. assert (HK : (0 < K)%nat) by (assert (X := gen_pos c HS); unfold K; nia).
  set (b := (i / K)%nat). assert (D := Nat.div_mod i K ltac:(lia)). assert (Mi := Nat.mod_upper_bound i K ltac:(lia)). fold b in D.
  assert (Hbb : (b < length r / tb)%nat) by nia. destruct (Hb b Hbb) as [Best _].
  assert (Hn := gen_pos c HS). assert (Ho := cs_out c HS). assert (Htb := tb_pos).
  assert (Ly : length y = (conv_steps c x * n_out c)%nat) by (rewrite <- Ey; apply conv_from_length).
  assert (Hsteps : (b * T + T <= conv_steps c x)%nat).
  { assert (DL := div_mul_le (length r) tb b Htb Hbb). rewrite Lr, Ly in DL. unfold tb in DL. nia. }
  set (st := state_after c (repeat 0 (all_cells c)) x (b * T)).
  assert (Hst : isstate c st) by (unfold st; split; [apply state_after_length; apply repeat_length|apply state_after_bits; apply zero_isstate]).
  assert (Ebl : block tb b y = codeword_of st (block K b x)).
  { rewrite <- Ey. rewrite <- conv_from_zero_state by auto. apply conv_from_block; auto using zero_isstate. }
  assert (Eu : block K b d = block K b x).
  { apply (ml_best_unique t st _ (block tb b r)); auto; try apply block_length; try (apply block_bits; auto).
    rewrite <- Ebl. apply He. rewrite <- Lr. auto. }
  assert (G := f_equal (fun l => nth (i mod K) l 0) Eu). cbn beta in G. rewrite !block_nth in G by auto.
  replace (b * K + i mod K)%nat with i in G by lia. exact G.
Qed.
End ml.
End dec.

(** Which settings pass the validity check. *)
Lemma all_ok_value {A} (f : A -> res unit) l : (forall a, f a = Ok tt \/ f a = Raise ValueError) -> all_ok (map f l) = Ok tt \/ all_ok (map f l) = Raise ValueError.
Proof. intros H. induction l as [|a l IH]; cbn [map all_ok]; auto. destruct (H a) as [-> | ->]; cbn [bind]; auto. Qed.
Lemma valid_or_value_error x c : check_valid_conv x c = Ok tt \/ check_valid_conv x c = Raise ValueError.
Proof.
  unfold check_valid_conv. destruct (check_binary_raise x) as [-> | ->]; cbn [bind]; auto. apply all_ok_value. intros i. cbn zeta. destruct (check_binary_raise (concat (nth i (gen c) []))) as [-> | ->]; cbn [bind]; auto.
  destruct (fdb c) as [fl|]; auto. destruct (ufb c) as [uf|]; auto. destruct (_ || _)%bool; auto.
  match goal with |- context [all_ok (map ?f fl)] => destruct (all_ok_value f fl) as [-> | ->]; cbn [bind]; auto end.
  - intros [f|]; auto. apply check_binary_raise.
  - apply all_ok_value. intros j. destruct (_ && _)%bool; auto. destruct (_ && _)%bool; auto.
Qed.
Lemma sum_zero_tl l : bits l -> (0 <? sumZ (tl l)) = false <-> Forall (eq 0) (tl l).
Proof.
  intros B. split; intros H.
  - apply Z.ltb_ge in H. apply sum_nonpos_zero; auto. now apply bits_tl.
  - apply Z.ltb_ge. assert (sumZ (tl l) = 0); [|lia]. clear B. induction H as [|a r e X IH]; [reflexivity|]. change (a + sumZ r = 0). lia.
Qed.
Lemma validity c x : binary_code c -> bits x -> check_valid_conv x c = Ok tt <-> feedback_fits c.
Proof.
  intros (N & RW & BP & BF) B. unfold check_valid_conv. rewrite check_binary_bits by auto. cbn [bind]. rewrite all_ok_iff.
  assert (BG : forall i, (i < length (gen c))%nat -> check_binary (concat (nth i (gen c) [])) = Ok tt).
  { intros i Hi. apply check_binary_bits. apply Forall_forall. intros z Hz. apply in_concat in Hz. destruct Hz as (r & Hr & Hz). apply (In_nth _ _ []) in Hr. destruct Hr as (j & Hj & <-). rewrite RW in Hj by auto.
    specialize (BP i j Hi Hj). unfold bits, poly in BP. rewrite Forall_forall in BP. auto. }
  unfold feedback_fits. destruct (fdb c) as [fl|] eqn:F.
  2: { split; [auto|]. intros _ i Hi. apply in_seq in Hi. cbn zeta. rewrite BG by lia. reflexivity. }
  assert (BL : all_ok (map (fun f => match f with Some p => check_binary p | None => Ok tt end) fl) = Ok tt) by (apply all_ok_iff; intros [f|] Hf; auto; apply check_binary_bits; eauto).
  assert (G0 : (0 < length (gen c))%nat) by (destruct (gen c); [congruence|cbn; lia]). split.
  - intros H. right. assert (H0 := H 0%nat ltac:(apply in_seq; lia)). cbn zeta in H0. rewrite BG in H0 by lia. cbn [bind] in H0. destruct (ufb c) as [uf|]; [|discriminate]. exists uf. split; auto.
    destruct (negb _ || negb _)%bool eqn:Sh; [discriminate|]. apply orb_false_iff in Sh. destruct Sh as [S1 S2]. apply negb_false_iff, Nat.eqb_eq in S1, S2. split; auto. split; auto.
    intros i j Hi Hj. specialize (H i ltac:(apply in_seq; lia)). cbn zeta in H. rewrite BG in H by auto. cbn [bind] in H. rewrite BL in H. cbn [bind] in H. rewrite all_ok_iff in H.
    specialize (H j ltac:(rewrite RW by auto; apply in_seq; lia)). fold (poly c i j) in H. split.
    + intros U FB. rewrite U, FB in H. discriminate.
    + intros U FB. rewrite U in H. destruct (fb_get c i); [|congruence]. cbn [Z.eqb andb] in H. pose proof (sum_zero_tl _ (BP i j Hi Hj)) as Q. apply Q. destruct (0 <? sumZ (tl (poly c i j))) eqn:Z0; auto.
      destruct (1 <? length (poly c i j))%nat eqn:L1; [discriminate|]. apply Nat.ltb_ge in L1. destruct (poly c i j) as [|a [|b r]]; cbn in Z0, L1; try discriminate; lia.
  - intros [H|(uf & E & L1 & L2 & H)] i Hi; [congruence|]. apply in_seq in Hi. cbn zeta. rewrite BG by lia. cbn [bind]. rewrite E. rewrite L1, L2, !Nat.eqb_refl. cbn [negb orb]. rewrite BL. cbn [bind]. apply all_ok_iff. intros j Hj. apply in_seq in Hj. rewrite RW in Hj by lia.
    fold (poly c i j). destruct (H i j ltac:(lia) ltac:(lia)) as [H1 H2]. destruct (Z.eqb_spec (get2 uf i j) 1) as [U|U]; cbn [andb].
    + specialize (H1 U). destruct (fb_get c i); [|congruence]. rewrite U. reflexivity.
    + destruct (Z.eqb_spec (get2 uf i j) 0) as [U0|U0]; cbn [andb]; auto. destruct (fb_get c i) as [f|]; cbn [andb]; auto. specialize (H2 U0 ltac:(discriminate)). apply (sum_zero_tl _ (BP i j ltac:(lia) ltac:(lia))) in H2. rewrite H2. now rewrite andb_false_r.
Qed.
