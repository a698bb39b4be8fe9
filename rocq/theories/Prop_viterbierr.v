(** C83: what the Viterbi decoder does with errors.  Proofs are in P_viterbierr.v. *)
From Verif Require Import Py B_list M_aux M_linear S_linear P_linear M_conv S_conv P_conv P_aux S_aux P_gf2 P_trellis M_convdec P_convdec P_viterbi S_viterbitot P_viterbitot S_viterbierr P_viterbierr Prop_conv.
From Coq Require Import QArith.
Import List ListNotations.
Open Scope Z_scope.
Ltac Zify.zify_post_hook ::= Z.div_mod_to_equations.

Definition memory_everywhere (c : conv_code) : Prop := forall i, (i < length (gen c))%nat -> (0 < cells c i)%nat.
(** Whatever is received, every block is decoded to the inputs of the path that is followed backwards from the best end state
    by taking the closest transition into every state; the last end state is reported, and as error probability of a block
    1/k if k end states are equally good, 0 if only one is. *)
Theorem C83_traceback : forall c r tb d last p, code_shape c -> trellis_shape c -> check_valid_conv [] c = Ok tt -> safe_code c -> memory_everywhere c -> bits r ->
  decoding_conv_viterbi r c tb = Ok (d, last, p) ->
  let nb := (length r / tb)%nat in let K := (length (gen c) * (tb / n_out c))%nat in
  length d = (nb * K)%nat /\ length p = nb /\
  forall b, (b < nb)%nat -> let chs := chunks (n_out c) (block tb b r) in
    exists s0 e D ends, best_traced c chs s0 e (block K b d) D /\ (b = (nb - 1)%nat -> val_msb e = Z.of_nat last) /\
      NoDup ends /\ (forall e', In e' ends <-> exists s0' w', traced c s0' chs e' w' D) /\ nth b p 0%Q = tie_prob (length ends).
Proof.
  intros c r tb d last p S T V SC HC B E. destruct (viterbi_returns c r tb S T V B) as (((HN & L) & _) & _); [eauto|].
  destruct (tstream c S T V (cells_no_parallel c S T HC) SC r tb B HN L) as (d' & last' & p' & E' & H1 & H2 & H3). rewrite E in E'. injection E' as <- <- <-. cbv zeta. split; [exact H1|]. split; [exact H2|].
  intros b Hb. destruct (H3 b Hb) as (s0 & e & D & ends & G1 & G2 & (G3 & G4) & G5). exists s0, e, D, ends. auto.
Qed.
Print Assumptions C83_traceback.
(** These paths: into every end state there is exactly one; it is a transmission of its inputs from its start state, ending
    there, and [D] counts the outputs that differ from the received bits. *)
Theorem C83_paths : forall c chs e, code_shape c -> trellis_shape c -> check_valid_conv [] c = Ok tt -> safe_code c -> memory_everywhere c ->
  Forall (fun ch => bits ch /\ length ch = n_out c) chs -> isstate c e ->
  exists s0 w D, traced c s0 chs e w D /\ (forall s0' w' D', traced c s0' chs e w' D' -> s0' = s0 /\ w' = w /\ D' = D) /\
    isstate c s0 /\ bits w /\ length w = (length (gen c) * length chs)%nat /\ state_after c s0 w (length chs) = e /\ hdist (conv_from c (unpack c s0) w) (concat chs) = D.
Proof.
  intros c chs e S T V SC HC F He. assert (HP := cells_no_parallel c S T HC). destruct (traced_total c S HP SC chs e F He) as (s0 & w & D & Tr). exists s0, w, D. split; [exact Tr|].
  split; [intros s0' w' D' Tr'; destruct (traced_unique c S HP _ _ _ _ _ Tr _ _ _ Tr') as (-> & -> & ->); auto|].
  destruct (traced_facts c S T V _ _ _ _ _ Tr) as (F1 & F2 & F3 & F4 & _). split; [exact (proj1 (traced_state c S _ _ _ _ _ Tr))|]. split; [exact F2|]. split; [exact F1|]. split; [exact F3|]. apply F4. eapply Forall_impl; [|exact F]. intros ch (_ & L). exact L.
Qed.
Print Assumptions C83_paths.
(** Errors that are corrected.  Transitions into the same state differ in at least d outputs; in every chunk fewer than d/2
    outputs are wrong; the last L chunks of every block arrive intact; and no block has more than E errors, where paths that
    stay apart for L chunks differ in more than E outputs.  Then the data come back, the reported state is the encoder's, and
    the reported error probabilities are 0. *)
Theorem C83_corrects : forall c T L d E x y r, code_shape c -> trellis_shape c -> check_valid_conv [] c = Ok tt -> safe_code c -> memory_everywhere c ->
  merge_distance c d -> (0 < d)%nat -> outputs_decide c -> spread c L (S E) -> (L <= T)%nat -> (0 < T)%nat ->
  bits x -> x <> [] -> coding_conv x c None = Ok y -> bits r -> length r = length y ->
  let tb := (T * n_out c)%nat in let nb := (length y / tb)%nat in (0 < nb)%nat ->
  (forall k, (k < nb * T)%nat -> (2 * hdist (block (n_out c) k y) (block (n_out c) k r) < d)%nat) ->
  (forall b, (b < nb)%nat -> (hdist (block tb b y) (block tb b r) <= E)%nat /\
     forall k, (T - L <= k < T)%nat -> block (n_out c) (b * T + k) r = block (n_out c) (b * T + k) y) ->
  exists dd last, decoding_conv_viterbi r c tb = Ok (dd, last, repeat 0%Q nb) /\ length dd = (nb * (length (gen c) * T))%nat /\
    (forall i, (i < length dd)%nat -> nth i dd 0 = nth i x 0) /\
    val_msb (state_after c (repeat 0 (all_cells c)) x (nb * T)) = Z.of_nat last.
Proof.
  intros c T L d E x y r S TS V SC HC MD Hd OD SP HL HT Bx Nx Ey Br Lr tb nb Hnb Near Tot. assert (Hn := gen_pos c S). rewrite coding_conv_eq in Ey by (auto; now apply (check_any [])). injection Ey as Ey.
  rewrite <- conv_from_zero_state in Ey by auto. subst y. assert (Ho := cs_out c S).
  assert (Hlen : (tb <= length (conv_from c (unpack c (repeat 0%Z (all_cells c))) x))%nat). { destruct (le_lt_dec tb (length (conv_from c (unpack c (repeat 0%Z (all_cells c))) x))) as [|X]; [auto|]. unfold nb in Hnb. rewrite Nat.div_small in Hnb by exact X. lia. }
  destruct (stream_right c S TS V (cells_no_parallel c S TS HC) x Bx r Br Lr SC T HT Hlen d E L MD Hd OD SP HL Near Tot) as (dd & last & p & E1 & E2 & E3 & E4 & ->). exists dd, last. auto.
Qed.
Print Assumptions C83_corrects.
(** Errors that are never corrected.  If some chunk, at least m into its block, is at least as close to a transition into the
    same state from a state with a lower number (or closer to one from any other state), the block is decoded wrongly,
    whatever the other chunks are.  (m: number of chunks after which the inputs decide the state, e.g. the memory of a code
    without feedback.) *)
Theorem C83_uncorrected : forall c T m x y r b t s' u' o', code_shape c -> trellis_shape c -> check_valid_conv [] c = Ok tt -> safe_code c -> memory_everywhere c ->
  inputs_decide c m -> bits x -> x <> [] -> coding_conv x c None = Ok y -> bits r -> length r = length y ->
  let tb := (T * n_out c)%nat in let k := (b * T + t)%nat in let state := state_after c (repeat 0 (all_cells c)) x in (b < length y / tb)%nat -> (m <= t < T)%nat ->
  goes c s' u' o' (state (S k)) -> s' <> state k ->
  let e' := hdist o' (block (n_out c) k r) in let e := hdist (block (n_out c) k y) (block (n_out c) k r) in
  (e' < e)%nat \/ (e' = e /\ val_msb s' < val_msb (state k)) ->
  exists d last p, decoding_conv_viterbi r c tb = Ok (d, last, p) /\ block (length (gen c) * T) b d <> block (length (gen c) * T) b x.
Proof.
  intros c T m x y r b t s' u' o' S TS V SC HC ID Bx Nx Ey Br Lr tb k state Hb Ht G Ns e' e Better. assert (Hn := gen_pos c S). rewrite coding_conv_eq in Ey by (auto; now apply (check_any [])). injection Ey as Ey.
  rewrite <- conv_from_zero_state in Ey by auto. subst y. assert (Ho := cs_out c S). set (y := conv_from c (unpack c (repeat 0 (all_cells c))) x) in *.
  assert (Hlen : (tb <= length y)%nat). { destruct (le_lt_dec tb (length y)) as [|X]; [auto|]. rewrite Nat.div_small in Hb by exact X. lia. }
  destruct (viterbi_total c S TS V r tb Br ltac:(unfold tb; nia) ltac:(lia)) as (d & last & p & E1 & _). exists d, last, p. split; [exact E1|].
  apply (stream_wrong c S TS V (cells_no_parallel c S TS HC) x Bx r Br Lr SC T ltac:(lia) Hlen m b t s' u' o' d last p); auto.
Qed.
Print Assumptions C83_uncorrected.
Theorem C83_forgetting : forall c m, fdb c = None -> (forall i, (i < length (gen c))%nat -> (cells c i <= m)%nat) -> inputs_decide c m.
Proof. exact feedforward_decides. Qed.
Print Assumptions C83_forgetting.

Lemma safe75 : safe_code code75.
Proof. apply safe_check_ok. vm_compute. reflexivity. Qed.
Lemma memory75 : memory_everywhere code75.
Proof. intros i Hi. cbn in Hi. assert (i = 0%nat) by lia. subst. vm_compute. lia. Qed.
Lemma state75 x k : bits x -> state_after code75 [0; 0] x (S (S k)) = [nth (S k) x 0; nth k x 0].
Proof.
  intros B. unfold state_after. cbn [gen code75 length seq map concat]. change (cells code75 0) with 2%nat. change (fb_taps code75 0) with (@nil Z). cbn [reg_hist firstn app]. change (dotZ [] ?l) with 0.
  unfold in_bit. cbn [gen code75 length]. rewrite !Nat.mul_1_r, !Nat.add_0_r, !Z.add_0_r. f_equal; [|f_equal]; apply Z.mod_small; [assert (X := bits_nth _ (S k) B)|assert (X := bits_nth _ k B)]; destruct X as [->| ->]; lia.
Qed.
Lemma step75 a b u : isbit a -> isbit b -> isbit u -> goes code75 [a; b] [u] [(u + a + b) mod 2; (u + b) mod 2] [u; a].
Proof.
  intros A B U. split; [split; [reflexivity|repeat (apply Forall_cons; [assumption|]); apply Forall_nil]|]. split; [split; [reflexivity|repeat (apply Forall_cons; [assumption|]); apply Forall_nil]|]. destruct A, B, U; subst; split; vm_compute; reflexivity.
Qed.
(** (Finding.)  The usual (7,5) code has free distance 5, yet this decoder does not correct single errors: a block with exactly
    one wrong bit in a chunk (not among the first two of the block) is decoded wrongly whenever the bit sent two before is 1,
    whatever else arrives, error-free or not, and however long the block. *)
Theorem C83_single_refuted : forall T x y r b t, bits x -> coding_conv x code75 None = Ok y -> bits r -> length r = length y ->
  (b < length y / (T * 2))%nat -> (2 <= t < T)%nat -> nth (b * T + t - 2) x 0 = 1 ->
  hdist (block 2 (b * T + t) y) (block 2 (b * T + t) r) = 1%nat ->
  exists d last p, decoding_conv_viterbi r code75 (T * 2) = Ok (d, last, p) /\ block T b d <> block T b x.
Proof.
  intros T x y r b t Bx Ey Br Lr Hb Ht X1 One. assert (CS : code_shape code75) by code. assert (TS : trellis_shape code75) by (apply shape_trellis; reflexivity). assert (V : check_valid_conv [] code75 = Ok tt) by reflexivity.
  remember (b * T + t)%nat as q eqn:Eq0. destruct q as [|[|k]]; [lia|lia|]. replace (S (S k) - 2)%nat with k in X1 by lia. assert (Nx : x <> []) by (intros ->; destruct k; discriminate X1).
  assert (Bk1 := bits_nth _ (S k) Bx). assert (Bk2 := bits_nth _ (S (S k)) Bx). set (a := nth (S k) x 0) in *. set (u := nth (S (S k)) x 0) in *.
  assert (St0 : state_after code75 (repeat 0 (all_cells code75)) x (S (S k)) = [a; 1]) by (change (repeat 0 (all_cells code75)) with [0; 0]; rewrite state75 by auto; now rewrite X1).
  assert (St1 : state_after code75 (repeat 0 (all_cells code75)) x (S (S (S k))) = [u; a]) by (change (repeat 0 (all_cells code75)) with [0; 0]; now rewrite state75).
  assert (Out : block 2 (S (S k)) y = [(u + a + 1) mod 2; (u + 1) mod 2]).
  { assert (Hk : (S (S k) < conv_steps code75 x)%nat).
    { rewrite coding_conv_eq in Ey by (auto; now apply (check_any [])). injection Ey as Ey. assert (Ly := conv_from_length code75 zero_regs x). rewrite Ey in Ly. change (n_out code75) with 2%nat in Ly. assert (DL := div_mul_le (length y) (T * 2) b ltac:(lia) Hb). nia. }
    assert (G := zt_goes code75 CS TS V x Bx (S (S k)) Hk). cbv zeta beta in G. rewrite St0, St1 in G. change (n_out code75) with 2%nat in G.
    rewrite coding_conv_eq in Ey by (auto; now apply (check_any [])). injection Ey as Ey. rewrite <- conv_from_zero_state in Ey by (cbn; lia). rewrite Ey in G.
    destruct (goes_fun code75 CS (cells_no_parallel code75 CS TS memory75) _ _ _ _ _ _ G (step75 a 1 u Bk1 (or_intror eq_refl) Bk2)) as (_ & E). exact E. }
  assert (R2 := block_bits 2 (S (S k)) r Br). assert (L2 := block_length 2 (S (S k)) r).
  assert (G' := step75 a 0 u Bk1 (or_introl eq_refl) Bk2). rewrite <- St1 in G'.
  destruct (C83_uncorrected code75 T 2 x y r b t [a; 0] [u] [(u + a + 0) mod 2; (u + 0) mod 2] CS TS V safe75 memory75 (C83_forgetting code75 2 eq_refl (fun i Hi => ltac:(cbn in Hi; assert (i = 0%nat) by lia; subst; vm_compute; lia))) Bx Nx Ey Br Lr) as (d & last & p & E1 & E2); auto.
  - now rewrite <- Eq0.
  - rewrite <- Eq0, St0. intros E. injection E as E. discriminate E.
  - right. rewrite <- Eq0, St0. change (n_out code75) with 2%nat. rewrite Out in One |- *. destruct (block 2 (S (S k)) r) as [|r0 [|r1 [|? ?]]]; try discriminate L2. inversion R2 as [|? ? R0 R2']; inversion R2' as [|? ? R1 _]; subst.
    destruct Bk1 as [Q1|Q1], Bk2 as [Q2|Q2]; unfold a, u in *; rewrite Q1, Q2 in *; destruct R0, R1; subst; vm_compute in One; try discriminate One; split; vm_compute; reflexivity.
  - exists d, last, p. split; [exact E1|]. cbn [gen code75 length] in E2. rewrite Nat.mul_1_l in E2. exact E2.
Qed.
Print Assumptions C83_single_refuted.
Lemma safe_rsc : safe_code code_rsc.
Proof. apply safe_check_ok. vm_compute. reflexivity. Qed.
Lemma memory_rsc : memory_everywhere code_rsc.
Proof. intros i Hi. cbn in Hi. assert (i = 0%nat) by lia. subst. vm_compute. lia. Qed.
Lemma step_rsc a u : isbit a -> isbit u -> goes code_rsc [a] [u] [u; a] [(u + a) mod 2].
Proof.
  intros A U. split; [split; [reflexivity|repeat (apply Forall_cons; [assumption|]); apply Forall_nil]|]. split; [split; [reflexivity|repeat (apply Forall_cons; [assumption|]); apply Forall_nil]|]. destruct A, U; subst; split; vm_compute; reflexivity.
Qed.
Lemma state_rsc a v t : exists h, state_after code_rsc [a] v t = [h] /\ state_after code_rsc [a] v (S t) = [(nth t v 0 + h) mod 2].
Proof.
  assert (E : forall q, state_after code_rsc [a] v q = firstn 1 (reg_hist [1] [a] (in_bit code_rsc v 0) q)) by (intros q; unfold state_after; cbn [gen code_rsc length seq map concat]; rewrite app_nil_r; reflexivity).
  assert (L := reg_hist_length [1] [a] (in_bit code_rsc v 0) t). rewrite !E. cbn [reg_hist]. destruct (reg_hist [1] [a] (in_bit code_rsc v 0) t) as [|h l]; [cbn in L; lia|]. exists h. split; [reflexivity|]. cbn [firstn]. f_equal. f_equal. unfold in_bit. cbn [gen code_rsc length]. rewrite Nat.mul_1_r, Nat.add_0_r.
  assert (D : dotZ [1] (h :: l) = h) by (rewrite dotZ_sum; cbn [map2]; change (sumZ [1 * h]) with (1 * h + 0); lia). now rewrite D.
Qed.
Lemma parity_next (x : list Z) q : (q < length x)%nat -> sumZ (firstn (S q) x) mod 2 = (nth q x 0 + sumZ (firstn q x) mod 2) mod 2.
Proof.
  intros Hq. assert (E : firstn (S q) x = firstn q x ++ [nth q x 0]). { revert q Hq. induction x as [|a x IH]; intros q Hq; [cbn in Hq; lia|]. destruct q as [|q]; [reflexivity|]. cbn [firstn nth app]. f_equal. apply IH. cbn in Hq. lia. }
  rewrite E, sumZ_app. replace (sumZ [nth q x 0]) with (nth q x 0) by (unfold sumZ; cbn; lia). lia.
Qed.
Lemma parity_rsc x : bits x -> forall q, (q <= length x)%nat -> state_after code_rsc [0] x q = [sumZ (firstn q x) mod 2].
Proof.
  intros B. induction q as [|q IH]; intros Hq; [reflexivity|]. destruct (state_rsc 0 x q) as (h & E1 & E2). rewrite IH in E1 by lia. injection E1 as <-. rewrite E2. f_equal. now rewrite parity_next by lia.
Qed.
Lemma one_state_rsc s : isstate code_rsc s -> exists a, s = [a] /\ isbit a.
Proof. intros (L & B). change (all_cells code_rsc) with 1%nat in L. destruct s as [|a [|? ?]]; try discriminate L. exists a. split; [reflexivity|]. now inversion B. Qed.
(** (Finding.)  The code of the shipped example: with one wrong bit in a chunk sent when the encoder state is 1, the block is
    decoded wrongly, whatever else arrives, as soon as some chunk of the block that was sent in state 0 arrives intact.  So
    a single error can ruin more data bits than it would have without the code. *)
Theorem C83_shipped_refuted : forall T x y r b t k, bits x -> x <> [] -> coding_conv x code_rsc None = Ok y -> bits r -> length r = length y ->
  (b < length y / (T * 2))%nat -> (t < T)%nat -> (k < T)%nat ->
  sumZ (firstn (b * T + t) x) mod 2 = 1 -> hdist (block 2 (b * T + t) y) (block 2 (b * T + t) r) = 1%nat ->
  sumZ (firstn (b * T + k) x) mod 2 = 0 -> block 2 (b * T + k) r = block 2 (b * T + k) y ->
  exists d last p, decoding_conv_viterbi r code_rsc (T * 2) = Ok (d, last, p) /\ block T b d <> block T b x.
Proof.
  intros T x y r b t k Bx Nx Ey Br Lr Hb Ht Hk P1 One P0 Intact. assert (CS : code_shape code_rsc) by code. assert (TS : trellis_shape code_rsc) by (apply shape_trellis; reflexivity). assert (V : check_valid_conv [] code_rsc = Ok tt) by reflexivity.
  assert (NP := cells_no_parallel code_rsc CS TS memory_rsc). rewrite coding_conv_eq in Ey by (auto; now apply (check_any [])). injection Ey as Ey. rewrite <- conv_from_zero_state in Ey by (cbn; lia). subst y. change (repeat 0 (all_cells code_rsc)) with [0] in *.
  set (y := conv_from code_rsc (unpack code_rsc [0]) x) in *. assert (Ly := conv_from_length code_rsc (unpack code_rsc [0]) x). fold y in Ly. change (n_out code_rsc) with 2%nat in Ly.
  assert (DL := div_mul_le (length y) (T * 2) b ltac:(lia) Hb). assert (Hst : conv_steps code_rsc x = length x) by (apply conv_steps_mult; cbn; lia). rewrite Hst in Ly.
  assert (Hlen : (T * n_out code_rsc <= length y)%nat) by (change (n_out code_rsc) with 2%nat; nia).
  destruct (viterbi_total code_rsc CS TS V r (T * 2) Br ltac:(change (n_out code_rsc) with 2%nat; lia) ltac:(change (n_out code_rsc) with 2%nat in Hlen; lia)) as (d & last & p & E1 & _). exists d, last, p. split; [exact E1|]. intros Eq.
  destruct (stream_steps code_rsc CS TS V NP x r Br Lr safe_rsc T ltac:(lia) Hlen b d last p Hb E1) as (s0 & H0 & St); [cbn [gen code_rsc length]; rewrite Nat.mul_1_l; exact Eq|]. cbn [gen code_rsc length] in St. rewrite Nat.mul_1_l in St. change (n_out code_rsc) with 2%nat in St.
  set (v := block T b x) in *. assert (Bv : bits v) by (now apply block_bits).
  (* the sent chunk *)
  assert (Sent : forall q, (q < T)%nat -> block 2 (b * T + q) y = [nth (b * T + q) x 0; sumZ (firstn (b * T + q) x) mod 2]).
  { intros q Hq. assert (G := zt_goes code_rsc CS TS V x Bx (b * T + q) ltac:(rewrite Hst; nia)). cbv zeta beta in G. change (repeat 0 (all_cells code_rsc)) with [0] in G. fold y in G. change (n_out code_rsc) with 2%nat in G. rewrite !parity_rsc in G by (auto; nia).
    rewrite (parity_next x (b * T + q)) in G by nia.
    assert (Bs : isbit (sumZ (firstn (b * T + q) x) mod 2)) by apply isbit_mod. destruct (goes_fun code_rsc CS NP _ _ _ _ _ _ G (step_rsc _ _ Bs (bits_nth _ (b * T + q) Bx))) as (_ & E). exact E. }
  (* states of the decoded path against the states of the encoder *)
  destruct (one_state_rsc _ H0) as (a & -> & Ba). set (w := sumZ (firstn (b * T) x) mod 2). assert (Bw : isbit w) by apply isbit_mod.
  assert (Diff : forall q, (q <= T)%nat -> state_after code_rsc [a] v q = [(sumZ (firstn (b * T + q) x) + a - w) mod 2]).
  { induction q as [|q IH]; intros Hq.
    - rewrite Nat.add_0_r, state_after_0 by reflexivity. f_equal. unfold w. destruct Ba; subst; lia.
    - specialize (IH ltac:(lia)). destruct (state_rsc a v q) as (h & F1 & F2). rewrite IH in F1. injection F1 as <-. rewrite F2. f_equal.
      assert (F5 := parity_next x (b * T + q) ltac:(nia)). unfold v. rewrite block_nth by lia. replace (b * T + S q)%nat with (S (b * T + q)) by lia. lia. }
  assert (Step : forall q, (q < T)%nat -> exists u o, preferred code_rsc (block 2 (b * T + q) r) [(sumZ (firstn (S (b * T + q)) x) + a - w) mod 2] [(sumZ (firstn (b * T + q) x) + a - w) mod 2] u o).
  { intros q Hq. destruct (St q Hq) as (u & o & Pr). exists u, o. rewrite !Diff in Pr by lia. now replace (b * T + S q)%nat with (S (b * T + q)) in Pr by lia. }
  assert (Nxt : forall q, (q < T)%nat -> sumZ (firstn (S (b * T + q)) x) mod 2 = (nth (b * T + q) x 0 + sumZ (firstn (b * T + q) x) mod 2) mod 2).
  { intros q Hq. apply parity_next. nia. }
  destruct (Z.eq_dec a w) as [->|Na].
  - destruct (Step t Ht) as (u & o & G & Pr). replace ((sumZ (firstn (b * T + t) x) + w - w) mod 2) with 1 in G, Pr by lia. specialize (Nxt t Ht). rewrite P1 in Nxt.
    assert (Bu := bits_nth _ (b * T + t) Bx). set (xt := nth (b * T + t) x 0) in *. specialize (Sent t Ht). rewrite P1 in Sent. fold xt in Sent.
    assert (EN : (sumZ (firstn (S (b * T + t)) x) + w - w) mod 2 = (xt + 1) mod 2) by lia. rewrite EN in G, Pr. clear EN.
    destruct (goes_fun code_rsc CS NP _ _ _ _ _ _ G (step_rsc 1 xt (or_intror eq_refl) Bu)) as (-> & ->).
    assert (B1 : isbit ((xt + 1) mod 2)) by apply isbit_mod. assert (G' := step_rsc 0 ((xt + 1) mod 2) (or_introl eq_refl) B1). rewrite Z.add_0_r, Z.mod_mod in G' by lia. specialize (Pr _ _ _ G' ltac:(discriminate)). rewrite Sent in One.
    assert (R2 := block_bits 2 (b * T + t) r Br). assert (L2 := block_length 2 (b * T + t) r). destruct (block 2 (b * T + t) r) as [|r0 [|r1 [|? ?]]]; try discriminate L2. inversion R2 as [|? ? R0 R2']; inversion R2' as [|? ? R1 _]; subst.
    clear - Pr One Bu R0 R1. destruct Bu as [Q|Q]; rewrite Q in *; destruct R0, R1; subst; vm_compute in One; try discriminate One; vm_compute in Pr; destruct Pr as [Pr|(_ & Pr)]; try discriminate Pr; try lia.
  - destruct (Step k Hk) as (u & o & G & Pr). assert (Ea : (a - w) mod 2 = 1) by (destruct Ba, Bw as [Q|Q]; subst; rewrite Q in *; try contradiction; reflexivity).
    replace ((sumZ (firstn (b * T + k) x) + a - w) mod 2) with 1 in G, Pr by lia. specialize (Nxt k Hk). rewrite P0 in Nxt. assert (Bu := bits_nth _ (b * T + k) Bx). set (xk := nth (b * T + k) x 0) in *. specialize (Sent k Hk). rewrite P0 in Sent. fold xk in Sent.
    assert (EN : (sumZ (firstn (S (b * T + k)) x) + a - w) mod 2 = (xk + 1) mod 2) by lia. rewrite EN in G, Pr. clear EN.
    destruct (goes_fun code_rsc CS NP _ _ _ _ _ _ G (step_rsc 1 xk (or_intror eq_refl) Bu)) as (-> & ->).
    assert (B1 : isbit ((xk + 1) mod 2)) by apply isbit_mod. assert (G' := step_rsc 0 ((xk + 1) mod 2) (or_introl eq_refl) B1). rewrite Z.add_0_r, Z.mod_mod in G' by lia. specialize (Pr _ _ _ G' ltac:(discriminate)). rewrite Intact, Sent in Pr.
    clear - Pr Bu. destruct Bu as [Q|Q]; rewrite Q in *; vm_compute in Pr; destruct Pr as [Pr|(_ & Pr)]; try discriminate Pr; lia.
Qed.
Print Assumptions C83_shipped_refuted.
(** *** Cases *)
(** A rate 1/3 code with two cells; two blocks of eight chunks, each with two wrong bits in different chunks. *)
Definition code757 := mk_code [[[1; 1; 1]; [1; 0; 1]; [1; 1; 1]]] None None.
Definition sent757 : list Z := match coding_conv [1; 0; 1; 1; 0; 0; 1; 0; 1; 1; 1; 0; 1; 0; 0; 1] code757 None with Ok y => y | _ => [] end.
Definition flip_at (ks : list nat) (y : list Z) : list Z := map (fun i => if existsb (Nat.eqb i) ks then 1 - nth i y 0 else nth i y 0) (seq 0 (length y)).
Definition got757 : list Z := flip_at [1; 8; 26; 30]%nat sent757.
Example C83_case_corrects : code_shape code757 /\ trellis_shape code757 /\ check_valid_conv [] code757 = Ok tt /\ safe_code code757 /\ memory_everywhere code757 /\
  merge_distance code757 3 /\ outputs_decide code757 /\ spread code757 5 3 /\
  (forall k, (k < 16)%nat -> (2 * hdist (block 3 k sent757) (block 3 k got757) < 3)%nat) /\
  (forall b, (b < 2)%nat -> (hdist (block 24 b sent757) (block 24 b got757) <= 2)%nat /\ forall k, (3 <= k < 8)%nat -> block 3 (b * 8 + k) got757 = block 3 (b * 8 + k) sent757) /\
  hdist sent757 got757 = 4%nat /\
  exists last, decoding_conv_viterbi got757 code757 24 = Ok ([1; 0; 1; 1; 0; 0; 1; 0; 1; 1; 1; 0; 1; 0; 0; 1], last, [0; 0]%Q).
Proof.
  assert (CS : code_shape code757) by code. assert (MM : memory_everywhere code757) by (intros i Hi; cbn in Hi; assert (i = 0%nat) by lia; subst; vm_compute; lia).
  assert (NR : forall k, (k < 16)%nat -> (2 * hdist (block 3 k sent757) (block 3 k got757) < 3)%nat).
  { intros k Hk. assert (X : forallb (fun k => (2 * hdist (block 3 k sent757) (block 3 k got757) <? 3)%nat) (seq 0 16) = true) by (vm_compute; reflexivity). rewrite forallb_forall in X. apply Nat.ltb_lt, X, in_seq. lia. }
  split; [exact CS|]. split; [apply shape_trellis; reflexivity|]. split; [reflexivity|]. split; [apply safe_check_ok; vm_compute; reflexivity|]. split; [exact MM|].
  split; [apply merge_check_ok; vm_compute; reflexivity|]. split; [apply decide_check_ok; vm_compute; reflexivity|]. split; [apply spread_check_ok; [exact CS|vm_compute; reflexivity]|]. split; [exact NR|]. split.
  - intros b Hb. assert (X : forallb (fun b => (hdist (block 24 b sent757) (block 24 b got757) <=? 2)%nat && forallb (fun k => eqw (block 3 (b * 8 + k) got757) (block 3 (b * 8 + k) sent757)) (seq 3 5)) (seq 0 2) = true) by (vm_compute; reflexivity).
    rewrite forallb_forall in X. specialize (X b ltac:(apply in_seq; lia)). apply andb_true_iff in X. destruct X as (X1 & X2). split; [now apply Nat.leb_le|]. intros k Hk. rewrite forallb_forall in X2. apply eqw_true, X2, in_seq. lia.
  - split; [vm_compute; reflexivity|]. eexists. vm_compute. reflexivity.
Qed.
(** One wrong bit with the (7,5) code: the ML decoder recovers the data, this decoder does not. *)
Example C83_case_single : let x := [0; 0; 1; 0; 0; 0; 0; 0] in let r := [0; 0; 0; 0; 1; 1; 1; 0; 0; 1; 0; 0; 0; 0; 0; 0] in
  coding_conv x code75 None = Ok [0; 0; 0; 0; 1; 1; 1; 0; 1; 1; 0; 0; 0; 0; 0; 0] /\ nth (0 * 8 + 4 - 2) x 0 = 1 /\ hdist (block 2 4 [0; 0; 0; 0; 1; 1; 1; 0; 1; 1; 0; 0; 0; 0; 0; 0]) (block 2 4 r) = 1%nat /\
  decoding_conv_ml r code75 16 = Ok x /\ match decoding_conv_viterbi r code75 16 with Ok (d, _, _) => d = [1; 0; 0; 0; 0; 0; 0; 0] | _ => False end.
Proof. cbv zeta. repeat split; vm_compute; reflexivity. Qed.
(** One wrong parity bit with the code of the shipped example: all systematic bits arrive intact, two decoded bits are wrong. *)
Example C83_case_shipped : let x := [1; 1; 1; 0; 1; 1] in let y := [1; 0; 1; 1; 1; 0; 0; 1; 1; 1; 1; 0] in let r := [1; 0; 1; 1; 1; 0; 0; 0; 1; 1; 1; 0] in
  coding_conv x code_rsc None = Ok y /\ hdist y r = 1%nat /\ sumZ (firstn (0 * 6 + 3) x) mod 2 = 1 /\ hdist (block 2 3 y) (block 2 3 r) = 1%nat /\ sumZ (firstn (0 * 6 + 0) x) mod 2 = 0 /\ block 2 0 r = block 2 0 y /\
  match decoding_conv_viterbi r code_rsc 12 with Ok (d, _, _) => d = [1; 1; 0; 1; 1; 1] | _ => False end.
Proof. cbv zeta. repeat split; vm_compute; reflexivity. Qed.
