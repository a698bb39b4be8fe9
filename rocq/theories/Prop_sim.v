(** C58: the coding stages of the example link.  Theorems only; proofs are in P_sim.v and P_simcode.v. *)
From Verif Require Import Py B_list M_aux S_aux M_symbol S_symbol M_coding M_linear S_linear P_linear M_conv S_conv M_convdec P_conv P_trellis P_convdec Prop_conv.
From Verif Require Import M_prbs M_sim S_sim P_sim P_simcode M_simcheck.
From Coq Require Import QArith.
Open Scope Z_scope.

Definition noflags := mk_flags false false false false.
(** Settings with the binary codes [l] only: [cons] alphabet, [b] bits per symbol, generator [G]. *)
Definition setting (cons : constellation) (b : Q) (f : flags) (gray diff : bool) (l : list nat) (chunk : nat) (G : generator) : coding_data :=
  let on k := existsb (Nat.eqb k) l in
  mk_cd cons b chunk f gray diff (on 0%nat) (on 1%nat) (on 2%nat) (on 3%nat) (on 4%nat) (on 5%nat) (on 6%nat) G.

(** *** One binary code at a time, no code on symbols: Decoder inverts Encoder. *)
Theorem C58_plain : forall cd p, no_symbol_code cd -> binary_codes cd = codes [] -> bits p ->
  fills_symbols cd (length p) -> delivers (link cd p) p.
Proof. exact link_plain. Qed.
Print Assumptions C58_plain.
Theorem C58_bin_diff : forall cd p, no_symbol_code cd -> binary_codes cd = codes [0%nat] -> bits p -> p <> [] ->
  fills_symbols cd (length p) -> delivers (link cd p) p.
Proof. exact link_bindiff. Qed.
Print Assumptions C58_bin_diff.
Theorem C58_manchester : forall cd p, no_symbol_code cd -> binary_codes cd = codes [1%nat] -> bits p ->
  fills_symbols cd (2 * length p) -> delivers (link cd p) p.
Proof. exact link_manchester. Qed.
Print Assumptions C58_manchester.
Theorem C58_bipolar : forall cd p, no_symbol_code cd -> binary_codes cd = codes [2%nat] -> bits p -> (bps cd <= 1)%Q ->
  delivers (link cd p) p.
Proof. exact link_bipolar. Qed.
Print Assumptions C58_bipolar.
Theorem C58_mlt3 : forall cd p, no_symbol_code cd -> binary_codes cd = codes [3%nat] -> bits p -> p <> [] -> (bps cd <= 1)%Q ->
  delivers (link cd p) p.
Proof. exact link_mlt3. Qed.
Print Assumptions C58_mlt3.
Theorem C58_diff_manchester : forall cd p, no_symbol_code cd -> binary_codes cd = codes [4%nat] -> bits p ->
  fills_symbols cd (2 * length p) -> delivers (link cd p) p.
Proof. exact link_diff_manchester. Qed.
Print Assumptions C58_diff_manchester.
Theorem C58_linear : forall cd p k n G, no_symbol_code cd -> binary_codes cd = codes [5%nat] -> gmat cd = GArray G ->
  (0 < k)%nat -> (0 < n)%nat -> bits p -> bits (data G) -> shape G = [k; n] -> wf_nda G ->
  (forall u v, length u = k -> bits u -> length v = k -> bits v -> codeword k n (data G) u = codeword k n (data G) v -> u = v) ->
  (length p mod k = 0)%nat -> fills_symbols cd (length p / k * n) -> delivers (link cd p) p.
Proof. exact link_linear. Qed.
Print Assumptions C58_linear.
(** The traceback depth is the chunk size; hypotheses on the code as in C26. *)
Theorem C58_conv : forall cd p c T m, no_symbol_code cd -> binary_codes cd = codes [6%nat] -> gmat cd = GDict c ->
  code_shape c -> trellis_shape c -> check_valid_conv [] c = Ok tt -> (0 < T)%nat -> (0 < m)%nat -> bits p ->
  chunk_size cd = (T * n_out c)%nat -> length p = (m * (length (gen c) * T))%nat ->
  (forall i, (i < length (gen c))%nat -> (0 < cells c i)%nat) ->
  (forall s s' i i', isstate c s -> isstate c s' -> isinput c i -> isinput c i' ->
     state_after c s i 1 = state_after c s' i' 1 -> conv_from c (unpack c s) i = conv_from c (unpack c s') i' -> s = s') ->
  (forall s s' u u', isstate c s -> isstate c s' -> length u = (length (gen c) * T)%nat -> bits u -> length u' = (length (gen c) * T)%nat -> bits u' ->
     conv_from c (unpack c s) u = conv_from c (unpack c s') u' -> u = u') ->
  fills_symbols cd (m * (T * n_out c)) -> delivers (link cd p) p.
Proof. exact link_conv. Qed.
Print Assumptions C58_conv.
Example C58_case_plain : no_symbol_code (setting PAM4 2 (mk_flags true true false true) false false [] 6 GNone) /\
  fills_symbols (setting PAM4 2 (mk_flags true true false true) false false [] 6 GNone) 6 /\
  encoder (setting PAM4 2 (mk_flags true true false true) false false [] 6 GNone) [1;0;1;1;0;0] = Done (Ok [3;2;1]) /\
  link (setting PAM4 2 (mk_flags true true false true) false false [] 6 GNone) [1;0;1;1;0;0] = Done (Ok [1;0;1;1;0;0]%Q).
Proof.
  split; [split; reflexivity|]. split; [|split; vm_compute; reflexivity].
  right. exists 2%nat. split; [lia|]. split; [reflexivity|]. split; [reflexivity|]. intros H; discriminate H.
Qed.
Example C58_case_codes :
  encoder (setting PAM4 2 noflags false false [0%nat] 6 GNone) [1;0;1;1;0;1] = Done (Ok [3;2;1]) /\
  link (setting PAM4 2 noflags false false [0%nat] 6 GNone) [1;0;1;1;0;1] = Done (Ok [1;0;1;1;0;1]%Q) /\
  encoder (setting PAM4 2 noflags false false [1%nat] 6 GNone) [1;0;1] = Done (Ok [1;2;1]) /\
  link (setting PAM4 2 noflags false false [1%nat] 6 GNone) [1;0;1] = Done (Ok [1;0;1]%Q) /\
  link (setting OOK 1 noflags false false [2%nat] 6 GNone) [1;0;1] = Done (Ok [1;0;1]%Q) /\
  link (setting OOK 1 noflags false false [3%nat] 6 GNone) [1;0;1] = Done (Ok [1;0;1]%Q) /\
  link (setting PAM4 2 noflags false false [4%nat] 6 GNone) [1;0;1] = Done (Ok [1;0;1]%Q) /\
  link (setting OOK 1 noflags false false [5%nat] 6 (GArray (mk_nda [2;3]%nat [1;0;1;0;1;1]))) [1;0;1;1] = Done (Ok [1;0;1;1]%Q) /\
  link (setting OOK 1 noflags false false [6%nat] 6 (GDict code75)) [1;0;1;1;1;0] = Done (Ok [1;0;1;1;1;0]%Q).
Proof. repeat split; vm_compute; reflexivity. Qed.

(** *** Two binary codes at once.  The decoder undoes them in the order of the encoder, not in reverse. *)
(** Binary differential plus MLT-3 is the only pair that still works. *)
Theorem C58_bin_diff_mlt3 : forall cd p, no_symbol_code cd -> binary_codes cd = codes [0%nat; 3%nat] -> bits p -> p <> [] -> (bps cd <= 1)%Q ->
  delivers (link cd p) p.
Proof. exact link_bindiff_mlt3. Qed.
Print Assumptions C58_bin_diff_mlt3.
(** Finding: for every other pair there are settings with one bit per symbol (and, for the block and convolutional
    codes, a generator that works on its own for the pattern length used) and a pattern that is not delivered. *)
Theorem C58_code_pair_refuted : forall i j, (i < j < 7)%nat -> (i, j) <> (0, 3)%nat ->
  exists chunk G p, bits p /\ p <> [] /\ misdelivers (link (setting OOK 1 noflags false false [i; j] chunk G) p) p.
Proof.
  assert (W : forall i j chunk G p, bits p -> p <> [] ->
    (match link (setting OOK 1 noflags false false [i; j] chunk G) p with Unmodelled => false | Done (Ok q) => if list_eq_dec M_sim.Q_dec q (map inject_Z p) then false else true | _ => true end) = true ->
    exists chunk G p, bits p /\ p <> [] /\ misdelivers (link (setting OOK 1 noflags false false [i; j] chunk G) p) p).
  { intros i j chunk G p B N H. exists chunk, G, p. split; [exact B|]. split; [exact N|]. unfold misdelivers, delivers.
    destruct (link _ p) as [[q|e]|]; [|split; discriminate|discriminate H]. split; [discriminate|]. intros E. injection E as ->.
    destruct (list_eq_dec _ _ _); [discriminate H|congruence]. }
  intros i j H N.
  set (G3 := GArray (mk_nda [2;3]%nat [1;0;1;0;1;1])). set (GS := GArray (mk_nda [2;2]%nat [0;1;1;0])). set (Cv := GDict code75). set (Cd := GDict (mk_code [[[0;1]]] None None)).
  assert (A : ((i, j) = (0,1) \/ (i, j) = (0,2) \/ (i, j) = (0,4) \/ (i, j) = (0,5) \/ (i, j) = (0,6) \/
    (i, j) = (1,2) \/ (i, j) = (1,3) \/ (i, j) = (1,4) \/ (i, j) = (1,5) \/ (i, j) = (1,6) \/
    (i, j) = (2,3) \/ (i, j) = (2,4) \/ (i, j) = (2,5) \/ (i, j) = (2,6) \/
    (i, j) = (3,4) \/ (i, j) = (3,5) \/ (i, j) = (3,6) \/ (i, j) = (4,5) \/ (i, j) = (4,6) \/ (i, j) = (5,6))%nat).
  { do 7 (destruct i as [|i]; [do 7 (destruct j as [|j]; [try lia; try (exfalso; now apply N); tauto|]); lia|]). lia. }
  Ltac wit W := first [ apply bits_check; reflexivity | discriminate | vm_compute; reflexivity ].
  destruct A as [A|[A|[A|[A|[A|[A|[A|[A|[A|[A|[A|[A|[A|[A|[A|[A|[A|[A|[A|A]]]]]]]]]]]]]]]]]]]; injection A as -> ->.
  - apply (W _ _ 6%nat GNone [0;0]); wit W.
  - apply (W _ _ 6%nat GNone [0;0]); wit W.
  - apply (W _ _ 6%nat GNone [0;0]); wit W.
  - apply (W _ _ 6%nat G3 [0;1]); wit W.
  - apply (W _ _ 6%nat Cv [0;0;1]); wit W.
  - apply (W _ _ 6%nat GNone [0;0]); wit W.
  - apply (W _ _ 6%nat GNone [0;0]); wit W.
  - apply (W _ _ 6%nat GNone [0;0]); wit W.
  - apply (W _ _ 6%nat GS [0;0]); wit W.
  - apply (W _ _ 3%nat Cd [1;1;1]); wit W.
  - apply (W _ _ 6%nat GNone [0;0]); wit W.
  - apply (W _ _ 6%nat GNone [0;0]); wit W.
  - apply (W _ _ 6%nat G3 [0;1]); wit W.
  - apply (W _ _ 6%nat Cv [0;0;0]); wit W.
  - apply (W _ _ 6%nat GNone [0;0]); wit W.
  - apply (W _ _ 6%nat G3 [0;1]); wit W.
  - apply (W _ _ 6%nat Cv [0;0;1]); wit W.
  - apply (W _ _ 6%nat G3 [0;1]); wit W.
  - apply (W _ _ 6%nat Cv [0;0;0]); wit W.
  - apply (W _ _ 6%nat Cv [0;0;0]); wit W.
Qed.
Print Assumptions C58_code_pair_refuted.

(** *** Codes on symbols.  The decoder undoes gray coding with differential decoding and vice versa. *)
(** With two levels gray coding changes nothing, so that both flags together work. *)
Theorem C58_two_level_both : forall cd p, binary_codes cd = codes [] -> (bps cd == 1)%Q -> length (get_levels (constel cd)) = 2%nat ->
  c_gray cd = true -> c_diff cd = true -> bits p -> p <> [] -> delivers (link cd p) p.
Proof. exact link_two_both. Qed.
Print Assumptions C58_two_level_both.
(** Finding: with two levels and one of the two flags exactly the patterns survive whose bits before the last map to 0. *)
Theorem C58_two_level_single_refuted : forall cd p, binary_codes cd = codes [] -> (bps cd == 1)%Q -> length (get_levels (constel cd)) = 2%nat ->
  (c_gray cd = true /\ c_diff cd = false) \/ (c_gray cd = false /\ c_diff cd = true) -> bits p -> p <> [] ->
  (delivers (link cd p) p <-> forall i, (S i < length p)%nat -> nth i p 0 = if pn_inv (cflags cd) then 1 else 0).
Proof. exact link_two_one. Qed.
Print Assumptions C58_two_level_single_refuted.
(** Finding: with PAM4 and one of the two flags no pattern with a non-zero symbol (before the last three) survives. *)
Theorem C58_pam4_single_refuted : forall cd p, binary_codes cd = codes [] -> (bps cd == 2)%Q -> constel cd = PAM4 ->
  (c_gray cd = true /\ c_diff cd = false) \/ (c_gray cd = false /\ c_diff cd = true) -> bits p ->
  delivers (link cd p) p -> forall j, (j + 3 < length p / 2)%nat -> symbol_value 2 (cflags cd) p j = 0.
Proof. exact link_four_one. Qed.
Print Assumptions C58_pam4_single_refuted.
(** Finding: with PAM4 both flags together do not work either. *)
Theorem C58_pam4_both_refuted : exists p, bits p /\
  misdelivers (link (setting PAM4 2 noflags true true [] 64 GNone) p) p.
Proof.
  exists [1;0;0;0;0;1]. split; [apply bits_check; reflexivity|]. split.
  - vm_compute. discriminate.
  - unfold delivers. vm_compute. discriminate.
Qed.
Print Assumptions C58_pam4_both_refuted.
Example C58_case_symbols :
  link (setting OOK 1 noflags true true [] 6 GNone) [1;0;1;1] = Done (Ok [1;0;1;1]%Q) /\
  link (setting OOK 1 noflags true false [] 6 GNone) [1;0;1;1] = Done (Ok [1;1;1;0]%Q) /\
  link (setting OOK 1 noflags true false [] 6 GNone) [0;0;0;1] = Done (Ok [0;0;0;1]%Q) /\
  link (setting PAM4 2 noflags true false [] 6 GNone) [1;0;0;0;0;0;0;0] = Done (Ok [1;0;1;1;0;0;0;0]%Q) /\
  (0 + 3 <? length [1;0;0;0;0;0;0;0] / 2)%nat = true /\ symbol_value 2 noflags [1;0;0;0;0;0;0;0] 0 = 1.
Proof. repeat split; vm_compute; reflexivity. Qed.

(** *** The configuration shipped with the example: PAM4, 64 bits per chunk, recursive systematic code, gray flag. *)
Definition shipped (gray : bool) : coding_data := setting PAM4 2 noflags gray false [6%nat] 64 (GDict code_rsc).
(** Finding: its first chunk (PRBS13 from the default seed) is not recovered, even over a perfect channel. *)
Theorem C58_shipped_refuted : exists g chunk,
  prbs_gen_next (prbs_gen_init (prbs_data_init PRBS13 64 None)) = (g, Ok chunk) /\ bits chunk /\
  misdelivers (link (shipped true) chunk) chunk.
Proof.
  eexists _, _. split; [vm_compute; reflexivity|]. split; [apply bits_check; reflexivity|]. split.
  - vm_compute. discriminate.
  - unfold delivers. vm_compute. discriminate.
Qed.
Print Assumptions C58_shipped_refuted.
(** Without the gray flag every sequence of whole chunks is. *)
Theorem C58_shipped_without_gray : forall p m, bits p -> (0 < m)%nat -> length p = (m * 64)%nat -> delivers (link (shipped false) p) p.
Proof.
  intros p m B Hm L. apply (link_conv (shipped false) p code_rsc 32 (2 * m)); auto; try reflexivity; try lia.
  - split; reflexivity.
  - code.
  - apply shape_trellis; reflexivity.
  - change (length (gen code_rsc)) with 1%nat. lia.
  - intros i Hi. cbn in Hi. destruct i; [|lia]. vm_compute. lia.
  - apply distinct_inb_ok. vm_compute. reflexivity.
  - change (length (gen code_rsc) * 32)%nat with 32%nat.
    assert (S : forall st u t, bits u -> length u = 32%nat -> (t < 32)%nat -> nth (t * 2) (conv_from code_rsc (unpack code_rsc st) u) 0 = nth t u 0).
    { intros st u t Bu Lu Ht. unfold conv_from, conv_steps. rewrite Lu. change (length (gen code_rsc)) with 1%nat. change ((32 + 1 - 1) / 1)%nat with 32%nat.
      change (n_out code_rsc) with 2%nat. rewrite (concat_nth_const 0 2); [|lia|apply Forall_forall; intros r Hr; apply in_map_iff in Hr; destruct Hr as (w & <- & _); reflexivity].
      rewrite Nat.mod_mul, Nat.div_mul by lia. rewrite nth_map_seq by lia. cbn [Nat.add seq map nth].
      unfold conv_bit. change (length (gen code_rsc)) with 1%nat. cbn [seq map]. change (poly code_rsc 0 0) with [1; 0].
      change (out_taps code_rsc 0 0) with (@nil Z). cbn [reg_hist]. unfold in_bit. change (length (gen code_rsc)) with 1%nat. rewrite Nat.mul_1_r, Nat.add_0_r.
      change (dotZ [] ?l) with 0. rewrite Z.add_0_r.
      destruct (bits_nth u t Bu) as [-> | ->].
      - destruct (reg_hist _ _ _ _) as [|a l]; [reflexivity|]. change ((sumZ [dotZ [1; 0] (0 mod 2 :: a :: l)]) mod 2) with ((1 * 0 + (0 * a + 0) + 0) mod 2). now rewrite Z.mul_0_l.
      - destruct (reg_hist _ _ _ _) as [|a l]; [reflexivity|]. change ((sumZ [dotZ [1; 0] (1 mod 2 :: a :: l)]) mod 2) with ((1 * 1 + (0 * a + 0) + 0) mod 2). now rewrite Z.mul_0_l. }
    intros st st' u u' _ _ Lu Bu Lu' Bu' E. apply (nth_ext_def 0); [congruence|]. intros t Ht. rewrite <- (S st u t), <- (S st' u' t) by (auto; lia). now rewrite E.
  - right. exists 2%nat. split; [lia|]. split; [reflexivity|]. change (n_out code_rsc) with 2%nat.
    split; [replace (2 * m * (32 * 2))%nat with (m * 64 * 2)%nat by lia; apply Nat.mod_mul; lia|]. intros; repeat split; reflexivity.
Qed.
Print Assumptions C58_shipped_without_gray.
Example C58_case_shipped : exists p, length p = (1 * 64)%nat /\ bits p /\ link (shipped false) p = Done (Ok (map inject_Z p)) /\ p <> repeat 0 64.
Proof.
  exists (concat (repeat [1;0;1;1;0;0;0;1] 8)). split; [reflexivity|]. split; [apply bits_check; reflexivity|]. split; [vm_compute; reflexivity|]. discriminate.
Qed.

(** *** A non-integral number of bits per symbol above one: the symbol stage raises. *)
Theorem C58_fractional_bits_raise : forall cd p y, (1 < bps cd)%Q -> is_int (bps cd) = false -> enc_binary cd p = Done (Ok y) ->
  link cd p = Done (Raise ValueError).
Proof.
  intros cd p y H I E. unfold link, encoder. rewrite E. cbn [obind]. unfold enc_symbols.
  assert (O : over1 (bps cd) = true) by (unfold over1; apply negb_true_iff; destruct (Qle_bool (bps cd) 1) eqn:C; [apply Qle_bool_iff in C; exfalso; apply (Qlt_not_le _ _ H C)|reflexivity]).
  rewrite O, I. reflexivity.
Qed.
Print Assumptions C58_fractional_bits_raise.
Example C58_case_fractional : (1 < bps (setting PAM3 (158 # 100) noflags false false [2%nat] 6 GNone))%Q /\
  is_int (158 # 100) = false /\ enc_binary (setting PAM3 (158 # 100) noflags false false [2%nat] 6 GNone) [1;0;1] = Done (Ok [0;1;2]).
Proof. repeat split; vm_compute; reflexivity. Qed.
