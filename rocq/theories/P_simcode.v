(** Proofs about the Encoder / Decoder of the example link: codes in combination, block and convolutional codes, symbol codes. *)
From Verif Require Import Py B_list M_aux M_symbol M_coding M_linear M_conv M_convdec M_sim S_sim.
From Verif Require Import S_aux S_symbol S_coding S_linear S_conv P_aux P_symbol P_coding P_bipolar P_linear P_conv P_trellis P_convdec P_viterbi P_sim.
From Coq Require Import QArith Qround.
Open Scope Z_scope.
Ltac Zify.zify_post_hook ::= Z.div_mod_to_equations.

Lemma len_pos : forall {A} (x : list A), x <> [] -> (0 < length x)%nat.
Proof. intros A [|a x] H; [congruence|cbn; lia]. Qed.
Lemma decoding_diff_vec : forall c q, q <> [] ->
  exists d, decoding_differential c (vec q) = Ok (vec d) /\ length d = length q /\
    forall i, (i < length q)%nat -> nth i d 0 = (nth i q 0 - (if (i =? 0)%nat then 0 else nth (i - 1) q 0)) mod Z.of_nat (length (get_levels c)).
Proof.
  intros c q Hq. assert (Hl := len_pos q Hq).
  destruct (decoding_diff_spec c (vec q)) as (r & E & Sr & Lr & Nr).
  - discriminate.
  - unfold wf_nda, vec, size. cbn. lia.
  - exact Hl.
  - exists (data r). cbn [vec data shape] in *. split; [|split; [exact Lr|]].
    + rewrite E. destruct r as [sh d]. cbn [shape data] in *. subst sh. unfold vec. now rewrite Lr.
    + intros i Hi. rewrite (Nr i Hi). unfold last_dim. cbn [last]. rewrite Nat.mod_small by lia. reflexivity.
Qed.

(** *** Binary differential followed by MLT-3 *)
Lemma mlt_level_parity : forall n, mlt_level n mod 2 = Z.of_nat n mod 2.
Proof.
  intros n. unfold mlt_level. assert (n mod 4 < 4)%nat by (apply Nat.mod_upper_bound; lia).
  pose proof (Nat.div_mod n 4 ltac:(lia)) as D. set (r := (n mod 4)%nat) in *. clearbody r.
  assert (E : Z.of_nat n = 4 * Z.of_nat (n / 4) + Z.of_nat r) by lia. rewrite E.
  destruct r as [|[|[|[|r]]]]; [| | | |lia]; cbn [nth]; lia.
Qed.
Lemma link_bindiff_mlt3 : forall cd p, no_symbol_code cd -> binary_codes cd = codes [0%nat; 3%nat] -> bits p -> p <> [] -> (bps cd <= 1)%Q ->
  delivers (link cd p) p.
Proof.
  intros cd p N C B Np F. use_codes C. unfold delivers. assert (Hl := len_pos p Np).
  set (y := data (coding_differential OOK (vec p))).
  assert (By : bits y) by apply mod2_bits.
  destruct (coding_diff_rec OOK (vec p)) as (_ & Ly & Ny). fold y in Ly, Ny. cbn [vec data] in Ly, Ny.
  assert (Ny0 : y <> []) by (intro e; rewrite e in Ly; change (length (@nil Z)) with 0%nat in Ly; lia).
  destruct (mlt3_roundtrip y Ny0 By) as (q & E & _).
  destruct (mlt3_char (vec y) By) as (q' & E' & _ & Lq & Nq). rewrite E in E'. injection E' as <-. cbn [vec data] in Lq, Nq.
  assert (Nq0 : q <> []) by (intro e; rewrite e in Lq; change (length (@nil Z)) with 0%nat in Lq; pose proof (len_pos y Ny0); lia).
  destruct (decoding_diff_vec OOK q Nq0) as (d & Ed & Ld & Nd).
  assert (d = y).
  { apply (nth_ext_def 0); [lia|]. intros i Hi. rewrite Nd by lia. change (Z.of_nat (length (get_levels OOK))) with 2.
    rewrite Nq by lia. pose proof (ones_S y i By ltac:(lia)) as O1. pose proof (bits_nth y i By) as Bi.
    pose proof (mlt_level_parity (ones y (S i))) as P1.
    unfold isbit in Bi.
    destruct (Nat.eqb_spec i 0) as [->|Hi0].
    - change (Z.of_nat (ones y 0)) with 0 in O1. rewrite Z.sub_0_r, P1, O1. clear - Bi. lia.
    - rewrite (Nq (i - 1)%nat) by lia. replace (S (i - 1)) with i by lia.
      pose proof (mlt_level_parity (ones y i)) as P0. rewrite Zminus_mod, P1, P0, O1, <- Zminus_mod.
      replace (_ + _ - _) with (nth i y 0) by lia. clear - Bi. lia. }
  subst d.
  rewrite (link_binary cd p q); auto.
  - chain. unfold flat. rewrite Ed. cbn [bind vec data obind]. 
    assert (D : decoding_mlt3 y = Ok p).
    { unfold decoding_mlt3. destruct y as [|y0 y'] eqn:Ey; [congruence|]. f_equal.
      apply (nth_ext_def 0).
      - cbn [length] in *. rewrite map_length, np_diff_length. cbn [length] in *. lia.
      - cbn [length]. rewrite map_length, np_diff_length. intros i Hi. destruct i.
        + pose proof (Ny 0%nat Hl) as N0. cbn [nth Nat.eqb] in N0 |- *. change (nlev OOK) with 2 in N0.
          pose proof (bits_nth p 0 B) as Bp. unfold isbit in Bp. destruct (Z.eqb_spec y0 1); lia.
        + cbn [nth]. cbn [length] in *.
          rewrite (map_nth_lt _ _ _ 0) by (rewrite np_diff_length; cbn [length]; lia).
          rewrite np_diff_nth by (cbn [length]; lia). replace (i + 1)%nat with (S i) by lia.
          pose proof (Ny (S i) ltac:(lia)) as N1. cbn [Nat.eqb] in N1. replace (S i - 1)%nat with i in N1 by lia. change (nlev OOK) with 2 in N1.
          pose proof (bits_nth p (S i) B) as Bp. pose proof (bits_nth (y0 :: y') i By) as Bi.
          pose proof (bits_nth (y0 :: y') (S i) By) as Bj. unfold isbit in *. lia. }
    rewrite D. reflexivity.
  - chain. unfold flat. fold y. rewrite E. reflexivity.
  - now apply symbols_le1.
Qed.

(** *** Block and convolutional codes *)
Lemma hdist_self : forall u, hdist u u = 0%nat.
Proof. induction u as [|a u IH]; [reflexivity|]. rewrite hdist_cons, Z.eqb_refl, IH. reflexivity. Qed.
Lemma link_linear : forall cd p k n G, no_symbol_code cd -> binary_codes cd = codes [5%nat] -> gmat cd = GArray G ->
  (0 < k)%nat -> (0 < n)%nat -> bits p -> bits (data G) -> shape G = [k; n] -> wf_nda G ->
  (forall u v, length u = k -> bits u -> length v = k -> bits v -> codeword k n (data G) u = codeword k n (data G) v -> u = v) ->
  (length p mod k = 0)%nat -> fills_symbols cd (length p / k * n) -> delivers (link cd p) p.
Proof.
  intros cd p k n G N C HG Hk Hn Bp BG SG WG Inj Hm F. use_codes C. unfold delivers.
  destruct (coding_linear_spec k n p G Hk Bp BG SG WG) as (y & E & By & Ly & _).
  assert (Hb : nblk k (length p) = (length p / k)%nat).
  { unfold nblk. pose proof (Nat.div_mod (length p) k ltac:(lia)) as D. rewrite Hm, Nat.add_0_r in D.
    rewrite D at 1. replace (k * (length p / k) + k - 1)%nat with (k - 1 + (length p / k) * k)%nat by lia.
    rewrite Nat.div_add by lia. rewrite (Nat.div_small (k - 1)) by lia. lia. }
  rewrite Hb in Ly.
  destruct (decoding_linear_corrects k n G 0 p y Hk Hn Bp By BG SG WG) as (y' & E' & D).
  { intros u v Lu Bu Lv Bv Ne. destruct (hdist (codeword k n (data G) u) (codeword k n (data G) v)) eqn:Hd; [|lia].
    exfalso. apply Ne. apply Inj; auto. apply hdist_zero; auto. now rewrite !codeword_length. }
  rewrite E in E'. injection E' as <-.
  destruct D as (d & Ed & Ld & Nd); [reflexivity|intros; rewrite hdist_self; lia|].
  assert (d = p).
  { apply (nth_ext_def 0); [|intros; apply Nd]. rewrite Ld, Hb. pose proof (Nat.div_mod (length p) k ltac:(lia)). lia. }
  subst d.
  rewrite (link_binary cd p y); auto.
  - chain. unfold dec_linear. rewrite Ed. reflexivity.
  - chain. unfold enc_linear. rewrite E. reflexivity.
  - apply symbols_fill; auto. now rewrite Ly.
Qed.

Lemma link_conv : forall cd p c T m, no_symbol_code cd -> binary_codes cd = codes [6%nat] -> gmat cd = GDict c ->
  code_shape c -> trellis_shape c -> check_valid_conv [] c = Ok tt -> (0 < T)%nat -> (0 < m)%nat -> bits p ->
  chunk_size cd = (T * n_out c)%nat -> length p = (m * (length (gen c) * T))%nat ->
  (forall i, (i < length (gen c))%nat -> (0 < cells c i)%nat) ->
  (forall s s' i i', isstate c s -> isstate c s' -> isinput c i -> isinput c i' ->
     state_after c s i 1 = state_after c s' i' 1 -> conv_from c (unpack c s) i = conv_from c (unpack c s') i' -> s = s') ->
  (forall s s' u u', isstate c s -> isstate c s' -> length u = (length (gen c) * T)%nat -> bits u -> length u' = (length (gen c) * T)%nat -> bits u' ->
     conv_from c (unpack c s) u = conv_from c (unpack c s') u' -> u = u') ->
  fills_symbols cd (m * (T * n_out c)) -> delivers (link cd p) p.
Proof.
  intros cd p c T m N C HG S TS V HT Hm Bp Hc Lp H1 H2 H3 F. use_codes C. unfold delivers.
  assert (Hg := gen_pos c S). assert (Ho := cs_out c S).
  assert (Np : p <> []) by (intro e; rewrite e in Lp; cbn in Lp; nia).
  destruct (viterbi_stream_spec c T p S TS V HT Bp Np H1 H2 H3) as (y & E & D).
  assert (Ey : y = conv_from c zero_regs p).
  { rewrite (coding_conv_eq c p None) in E; auto; [now injection E|]. now apply (check_any []). }
  assert (Ly : length y = (m * (T * n_out c))%nat).
  { rewrite Ey, conv_from_length. unfold conv_steps. rewrite Lp.
    replace (m * (length (gen c) * T) + length (gen c) - 1)%nat with (length (gen c) - 1 + (m * T) * length (gen c))%nat by nia.
    rewrite Nat.div_add by lia. rewrite Nat.div_small by lia. nia. }
  destruct D as (d & last & pe & Ed & Ld & Nd & _); [rewrite Ly; nia|].
  assert (Hd : (length y / (T * n_out c) = m)%nat) by (rewrite Ly; apply Nat.div_mul; nia).
  assert (d = p).
  { rewrite Hd in Ld. apply (nth_ext_def 0); [lia|]. intros i Hi. apply Nd. lia. }
  subst d.
  rewrite (link_binary cd p y); auto.
  - chain. unfold dec_conv. rewrite Ed. reflexivity.
  - chain. unfold enc_conv. rewrite E. reflexivity.
  - apply symbols_fill; [|now rewrite Ly]. rewrite Ey. apply conv_from_bits.
Qed.

(** *** Symbol codes (no binary code) *)
Definition symfold (cd : coding_data) (s : list Z) : outcome (list Z) := obind (enc_symcode cd s) (dec_symcode cd).
Lemma inject_inj : forall x y, map inject_Z x = map inject_Z y -> x = y.
Proof.
  intros x y H. apply (f_equal (map Qnum)) in H. rewrite !map_map in H. cbn [Qnum inject_Z] in H.
  now rewrite !map_id in H.
Qed.
Lemma link_symbols : forall cd p s, binary_codes cd = codes [] -> enc_symbols cd p = Ok s ->
  link cd p = obind (symfold cd s) (fun z => obind (Done (dec_symbols cd z)) (fun y => Done (Ok (map inject_Z y)))).
Proof.
  intros cd p s C E. use_codes C. unfold link, encoder, symfold. chain. rewrite E. cbn [obind].
  destruct (enc_symcode cd s) as [[t|e]|]; cbn [obind]; try reflexivity.
  unfold decoder. destruct (dec_symcode cd t) as [[z|e]|]; cbn [obind]; try reflexivity.
  destruct (dec_symbols cd z) as [y|e]; cbn [obind]; try reflexivity. chain. reflexivity.
Qed.
Lemma link_symbols_inv : forall cd p s, binary_codes cd = codes [] -> enc_symbols cd p = Ok s -> delivers (link cd p) p ->
  exists z, symfold cd s = Done (Ok z) /\ dec_symbols cd z = Ok p.
Proof.
  intros cd p s C E D. unfold delivers in D. rewrite (link_symbols cd p s C E) in D.
  destruct (symfold cd s) as [[z|e]|]; cbn [obind] in D; try discriminate. exists z. split; [reflexivity|].
  destruct (dec_symbols cd z) as [y|e]; cbn [obind] in D; try discriminate. injection D as D. f_equal. now apply inject_inj.
Qed.
Lemma link_symbols_same : forall cd p s, binary_codes cd = codes [] -> enc_symbols cd p = Ok s -> dec_symbols cd s = Ok p ->
  symfold cd s = Done (Ok s) -> delivers (link cd p) p.
Proof. intros cd p s C E D F. unfold delivers. rewrite (link_symbols cd p s C E), F. cbn [obind]. rewrite D. reflexivity. Qed.

(** Two levels *)
Lemma gray2_id : forall c x, length (get_levels c) = 2%nat -> coding_gray c x = Ok x.
Proof. intros c x L. unfold coding_gray. rewrite L. reflexivity. Qed.
Lemma degray2_id : forall c x, length (get_levels c) = 2%nat -> bits x -> decoding_gray c (vec x) = Ok (vec x).
Proof.
  intros c x L B. unfold decoding_gray. rewrite L. change (1 <? ceil_log2 2)%nat with false. cbn [bind vec data shape].
  rewrite (np_take_map [0; 1] 0).
  - cbn [bind]. unfold vec. do 2 f_equal. rewrite <- (map_id x) at 2. apply map_ext_in. intros a Ha.
    unfold bits in B. rewrite Forall_forall in B. destruct (B a Ha) as [->| ->]; reflexivity.
  - eapply Forall_impl; [|exact B]. unfold isbit. cbn. intros; lia.
Qed.
Definition sym2 (cd : coding_data) (p : list Z) : list Z := if pn_inv (cflags cd) then map (fun v => 1 - v) p else p.
Lemma sym2_enc : forall cd p, (bps cd == 1)%Q -> enc_symbols cd p = Ok (sym2 cd p) /\ forall z, dec_symbols cd z = Ok (sym2 cd z).
Proof.
  intros cd p H. unfold enc_symbols, dec_symbols, sym2. rewrite over1_false by (rewrite H; apply Qle_refl).
  rewrite (is_int_Z _ 1 H). split; reflexivity.
Qed.
Lemma sym2_bits : forall cd p, bits p -> bits (sym2 cd p).
Proof.
  intros cd p B. unfold sym2. destruct (pn_inv _); auto. apply Forall_map. eapply Forall_impl; [|exact B]. unfold isbit. intros; lia.
Qed.
Lemma sym2_sym2 : forall cd p, sym2 cd (sym2 cd p) = p.
Proof. intros. unfold sym2. destruct (pn_inv _); auto. apply sub_sub. Qed.
Lemma sym2_length : forall cd p, length (sym2 cd p) = length p.
Proof. intros. unfold sym2. destruct (pn_inv _); rewrite ?map_length; auto. Qed.
Lemma sym2_nth : forall cd p i, (i < length p)%nat -> nth i (sym2 cd p) 0 = if pn_inv (cflags cd) then 1 - nth i p 0 else nth i p 0.
Proof. intros. unfold sym2. destruct (pn_inv _); auto. now rewrite (map_nth_lt _ _ _ 0). Qed.

Lemma link_two_both : forall cd p, binary_codes cd = codes [] -> (bps cd == 1)%Q -> length (get_levels (constel cd)) = 2%nat ->
  c_gray cd = true -> c_diff cd = true -> bits p -> p <> [] -> delivers (link cd p) p.
Proof.
  intros cd p C H1 L G D B Np. destruct (sym2_enc cd p H1) as [E De].
  apply (link_symbols_same cd p (sym2 cd p)); auto; [rewrite De; now rewrite sym2_sym2|].
  assert (Bs := sym2_bits cd p B).
  assert (Ns : sym2 cd p <> []) by (intro e; apply Np; rewrite <- (sym2_sym2 cd p), e; unfold sym2; destruct (pn_inv _); reflexivity).
  unfold symfold, enc_symcode, dec_symcode. rewrite G, D. cbn [step obind]. unfold flat.
  rewrite gray2_id by auto. cbn [bind obind data vec]. rewrite <- coding_diff_vec, diff_roundtrip_1d; auto; [|now apply bits_range2].
  cbn [bind obind data vec]. rewrite degray2_id by auto. reflexivity.
Qed.

(** diff-decoding of [s] gives [s] iff all but the last entry are 0 *)
Lemma fixed_gray2 : forall s z, bits s -> length z = length s ->
  (forall i, (i < length s)%nat -> nth i z 0 = (nth i s 0 - (if (i =? 0)%nat then 0 else nth (i - 1) s 0)) mod 2) ->
  (z = s <-> forall i, (S i < length s)%nat -> nth i s 0 = 0).
Proof.
  intros s z B L N. split.
  - intros -> i Hi. pose proof (N (S i) Hi) as E. cbn [Nat.eqb] in E. replace (S i - 1)%nat with i in E by lia.
    pose proof (bits_nth s i B) as B1. pose proof (bits_nth s (S i) B) as B2. unfold isbit in *. lia.
  - intros H. apply (nth_ext_def 0); auto. intros i Hi. rewrite N by lia. pose proof (bits_nth s i B) as B1. unfold isbit in B1.
    destruct (Nat.eqb_spec i 0); [lia|]. rewrite (H (i - 1)%nat) by lia. lia.
Qed.
Lemma fixed_diff2 : forall s y, bits s -> length y = length s ->
  (forall i, (i < length s)%nat -> nth i y 0 = (nth i s 0 + (if (i =? 0)%nat then 0 else nth (i - 1) y 0)) mod 2) ->
  (y = s <-> forall i, (S i < length s)%nat -> nth i s 0 = 0).
Proof.
  intros s y B L N. split.
  - intros -> i Hi. pose proof (N (S i) Hi) as E. cbn [Nat.eqb] in E. replace (S i - 1)%nat with i in E by lia.
    pose proof (bits_nth s i B) as B1. pose proof (bits_nth s (S i) B) as B2. unfold isbit in *. lia.
  - intros H. assert (A : forall i, (i < length s)%nat -> nth i y 0 = nth i s 0).
    { induction i as [|i IH]; intros Hi.
      - rewrite N by lia. cbn [Nat.eqb]. pose proof (bits_nth s 0 B) as B1. unfold isbit in B1. lia.
      - rewrite N by lia. cbn [Nat.eqb]. replace (S i - 1)%nat with i by lia. rewrite IH by lia. rewrite (H i) by lia.
        pose proof (bits_nth s (S i) B) as B1. unfold isbit in B1. lia. }
    apply (nth_ext_def 0); auto. intros i Hi. apply A. lia.
Qed.
Lemma mod2_isbit : forall a, isbit (a mod 2).
Proof. intros a. unfold isbit. lia. Qed.
Lemma symfold_two : forall cd s, length (get_levels (constel cd)) = 2%nat -> bits s -> s <> [] ->
  (c_gray cd = true /\ c_diff cd = false) \/ (c_gray cd = false /\ c_diff cd = true) ->
  exists z, symfold cd s = Done (Ok z) /\ bits z /\ (z = s <-> forall i, (S i < length s)%nat -> nth i s 0 = 0).
Proof.
  intros cd s L B Ns [[G D]|[G D]]; unfold symfold, enc_symcode, dec_symcode; rewrite G, D; cbn [step obind]; unfold flat.
  - rewrite gray2_id by auto. cbn [bind obind data vec]. destruct (decoding_diff_vec (constel cd) s Ns) as (z & E & Lz & Nz).
    rewrite E. cbn [bind obind data vec]. exists z. split; [reflexivity|]. rewrite L in Nz. change (Z.of_nat 2) with 2 in Nz. split.
    + apply Forall_forall. intros v Hv. apply (In_nth _ _ 0) in Hv. destruct Hv as (i & Hi & <-). rewrite Nz by lia.
      apply mod2_isbit.
    + now apply fixed_gray2.
  - set (y := data (coding_differential (constel cd) (vec s))).
    destruct (coding_diff_rec (constel cd) (vec s)) as (_ & Ly & Ny). fold y in Ly, Ny. cbn [vec data] in Ly, Ny.
    assert (By : bits y). { unfold y, coding_differential. cbn [data]. rewrite L. apply mod2_bits. }
    rewrite degray2_id by auto. exists y. split; [reflexivity|]. split; auto.
    unfold nlev in Ny. rewrite L in Ny. change (Z.of_nat 2) with 2 in Ny. now apply fixed_diff2.
Qed.
Lemma link_two_one : forall cd p, binary_codes cd = codes [] -> (bps cd == 1)%Q -> length (get_levels (constel cd)) = 2%nat ->
  (c_gray cd = true /\ c_diff cd = false) \/ (c_gray cd = false /\ c_diff cd = true) -> bits p -> p <> [] ->
  (delivers (link cd p) p <-> forall i, (S i < length p)%nat -> nth i p 0 = if pn_inv (cflags cd) then 1 else 0).
Proof.
  intros cd p C H1 L GD B Np. destruct (sym2_enc cd p H1) as [E De].
  assert (Bs := sym2_bits cd p B).
  assert (Ns : sym2 cd p <> []) by (intro e; apply Np; rewrite <- (sym2_sym2 cd p), e; unfold sym2; destruct (pn_inv _); reflexivity).
  destruct (symfold_two cd (sym2 cd p) L Bs Ns GD) as (z & Ez & Bz & Iff).
  assert (K : (forall i, (S i < length (sym2 cd p))%nat -> nth i (sym2 cd p) 0 = 0) <->
              (forall i, (S i < length p)%nat -> nth i p 0 = if pn_inv (cflags cd) then 1 else 0)).
  { rewrite sym2_length. split; intros H i Hi; specialize (H i Hi); rewrite sym2_nth in * by lia; destruct (pn_inv _); lia. }
  rewrite <- K, <- Iff. split.
  - intros Dl. destruct (link_symbols_inv cd p _ C E Dl) as (z' & Ez' & Dz). rewrite Ez in Ez'. injection Ez' as <-.
    rewrite De in Dz. injection Dz as Dz. rewrite <- Dz. now rewrite sym2_sym2.
  - intros ->. apply (link_symbols_same cd p (sym2 cd p)); auto. rewrite De. now rewrite sym2_sym2.
Qed.

(** Four levels *)
Definition g4 (s : Z) : Z := nth (Z.to_nat s) [0; 1; 3; 2] 0.
Definition in4 (s : Z) : Prop := s = 0 \/ s = 1 \/ s = 2 \/ s = 3.
Lemma in4_range : forall l, Forall (fun s => 0 <= s < 4) l -> Forall in4 l.
Proof. intros l H. eapply Forall_impl; [|exact H]. unfold in4. intros; lia. Qed.
Lemma in4_nth : forall l i, Forall in4 l -> in4 (nth i l 0).
Proof.
  intros l i H. destruct (Nat.lt_ge_cases i (length l)).
  - rewrite Forall_forall in H. apply H. now apply nth_In.
  - rewrite nth_overflow by lia. now left.
Qed.
Lemma stuck_gray : forall s, Forall in4 s ->
  (forall i, (i < length s)%nat -> nth i s 0 = (g4 (nth i s 0) - (if (i =? 0)%nat then 0 else g4 (nth (i - 1) s 0))) mod 4) ->
  forall j, (j + 3 < length s)%nat -> nth j s 0 = 0.
Proof.
  intros s F N j Hj.
  pose proof (N (j + 1)%nat ltac:(lia)) as N1. pose proof (N (j + 2)%nat ltac:(lia)) as N2. pose proof (N (j + 3)%nat ltac:(lia)) as N3.
  replace (j + 1 =? 0)%nat with false in N1 by (symmetry; apply Nat.eqb_neq; lia).
  replace (j + 2 =? 0)%nat with false in N2 by (symmetry; apply Nat.eqb_neq; lia).
  replace (j + 3 =? 0)%nat with false in N3 by (symmetry; apply Nat.eqb_neq; lia).
  replace (j + 1 - 1)%nat with j in N1 by lia. replace (j + 2 - 1)%nat with (j + 1)%nat in N2 by lia.
  replace (j + 3 - 1)%nat with (j + 2)%nat in N3 by lia.
  pose proof (in4_nth s j F) as F0. pose proof (in4_nth s (j + 1) F) as F1. pose proof (in4_nth s (j + 2) F) as F2. pose proof (in4_nth s (j + 3) F) as F3.
  destruct F0 as [e0|[e0|[e0|e0]]]; rewrite e0 in *; [reflexivity| | |];
  destruct F1 as [e1|[e1|[e1|e1]]]; rewrite e1 in *; try discriminate N1;
  destruct F2 as [e2|[e2|[e2|e2]]]; rewrite e2 in *; try discriminate N2;
  destruct F3 as [e3|[e3|[e3|e3]]]; rewrite e3 in *; discriminate N3.
Qed.
Lemma stuck_diff : forall s y, Forall in4 s -> Forall in4 y -> length y = length s ->
  (forall i, (i < length s)%nat -> nth i y 0 = (nth i s 0 + (if (i =? 0)%nat then 0 else nth (i - 1) y 0)) mod 4) ->
  (forall i, (i < length s)%nat -> nth i s 0 = g4 (nth i y 0)) ->
  forall j, (j + 3 < length s)%nat -> nth j s 0 = 0.
Proof.
  intros s y Fs F L N G j Hj. rewrite G by lia.
  pose proof (N (j + 1)%nat ltac:(lia)) as N1. pose proof (N (j + 2)%nat ltac:(lia)) as N2. pose proof (N (j + 3)%nat ltac:(lia)) as N3.
  replace (j + 1 =? 0)%nat with false in N1 by (symmetry; apply Nat.eqb_neq; lia).
  replace (j + 2 =? 0)%nat with false in N2 by (symmetry; apply Nat.eqb_neq; lia).
  replace (j + 3 =? 0)%nat with false in N3 by (symmetry; apply Nat.eqb_neq; lia).
  replace (j + 1 - 1)%nat with j in N1 by lia. replace (j + 2 - 1)%nat with (j + 1)%nat in N2 by lia.
  replace (j + 3 - 1)%nat with (j + 2)%nat in N3 by lia.
  rewrite (G (j + 1)%nat) in N1 by lia. rewrite (G (j + 2)%nat) in N2 by lia. rewrite (G (j + 3)%nat) in N3 by lia.
  pose proof (in4_nth y j F) as F0. pose proof (in4_nth y (j + 1) F) as F1. pose proof (in4_nth y (j + 2) F) as F2. pose proof (in4_nth y (j + 3) F) as F3.
  destruct F0 as [e0|[e0|[e0|e0]]]; rewrite e0 in *; [reflexivity| | |];
  destruct F1 as [e1|[e1|[e1|e1]]]; rewrite e1 in *; try discriminate N1;
  destruct F2 as [e2|[e2|[e2|e2]]]; rewrite e2 in *; try discriminate N2;
  destruct F3 as [e3|[e3|[e3|e3]]]; rewrite e3 in *; discriminate N3.
Qed.
Lemma take4 : forall x, Forall in4 x -> np_take (get_gray_level_vec (length (get_levels PAM4))) x = Ok (map g4 x).
Proof.
  intros x F. change (get_gray_level_vec (length (get_levels PAM4))) with [0; 1; 3; 2].
  rewrite (np_take_map [0; 1; 3; 2] 0); [reflexivity|]. eapply Forall_impl; [|exact F]. unfold in4. cbn. intros; lia.
Qed.
Lemma g4_in4 : forall x, Forall in4 x -> Forall in4 (map g4 x).
Proof. intros x F. apply Forall_map. eapply Forall_impl; [|exact F]. intros a [->|[->|[->| ->]]]; unfold in4, g4; cbn; auto. Qed.
Lemma mod4_in4 : forall a, in4 (a mod 4).
Proof. intros a. unfold in4. lia. Qed.
Lemma symfold_four : forall cd s, constel cd = PAM4 -> Forall in4 s -> s <> [] ->
  (c_gray cd = true /\ c_diff cd = false) \/ (c_gray cd = false /\ c_diff cd = true) ->
  exists z, symfold cd s = Done (Ok z) /\ Forall in4 z /\ length z = length s /\
    (z = s -> forall j, (j + 3 < length s)%nat -> nth j s 0 = 0).
Proof.
  intros cd s Cs F Ns [[G D]|[G D]]; unfold symfold, enc_symcode, dec_symcode; rewrite G, D, Cs; cbn [step obind]; unfold flat.
  - unfold coding_gray. change (1 <? ceil_log2 (length (get_levels PAM4)))%nat with true. cbn iota. cbn [vec data shape].
    rewrite take4 by auto. cbn [bind obind data].
    assert (Nt : map g4 s <> []) by (destruct s; [congruence|discriminate]).
    destruct (decoding_diff_vec PAM4 (map g4 s) Nt) as (z & E & Lz & Nz). rewrite E. cbn [bind obind data vec]. exists z.
    rewrite map_length in Lz, Nz. change (Z.of_nat (length (get_levels PAM4))) with 4 in Nz.
    split; [reflexivity|]. split; [|split; [exact Lz|]].
    + apply Forall_forall. intros v Hv. apply (In_nth _ _ 0) in Hv. destruct Hv as (i & Hi & <-). rewrite Nz by lia. apply mod4_in4.
    + intros ->. apply stuck_gray; auto. intros i Hi. rewrite (Nz i Hi) at 1. rewrite (map_nth_lt _ _ _ 0) by lia.
      destruct (Nat.eqb_spec i 0); [reflexivity|]. rewrite (map_nth_lt _ _ _ 0) by lia. reflexivity.
  - set (y := data (coding_differential PAM4 (vec s))).
    destruct (coding_diff_rec PAM4 (vec s)) as (_ & Ly & Ny). fold y in Ly, Ny. cbn [vec data] in Ly, Ny. change (nlev PAM4) with 4 in Ny.
    assert (Fy : Forall in4 y).
    { apply Forall_forall. intros v Hv. apply (In_nth _ _ 0) in Hv. destruct Hv as (i & Hi & <-). rewrite Ny by lia. apply mod4_in4. }
    unfold decoding_gray. change (1 <? ceil_log2 (length (get_levels PAM4)))%nat with true. cbn iota. cbn [vec data shape].
    rewrite take4 by auto. cbn [bind obind data]. exists (map g4 y). split; [reflexivity|]. split; [now apply g4_in4|].
    split; [now rewrite map_length|]. intros Eq. apply (stuck_diff s y); auto.
    intros i Hi. rewrite <- Eq at 1. now rewrite (map_nth_lt _ _ _ 0) by lia.
Qed.
Lemma link_four_one : forall cd p, binary_codes cd = codes [] -> (bps cd == 2)%Q -> constel cd = PAM4 ->
  (c_gray cd = true /\ c_diff cd = false) \/ (c_gray cd = false /\ c_diff cd = true) -> bits p ->
  delivers (link cd p) p -> forall j, (j + 3 < length p / 2)%nat -> symbol_value 2 (cflags cd) p j = 0.
Proof.
  intros cd p C H2 Cs GD B Dl j Hj.
  assert (O : over1 (bps cd) = true) by (apply over1_true; rewrite H2; reflexivity).
  assert (Fl : Qfloor (bps cd) = 2) by exact (Qfloor_nat _ 2 H2).
  destruct (bin2symbol_value 2 p (cflags cd) ltac:(lia)) as (s & E & Ls & Vs & Rs).
  assert (Ee : enc_symbols cd p = Ok s). { unfold enc_symbols. rewrite O, (is_int_Z _ 2 H2), Fl. exact E. }
  destruct (link_symbols_inv cd p s C Ee Dl) as (z & Ez & Dz).
  assert (Fs : Forall in4 s) by (apply in4_range; now apply Rs).
  assert (Ns : s <> []) by (intro e; rewrite e in Ls; cbn [length] in Ls; lia).
  destruct (symfold_four cd s Cs Fs Ns GD) as (z' & Ez' & Fz & Lz & K). rewrite Ez in Ez'. injection Ez' as <-.
  rewrite <- (Vs j) by lia. apply K; [|lia].
  destruct (roundtrip_syms 2 z (cflags cd) ltac:(lia)) as (bs & Eb & _ & _ & Eb').
  - eapply Forall_impl; [|exact Fz]. unfold in4. intros; cbn; lia.
  - right. left. lia.
  - unfold dec_symbols in Dz. rewrite O, Fl in Dz. change (2 ^ Z.of_nat 2) with 4 in *. change (2 ^ 2) with 4 in *.
    rewrite Eb in Dz. injection Dz as ->. rewrite E in Eb'. injection Eb' as <-. reflexivity.
Qed.
