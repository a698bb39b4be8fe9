(** Proofs about the Encoder / Decoder of the example link. *)
From Verif Require Import Py B_list M_aux M_symbol M_coding M_linear M_conv M_convdec M_sim S_sim.
From Verif Require Import S_coding S_linear S_conv P_aux P_symbol P_coding P_bipolar P_linear P_conv P_convdec P_viterbi.
From Coq Require Import QArith Qround.
Open Scope Z_scope.

Lemma codes_inv : forall cd l, binary_codes cd = codes l ->
  c_bin_diff cd = existsb (Nat.eqb 0) l /\ c_manchester cd = existsb (Nat.eqb 1) l /\ c_bipolar cd = existsb (Nat.eqb 2) l /\
  c_mlt3 cd = existsb (Nat.eqb 3) l /\ c_diff_manchester cd = existsb (Nat.eqb 4) l /\ c_linear cd = existsb (Nat.eqb 5) l /\
  c_conv cd = existsb (Nat.eqb 6) l.
Proof.
  intros cd l. unfold binary_codes, codes. cbn [map seq]. intros [=]. repeat split; assumption.
Qed.

Lemma Qfloor_nat : forall q z, (q == inject_Z z)%Q -> Qfloor q = z.
Proof. intros q z H. rewrite H. apply Qfloor_Z. Qed.
Lemma is_int_Z : forall q z, (q == inject_Z z)%Q -> is_int q = true.
Proof. intros q z H. unfold is_int. apply Qeq_bool_iff. rewrite (Qfloor_nat q z H). now rewrite H. Qed.
Lemma over1_false : forall q, (q <= 1)%Q -> over1 q = false.
Proof. intros q H. unfold over1. apply Qle_bool_iff in H. now rewrite H. Qed.
Lemma over1_true : forall q, (1 < q)%Q -> over1 q = true.
Proof.
  intros q H. unfold over1. destruct (Qle_bool q 1) eqn:E; auto. apply Qle_bool_iff in E.
  exfalso. exact (Qlt_not_le _ _ H E).
Qed.

Lemma sub_sub : forall c (x : list Z), map (fun v => c - v) (map (fun v => c - v) x) = x.
Proof. intros. rewrite map_map. rewrite <- (map_id x) at 2. apply map_ext. intros; lia. Qed.

(** one or fewer bits per symbol: any values *)
Lemma symbols_le1 : forall cd y, (bps cd <= 1)%Q ->
  exists s, enc_symbols cd y = Ok s /\ dec_symbols cd s = Ok y.
Proof.
  intros cd y H. unfold enc_symbols, dec_symbols. rewrite (over1_false _ H).
  destruct (is_int (bps cd)); destruct (pn_inv (cflags cd)); eexists; (split; [reflexivity|]); now rewrite ?sub_sub.
Qed.
Lemma symbols_fill : forall cd y, bits y -> fills_symbols cd (length y) ->
  exists s, enc_symbols cd y = Ok s /\ dec_symbols cd s = Ok y.
Proof.
  intros cd y By [H | (k & Hk & Hb & Hm & Hone)].
  - apply symbols_le1. rewrite H. apply Qle_refl.
  - assert (O : over1 (bps cd) = true).
    { apply over1_true. rewrite Hb. unfold Qlt, inject_Z. cbn. lia. }
    unfold enc_symbols, dec_symbols. rewrite O, (is_int_Z _ _ Hb), (Qfloor_nat _ _ Hb).
    destruct (roundtrip_bits k y (cflags cd)) as (s & E & D); [lia|auto| |].
    + right. destruct (Nat.eq_dec (length y) k) as [e|ne].
      * right. apply Hone. exact e.
      * left. intro E1. apply ne. pose proof (Nat.div_mod (length y) k ltac:(lia)). rewrite Hm, E1 in H. lia.
    + exists s. split; [exact E|]. rewrite D. f_equal.
      pose proof (Nat.div_mod (length y) k ltac:(lia)) as Hd. rewrite Hm in Hd.
      rewrite firstn_all2; [reflexivity|]. rewrite Nat.mul_comm. lia.
Qed.

Lemma to_ints_inject : forall l, to_ints (map inject_Z l) = Some l.
Proof.
  intros l. unfold to_ints.
  assert (H : forallb is_int (map inject_Z l) = true).
  { apply forallb_forall. intros x I. apply in_map_iff in I. destruct I as (z & <- & _). apply (is_int_Z _ z). reflexivity. }
  rewrite H. f_equal. rewrite map_map. rewrite <- (map_id l) at 2. apply map_ext. intros. apply Qfloor_Z.
Qed.

(** The chain, reduced to its binary stage. *)
Lemma link_binary : forall cd p y, no_symbol_code cd -> enc_binary cd p = Done (Ok y) ->
  (exists s, enc_symbols cd y = Ok s /\ dec_symbols cd s = Ok y) ->
  link cd p = dec_binary cd y.
Proof.
  intros cd p y [G D] E (s & Es & Ds). unfold link, encoder. rewrite E. cbn [obind]. rewrite Es. cbn [obind].
  unfold enc_symcode, decoder, dec_symcode. rewrite G, D. cbn [step obind]. now rewrite Ds.
Qed.

Ltac use_codes H :=
  let h := fresh in pose proof (codes_inv _ _ H) as h; cbn [existsb Nat.eqb orb] in h;
  destruct h as (?Hbd & ?Hma & ?Hbi & ?Hml & ?Hdm & ?Hli & ?Hco).
Ltac chain := unfold enc_binary, dec_binary, dec_rest;
  repeat match goal with H : ?f ?cd = _ |- context [?f ?cd] => rewrite H end; cbn [step obind].

Lemma bits_range2 : forall c x, length (get_levels c) = 2%nat -> bits x -> Forall (fun i => 0 <= i < Z.of_nat (length (get_levels c))) x.
Proof. intros c x L B. rewrite L. eapply Forall_impl; [|exact B]. unfold isbit. intros; lia. Qed.
Lemma coding_diff_vec : forall c x, coding_differential c (vec x) = vec (data (coding_differential c (vec x))).
Proof.
  intros. unfold coding_differential, vec. cbn [shape data]. f_equal. rewrite map_length.
  f_equal. generalize 0. induction x as [|a x IH]; intros; cbn [cumsum length]; [reflexivity|]. f_equal. apply IH.
Qed.
Lemma mod2_bits : forall l, bits (map (fun v => v mod 2) l).
Proof. intros l. apply Forall_map. apply Forall_forall. intros v _. unfold isbit. pose proof (Z.mod_pos_bound v 2). lia. Qed.

Lemma link_plain : forall cd p, no_symbol_code cd -> binary_codes cd = codes [] -> bits p -> fills_symbols cd (length p) ->
  delivers (link cd p) p.
Proof.
  intros cd p N C B F. use_codes C. unfold delivers. rewrite (link_binary cd p p); auto.
  - chain. reflexivity.
  - chain. reflexivity.
  - now apply symbols_fill.
Qed.

Lemma link_bindiff : forall cd p, no_symbol_code cd -> binary_codes cd = codes [0%nat] -> bits p -> p <> [] ->
  fills_symbols cd (length p) -> delivers (link cd p) p.
Proof.
  intros cd p N C B Np F. use_codes C. unfold delivers.
  set (y := data (coding_differential OOK (vec p))).
  assert (By : bits y) by apply mod2_bits.
  assert (Ly : length y = length p) by (unfold y; apply (coding_diff_rec OOK (vec p))).
  rewrite (link_binary cd p y); auto.
  - chain. unfold flat, y. rewrite <- coding_diff_vec. rewrite (diff_roundtrip_1d OOK p Np (bits_range2 OOK p eq_refl B)). reflexivity.
  - chain. reflexivity.
  - apply symbols_fill; auto. now rewrite Ly.
Qed.

Lemma link_manchester : forall cd p, no_symbol_code cd -> binary_codes cd = codes [1%nat] -> bits p ->
  fills_symbols cd (2 * length p) -> delivers (link cd p) p.
Proof.
  intros cd p N C B F. use_codes C. unfold delivers.
  destruct (manch_roundtrip (vec p) B ltac:(discriminate) ltac:(unfold wf_nda, vec, size; cbn; lia)) as (q & E & D).
  destruct (manch_line (vec p) B ltac:(discriminate) ltac:(unfold wf_nda, vec, size; cbn; lia)) as (q' & E' & Lq & Bq & _).
  rewrite E in E'. injection E' as <-. cbn [vec data] in Lq.
  assert (Sq : q = vec (data q)).
  { revert E. unfold coding_manchester. destruct (check_binary _); cbn [bind]; [|discriminate]. cbn [shape vec].
    destruct (np_take _ _) as [cells|]; cbn [bind]; [|discriminate]. unfold reshape.
    destruct (Nat.eqb _ _) eqn:Es; [|discriminate]. intros [= <-]. unfold vec. cbn [data shape].
    unfold set_last_dim. cbn [removelast app last_dim last]. cbn [data] in Lq. rewrite Lq. reflexivity. }
  rewrite (link_binary cd p (data q)); auto.
  - chain. rewrite <- Sq, D. cbn [data vec]. rewrite to_ints_inject. reflexivity.
  - chain. unfold flat. rewrite E. reflexivity.
  - apply symbols_fill; auto. rewrite Lq. exact F.
Qed.

Lemma link_diff_manchester : forall cd p, no_symbol_code cd -> binary_codes cd = codes [4%nat] -> bits p ->
  fills_symbols cd (2 * length p) -> delivers (link cd p) p.
Proof.
  intros cd p N C B F. use_codes C. unfold delivers.
  destruct (dm_roundtrip (vec p) false B ltac:(discriminate) ltac:(unfold wf_nda, vec, size; cbn; lia)) as (q & E & D).
  destruct (dm_line (vec p) B ltac:(discriminate) ltac:(unfold wf_nda, vec, size; cbn; lia)) as (q' & E' & Lq & Bq & _).
  rewrite E in E'. injection E' as <-. cbn [vec data] in Lq.
  assert (Sq : q = vec (data q)).
  { revert E. unfold coding_differential_manchester. destruct (check_binary _); cbn [bind]; [|discriminate]. cbn [shape vec].
    destruct (map_res _ _) as [cells|]; cbn [bind]; [|discriminate]. unfold reshape.
    destruct (Nat.eqb _ _) eqn:Es; [|discriminate]. intros [= <-]. unfold vec. cbn [data shape].
    unfold set_last_dim. cbn [removelast app last_dim last]. cbn [data] in Lq. rewrite Lq. reflexivity. }
  rewrite (link_binary cd p (data q)); auto.
  - chain. unfold flat. rewrite <- Sq, D. reflexivity.
  - chain. unfold flat. rewrite E. reflexivity.
  - apply symbols_fill; auto. rewrite Lq. exact F.
Qed.

Lemma link_bipolar : forall cd p, no_symbol_code cd -> binary_codes cd = codes [2%nat] -> bits p -> (bps cd <= 1)%Q ->
  delivers (link cd p) p.
Proof.
  intros cd p N C B F. use_codes C. unfold delivers.
  pose proof (bipolar_enc (vec p) B) as E.
  match type of E with _ = Ok ?q => set (q0 := q) in * end.
  rewrite (link_binary cd p (data q0)); auto.
  - chain. unfold decoding_bipolar, q0. cbn [vec data shape].
    rewrite ami_decode by auto. reflexivity.
  - chain. unfold flat. rewrite E. reflexivity.
  - now apply symbols_le1.
Qed.

Lemma link_mlt3 : forall cd p, no_symbol_code cd -> binary_codes cd = codes [3%nat] -> bits p -> p <> [] -> (bps cd <= 1)%Q ->
  delivers (link cd p) p.
Proof.
  intros cd p N C B Np F. use_codes C. unfold delivers.
  destruct (mlt3_roundtrip p Np B) as (q & E & D).
  rewrite (link_binary cd p q); auto.
  - chain. rewrite D. reflexivity.
  - chain. unfold flat. rewrite E. reflexivity.
  - now apply symbols_le1.
Qed.
