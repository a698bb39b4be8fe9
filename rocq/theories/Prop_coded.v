(** C75: the example link with codes, over its latency. *)
From Coq Require Import Reals Lra Lia String Permutation.
From Verif Require Import Py PyQ B_list B_qc M_aux M_symbol M_prbs S_prbs S_coding M_sim S_sim S_linear M_simcheck M_rxloop M_link S_full S_rxparts M_ctle P_full P_fulldig Prop_full Prop_sim S_coded P_coded.
From Coq Require Import QArith Qcanon.
Import List.
Open Scope nat_scope.

(** *** C75: a coded link is a delay of D + n_pre symbols between the encoder and the decoder *)
Theorem C75_link : forall lms s nb D d, good_path s D d -> carries (ls_cd s) (ls_constel s) nb (ls_symbols s) -> (ls_type s = "pulse" \/ ls_type s = "awgn")%string -> (0 <= d)%R ->
  exists l, ls_link_of s nb = Ok l /\ forall n normal, channel_ok s d l n normal ->
  exists l' bs ss rs start, full_link_run lms n l normal = obind (decode_all (ls_cd s) rs) (fun ds => Done (Ok (l', bs, ds))) /\ sent s nb n bs /\
    Forall2 (fun b x => encoder (ls_cd s) b = Done (Ok x)) bs ss /\ length rs = n /\ Forall (fun x => length x = ls_symbols s) rs /\
    length start = D + ls_pre s /\ Forall (fun v => (0 <= v < Z.of_nat (length (get_levels (ls_constel s))))%Z) start /\
    concat rs = firstn (n * ls_symbols s) (start ++ concat ss).
Proof.
  intros lms s nb D d G CA T Hd. destruct (link_ready s nb D d G T) as (l & E & _). exists l. split; [exact E|]. intros n normal NO.
  destruct (link_symbols lms s nb D d n normal l G CA T Hd E NO) as (l' & bs & ss & rs & start & g & A1 & A2 & A3 & A4 & A5 & A6 & A7 & A8 & A9 & A10 & A11). exists l', bs, ss, rs, start. unfold sent. repeat split; eauto.
Qed.
Print Assumptions C75_link.

Ltac over_link lms s nb D d G CA T Hd :=
  let l := fresh "l" in let E := fresh "E" in
  destruct (link_ready s nb D d G T) as (l & E & _); exists l; split; [exact E|]; intros n normal NO;
  destruct (link_symbols lms s nb D d n normal l G CA T Hd E NO) as (l' & bs & ss & rs & start & g & A1 & A2 & A3 & A4 & A5 & A6 & A7 & A8 & A9 & A10 & A11).

(** A latency of whole chunks: every code that delivers a single chunk delivers the stream. *)
Theorem C75_whole_chunks : forall lms s nb D d m, good_path s D d -> carries (ls_cd s) (ls_constel s) nb (ls_symbols s) ->
  (forall b, bits b -> length b = nb -> delivers (link (ls_cd s) b) b) -> D + ls_pre s = m * ls_symbols s -> (ls_type s = "pulse" \/ ls_type s = "awgn")%string -> (0 <= d)%R ->
  exists l, ls_link_of s nb = Ok l /\ forall n normal, channel_ok s d l n normal ->
  exists l' bs start, sent s nb n bs /\ length start = m /\ Forall (fun x => length x = ls_symbols s) start /\
    full_link_run lms n l normal = obind (decode_all (ls_cd s) (firstn n start)) (fun d0 => Done (Ok (l', bs, d0 ++ map (map inject_Z) (firstn (n - m) bs)))).
Proof.
  intros lms s nb D d m G CA DL EM T Hd. assert (HN : 1 <= ls_symbols s) by apply G. over_link lms s nb D d G CA T Hd. rewrite EM in A8.
  destruct (chunks_delayed _ _ nb (ls_symbols s) m n bs ss rs start HN CA DL A3 A4 A6 A7 A8 A11) as (st & S1 & S2 & S3). exists l', bs, st. split; [split; eauto|]. split; [exact S1|]. split; [exact S2|].
  rewrite A5, S3. destruct (decode_all (ls_cd s) (firstn n st)) as [[x|e]|]; reflexivity.
Qed.
Print Assumptions C75_whole_chunks.
(** Codes decoded block by block: no code, Manchester, differential Manchester, linear blocks.  A latency of [t] whole
    blocks of [ln] line bits is a latency of t*mb bits, whatever the chunks. *)
Theorem C75_blocks : forall lms s D d ln mb u t, good_path s D d -> whole_symbols (ls_cd s) (ls_constel s) (ls_bits s) (ls_symbols s) -> block_code (ls_cd s) ln mb ->
  ls_symbols s * ls_bits s = u * ln -> (D + ls_pre s) * ls_bits s = t * ln -> (ls_type s = "pulse" \/ ls_type s = "awgn")%string -> (0 <= d)%R ->
  exists l, ls_link_of s (u * mb) = Ok l /\ forall n normal, channel_ok s d l n normal ->
  exists l' bs ds start, full_link_run lms n l normal = Done (Ok (l', bs, ds)) /\ sent s (u * mb) n bs /\ length ds = n /\ Forall (fun x => length x = u * mb) ds /\
    length start = t * mb /\ concat ds = firstn (n * (u * mb)) (start ++ map inject_Z (concat bs)).
Proof.
  intros lms s D d ln mb u t G W BC EN EQ T Hd. assert (CA := block_carries _ _ _ _ ln mb u W BC EN). over_link lms s (u * mb) D d G CA T Hd.
  destruct (blocks_delayed _ _ _ _ ln mb u t (D + ls_pre s) n bs ss rs start W BC EN EQ A3 A4 A6 A7 A8 A9 A10 A11) as (ds & st & D1 & D2 & D3 & D4 & D5). exists l', bs, ds, st. rewrite A5, D1. unfold sent. repeat split; eauto.
Qed.
Print Assumptions C75_blocks.
(** (Finding.)  With the Manchester code and a latency of an odd number of line bits, every value handed out after the
    start-up differs from both sent bits it overlaps: it is the complement of two equal ones and 1/2 for two different
    ones.  Neither the receiver nor the decoder looks for the boundaries of the cells. *)
Theorem C75_manchester_half_refuted : forall lms s D d u t, good_path s D d -> whole_symbols (ls_cd s) (ls_constel s) (ls_bits s) (ls_symbols s) -> binary_codes (ls_cd s) = codes [1] ->
  ls_symbols s * ls_bits s = u * 2 -> (D + ls_pre s) * ls_bits s = t * 2 + 1 -> (ls_type s = "pulse" \/ ls_type s = "awgn")%string -> (0 <= d)%R ->
  exists l, ls_link_of s u = Ok l /\ forall n normal, channel_ok s d l n normal ->
  exists l' bs ds, full_link_run lms n l normal = Done (Ok (l', bs, ds)) /\ sent s u n bs /\ length ds = n /\ Forall (fun x => length x = u) ds /\
    forall j, t + 1 <= j < n * u -> let a := nth (j - t - 1) (concat bs) 0%Z in let b := nth (j - t) (concat bs) 0%Z in let v := nth j (concat ds) 0%Q in
      (v == (2 - a - b) # 2 /\ ~ v == inject_Z a /\ ~ v == inject_Z b)%Q.
Proof.
  intros lms s D d u t G W C EN EQ T Hd. assert (BC : block_code (ls_cd s) 2 1) by (right; left; auto). assert (CA := block_carries _ _ _ _ 2 1 u W BC EN). rewrite Nat.mul_1_r in CA. over_link lms s u D d G CA T Hd.
  destruct (manchester_half _ _ _ _ u t (D + ls_pre s) n bs ss rs start W C EN EQ) as (ds & D1 & D2 & D3 & D4); auto; [now rewrite Nat.mul_1_r|]. exists l', bs, ds. rewrite A5, D1. split; [reflexivity|]. split; [split; eauto|]. split; [exact D2|]. split; [exact D3|].
  intros j Hj a b v. assert (V : (v == (2 - a - b) # 2)%Q) by (unfold v; rewrite (D4 j Hj); apply Qred_correct). split; [exact V|].
  assert (B : bits (concat bs)). { unfold bits. apply Forall_forall. intros x Hx. apply in_concat in Hx. destruct Hx as (r & Hr & Hx). rewrite Forall_forall in A3. destruct (A3 r Hr) as [Br _]. unfold bits in Br. rewrite Forall_forall in Br. auto. }
  pose proof (bits_nth _ (j - t - 1) B) as Ba. pose proof (bits_nth _ (j - t) B) as Bb. fold a in Ba. fold b in Bb. rewrite V. unfold Qeq, inject_Z. cbn [Qnum Qden]. destruct Ba as [-> | ->], Bb as [-> | ->]; split; intro X; discriminate X.
Qed.
Print Assumptions C75_manchester_half_refuted.
(** Bipolar (AMI) code: delivered at every latency. *)
Theorem C75_bipolar : forall lms s D d, good_path s D d -> ternary_symbols (ls_cd s) (ls_constel s) -> binary_codes (ls_cd s) = codes [2] -> (ls_type s = "pulse" \/ ls_type s = "awgn")%string -> (0 <= d)%R ->
  let N := ls_symbols s in
  exists l, ls_link_of s N = Ok l /\ forall n normal, channel_ok s d l n normal ->
  exists l' bs ds, full_link_run lms n l normal = Done (Ok (l', bs, map (map inject_Z) ds)) /\ sent s N n bs /\ length ds = n /\ Forall (fun x => length x = N) ds /\
    forall i, D + ls_pre s + i < n * N -> nth (D + ls_pre s + i) (concat ds) 0%Z = nth i (concat bs) 0%Z.
Proof.
  intros lms s D d G TS C T Hd N. assert (HN : 1 <= N) by apply G. assert (CA := bipolar_carries _ _ N TS C). over_link lms s N D d G CA T Hd.
  destruct (bipolar_delayed _ _ N (D + ls_pre s) n bs ss rs start TS C HN) as (ds & D1 & D2 & D3 & D4); auto. exists l', bs, ds. rewrite A5, D1. unfold sent. repeat split; eauto.
Qed.
Print Assumptions C75_bipolar.
(** Differential code: the decoder starts afresh with every chunk it is given.  All bits arrive except at the two places
    where a chunk of the encoder or of the decoder begins. *)
Theorem C75_differential : forall lms s D d, good_path s D d -> whole_symbols (ls_cd s) (ls_constel s) (ls_bits s) (ls_symbols s) -> binary_codes (ls_cd s) = codes [0] -> (ls_type s = "pulse" \/ ls_type s = "awgn")%string -> (0 <= d)%R ->
  let L := ls_symbols s * ls_bits s in let q := (D + ls_pre s) * ls_bits s in
  exists l, ls_link_of s L = Ok l /\ forall n normal, channel_ok s d l n normal ->
  exists l' bs ds, full_link_run lms n l normal = Done (Ok (l', bs, map (map inject_Z) ds)) /\ sent s L n bs /\ length ds = n /\ Forall (fun x => length x = L) ds /\
    forall i, q + i < n * L -> let b := nth (i / L) bs [] in
      ((q + i) mod L <> 0 -> i mod L <> 0 -> nth (q + i) (concat ds) 0%Z = nth i (concat bs) 0%Z) /\
      ((q + i) mod L = 0 -> nth (q + i) (concat ds) 0%Z = parity (firstn (S (i mod L)) b)) /\
      ((q + i) mod L <> 0 -> i mod L = 0 -> 1 <= i -> nth (q + i) (concat ds) 0%Z = ((nth i (concat bs) 0 + parity (nth (i / L - 1) bs [])) mod 2)%Z).
Proof.
  intros lms s D d G W C T Hd L q. assert (HN : 1 <= ls_symbols s) by apply G. assert (CA := diff_carries _ _ _ _ W C). over_link lms s L D d G CA T Hd.
  destruct (diff_delayed _ _ _ _ (D + ls_pre s) n bs ss rs start W C HN) as (ds & D1 & D2 & D3 & D4); auto. exists l', bs, ds. rewrite A5, D1. unfold sent. repeat split; eauto; intros; now apply D4.
Qed.
Print Assumptions C75_differential.
(** (Finding.)  Over a latency that is no whole number of chunks, every chunk of odd parity makes the first bit of the
    next one arrive inverted. *)
Theorem C75_differential_refuted : forall lms s D d, good_path s D d -> whole_symbols (ls_cd s) (ls_constel s) (ls_bits s) (ls_symbols s) -> binary_codes (ls_cd s) = codes [0] -> (ls_type s = "pulse" \/ ls_type s = "awgn")%string -> (0 <= d)%R ->
  let L := ls_symbols s * ls_bits s in let q := (D + ls_pre s) * ls_bits s in q mod L <> 0 ->
  exists l, ls_link_of s L = Ok l /\ forall n normal, channel_ok s d l n normal ->
  exists l' bs ds, full_link_run lms n l normal = Done (Ok (l', bs, map (map inject_Z) ds)) /\ sent s L n bs /\ length ds = n /\
    forall c, q + S c * L < n * L -> parity (nth c bs []) = 1%Z -> nth (q + S c * L) (concat ds) 0%Z = (1 - nth (S c * L) (concat bs) 0)%Z.
Proof.
  intros lms s D d G W C T Hd L q Q. destruct (C75_differential lms s D d G W C T Hd) as (l & E & H). exists l. split; [exact E|]. intros n normal NO. destruct (H n normal NO) as (l' & bs & ds & R & Se & Ld & _ & P). exists l', bs, ds. split; [exact R|]. split; [exact Se|]. split; [exact Ld|].
  intros c Hc Pc. assert (HL : L <> 0) by (intros X; rewrite X in Hc; lia). destruct (P (S c * L) Hc) as (_ & _ & P3). fold L q in P3. rewrite P3.
  - rewrite Nat.div_mul by exact HL. replace (S c - 1) with c by lia. rewrite Pc. assert (B : bits (concat bs)). { destruct Se as (_ & _ & F). unfold bits. apply Forall_forall. intros x Hx. apply in_concat in Hx. destruct Hx as (r & Hr & Hx). rewrite Forall_forall in F. destruct (F r Hr) as [Br _]. unfold bits in Br. rewrite Forall_forall in Br. auto. }
    destruct (bits_nth _ (S c * L) B) as [-> | ->]; reflexivity.
  - rewrite Nat.mod_add by exact HL. exact Q.
  - now apply Nat.mod_mul.
  - nia.
Qed.
Print Assumptions C75_differential_refuted.
(** MLT-3: likewise, the decoder starts afresh with every chunk. *)
Theorem C75_mlt3 : forall lms s D d, good_path s D d -> ternary_symbols (ls_cd s) (ls_constel s) -> binary_codes (ls_cd s) = codes [3] -> (ls_type s = "pulse" \/ ls_type s = "awgn")%string -> (0 <= d)%R ->
  let N := ls_symbols s in let q := D + ls_pre s in
  exists l, ls_link_of s N = Ok l /\ forall n normal, channel_ok s d l n normal ->
  exists l' bs ds, full_link_run lms n l normal = Done (Ok (l', bs, map (map inject_Z) ds)) /\ sent s N n bs /\ length ds = n /\ Forall (fun x => length x = N) ds /\
    forall i, q + i < n * N -> let b := nth (i / N) bs [] in
      ((q + i) mod N <> 0 -> i mod N <> 0 -> nth (q + i) (concat ds) 0%Z = nth i (concat bs) 0%Z) /\
      ((q + i) mod N = 0 -> nth (q + i) (concat ds) 0%Z = if (mlt_level (ones b (S (i mod N))) =? 1)%Z then 1%Z else 0%Z) /\
      ((q + i) mod N <> 0 -> i mod N = 0 -> 1 <= i -> nth (q + i) (concat ds) 0%Z = Z.abs (nth i (concat bs) 0 - mlt_level (ones (nth (i / N - 1) bs []) N))%Z).
Proof.
  intros lms s D d G TS C T Hd N q. assert (HN : 1 <= N) by apply G. assert (CA := mlt3_carries _ _ N TS C). over_link lms s N D d G CA T Hd.
  destruct (mlt3_delayed _ _ N (D + ls_pre s) n bs ss rs start TS C HN) as (ds & D1 & D2 & D3 & D4); auto. exists l', bs, ds. rewrite A5, D1. unfold sent. repeat split; eauto; intros; now apply D4.
Qed.
Print Assumptions C75_mlt3.
(** (Finding.)  Over a latency that is no whole number of chunks, every chunk with an odd number of ones makes the
    first bit of the next one arrive inverted, and after a chunk with 4m+2 ones a first bit 0 is handed out as 2. *)
Theorem C75_mlt3_refuted : forall lms s D d, good_path s D d -> ternary_symbols (ls_cd s) (ls_constel s) -> binary_codes (ls_cd s) = codes [3] -> (ls_type s = "pulse" \/ ls_type s = "awgn")%string -> (0 <= d)%R ->
  let N := ls_symbols s in let q := D + ls_pre s in q mod N <> 0 ->
  exists l, ls_link_of s N = Ok l /\ forall n normal, channel_ok s d l n normal ->
  exists l' bs ds, full_link_run lms n l normal = Done (Ok (l', bs, map (map inject_Z) ds)) /\ sent s N n bs /\ length ds = n /\
    forall c, q + S c * N < n * N -> let o := ones (nth c bs []) N in
      (o mod 2 = 1 -> nth (q + S c * N) (concat ds) 0%Z = (1 - nth (S c * N) (concat bs) 0)%Z) /\
      (o mod 4 = 2 -> nth (S c * N) (concat bs) 0%Z = 0%Z -> nth (q + S c * N) (concat ds) 0%Z = 2%Z).
Proof.
  intros lms s D d G TS C T Hd N q Q. destruct (C75_mlt3 lms s D d G TS C T Hd) as (l & E & H). exists l. split; [exact E|]. intros n normal NO. destruct (H n normal NO) as (l' & bs & ds & R & Se & Ld & _ & P). exists l', bs, ds. split; [exact R|]. split; [exact Se|]. split; [exact Ld|].
  intros c Hc o. assert (HN : N <> 0) by (intros X; rewrite X in Hc; lia). destruct (P (S c * N) Hc) as (_ & _ & P3).
  assert (J : (q + S c * N) mod N <> 0) by (rewrite Nat.mod_add by exact HN; exact Q). specialize (P3 J (Nat.mod_mul _ _ HN) ltac:(nia)). fold N q in P3. rewrite P3, Nat.div_mul by exact HN. replace (S c - 1) with c by lia. fold o.
  assert (B : bits (concat bs)). { destruct Se as (_ & _ & F). unfold bits. apply Forall_forall. intros x Hx. apply in_concat in Hx. destruct Hx as (r & Hr & Hx). rewrite Forall_forall in F. destruct (F r Hr) as [Br _]. unfold bits in Br. rewrite Forall_forall in Br. auto. }
  split.
  - intros O. assert (M : mlt_level o = 1%Z). { unfold mlt_level. assert (o mod 4 = 1 \/ o mod 4 = 3) as [-> | ->]; [|reflexivity..]. replace (o mod 2) with ((o mod 4) mod 2) in O by (change 4 with (2 * 2); rewrite Nat.mod_mul_r by lia; rewrite Nat.mul_comm, Nat.mod_add by lia; apply Nat.mod_mod; lia). assert (M4 := Nat.mod_upper_bound o 4 ltac:(lia)). destruct (o mod 4) as [|[|[|[|m]]]]; cbn in O; lia. } rewrite M. destruct (bits_nth _ (S c * N) B) as [-> | ->]; reflexivity.
  - intros O Z0. unfold mlt_level. rewrite O, Z0. reflexivity.
Qed.
Print Assumptions C75_mlt3_refuted.

(** Rectangular pulse, three taps of the equaliser with one of them before the main one, 8 bit ADC: a latency of one
    symbol.  The levels of the three constellations are 32 codes apart or more; samples may be off by 15 codes. *)
Definition ex_scale (c : constellation) : Z := match c with PAM4 => 3%Z | _ => 1%Z end.
Definition ex75s (sp : nat) (c : constellation) (k N : nat) (cd : coding_data) : link_settings :=
  mk_ls PRBS7 None k N cd c (ofZ (64 * ex_scale c)) (ofZ (ex_scale c)) (mk_md c (map (fun v => ofZ (32 * v)) (get_levels c)) (ofZ (64 * ex_scale c)) (ofZ (ex_scale c)))
    "rect" 0.35 2 sp "awgn" (Some 20%R) [2; -3]%R [-3; 2]%R 0%R 1%R 8 5 "s" 1 1 1 0 None (mk_eq 1 1 0 None (map ofZ [0; 1; 0]%Z) [] (map ofZ [0; 0; 0]%Z) []).
Notation ex75 := (ex75s 1).
Lemma ex75_near (L v : R) (z : Z) (l : Z) a : adc_low a = (-128)%Z -> adc_high a = 127%Z -> L = IZR l -> (-96 <= l <= 96)%Z -> (Rabs (v - L) <= 15)%R -> nearest_code a v z -> (l - 15 <= z <= l + 15)%Z.
Proof.
  intros Lo Hi -> HL HV [[Z1 Z2] NZ]. rewrite Lo, Hi in *. assert (HV' : (IZR l - 15 <= v <= IZR l + 15)%R) by (destruct (Rcase_abs (v - IZR l)) as [C|C]; [rewrite Rabs_left in HV by auto|rewrite Rabs_right in HV by auto]; lra). split.
  - destruct (Z_lt_ge_dec z (l - 15)) as [C|C]; [exfalso|lia]. specialize (NZ (l - 15)%Z ltac:(lia)). rewrite minus_IZR in NZ. assert (CR : (IZR z <= IZR l - 16)%R) by (rewrite <- minus_IZR; apply IZR_le; lia). rewrite !Rabs_right in NZ by lra. lra.
  - destruct (Z_lt_ge_dec (l + 15) z) as [C|C]; [exfalso|lia]. specialize (NZ (l + 15)%Z ltac:(lia)). rewrite plus_IZR in NZ. assert (CR : (IZR l + 16 <= IZR z)%R) by (rewrite <- plus_IZR; apply IZR_le; lia). rewrite !Rabs_left1 in NZ by lra. lra.
Qed.
Lemma ex75_half (r z : Z) h : (ofZ 1 / ofZ 2 <= h)%Qc -> (32 * r - 15 <= z <= 32 * r + 15)%Z -> (Qcabs (ofZ z / pow2 5 - ofZ r) < h)%Qc.
Proof.
  intros Hh H. apply Qclt_le_trans with (2 := Hh). assert (X : (ofZ z / pow2 5 - ofZ r)%Qc = ((ofZ (z - 32 * r)) / ofZ 32)%Qc).
  { change (pow2 5) with (ofZ 32). apply Qc_is_canon. unfold ofZ, Qcdiv, Qcinv, Qcmult, Qcminus, Qcopp, Qcplus. cbn [this Q2Qc]. rewrite !Qred_correct. unfold Qeq, Qminus, Qplus, Qmult, Qopp, Qinv, inject_Z. cbn -[Z.mul Z.add Z.sub]. lia. }
  rewrite X. unfold Qclt. unfold Qcabs. cbn [this Q2Qc]. assert (Y : (this (ofZ (z - 32 * r) / ofZ 32)%Qc == (z - 32 * r) # 32)%Q).
  { unfold ofZ, Qcdiv, Qcinv, Qcmult. cbn [this Q2Qc]. rewrite !Qred_correct. unfold Qeq, Qmult, Qinv, inject_Z. cbn -[Z.mul Z.add Z.sub]. lia. }
  rewrite Y. change (this (ofZ 1 / ofZ 2)%Qc) with (1 # 2)%Q. unfold Qlt, Qabs.Qabs. cbn -[Z.mul Z.add Z.sub Z.abs]. lia.
Qed.
Lemma ex75_levels c i : c <> OOK -> i < length (get_levels c) -> nth i (rx_level_vec (ls_map (ex75 c 1 1 (mk_cd c 1 1 (mk_flags false false false false) false false false false false false false false false GNone)))) (ofZ 0) = ofZ (nth i (get_levels c) 0%Z) /\ (-3 <= nth i (get_levels c) 0 <= 3)%Z.
Proof.
  intros O H. destruct c; [|now destruct O| |]; cbn [get_levels length] in H.
  - destruct i as [|[|i]]; [| |lia]; (split; [apply Qc_is_canon; reflexivity|cbn; lia]).
  - destruct i as [|[|[|i]]]; [| | |lia]; (split; [apply Qc_is_canon; reflexivity|cbn; lia]).
  - destruct i as [|[|[|[|i]]]]; [| | | |lia]; (split; [apply Qc_is_canon; reflexivity|cbn; lia]).
Qed.
Lemma ex75_good sp c k N cd : c <> OOK -> 3 <= N -> 1 <= sp -> good_path (ex75s sp c k N cd) (sp - 1) 15.
Proof.
  intros O HN HS. unfold good_path. split; [exact I|]. split; [destruct c; discriminate|]. split; [destruct c; [split; reflexivity|now destruct O|split; intro X; discriminate X|split; reflexivity]|].
  split. { cbn [ls_constel ls_amp ls_rx_factor ls_map ex75s]. destruct c; [|now destruct O| |]; unfold mapping_data_init, ex_scale; cbn [get_levels map]; match goal with |- (if ?b then _ else _) = _ => replace b with false by reflexivity end; cbv iota; do 3 f_equal; repeat (apply f_equal2); try reflexivity; apply Qc_is_canon; reflexivity. }
  split; [cbn; lia|]. split; [cbn; lia|]. split; [cbn; lia|]. split; [left; split; reflexivity|]. split; [discriminate|]. split; [repeat constructor; lra|]. split; [constructor|]. split; [cbn; lra|]. split; [cbn [ls_dc ex75s]; rewrite gain0; lra|].
  split; [cbn; lia|]. split; [auto|]. split; [reflexivity|]. split; [discriminate|]. split; [cbn; lia|].
  intros i v z Hi. cbn [ls_dc ex75s]. rewrite gain0, !Rmult_1_l. cbn [ls_map ex75 md_constel] in Hi. destruct (ex75_levels c i O Hi) as [RL RG]. intros HV NC.
  assert (EM : nth i (md_levels (ls_map (ex75s sp c k N cd))) (ofZ 0) = ofZ (32 * nth i (get_levels c) 0%Z)) by (cbn [ls_map ex75 md_levels]; rewrite (map_nth_lt _ _ _ 0%Z) by exact Hi; reflexivity). rewrite EM in HV.
  change (rx_level_vec (ls_map (ex75s sp c k N cd))) with (rx_level_vec (ls_map (ex75 c 1 1 (mk_cd c 1 1 (mk_flags false false false false) false false false false false false false false false GNone)))). rewrite RL. apply ex75_half.
  - destruct c; [|now destruct O| |]; intro X; discriminate X.
  - apply (ex75_near _ v z _ (ls_adc (ex75s sp c k N cd)) eq_refl eq_refl (Qc2R_ofZ _)); auto. lia.
Qed.
Definition ex_cd (c : constellation) (b : Q) (code : nat) (G : generator) : coding_data :=
  let on i := (code =? i) in mk_cd c b 8 (mk_flags false false false false) false false (on 0) (on 1) (on 2) (on 3) (on 4) (on 5) (on 6) G.
(** Manchester code on PAM4: the latency of one symbol is one bit; a repetition code likewise. *)
Example C75_blocks_case : let s := ex75 PAM4 2 6 (ex_cd PAM4 2 1 GNone) in
  good_path s 0 15 /\ whole_symbols (ls_cd s) (ls_constel s) (ls_bits s) (ls_symbols s) /\ block_code (ls_cd s) 2 1 /\ ls_symbols s * ls_bits s = 6 * 2 /\ (0 + ls_pre s) * ls_bits s = 1 * 2.
Proof. split; [apply (ex75_good 1); [discriminate|lia|lia]|]. split; [repeat split; cbn; auto; lia|]. split; [right; left; auto|]. split; reflexivity. Qed.
Example C75_linear_case : let s := ex75 PAM4 2 6 (ex_cd PAM4 2 5 (GArray (mk_nda [1; 2] [1; 1]%Z))) in
  good_path s 0 15 /\ whole_symbols (ls_cd s) (ls_constel s) (ls_bits s) (ls_symbols s) /\ block_code (ls_cd s) 2 1 /\ (0 + ls_pre s) * ls_bits s = 1 * 2.
Proof.
  split; [apply (ex75_good 1); [discriminate|lia|lia]|]. split; [repeat split; cbn; auto; lia|]. split; [|reflexivity]. right; right. split; [reflexivity|]. split; [lia|]. split; [lia|]. eexists. split; [reflexivity|]. split; [cbn [data]; constructor; [now right|constructor; [now right|constructor]]|]. split; [reflexivity|]. split; [reflexivity|].
  intros [|u [|? ?]] [|v [|? ?]] L1 B1 L2 B2 E; try discriminate. inversion B1 as [|? ? Bu _]; inversion B2 as [|? ? Bv _]; subst. destruct Bu as [-> | ->], Bv as [-> | ->]; auto; discriminate E.
Qed.
Example C75_manchester_half_case : let s := ex75 NRZ 1 6 (ex_cd NRZ 1 1 GNone) in
  good_path s 0 15 /\ whole_symbols (ls_cd s) (ls_constel s) (ls_bits s) (ls_symbols s) /\ binary_codes (ls_cd s) = codes [1] /\ ls_symbols s * ls_bits s = 3 * 2 /\ (0 + ls_pre s) * ls_bits s = 0 * 2 + 1.
Proof. split; [apply (ex75_good 1); [discriminate|lia|lia]|]. split; [repeat split; cbn; auto; lia|]. repeat split. Qed.
(** Of the first chunks of eight PRBS7 bits the second and the third have odd parity. *)
Example C75_differential_case : let s := ex75 PAM4 2 4 (ex_cd PAM4 2 0 GNone) in
  good_path s 0 15 /\ whole_symbols (ls_cd s) (ls_constel s) (ls_bits s) (ls_symbols s) /\ binary_codes (ls_cd s) = codes [0] /\ ((0 + ls_pre s) * ls_bits s) mod (ls_symbols s * ls_bits s) <> 0 /\
  exists g bs, prbs_gen_run 4 (prbs_gen_init (prbs_data_init (ls_prbs s) 8 (ls_seed s))) = (g, Ok bs) /\ exists c, c < 3 /\ parity (nth c bs []) = 1%Z.
Proof.
  split; [apply (ex75_good 1); [discriminate|lia|lia]|]. split; [repeat split; cbn; auto; lia|]. split; [reflexivity|]. split; [discriminate|].
  eexists _, _. split; [vm_compute; reflexivity|]. first [exists 0; split; [lia|reflexivity]|exists 1; split; [lia|reflexivity]|exists 2; split; [lia|reflexivity]].
Qed.
Example C75_ternary_case : let s := ex75 PAM3 1 6 (ex_cd PAM3 1 2 GNone) in
  good_path s 0 15 /\ ternary_symbols (ls_cd s) (ls_constel s) /\ binary_codes (ls_cd s) = codes [2].
Proof. split; [apply (ex75_good 1); [discriminate|lia|lia]|]. split; [split; [split; reflexivity|split; [split; [reflexivity|intro X; discriminate X]|split; [reflexivity|intros _; reflexivity]]]|reflexivity]. Qed.
Example C75_mlt3_case : let s := ex75 PAM3 1 7 (ex_cd PAM3 1 3 GNone) in
  good_path s 0 15 /\ ternary_symbols (ls_cd s) (ls_constel s) /\ binary_codes (ls_cd s) = codes [3] /\ (0 + ls_pre s) mod ls_symbols s <> 0 /\
  exists g bs, prbs_gen_run 9 (prbs_gen_init (prbs_data_init (ls_prbs s) 7 (ls_seed s))) = (g, Ok bs) /\ (exists c, c < 8 /\ ones (nth c bs []) 7 mod 2 = 1) /\ exists c, c < 8 /\ ones (nth c bs []) 7 mod 4 = 2 /\ nth (S c * 7) (concat bs) 0%Z = 0%Z.
Proof.
  split; [apply (ex75_good 1); [discriminate|lia|lia]|]. split; [split; [split; reflexivity|split; [split; [reflexivity|intro X; discriminate X]|split; [reflexivity|intros _; reflexivity]]]|]. split; [reflexivity|]. split; [discriminate|].
  eexists _, _. split; [vm_compute; reflexivity|]. split.
  - first [exists 0; split; [lia|reflexivity]|exists 1; split; [lia|reflexivity]|exists 2; split; [lia|reflexivity]|exists 3; split; [lia|reflexivity]].
  - exists 1. split; [lia|split; reflexivity].
Qed.
(** A latency of one chunk of three symbols with the differential code. *)
Example C75_whole_chunks_case : let s := ex75s 3 PAM4 2 3 (ex_cd PAM4 2 0 GNone) in
  good_path s 2 15 /\ carries (ls_cd s) (ls_constel s) 6 (ls_symbols s) /\ (forall b, bits b -> length b = 6 -> delivers (link (ls_cd s) b) b) /\ 2 + ls_pre s = 1 * ls_symbols s.
Proof.
  split; [apply (ex75_good 3); [discriminate|lia|lia]|]. split; [apply (diff_carries _ _ 2 3); [repeat split; cbn; auto; lia|reflexivity]|]. split; [|reflexivity]. intros b B L. apply Prop_sim.C58_bin_diff; auto; [split; reflexivity|intros ->; discriminate L|].
  right. exists 2. split; [lia|]. split; [reflexivity|]. split; [rewrite L; reflexivity|]. intros X. rewrite L in X. discriminate X.
Qed.
