(** Proofs about links whose calls always return. *)
From Coq Require Import Reals String Lia Lra.
From Verif Require Import Py PyQ B_list B_qc M_aux M_symbol M_slicer S_rx P_slicer M_filter M_channel S_channel M_ctle S_ctle M_prbs P_gf2 P_prbs P_prbs_gen M_sim S_sim M_simcheck S_simcheck P_simcheck M_rxloop S_rxparts P_rxparts S_rxloop P_rxloop M_link S_link P_link P_fulldig P_full M_linkst S_linkst P_linkst S_works.
From Coq Require Import QArith Qcanon.
Import List ListNotations.
Open Scope Z_scope.

(** * Transmitter *)
Lemma gen_next t g : pg_poly g = get_polynomial t -> length (pg_seed g) = prbs_value t -> bits (pg_seed g) ->
  exists g' p, prbs_gen_next g = (g', Ok p) /\ length p = pg_chunk g /\ bits p /\ pg_poly g' = pg_poly g /\ pg_chunk g' = pg_chunk g /\ length (pg_seed g') = prbs_value t /\ bits (pg_seed g').
Proof.
  intros E L B. unfold prbs_gen_next. rewrite E, gen_char by auto. eexists _, _. split; [reflexivity|]. cbn [pg_poly pg_chunk pg_seed].
  split; [apply outbits_length|]. split; [apply outbits_bits|]. split; [reflexivity|]. split; [reflexivity|].
  assert (BV : bv (prbs_value t) (Nat.iter (pg_chunk g) (lfsr_step (get_polynomial t)) (pg_seed g))) by (apply (iter_bv (prbs_value t) (get_polynomial t) [] (value_gt1 t)); split; auto). exact BV.
Qed.
Lemma transmit_ok cd m nb N p : carries cd (md_constel m) nb N -> length (md_levels m) = length (get_levels (md_constel m)) -> bits p -> length p = nb ->
  exists s t, encoder cd p = Done (Ok s) /\ length s = N /\ mapping Qcopp (map ofZ (get_levels (md_constel m))) (Some (md_levels m)) false (vec s) = Ok (vec t) /\ length t = N /\ transmit cd m p = Done (Ok t).
Proof.
  intros C L B Lp. destruct (C p B Lp) as (s & E & Ls & F). exists s.
  assert (M : mapping Qcopp (map ofZ (get_levels (md_constel m))) (Some (md_levels m)) false (vec s) = Ok (vec (map (fun v => nth (Z.to_nat v) (md_levels m) 0%Qc) s))).
  { unfold mapping. rewrite map_length, L, Nat.eqb_refl. cbn [bind data shape vec]. unfold np_take. rewrite (map_res_ok _ (fun v => nth (Z.to_nat v) (md_levels m) 0%Qc)).
    - cbn [bind]. unfold vec. now rewrite map_length.
    - intros v Hv. rewrite Forall_forall in F. specialize (F v Hv). rewrite <- (Z2Nat.id v) at 1 by lia. apply np_get_nth. lia. }
  eexists. split; [exact E|]. split; [exact Ls|]. split; [exact M|]. split; [now rewrite map_length|]. unfold transmit. rewrite E. cbn [obind]. rewrite M. reflexivity.
Qed.

(** * Channel and CTLE *)
Lemma awgn_numbers y snr n0 : (2 <= length y)%nat -> exists w, awgn y snr n0 = map Some w /\ length w = length y.
Proof.
  intros L. unfold awgn. exists (map (fun k => (nth k y 0 + (0 + noise_std y snr * n0 k))%R) (seq 0 (length y))). rewrite map_map. split; [|now rewrite map_length, seq_length].
  destruct (Nat.eqb_spec (length y) 1); [lia|]. reflexivity.
Qed.
Lemma channel_returns c o s N u n0 : channel_usable c o s N -> length u = N -> (1 <= N)%nat ->
  exists c1 y, channel_call c u n0 = (c1, Ok (Some (map Some y))) /\ length y = (N * o)%nat /\ channel_usable c1 o s N.
Proof.
  intros (Sz & T) L HN. assert (Nu : u <> []) by (intros ->; cbn in L; lia).
  assert (LIN : linear_type c -> exists c1 y, channel_call c u n0 = (c1, Ok (Some (map Some y))) /\ length y = (N * o)%nat /\ channel_usable c1 o s N).
  { intros LT. destruct (call_ok c o s u n0 Sz LT Nu) as (p & y & pz & z & _ & Lp & Ly & E & S1 & _). exists (ch_with c pz z), y. split; [exact E|]. split; [lia|]. split; [exact S1|]. exact T. }
  assert (NOI : forall snr, ch_snr c = Some snr -> (ch_type c = "awgn" \/ ch_type c = "isi_awgn")%string -> (2 <= N * o)%nat ->
    exists c1 y, channel_call c u n0 = (c1, Ok (Some (map Some y))) /\ length y = (N * o)%nat /\ channel_usable c1 o s N).
  { intros snr Es Ty L2. destruct (call_ok _ o s u n0 (noise_free_sized c o s Sz) (noise_free_linear c Ty) Nu) as (p & y & pz & z & _ & Lp & Ly & E & _).
    destruct (noisy_call c o s u n0 snr _ y Sz Es Ty Nu E) as (c2 & E2 & _ & S2 & Sn2 & T2). destruct (awgn_numbers y snr n0) as (w & Ew & Lw); [rewrite Ly, Lp, L; exact L2|].
    exists c2, w. rewrite E2, Ew. split; [reflexivity|]. split; [lia|]. split; [exact S2|]. rewrite T2, Sn2. destruct Ty as [Ty|Ty]; rewrite Ty; [right; left|right; right]; (split; [reflexivity|]); [split; [discriminate|exact L2]|right; exact L2]. }
  destruct T as [T|[(T & Sn & L2)|(T & Sn)]].
  - apply LIN. left. exact T.
  - destruct (ch_snr c) as [snr|] eqn:Es; [|congruence]. apply (NOI snr); auto.
  - destruct (ch_snr c) as [snr|] eqn:Es.
    + destruct Sn as [Sn|Sn]; [discriminate|]. apply (NOI snr); auto.
    + apply LIN. right. auto.
Qed.

(** * Receiver *)
Lemma adc_returns a o N y : adc_usable a o -> length y = (N * o)%nat -> exists v, adc_callR a y = Ok v /\ length v = N.
Proof.
  intros (G & Ra & Os & Ph) L. assert (P0 := G). destruct P0 as (_ & _ & _ & _ & P0).
  destruct (adc_callR_spec a o (Z.to_nat (a_phase a)) N y G Ra Os) as (_ & E); try lia. rewrite E. eexists. split; [reflexivity|]. now rewrite map_length, seq_length.
Qed.
Lemma eq_returns e N x : eq_usable e N -> length x = N -> (1 <= N)%nat -> exists y e1, eq_call e x = Ok (y, e1) /\ length y = N /\ eq_usable e1 N /\ e_pre e1 = e_pre e.
Proof.
  intros (Sz & LE) L HN. assert (Nx : x <> []) by (intros ->; cbn in L; lia).
  assert (LO : long_enough e x). { split; [exact Nx|]. intros D F. destruct Sz as (F1 & _). rewrite F1, L in *. apply LE; [exact D|lia]. }
  destruct (eq_call_streams e x x Sz LO LO) as (y & e1 & _ & _ & E & _ & _ & S1). exists y, e1. split; [exact E|]. split; [rewrite (eq_call_length e x y e1 Sz Nx E); exact L|].
  assert (K : e_pre e1 = e_pre e /\ e_post e1 = e_post e /\ e_dfe e1 = e_dfe e).
  { unfold eq_call in E. destruct (_ && _); [|destruct (length (e_ffe_vec e) =? 1)%nat; [|destruct (e_dfe e =? 0)%nat]]; apply bind_ok in E; destruct E as (r & _ & E); destruct r; try discriminate E; injection E as _ <-; auto. }
  destruct K as (K1 & K2 & K3). split; [|exact K1]. split; [exact S1|]. rewrite K1, K2, K3. exact LE.
Qed.
Lemma read_one c lv : readable c lv -> exists v, np_get (map Z.of_nat (seq 0 (length (get_levels c)))) (demap_idx (get_levels c) (this lv)) = Ok v /\ 0 <= v < Z.of_nat (length (get_levels c)).
Proof.
  intros (v & E). unfold demapping, demapping_with in E. cbn [fst data map shape] in E. apply bind_ok in E. destruct E as (d & E & _). unfold np_take in E. cbn [map_res] in E. apply bind_ok in E. destruct E as (w & E & _).
  exists w. split; [exact E|]. unfold np_get in E. destruct (np_index _ _) as [k|]; [|discriminate]. destruct (nth_error _ k) as [a|] eqn:N; [|discriminate]. injection E as ->. apply nth_error_In, in_map_iff in N. destruct N as (i & <- & I). apply in_seq in I. lia.
Qed.
Lemma read_all c lvs l : Forall (readable c) lvs -> Forall (fun x => In x lvs) l ->
  exists d, fst (demapping c false (mk_nda [length l] (map this l))) = Ok (vec d) /\ length d = length l /\ Forall (fun v => 0 <= v < Z.of_nat (length (get_levels c))) d /\
  Forall (fun v => exists lv, In lv lvs /\ fst (demapping c false (mk_nda [1%nat] [this lv])) = Ok (mk_nda [1%nat] [v])) d.
Proof.
  intros F I. set (g := fun x => match np_get (map Z.of_nat (seq 0 (length (get_levels c)))) x with Ok v => v | Raise _ => 0 end).
  assert (G : forall x, In x l -> np_get (map Z.of_nat (seq 0 (length (get_levels c)))) (demap_idx (get_levels c) (this x)) = Ok (g (demap_idx (get_levels c) (this x))) /\ 0 <= g (demap_idx (get_levels c) (this x)) < Z.of_nat (length (get_levels c))).
  { intros x Hx. rewrite Forall_forall in I, F. destruct (read_one c x (F x (I x Hx))) as (v & E & Rv). unfold g. rewrite E. auto. }
  exists (map (fun x => g (demap_idx (get_levels c) (this x))) l). rewrite map_length. split; [|split; [reflexivity|split]].
  - unfold demapping, demapping_with. cbn [fst data shape]. rewrite map_map. unfold np_take. rewrite (map_res_ok _ g).
    + cbn [bind]. rewrite map_map. unfold reshape, size. cbn [fold_right]. rewrite map_length, Nat.mul_1_r, Nat.eqb_refl. unfold vec. now rewrite map_length.
    + intros z Hz. apply in_map_iff in Hz. destruct Hz as (x & <- & Hx). now apply G.
  - apply Forall_forall. intros v Hv. apply in_map_iff in Hv. destruct Hv as (x & <- & Hx). now apply G.
  - apply Forall_forall. intros v Hv. apply in_map_iff in Hv. destruct Hv as (x & <- & Hx). exists x. split; [rewrite Forall_forall in I; now apply I|].
    unfold demapping, demapping_with. cbn [fst data shape map]. unfold np_take. cbn [map_res]. rewrite (proj1 (G x Hx)). reflexivity.
Qed.
Lemma hear_returns f s v N : eq_usable (rx_eq (rs_rx s)) N -> (1 <= N)%nat -> length v = N -> rx_levels (rs_rx s) <> [] -> Forall (readable (rx_constel (rs_rx s))) (rx_levels (rs_rx s)) ->
  hears (rx_cd (rs_rx s)) (rx_constel (rs_rx s)) N -> rx_converge (rs_rx s) = false ->
  let p := after_adc f (Ok v) s in let r := rs_rx s in let r' := rs_rx (fst p) in
  returns p /\ rx_adc r' = rx_adc r /\ eq_usable (rx_eq r') N /\ e_pre (rx_eq r') = e_pre (rx_eq r) /\ rx_levels r' = rx_levels r /\ rx_constel r' = rx_constel r /\ rx_cd r' = rx_cd r /\ rx_converge r' = false /\
  rx_done r' = rx_done r /\ rx_max_phase r' = rx_max_phase r /\
  length (rx_adc_out r') = N /\ length (rx_slicer_in r') = N /\ length (rx_slicer_out r') = N /\ length (rs_dem (fst p)) = N /\ Forall (reads r') (rs_dem (fst p)).
Proof.
  intros U HN L NL RL HE C. cbv zeta. destruct (eq_returns _ N v U L HN) as (y & e1 & E & Ly & U1 & P1).
  unfold after_adc, digital, decide. cbn [set_adc_out rx_eq rx_adc_out]. rewrite E. cbv zeta. cbn [set_slicer_in set_eq set_adc_out rx_slicer_in rx_levels rx_gain].
  set (w := map (fun v => rx_gain (rs_rx s) * v)%Qc y). assert (Lw : length w = N) by (unfold w; now rewrite map_length).
  rewrite slicer_12; [|unfold wf_nda, vec, size; cbn [fold_right shape data]; lia|exact NL|left; eexists; reflexivity]. cbn [slicer_levels vec shape data next fine].
  set (sl := map (sliced (rx_levels (rs_rx s))) w). assert (Ls : length sl = N) by (unfold sl; now rewrite map_length).
  cbn [set_slicer_out set_slicer_in set_eq set_adc_out rx_converge]. rewrite C. cbn [next fine].
  unfold extract. cbn [set_slicer_out set_slicer_in set_eq set_adc_out rs_rx rx_constel rx_slicer_out rx_cd].
  destruct (read_all (rx_constel (rs_rx s)) (rx_levels (rs_rx s)) sl RL) as (d & Ed & Ld & Fd & Rd).
  { apply Forall_forall. intros x Hx. apply in_map_iff in Hx. destruct Hx as (z & <- & _). now apply sliced_in. }
  rewrite Ed. cbv zeta. cbn [data vec]. destruct (HE d) as (b & Eb); [congruence|exact Fd|]. rewrite Eb.
  cbn [set_slicer_out set_slicer_in set_eq set_adc_out fst snd fine rs_rx rs_dem rx_adc rx_eq rx_levels rx_constel rx_cd rx_converge rx_done rx_max_phase rx_adc_out rx_slicer_in rx_slicer_out]. unfold returns. cbn [snd].
  split; [reflexivity|]. split; [reflexivity|]. split; [exact U1|]. split; [exact P1|]. repeat (split; [first [reflexivity|exact C|congruence]|]). exact Rd.
Qed.

(** * The call *)
Lemma works_call f z normal nb N o s : consistent z nb N o s -> let p := link_call f z normal in
  returns p /\ consistent (fst p) nb N o s /\ filled (fst p) nb N o /\
  e_pre (rx_eq (rs_rx (z_rx (fst p)))) = e_pre (rx_eq (rs_rx (z_rx z))) /\ rx_levels (rs_rx (z_rx (fst p))) = rx_levels (rs_rx (z_rx z)) /\
  rx_constel (rs_rx (z_rx (fst p))) = rx_constel (rs_rx (z_rx z)) /\ rx_done (rs_rx (z_rx (fst p))) = rx_done (rs_rx (z_rx z)) /\ rx_max_phase (rs_rx (z_rx (fst p))) = rx_max_phase (rs_rx (z_rx z)).
Proof.
  intros ((t & Pt & St) & Bs & Ck & HN & CA & LV & CU & CT & AD & EQ & NL & RL & HE & CV). cbv zeta in *. cbv zeta.
  destruct (gen_next t (z_gen z) Pt St Bs) as (g & p & Eg & Lp & Bp & Gp & Gc & Gs & Gb).
  destruct (transmit_ok (z_cd z) (z_md z) nb N p CA LV Bp) as (en & tx & Een & Len & _ & Ltx & Etx); [congruence|].
  destruct (channel_returns (z_ch z) o s N (map Qc2R tx) normal CU) as (c1 & x & Ec & Lx & CU1); [now rewrite map_length|exact HN|].
  assert (O0 : (0 < o)%nat) by (destruct CU as ((O & _) & _); exact O || lia).
  assert (Nx : x <> []) by (intros ->; cbn in Lx; nia).
  destruct (ctle_once (z_ctle z) x CT Nx) as (ct & y & Ect & Lyy & CT1).
  destruct (adc_returns (rx_adc (rs_rx (z_rx z))) o N y AD) as (v & Ev & Lv); [congruence|].
  destruct (call_shape f z normal g p tx c1 x ct y Eg Etx Ec Ect) as (en' & SH). cbv zeta in SH.
  assert (EN : en' = en). { pose proof (f_equal (fun q => z_enc (fst q)) SH) as T. cbn [fst z_enc] in T. rewrite <- T. pose proof (f_equal (fun q => snd (fst q)) (call_tx f z normal)) as W. unfold tx_part in W. cbn [fst snd] in W. rewrite W.
    unfold generate. rewrite Eg. cbv zeta. cbn [set_tx z_cd z_md]. rewrite Een. destruct (mapping _ _ _ _ _); reflexivity. }
  subst en'. rewrite SH. clear SH. rewrite Ev.
  destruct (hear_returns f (remember (z_rx z)) v N) as (R1 & R2 & R3 & R4 & R5 & R6 & R7 & R8 & R9 & R10 & R11 & R12 & R13 & R14 & R15); auto.
  cbn [fst snd]. unfold returns in *. cbn [snd]. split; [exact R1|]. split; [|split; [|split; [exact R4|split; [exact R5|split; [exact R6|split; [exact R9|exact R10]]]]]].
  - unfold consistent. cbn [z_gen z_cd z_md z_ch z_ctle z_rx]. cbv zeta. rewrite R2, R5, R6, R7. change (rs_rx (remember (z_rx z))) with (set_adc_last (rs_rx (z_rx z)) (rx_adc_out (rs_rx (z_rx z)))). cbn [set_adc_last rx_adc rx_levels rx_constel rx_cd].
    split; [exists t; split; congruence|]. split; [exact Gb|]. split; [congruence|]. repeat (split; [assumption|]). assumption.
  - unfold filled. cbn [z_prbs z_enc z_map z_ch_out z_ctle_out z_rx]. cbv zeta. rewrite map_length. split; [congruence|]. repeat (split; [first [assumption|congruence]|]). assumption.
Qed.

(** * Histories *)
Lemma works_deed d z nb N o s : does_not_start d -> consistent z nb N o s -> consistent (on_rx z (deed_rx d)) nb N o s.
Proof.
  intros D C. destruct d as [| | |v|v]; [exact C|now elim D| | |].
  - destruct C as (C1 & C2 & C3 & C4 & C5 & C6 & C7 & C8 & C9 & C10 & C11 & C12 & C13 & C14). unfold consistent. cbn [on_rx set_rx z_gen z_cd z_md z_ch z_ctle z_rx rs_rx deed_rx set_converge rx_adc rx_eq rx_levels rx_constel rx_cd rx_converge]. repeat (split; [assumption|]). reflexivity.
  - unfold on_rx, deed_rx, retune, set_ffe. destruct (Nat.eqb_spec (length v) (length (e_ffe_vec (rx_eq (rs_rx (z_rx z)))))) as [E|_]; [|exact C].
    destruct C as (C1 & C2 & C3 & C4 & C5 & C6 & C7 & C8 & C9 & C10 & C11 & C12 & C13 & C14). unfold consistent. cbn [on_rx set_rx z_gen z_cd z_md z_ch z_ctle z_rx rs_rx set_eq rx_adc rx_eq rx_levels rx_constel rx_cd rx_converge]. repeat (split; [assumption|]).
    split; [|repeat (split; [assumption|]); assumption]. destruct C10 as ((S1 & S2 & S3 & S4 & S5) & LE). split; [|exact LE]. unfold sized. cbn [e_ffe_vec e_zi_ffe e_dfe_vec e_zi_dfe e_pre e_post e_dfe e_levels]. repeat (split; [congruence|]). exact S5.
  - unfold on_rx, deed_rx, retune, set_dfe. destruct (Nat.eqb_spec (length v) (e_dfe (rx_eq (rs_rx (z_rx z))))) as [E|_]; [|exact C].
    destruct C as (C1 & C2 & C3 & C4 & C5 & C6 & C7 & C8 & C9 & C10 & C11 & C12 & C13 & C14). unfold consistent. cbn [on_rx set_rx z_gen z_cd z_md z_ch z_ctle z_rx rs_rx set_eq rx_adc rx_eq rx_levels rx_constel rx_cd rx_converge]. repeat (split; [assumption|]).
    split; [|repeat (split; [assumption|]); assumption]. destruct C10 as ((S1 & S2 & S3 & S4 & S5) & LE). split; [|exact LE]. unfold sized. cbn [e_ffe_vec e_zi_ffe e_dfe_vec e_zi_dfe e_pre e_post e_dfe e_levels]. repeat (split; [congruence|]). exact S5.
Qed.
Lemma deed_levels d z : same_levels z (on_rx z (deed_rx d)).
Proof. destruct d as [| | |v|v]; try (split; reflexivity); unfold on_rx, deed_rx, retune, same_levels; [destruct (set_ffe _ _)|destruct (set_dfe _ _)]; split; reflexivity. Qed.
Lemma works_history f nb N o s : forall l z normal, Forall does_not_start l -> consistent z nb N o s ->
  let h := history f z l normal in consistent (fst h) nb N o s /\ length (snd h) = calls l /\ Forall (fun p => returns p /\ filled (fst p) nb N o /\ same_levels z (fst p)) (snd h).
Proof.
  induction l as [|d l IH]; intros z normal F C; cbv zeta.
  - split; [exact C|]. split; [reflexivity|constructor].
  - inversion F as [|? ? D F']; subst. assert (K : d = DCall \/ d <> DCall) by (destruct d; auto; right; discriminate). destruct K as [->|K].
    + cbn [history]. cbv zeta. cbn [fst snd]. destruct (works_call f z (normal 0%nat) nb N o s C) as (R1 & C1 & F1 & _ & V1 & K1 & _). destruct (IH (fst (link_call f z (normal 0%nat))) (fun i => normal (S i)) F' C1) as (H1 & H2 & H3).
      split; [exact H1|]. split; [cbn [length]; rewrite H2; reflexivity|]. constructor; [split; [exact R1|split; [exact F1|split; assumption]]|].
      eapply Forall_impl; [|exact H3]. intros p (A & B & C' & D'). split; [exact A|]. split; [exact B|]. split; congruence.
    + assert (E : history f z (d :: l) normal = history f (on_rx z (deed_rx d)) l normal) by (destruct d; try reflexivity; congruence). rewrite E.
      destruct (IH _ normal F' (works_deed d z nb N o s D C)) as (H1 & H2 & H3). split; [exact H1|]. split; [rewrite H2; destruct d; try reflexivity; congruence|]. destruct (deed_levels d z) as [L1 L2]. eapply Forall_impl; [|exact H3]. intros p (A & B & C' & D'). split; [exact A|]. split; [exact B|]. split; congruence.
Qed.
(** * The simulation *)
Lemma works_converge k z m normal nb N o s : consistent z nb N o s -> (2 <= N)%nat -> (e_pre (rx_eq (rs_rx (z_rx z))) <= N)%nat -> rx_done (rs_rx (z_rx z)) = false -> rx_max_phase (rs_rx (z_rx z)) <> 0 ->
  exists z', sim_converge None (S k) z m normal = (z', mem_empty, Left AttributeError).
Proof.
  intros C N2 P D M. assert (CV : rx_converge (rs_rx (z_rx z)) = false) by (destruct C as (_ & _ & _ & _ & _ & _ & _ & _ & _ & _ & _ & _ & _ & CV); exact CV).
  destruct (works_call None z (normal 0%nat) nb N o s C) as (R1 & C1 & F1 & P1 & V1 & _ & D1 & M1). destruct (works_call None _ (normal 1%nat) nb N o s C1) as (R2 & C2 & F2 & P2 & V2 & _ & D2 & M2).
  destruct (converge_ends k z m normal CV D R1 R2) as (z' & E & _); [|exists z'; exact E].
  destruct C1 as (_ & _ & _ & _ & _ & _ & _ & _ & _ & _ & NL & _). destruct F1 as (_ & _ & _ & _ & _ & _ & A1 & _). destruct F2 as (_ & _ & _ & _ & _ & _ & A2 & I2 & O2 & _).
  set (r1 := rs_rx (z_rx (fst (link_call None z (normal 0%nat))))) in *. set (q := rs_rx (z_rx (fst (link_call None (fst (link_call None z (normal 0%nat))) (normal 1%nat))))) in *.
  unfold nothing_else. cbn [start_convergence rx_levels rx_conv_cdr rx_max_phase rx_eq rx_adc_out]. split; [exact NL|]. split; [intros X; rewrite X in I2; cbn in I2; lia|]. intros _. rewrite M1, P1. split; [exact M|]. split; [lia|]. split; [congruence|]. split; lia.
Qed.
