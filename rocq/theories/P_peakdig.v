(** Proofs about the example link with inter-symbol interference: the analog chain as one response, the equaliser in
    real numbers, the codes of the ADC. *)
From Coq Require Import Reals Lra Lia String Qreals.
From Verif Require Import Py PyQ B_list B_qc M_aux M_symbol M_slicer S_rx P_slicer M_filter S_filter P_filter Prop_filter P_symbol M_sim M_rxloop S_rxparts P_rxparts P_rxlink P_fulldig.
From Verif Require Import M_delay M_channel S_channel P_channel P_pulse P_dft M_ctle S_ctle P_ctle M_link S_link P_link S_full P_full S_peak P_peak.
From Coq Require Import QArith Qcanon Qabs.
Import List.
Open Scope R_scope.

(** * The channel without noise and the CTLE *)
Lemma chain_response c ct o s ph : channel_sized c o s -> linear_type c -> ch_pulse_zi c = repeat 0 (2 * (o * s) - 1) -> ch_zi c = repeat 0 (length (ch_zi c)) ->
  ctle_sized ct -> ct_zi ct = repeat 0 (Nat.max (length (ct_zeros ct)) (length (ct_poles ct))) -> (ph < o)%nat ->
  exists h, forall x n0, x <> [] -> exists c' y ct' v, channel_call c x n0 = (c', Ok (Some (map Some y))) /\ ctle_call ct y = Ok (Some (ct', v)) /\ length v = (length x * o)%nat /\
    forall j, (j < length x)%nat -> nth (ph + j * o) v 0 = superposed h (fun k => nth k x 0) j.
Proof.
  intros S T Z1 Z2 (D & Lz) Z3 Hp. pose proof S as (Ho & Hs & Eo & Es & HP & Lp & a & Ea & Us). destruct (usable_shape _ _ HP) as (p & Sh).
  set (pl := map p (time_vec_pulse (Z.of_nat o) (Z.of_nat s))). pose proof (lf_pulse p o s Ho Hs) as LSp. fold pl in LSp. assert (LSf : lf_shape (ch_fir c) a (length (ch_zi c))) by (apply usable_lf; exact Us).
  destruct (design_spec _ _ _ _ _ D) as (b2 & a2 & E2 & Lb2 & La2 & A20 & _). set (m := Nat.max (length (ct_zeros ct)) (length (ct_poles ct))) in *.
  assert (LSc : lf_shape b2 a2 m) by (repeat split; [intros ->; discriminate|intros ->; discriminate|lra|lia]).
  set (g1 := impulse pl [1]). set (g2 := if (ch_type c =? "pulse")%string then g1 else superposed (impulse (ch_fir c) a) g1). set (g3 := superposed (impulse b2 a2) g2).
  exists (fun k => g3 (ph + k * o)%nat). intros x n0 Nx. set (up := concat (map (fun v => v :: repeat 0 (o - 1)) x)). assert (Nu : up <> []) by now apply block_nonempty.
  assert (Lu : length up = (length x * o)%nat) by now apply concat_block_length. set (U := fun n => nth n up 0).
  destruct (call_ok c o s x n0 S T Nx) as (q & y & pz & z & P & Lq & Ly & C & _ & R). rewrite (pulse_shape_lfilter x o s _ _ p _ Ho Hs Sh Lp) in P. fold pl up in P. rewrite Z1 in P.
  destruct (lfilter_impulse pl [1] up _ LSp Nu) as (q' & zf & P' & _ & V1). rewrite P in P'. injection P' as <- <-. fold g1 in V1. fold U in V1.
  assert (Nq : q <> []) by (apply (nonempty_mul x q o); auto).
  assert (VY : forall n, (n < length x * o)%nat -> nth n y 0 = superposed g2 U n).
  { destruct R as [(TP & -> & _)|(TI & a' & Ea' & F)].
    - intros n Hn. unfold g2. rewrite TP. cbn [String.eqb Ascii.eqb Bool.eqb]. apply V1. lia.
    - rewrite Ea in Ea'. injection Ea' as <-. rewrite Z2 in F. destruct (lfilter_impulse (ch_fir c) a q _ LSf Nq) as (y' & zf' & F' & _ & V2). rewrite F in F'. injection F' as <- _.
      intros n Hn. rewrite V2 by lia. unfold g2. rewrite TI. cbn [String.eqb Ascii.eqb Bool.eqb]. rewrite <- superposed_assoc. apply superposed_ext; auto. intros k Hk. apply V1. lia. }
  assert (Ny : y <> []) by (intros ->; cbn [length] in Ly; destruct q; [congruence|discriminate]).
  destruct (lfilter_impulse b2 a2 y m LSc Ny) as (v & zf' & F & Lv & V3). exists (ch_with c pz z), y. do 2 eexists. split; [exact C|]. split.
  { unfold ctle_call, ctle. rewrite E2. cbn [bind]. rewrite Z3, F. cbn [bind fst snd]. reflexivity. }
  split; [congruence|]. intros j Hj. assert (HL : (ph + j * o < length x * o)%nat) by nia. rewrite V3 by (rewrite Ly, Lq; exact HL).
  rewrite (superposed_ext _ (impulse b2 a2) _ (superposed g2 U)) by (auto; intros k Hk; apply VY; lia). rewrite superposed_assoc. fold g3. unfold U, up. now apply sampled_conv.
Qed.

(** * Rational numbers as real numbers *)
Lemma Qc2R_eq x q : (this x == q)%Q -> Qc2R x = Q2R q.
Proof. intros H. unfold Qc2R. now apply Qeq_eqR. Qed.
Lemma Qc2R_plus x y : Qc2R (x + y)%Qc = Qc2R x + Qc2R y.
Proof. unfold Qc2R. rewrite <- Q2R_plus. apply Qeq_eqR. apply Qred_correct. Qed.
Lemma Qc2R_mult x y : Qc2R (x * y)%Qc = Qc2R x * Qc2R y.
Proof. unfold Qc2R. rewrite <- Q2R_mult. apply Qeq_eqR. apply Qred_correct. Qed.
Lemma Qc2R_opp x : Qc2R (- x)%Qc = - Qc2R x.
Proof. unfold Qc2R. rewrite <- Q2R_opp. apply Qeq_eqR. apply Qred_correct. Qed.
Lemma Qc2R_minus x y : Qc2R (x - y)%Qc = Qc2R x - Qc2R y.
Proof. unfold Qcminus. rewrite Qc2R_plus, Qc2R_opp. ring. Qed.
Lemma Qc2R_0 : Qc2R 0%Qc = 0.
Proof. exact (Qc2R_ofZ 0). Qed.
Lemma Qc2R_lt x y : (x < y)%Qc <-> Qc2R x < Qc2R y.
Proof. unfold Qc2R, Qclt. split; [apply Qlt_Rlt|apply Rlt_Qlt]. Qed.
Lemma Qc2R_le x y : (x <= y)%Qc <-> Qc2R x <= Qc2R y.
Proof. unfold Qc2R, Qcle. split; [apply Qle_Rle|apply Rle_Qle]. Qed.
Lemma Qc2R_neq0 x : x <> 0%Qc -> Qc2R x <> 0.
Proof. intros H E. apply H. apply Qc_is_canon. apply eqR_Qeq. fold (Qc2R x). rewrite E. symmetry. exact Qc2R_0. Qed.
Lemma Qc2R_inv x : x <> 0%Qc -> Qc2R (/ x)%Qc = / Qc2R x.
Proof. intros H. pose proof (Qc2R_neq0 x H) as N. apply (Rmult_eq_reg_l (Qc2R x)); auto. rewrite <- Qc2R_mult, Qcmult_inv_r by auto. rewrite Rinv_r by auto. exact (Qc2R_ofZ 1). Qed.
Lemma Qc2R_div x y : y <> 0%Qc -> Qc2R (x / y)%Qc = Qc2R x / Qc2R y.
Proof. intros H. unfold Qcdiv. now rewrite Qc2R_mult, Qc2R_inv. Qed.
Lemma Qc2R_abs x : Qc2R (Qcabs x) = Rabs (Qc2R x).
Proof.
  destruct (Qclt_le_dec x 0) as [H|H]; pose proof H as H'.
  - rewrite Qcabs_neg by (now apply Qclt_le_weak). rewrite Qc2R_opp. apply Qc2R_lt in H'. rewrite Qc2R_0 in H'. symmetry. now apply Rabs_left.
  - rewrite Qcabs_pos by auto. apply Qc2R_le in H'. rewrite Qc2R_0 in H'. symmetry. now apply Rabs_pos_eq.
Qed.
Lemma close_R x y h : Rabs (Qc2R x - Qc2R y) < Qc2R h -> (Qcabs (x - y) < h)%Qc.
Proof. intros H. apply Qc2R_lt. now rewrite Qc2R_abs, Qc2R_minus. Qed.
Lemma Qc2R_sum (f : nat -> Qc) n : Qc2R (sumQ (map f (seq 0 n))) = sum_upto (fun i => Qc2R (f i)) n.
Proof.
  induction n as [|n IH]; [exact Qc2R_0|]. rewrite seq_S, map_app, sumQ_app. cbn [map sum_upto Nat.add]. rewrite sumQ_cons, !Qc2R_plus, IH. change (sumQ []) with 0%Qc. rewrite Qc2R_0. ring.
Qed.
Lemma pow2_pos k : (0 < pow2 k)%Qc.
Proof.
  unfold pow2. destruct (Z.leb_spec 0 k) as [H|H].
  - apply Qc2R_lt. rewrite Qc2R_0, Qc2R_ofZ. apply IZR_lt. now apply Z.pow_pos_nonneg.
  - apply Qc2R_lt. assert (P : (0 < 2 ^ (- k))%Z) by (apply Z.pow_pos_nonneg; lia). rewrite Qc2R_0, Qc2R_div, !Qc2R_ofZ. { apply IZR_lt in P. apply Rdiv_lt_0_compat; lra. }
    intros E. apply (f_equal Qc2R) in E. rewrite Qc2R_ofZ, Qc2R_0 in E. apply eq_IZR in E. lia.
Qed.

(** * The equaliser from its initial state *)
Lemma contents_one sout k n j : nth j (dfe_contents 1 0 (repeat 0%Qc k) sout n) 0%Qc = if (S j <=? n)%nat then nth (n - S j) sout 0%Qc else 0%Qc.
Proof.
  unfold dfe_contents, sampling_instants. change (Z.to_nat (1 / 2)) with 0%nat. rewrite Nat.sub_0_r.
  assert (FE : filter (fun s => (Z.of_nat s mod 1 =? 0 mod 1)%Z) (seq 0 n) = seq 0 n). { generalize 0%nat. induction n as [|n IH]; intros a; [reflexivity|]. cbn [seq filter]. rewrite Z.mod_1_r. cbn [Z.eqb Z.modulo]. now rewrite IH. }
  rewrite FE. destruct (Nat.leb_spec (S j) n) as [H|H].
  - rewrite app_nth1 by (rewrite map_length, rev_length, seq_length; lia). rewrite (map_nth_lt _ _ _ 0%nat) by (rewrite rev_length, seq_length; lia). rewrite rev_nth by (rewrite seq_length; lia). rewrite seq_length, seq_nth by lia. reflexivity.
  - rewrite app_nth2 by (rewrite map_length, rev_length, seq_length; lia). set (i := (j - _)%nat). destruct (Nat.lt_ge_cases i k); [now apply repeat_nth|apply nth_overflow; now rewrite repeat_length].
Qed.
Lemma eq_equation e x : sized e -> e_zi_ffe e = repeat 0%Qc (length (e_zi_ffe e)) -> e_zi_dfe e = repeat 0%Qc (length (e_zi_dfe e)) -> x <> [] ->
  exists sin e' dec, eq_call e x = Ok (sin, e') /\ length sin = length x /\ ((0 < e_dfe e)%nat -> decisions (slicer_levels (e_levels e)) sin dec) /\
    forall n, (n < length x)%nat -> nth n sin 0%Qc = (tap_sum (e_ffe_vec e) [] x 0 n - sumQ (map (fun j => nth j (e_dfe_vec e) 0 * (if (S j <=? n)%nat then nth (n - S j) dec 0 else 0)) (seq 0 (e_dfe e))))%Qc.
Proof.
  intros (L1 & L2 & L3 & L4 & L5) Zf Zd N. unfold eq_call. destruct (Nat.eqb_spec (e_dfe e) 0) as [D|D]; destruct (Nat.eqb_spec (length (e_ffe_vec e)) 1) as [F|F]; cbn [andb].
  - destruct (e_ffe_vec e) as [|t [|? ?]] eqn:EV; try discriminate F. cbn [ffe_dfe length Nat.eqb bind]. do 2 eexists. exists []. split; [reflexivity|]. split; [apply map_length|]. split; [lia|]. intros n Hn.
    rewrite (map_nth_lt _ _ _ 0%Qc) by exact Hn. rewrite D. unfold tap_sum. cbn [length Nat.sub seq map]. rewrite sumQ_cons. change (sumQ []) with 0%Qc. unfold at_time. destruct (Z.ltb_spec (Z.of_nat n - Z.of_nat 0) 0); [lia|].
    replace (Z.to_nat (Z.of_nat n - Z.of_nat 0)) with n by lia. cbn [nth]. ring.
  - destruct (C41_ffe_only x (e_ffe_vec e) (e_levels e) 1 0 (Some (e_zi_ffe e)) None N) as (w & Y1 & Y2 & Y3); [lia|apply some_len; congruence|]. rewrite Y1. cbn [bind]. do 2 eexists. exists []. split; [reflexivity|]. split; [exact Y2|]. split; [lia|].
    intros n Hn. rewrite Y3 by exact Hn. rewrite Zf, rev_repeat, tap_sum_zero, D. cbn [seq map]. change (sumQ []) with 0%Qc. ring.
  - destruct (L5 ltac:(lia)) as (l & EL & NE).
    destruct (C41_ffe_dfe_equation x (e_ffe_vec e) (e_dfe_vec e) (e_levels e) 1 0 None (Some (e_zi_dfe e))) as (si & so & zo & Q1 & Q2 & _); auto; try lia; try discriminate.
    { destruct (e_ffe_vec e); [discriminate F|discriminate]. } { intros X. rewrite X in L3. cbn in L3. lia. } { rewrite EL. exact NE. } { apply some_len. congruence. }
    rewrite Q2, F. cbn [Nat.eqb bind]. destruct Q1 as (I1 & I2 & I3). do 2 eexists. exists so. split; [reflexivity|]. split; [exact I1|]. split; [intros _; exact I2|]. intros n Hn. rewrite I3 by exact Hn. rewrite L3. match goal with |- (_ - ?a)%Qc = (_ - ?b)%Qc => replace b with a; [reflexivity|] end.
    apply sumQ_map_ext. intros j _. rewrite Zd, contents_one. reflexivity.
  - destruct (L5 ltac:(lia)) as (l & EL & NE).
    destruct (C41_ffe_dfe_equation x (e_ffe_vec e) (e_dfe_vec e) (e_levels e) 1 0 (Some (e_zi_ffe e)) (Some (e_zi_dfe e))) as (si & so & zo & Q1 & Q2 & _); auto; try lia.
    { intros X. rewrite X in L1. cbn in L1. lia. } { intros X. rewrite X in L3. cbn in L3. lia. } { rewrite EL. exact NE. } { apply some_len. congruence. } { apply some_len. congruence. }
    rewrite Q2, (proj2 (Nat.eqb_neq _ _) F). cbn [bind]. destruct Q1 as (I1 & I2 & I3). do 2 eexists. exists so. split; [reflexivity|]. split; [exact I1|]. split; [intros _; exact I2|]. intros n Hn. rewrite I3 by exact Hn. rewrite L3, Zf, rev_repeat, tap_sum_zero. match goal with |- (_ - ?a)%Qc = (_ - ?b)%Qc => replace b with a; [reflexivity|] end.
    apply sumQ_map_ext. intros j _. rewrite Zd, contents_one. reflexivity.
Qed.
Lemma tap_sum_R c x n : Qc2R (tap_sum c [] x 0 n) = sum_upto (fun i => Qc2R (nth i c 0%Qc) * past (fun k => Qc2R (nth k x 0%Qc)) n i) (length c).
Proof.
  unfold tap_sum. rewrite Nat.sub_0_r, Qc2R_sum. apply sum_upto_ext. intros i _. rewrite Qc2R_mult. f_equal. unfold at_time, past.
  destruct (Z.ltb_spec (Z.of_nat n - Z.of_nat i) 0), (Nat.leb_spec i n); try lia; [destruct (Z.to_nat _); exact Qc2R_0|]. do 2 f_equal. lia.
Qed.
Lemma eq_equation_R e x : sized e -> e_zi_ffe e = repeat 0%Qc (length (e_zi_ffe e)) -> e_zi_dfe e = repeat 0%Qc (length (e_zi_dfe e)) -> x <> [] ->
  exists sin e' dec, eq_call e x = Ok (sin, e') /\ length sin = length x /\ ((0 < e_dfe e)%nat -> decisions (slicer_levels (e_levels e)) sin dec) /\
    forall n, (n < length x)%nat -> Qc2R (nth n sin 0%Qc) = sum_upto (fun i => Qc2R (nth i (e_ffe_vec e) 0%Qc) * past (fun k => Qc2R (nth k x 0%Qc)) n i) (length (e_ffe_vec e)) -
      sum_upto (fun k => nth k (map Qc2R (e_dfe_vec e)) 0 * past (fun i => Qc2R (nth i dec 0%Qc)) n (S k)) (length (map Qc2R (e_dfe_vec e))).
Proof.
  intros SZ Zf Zd N. destruct (eq_equation e x SZ Zf Zd N) as (sin & e' & dec & E1 & E2 & E3 & E4). exists sin, e', dec. split; [exact E1|]. split; [exact E2|]. split; [exact E3|].
  intros n Hn. rewrite E4 by exact Hn. rewrite Qc2R_minus, tap_sum_R, Qc2R_sum, map_length. destruct SZ as (_ & _ & L3 & _). rewrite L3. f_equal. apply sum_upto_ext. intros k Hk. rewrite Qc2R_mult. f_equal.
  - rewrite (map_nth_lt _ _ _ 0%Qc) by lia. reflexivity.
  - unfold past. destruct (S k <=? n)%nat; [reflexivity|exact Qc2R_0].
Qed.

(** * The ADC *)
Lemma code_close a v z : nearest_code a v z -> IZR (adc_low a) - / 2 <= v <= IZR (adc_high a) + / 2 -> Rabs (v - IZR z) <= / 2.
Proof.
  intros [[Z1 Z2] NZ] [V1 V2]. destruct (archimed (v - / 2)) as [A1 A2]. set (u := up (v - / 2)) in *.
  assert (B : v - / 2 < IZR u <= v + / 2) by lra. clear A1 A2.
  assert (K : forall w : Z, (adc_low a <= w <= adc_high a)%Z -> Rabs (v - IZR w) <= / 2 -> Rabs (v - IZR z) <= / 2) by (intros w H1 H2; eapply Rle_trans; [apply NZ; exact H1|exact H2]).
  destruct (Z_lt_ge_dec u (adc_low a)) as [C|C].
  - apply (K (adc_low a)); [lia|]. assert (D : IZR u + 1 <= IZR (adc_low a)) by (rewrite <- plus_IZR; apply IZR_le; lia). apply Rabs_le. lra.
  - destruct (Z_lt_ge_dec (adc_high a) u) as [C'|C'].
    + apply (K (adc_high a)); [lia|]. assert (D : IZR (adc_high a) + 1 <= IZR u) by (rewrite <- plus_IZR; apply IZR_le; lia). apply Rabs_le. lra.
    + apply (K u); [lia|]. apply Rabs_le. lra.
Qed.

(** * Bits of a symbol *)
Lemma sym_bits_inj cd k v w : (1 <= k)%nat -> (0 <= v < 2 ^ Z.of_nat k)%Z -> (0 <= w < 2 ^ Z.of_nat k)%Z -> sym_bits cd k v = sym_bits cd k w -> v = w.
Proof.
  intros Hk Hv Hw E. unfold sym_bits in E. destruct (Nat.eqb_spec k 1) as [->|K].
  - apply (f_equal (hd 0%Z)) in E. cbn [hd] in E. revert E. destruct (pn_inv _); intros E; lia.
  - apply (f_equal (mod_row (cflags cd))) in E. rewrite !mod_unmod in E by (rewrite map_length, seq_length; lia). rewrite <- (val_of_bits k v Hv), <- (val_of_bits k w Hw). now rewrite E.
Qed.
