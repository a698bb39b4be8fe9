(** Proofs about the example link from transmitted levels to received data. *)
From Coq Require Import String.
From Verif Require Import Py PyQ B_list B_qc M_aux M_symbol M_slicer S_rx P_slicer M_filter S_filter P_filter P_map M_sim M_rxloop S_rxloop P_rxloop S_rxparts P_rxparts.
From Coq Require Import QArith Qcanon Qabs Qround Lqa.
Import List.
Open Scope Z_scope.

(** A value closer than half a spacing to a level is decided as this level. *)
Lemma spacing c f i j : (0 < f)%Qc -> (i < length (get_levels c))%nat -> (j < length (get_levels c))%nat -> i <> j ->
  (ofZ 2 * half_spacing c f <= Qcabs (ofZ (nth i (get_levels c) 0%Z) / ofZ (top_level c) * f - ofZ (nth j (get_levels c) 0%Z) / ofZ (top_level c) * f))%Qc.
Proof.
  intros F Hi Hj N. destruct c; cbn [get_levels length] in Hi, Hj; cbn [get_levels top_level half_spacing];
  (destruct i as [|[|[|[|i]]]]; try (exfalso; lia)); (destruct j as [|[|[|[|j]]]]; try (exfalso; lia)); try (exfalso; congruence); cbn [nth];
  match goal with |- (_ <= Qcabs ?x)%Qc => destruct (abs_cases x) as [[L E]|[L E]]; rewrite E; clear E end;
  destruct f as [q C]; unfold Qcle, Qclt, ofZ in *; cbn [this Q2Qc Qcdiv Qcinv Qcmult Qcminus Qcplus Qcopp] in *; rewrite !Qred_correct in *; unfold Qdiv, inject_Z in *; cbn in *; lra.
Qed.
Lemma nearest_close c f i x : (0 < f)%Qc -> (i < length (get_levels c))%nat ->
  (Qcabs (x - ofZ (nth i (get_levels c) 0%Z) / ofZ (top_level c) * f) < half_spacing c f)%Qc ->
  nearest_level (map (fun l => (ofZ l / ofZ (top_level c) * f)%Qc) (get_levels c)) x (ofZ (nth i (get_levels c) 0%Z) / ofZ (top_level c) * f)%Qc.
Proof.
  intros F Hi H. set (lv := fun l : Z => (ofZ l / ofZ (top_level c) * f)%Qc). set (n := length (get_levels c)) in *.
  assert (NTH : forall k, (k < n)%nat -> nth k (map lv (get_levels c)) 0%Qc = lv (nth k (get_levels c) 0%Z)) by (intros k Hk; now apply map_nth_lt).
  assert (FAR : forall j, (j < n)%nat -> j <> i -> (Qcabs (x - lv (nth i (get_levels c) 0%Z)) < Qcabs (x - lv (nth j (get_levels c) 0%Z)))%Qc).
  { intros j Hj Nj. pose proof (spacing c f i j F Hi Hj ltac:(auto)) as S. fold (lv (nth i (get_levels c) 0%Z)) in *. fold (lv (nth j (get_levels c) 0%Z)) in *.
    set (a := lv (nth i (get_levels c) 0%Z)) in *. set (b := lv (nth j (get_levels c) 0%Z)) in *. clearbody a b. set (h := half_spacing c f) in *. clearbody h. clear - H S.
    qabs. }
  exists i. rewrite map_length. fold n. split; [exact Hi|]. split; [now apply NTH|]. split.
  - intros l Hl. apply in_map_iff in Hl. destruct Hl as (z & <- & Hz). apply (In_nth _ _ 0%Z) in Hz. destruct Hz as (j & Hj & <-).
    destruct (Nat.eq_dec j i) as [->|Nj]; [apply Qcle_refl|]. apply Qclt_le_weak. fold (lv (nth i (get_levels c) 0%Z)). fold (lv (nth j (get_levels c) 0%Z)). now apply FAR.
  - intros j Hj. rewrite NTH by lia. fold (lv (nth i (get_levels c) 0%Z)). apply FAR; lia.
Qed.
Lemma half_pos c f : (0 < f)%Qc -> (0 < half_spacing c f)%Qc.
Proof. intros F. destruct c, f as [q C]; cbn [half_spacing]; unfold Qclt, ofZ in *; cbn [this Q2Qc Qcdiv Qcinv Qcmult] in *; rewrite ?Qred_correct; unfold Qdiv, inject_Z; cbn in *; lra. Qed.
Lemma scale_pos c f : scale_fits c f -> (0 < f)%Qc.
Proof. destruct f as [q C]. destruct c; cbn [scale_fits]; unfold Qclt, Qcle, ofZ; cbn [this Q2Qc Qcdiv Qcinv Qcmult]; rewrite ?Qred_correct; unfold Qdiv, inject_Z; cbn; lra. Qed.

(** Slicing and demapping values close to the levels of [syms]. *)
Lemma decide_symbols c f sin (syms : list nat) : scale_fits c f ->
  Forall2 (fun x i => (i < length (get_levels c))%nat /\ (Qcabs (x - ofZ (nth i (get_levels c) 0%Z) / ofZ (top_level c) * f) < half_spacing c f)%Qc) sin syms ->
  exists out, slicer (Arr (vec sin)) (Some (map (fun l => (ofZ l / ofZ (top_level c) * f)%Qc) (get_levels c))) = Ok (vec out) /\
    fst (demapping c false (mk_nda [length out] (map this out))) = Ok (vec (map Z.of_nat syms)).
Proof.
  intros S H. set (lvs := map (fun l => (ofZ l / ofZ (top_level c) * f)%Qc) (get_levels c)). assert (N : lvs <> []) by (destruct c; discriminate).
  exists (map (sliced lvs) sin). assert (LS : length syms = length sin) by (clear - H; induction H; cbn; congruence). split.
  - rewrite slicer_12; auto; [cbn [shape data vec slicer_levels]; unfold vec; now rewrite map_length|unfold wf_nda; cbn; lia|left; eexists; reflexivity].
  - unfold demapping, vec. rewrite map_length. rewrite (demapping_with_ok _ _ _ false _ syms).
    + cbn [shape]. rewrite map_length, LS. reflexivity.
    + cbn [data shape]. rewrite !map_length. cbn. lia.
    + cbn [data]. rewrite map_map. clear LS. assert (F := scale_pos _ _ S). induction H as [|x i l m [Hi Hx] _ IH]; cbn [map]; constructor; auto. split; [exact Hi|].
      assert (E : sliced lvs x = (ofZ (nth i (get_levels c) 0%Z) / ofZ (top_level c) * f)%Qc) by (apply (nearest_unique lvs x); [now apply sliced_nearest|now apply nearest_close]).
      rewrite E, demap_level. now apply scale_all.
Qed.

Lemma plain_call e x : plain_eq e -> eq_call e x = Ok (x, e).
Proof.
  intros [D V]. unfold eq_call. rewrite D, V. cbn [length Nat.eqb andb ffe_dfe bind nth]. do 2 f_equal. rewrite <- (map_id x) at 2. apply map_ext. intros v. change (ofZ 1) with 1%Qc. ring.
Qed.
Lemma receive_symbols lms r x c f m amp (syms : list nat) : rx_converge r = false -> rx_levels r = rx_level_vec m -> rx_constel r = c -> amp <> 0%Qc ->
  mapping_data_init c (map ofZ (get_levels c)) amp f = Done (Ok m) -> scale_fits c f -> plain_eq (rx_eq r) -> adc_good (rx_adc r) ->
  (Z.to_nat (a_phase (rx_adc r)) <= length x)%nat ->
  let at_ := instants (Z.to_nat (a_phase (rx_adc r))) (adc_step (rx_adc r)) (length x) in
  Forall2 (fun k i => (i < length (get_levels c))%nat /\ (Qcabs (rx_gain r * converted (rx_adc r) (nth k x 0%Qc) - nth i (rx_level_vec m) 0) < half_spacing c f)%Qc) at_ syms ->
  exists r', receive lms r x = obind (decoder (rx_cd r) (map Z.of_nat syms)) (fun d => Done (Ok (r', d))) /\
    rx_converge r' = false /\ rx_levels r' = rx_levels r /\ rx_constel r' = rx_constel r /\ rx_eq r' = rx_eq r /\ rx_adc r' = rx_adc r /\ rx_gain r' = rx_gain r /\ rx_cd r' = rx_cd r.
Proof.
  intros C L K A M S P G LN at_ H. destruct (rx_levels_eq _ _ _ _ A M) as (EL & _ & _).
  unfold receive, input_stage. rewrite adc_call_eq by auto. fold at_. cbn [bind obind]. unfold digital_stage, slice_stage. cbn [rx_eq rx_adc_out rx_gain rx_levels]. rewrite plain_call by auto. cbn [bind fst snd].
  set (y := map (fun i => converted (rx_adc r) (nth i x 0%Qc)) at_). set (sin := map (fun v => (rx_gain r * v)%Qc) y).
  destruct (decide_symbols c f sin syms S) as (out & S1 & S2).
  { unfold sin, y. rewrite map_map. clear - H EL. induction H as [|k i l m' [Hi Hk] _ IH]; cbn [map]; constructor; auto. split; [exact Hi|]. rewrite EL in Hk. rewrite (map_nth_lt _ _ i 0%Z) in Hk by exact Hi. exact Hk. }
  rewrite L, EL, S1. cbn [bind obind]. cbn [rx_converge]. rewrite C. cbn [obind data vec]. unfold extract_data. cbn [rx_constel rx_slicer_out rx_cd]. rewrite K, S2. cbn [obind data vec].
  eexists. split; [reflexivity|]. cbn [rx_converge rx_levels rx_constel rx_eq rx_adc rx_gain rx_cd]. repeat split; auto.
Qed.

Lemma instants_count ph osr k : (ph < osr)%nat -> instants ph osr (osr * k) = map (fun n => ph + n * osr)%nat (seq 0 k).
Proof.
  intros H. unfold instants. f_equal. f_equal. destruct k as [|k]; [rewrite Nat.mul_0_r; cbn [Nat.sub]; apply Nat.div_small; lia|].
  symmetry. apply (Nat.div_unique _ _ _ (osr - 1 - ph)%nat); [lia|nia].
Qed.
Lemma link_chunk lms cd m c f amp r p s y x : amp <> 0%Qc -> mapping_data_init c (map ofZ (get_levels c)) amp f = Done (Ok m) -> scale_fits c f -> listening cd m r ->
  encoder cd p = Done (Ok s) -> Forall (fun v => 0 <= v) s -> transmit cd m p = Done (Ok y) -> arrives r (ofZ 2 * f / amp)%Qc (half_spacing c f) y x ->
  exists r', receive lms r x = obind (link cd p) (fun d => Done (Ok (r', d))) /\ listening cd m r' /\ rx_gain r' = rx_gain r /\ rx_adc r' = rx_adc r.
Proof.
  intros A M SF (H1 & H2 & H3 & H4 & H5 & H6 & H7 & H8) E P T (X1 & X2). destruct (rx_levels_eq _ _ _ _ A M) as (EL & EM & EC).
  unfold transmit in T. rewrite E in T. cbn [obind] in T. injection T as T. apply bind_ok in T. destruct T as (d & T & T2). injection T2 as <-.
  unfold mapping in T. rewrite EC in T. rewrite EM, !map_length, Nat.eqb_refl in T. cbn [bind data shape vec] in T. apply bind_ok in T. destruct T as (y & T & T2). injection T2 as <-. cbn [data] in *.
  set (n := length (get_levels c)) in *. set (tl := map (fun l => (ofZ l / ofZ (top_level c) * (amp / ofZ 2))%Qc) (get_levels c)) in *. assert (LT : length tl = n) by (unfold tl; now rewrite map_length).
  unfold np_take in T. destruct (map_res_inv _ _ _ T) as [LY Y].
  assert (R : Forall (fun v => v < Z.of_nat n) s /\ forall i, (i < length s)%nat -> nth i y 0%Qc = nth (Z.to_nat (nth i s 0)) tl 0%Qc).
  { split.
    - apply Forall_forall. intros v Hv. apply (In_nth _ _ 0) in Hv. destruct Hv as (i & Hi & <-). specialize (Y i 0 0%Qc Hi). destruct (Z.lt_ge_cases (nth i s 0) (Z.of_nat n)) as [|B]; auto. exfalso.
      rewrite Forall_forall in P. assert (P1 := P _ (nth_In s 0 Hi)). unfold np_get, np_index in Y. rewrite LT in Y.
      rewrite (proj2 (Z.ltb_ge (nth i s 0) (Z.of_nat n))) in Y by lia. rewrite (proj2 (Z.ltb_ge (nth i s 0) 0)) in Y by lia. rewrite !andb_false_r in Y. discriminate Y.
    - intros i Hi. specialize (Y i 0 0%Qc Hi). rewrite Forall_forall in P. assert (P1 := P _ (nth_In s 0 Hi)).
      destruct (Z.lt_ge_cases (nth i s 0) (Z.of_nat n)) as [B|B].
      + rewrite <- (Z2Nat.id (nth i s 0)) in Y by auto. rewrite (np_get_nth _ _ 0%Qc) in Y by lia. now injection Y.
      + exfalso. unfold np_get, np_index in Y. rewrite LT in Y.
        rewrite (proj2 (Z.ltb_ge (nth i s 0) (Z.of_nat n))) in Y by lia. rewrite (proj2 (Z.ltb_ge (nth i s 0) 0)) in Y by lia. rewrite !andb_false_r in Y. discriminate Y. }
  destruct R as [R1 R2]. set (syms := map Z.to_nat s). assert (SY : map Z.of_nat syms = s).
  { unfold syms. rewrite map_map. rewrite <- (map_id s) at 2. apply map_ext_in. intros v Hv. rewrite Forall_forall in P. specialize (P v Hv). lia. }
  assert (ST : adc_step (rx_adc r) = Z.to_nat (a_osr (rx_adc r))) by (unfold adc_step; rewrite H7, Z.div_1_r; reflexivity).
  destruct H6 as (G1 & G2 & G3 & G4 & G5). rewrite H7, Z.div_1_r in G4. set (osr := Z.to_nat (a_osr (rx_adc r))) in *. set (ph := Z.to_nat (a_phase (rx_adc r))) in *.
  assert (PH : (ph < osr)%nat) by (unfold ph, osr; lia).
  assert (LX : length x = (osr * length y)%nat) by (unfold osr in *; lia).
  destruct (Nat.eq_dec (length y) 0) as [Z0|Z0].
  - (* nothing was sent *)
    assert (x = []) by (destruct x; auto; cbn in LX; rewrite Z0, Nat.mul_0_r in LX; discriminate LX). subst x. assert (S0 : s = []) by (destruct s; auto; rewrite Z0 in LY; discriminate LY). clear SY. subst syms s.
    assert (AC : adc_call (rx_adc r) [] = Ok []).
    { unfold adc_call. rewrite H7. cbn [Z.eqb]. rewrite Z.div_1_r. unfold arange. destruct (Z.eqb_spec (a_osr (rx_adc r)) 0); [lia|]. cbn [bind length].
      assert (D : Z.to_nat (- ((a_phase (rx_adc r) - Z.of_nat 0) / a_osr (rx_adc r))) = 0%nat) by (rewrite Z.div_small by lia; reflexivity). rewrite D. cbn [seq map np_take map_res bind].
      rewrite quantize_eq by first [assumption | left; eexists; reflexivity | reflexivity]. reflexivity. }
    unfold receive, input_stage. rewrite AC. cbn [bind obind]. unfold digital_stage, slice_stage. cbn [rx_eq rx_adc_out rx_gain rx_levels]. rewrite plain_call by auto. cbn [bind fst snd map].
    rewrite H2, EL, slicer_12; [|reflexivity|destruct c; discriminate|left; eexists; reflexivity]. cbn [bind obind rx_converge]. rewrite H1. cbn [obind shape data vec map]. unfold extract_data. cbn [rx_constel rx_slicer_out rx_cd length map].
    rewrite H3, EC. change (fst (demapping c false (mk_nda [0%nat] []))) with (@Ok (nda Z) (mk_nda [0%nat] [])). cbn [obind data]. rewrite H4. unfold link. rewrite E. cbn [obind].
    eexists. split; [reflexivity|]. unfold listening. cbn [rx_converge rx_levels rx_constel rx_cd rx_eq rx_adc rx_gain]. unfold adc_good. rewrite H7, Z.div_1_r. repeat split; auto; try lia; try congruence; apply H5.
  - destruct (receive_symbols lms r x c f m amp syms) as (r' & Q1 & Q2 & Q3 & Q4 & Q5 & Q6 & Q7 & Q8); auto; try congruence.
    + unfold adc_good. rewrite H7, Z.div_1_r. repeat split; auto.
    + rewrite LX. fold ph. nia.
    + fold ph. rewrite ST, LX, instants_count by exact PH. assert (LS : length (seq 0 (length y)) = length syms) by (unfold syms; rewrite seq_length, map_length; congruence).
      assert (F2 : forall k st, (forall n, (k <= n < k + st)%nat -> (nth (n - k) (skipn k syms) 0 < length (get_levels c))%nat /\
         (Qcabs (rx_gain r * converted (rx_adc r) (nth (ph + n * osr) x 0) - nth (nth (n - k) (skipn k syms) 0%nat) (rx_level_vec m) 0) < half_spacing c f)%Qc) -> (st = length syms - k)%nat -> (k <= length syms)%nat ->
         Forall2 (fun k0 i => (i < length (get_levels c))%nat /\ (Qcabs (rx_gain r * converted (rx_adc r) (nth k0 x 0) - nth i (rx_level_vec m) 0) < half_spacing c f)%Qc) (map (fun n => (ph + n * osr)%nat) (seq k st)) (skipn k syms)).
      { intros k st. revert k. induction st as [|st IH]; intros k HH HL HK.
        - rewrite skipn_all2 by lia. constructor.
        - destruct (skipn k syms) as [|a l] eqn:ES; [apply (f_equal (@length nat)) in ES; rewrite skipn_length in ES; cbn in ES; lia|]. cbn [seq map]. constructor.
          + specialize (HH k ltac:(lia)). rewrite Nat.sub_diag in HH. exact HH.
          + assert (ES' : skipn (S k) syms = l) by (change (S k) with (1 + k)%nat; rewrite <- skipn_skipn, ES; reflexivity).
            rewrite <- ES'. apply IH; try lia. intros j Hj. specialize (HH j ltac:(lia)). rewrite ES'. replace (j - k)%nat with (S (j - S k)) in HH by lia. exact HH. }
      rewrite <- (skipn_O syms). apply F2; [|rewrite seq_length in LS; lia|lia]. intros j Hj. cbn [skipn]. rewrite Nat.sub_0_r.
      assert (Hj' : (j < length s)%nat) by lia. assert (NS : nth j syms 0%nat = Z.to_nat (nth j s 0)) by (unfold syms; now apply map_nth_lt). rewrite NS.
      assert (RG : (Z.to_nat (nth j s 0%Z) < n)%nat). { rewrite Forall_forall in R1, P. specialize (R1 _ (nth_In s 0 Hj')). specialize (P _ (nth_In s 0 Hj')). lia. }
      split; [exact RG|]. specialize (X2 j ltac:(lia)). fold ph osr in X2. rewrite (R2 j Hj') in X2. unfold tl in X2. rewrite (map_nth_lt _ _ _ 0) in X2 by exact RG. rewrite EL, (map_nth_lt _ _ _ 0) by exact RG.
      match goal with |- (Qcabs (?a - ?b) < _)%Qc => match type of X2 with (Qcabs (?a' - ?b') < _)%Qc => replace b with b'; [exact X2|] end end.
      field. repeat split; auto; destruct c; discriminate.
    + exists r'. split; [rewrite Q1, SY, H4; unfold link; rewrite E; reflexivity|]. unfold listening. rewrite Q2, Q3, Q4, Q5, Q6, Q7, Q8. unfold adc_good. rewrite H7, Z.div_1_r. repeat split; auto; try lia; try congruence; apply H5.
Qed.
