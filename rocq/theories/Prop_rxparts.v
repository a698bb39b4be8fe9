(** C65-C68: equaliser stage, ADC, levels and the whole data path of the example link.  Theorems only; proofs are in
    P_rxparts.v and P_rxlink.v. *)
From Coq Require Import String.
From Verif Require Import Py PyQ B_list B_qc M_aux M_symbol M_slicer S_rx P_slicer M_filter S_filter P_filter Prop_filter P_map M_sim S_sim Prop_sim M_rxloop S_rxloop P_rxloop S_rxparts P_rxparts P_rxlink.
From Coq Require Import QArith Qcanon Lqa.
Import List.
Open Scope Z_scope.

(** *** C65: equaliser stage *)
(** The settings are accepted exactly if every given vector has the announced size and levels come with a DFE;
    defaults: unit tap after the precursors, zero DFE, zero memories. *)
Theorem C65_settings : forall pre post dfe ffe_vec dfe_vec levels zi_ffe zi_dfe,
  let ok (v : option (list Qc)) n := match v with None => True | Some l => length l = n end in
  let or_else (v : option (list Qc)) d := match v with None => d | Some l => l end in
  let good := ok ffe_vec (pre + post + 1)%nat /\ ok dfe_vec dfe /\ ok zi_ffe (pre + post + 1)%nat /\ ok zi_dfe dfe /\ ((0 < dfe)%nat -> levels <> None) in
  (good -> eq_init pre post dfe ffe_vec dfe_vec levels zi_ffe zi_dfe =
     Ok (mk_eq pre post dfe levels (or_else ffe_vec (repeat (ofZ 0) pre ++ ofZ 1 :: repeat (ofZ 0) post)) (or_else dfe_vec (repeat (ofZ 0) dfe))
           (or_else zi_ffe (repeat (ofZ 0) (pre + post + 1))) (or_else zi_dfe (repeat (ofZ 0) dfe)))) /\
  (~ good -> eq_init pre post dfe ffe_vec dfe_vec levels zi_ffe zi_dfe = Raise ValueError).
Proof. intros. apply eq_init_spec. Qed.
Print Assumptions C65_settings.
Theorem C65_settings_sized : forall pre post dfe fv dv levels zf zd e, eq_init pre post dfe fv dv levels zf zd = Ok e -> levels <> Some [] -> sized e.
Proof. exact eq_init_sized. Qed.
Print Assumptions C65_settings_sized.
(** Any cutting of the signal into chunks gives the output of one call, and ends in the same state. *)
Theorem C65_any_chunking : forall e c cs, sized e -> long_enough e c -> Forall (long_enough e) cs ->
  exists r, eq_calls e (c :: cs) = Ok r /\ eq_call e (concat (c :: cs)) = Ok r.
Proof. intros. now apply eq_calls_concat. Qed.
Print Assumptions C65_any_chunking.
(** (Finding.)  Without a DFE, a chunk shorter than the FFE makes the next call raise TypeError. *)
Theorem C65_short_chunk_refuted : forall e x1 x2, sized e -> e_dfe e = 0%nat -> x1 <> [] -> (length x1 < length (e_ffe_vec e))%nat ->
  exists y e1, eq_call e x1 = Ok (y, e1) /\ eq_call e1 x2 = Raise TypeError.
Proof.
  intros e x1 x2 (L1 & L2 & L3 & L4 & L5) D N L. assert (0 < length x1)%nat by (destruct x1; [congruence|cbn; lia]).
  destruct (C42_short_chunk_refuted x1 x2 (e_ffe_vec e) (e_levels e) 1 0 (Some (e_zi_ffe e)) None N L) as (y & f1 & A & B); [apply some_len; congruence|].
  exists y, (with_memory e f1 (e_zi_dfe e)). unfold eq_call. rewrite D. destruct (Nat.eqb_spec (length (e_ffe_vec e)) 1); [lia|]. cbn [andb Nat.eqb]. rewrite A. split; [reflexivity|].
  cbn [with_memory e_dfe e_ffe_vec e_levels e_zi_ffe e_zi_dfe]. rewrite D. destruct (Nat.eqb_spec (length (e_ffe_vec e)) 1); [lia|]. cbn [andb Nat.eqb]. rewrite B. reflexivity.
Qed.
Print Assumptions C65_short_chunk_refuted.
(** A default equaliser only delays: by the number of precursors. *)
Theorem C65_default_delays : forall pre post dfe levels e x, eq_init pre post dfe None None levels None None = Ok e -> levels <> Some [] -> x <> [] ->
  exists y e', eq_call e x = Ok (y, e') /\ length y = length x /\ forall n, (n < length x)%nat -> nth n y 0%Qc = if (n <? pre)%nat then 0%Qc else nth (n - pre) x 0%Qc.
Proof. exact default_delays. Qed.
Print Assumptions C65_default_delays.
(** With an FFE and a DFE the output obeys the equaliser equation with the stored vectors, memories and levels. *)
Theorem C65_equation : forall e x, sized e -> (0 < e_dfe e)%nat -> (2 <= length (e_ffe_vec e))%nat -> x <> [] ->
  exists sin sout e', eq_call e x = Ok (sin, e') /\
    equaliser_equation (e_ffe_vec e) (e_dfe_vec e) (rev (e_zi_ffe e)) (e_zi_dfe e) (match e_levels e with Some l => l | None => [] end) 1 0 x sin sout.
Proof.
  intros e x (L1 & L2 & L3 & L4 & L5) D F N. destruct (L5 D) as (l & EL & NL). unfold eq_call. destruct (Nat.eqb_spec (length (e_ffe_vec e)) 1); [lia|]. destruct (Nat.eqb_spec (e_dfe e) 0); [lia|]. cbn [andb].
  destruct (C41_ffe_dfe_equation x (e_ffe_vec e) (e_dfe_vec e) (e_levels e) 1 0 (Some (e_zi_ffe e)) (Some (e_zi_dfe e))) as (si & so & zo & Q1 & Q2 & _); auto; try lia.
  { intros E. rewrite E in F. cbn in F. lia. } { intros E. rewrite E in L3. cbn in L3. lia. } { rewrite EL. exact NL. } { apply some_len. congruence. } { apply some_len. congruence. }
  rewrite Q2, (proj2 (Nat.eqb_neq _ _) n). cbn [bind]. do 3 eexists. split; [reflexivity|]. rewrite EL in *. exact Q1.
Qed.
Print Assumptions C65_equation.
(** New tap vectors: accepted exactly with the right length; memory and everything else stay. *)
Theorem C65_new_taps : forall e v, sized e ->
  (length v = (e_pre e + e_post e + 1)%nat -> exists e', set_ffe e v = Ok e' /\ sized e' /\ e_ffe_vec e' = v /\ e_dfe_vec e' = e_dfe_vec e /\ e_zi_ffe e' = e_zi_ffe e /\ e_zi_dfe e' = e_zi_dfe e) /\
  (length v <> (e_pre e + e_post e + 1)%nat -> set_ffe e v = Raise ValueError) /\
  (length v = e_dfe e -> exists e', set_dfe e v = Ok e' /\ sized e' /\ e_dfe_vec e' = v /\ e_ffe_vec e' = e_ffe_vec e /\ e_zi_ffe e' = e_zi_ffe e /\ e_zi_dfe e' = e_zi_dfe e) /\
  (length v <> e_dfe e -> set_dfe e v = Raise ValueError).
Proof.
  intros e v (L1 & L2 & L3 & L4 & L5). unfold set_ffe, set_dfe. rewrite L1. repeat split; intros H.
  - rewrite H, Nat.eqb_refl. eexists. split; [reflexivity|]. cbn. repeat split; auto.
  - now rewrite (proj2 (Nat.eqb_neq _ _) H).
  - rewrite H, Nat.eqb_refl. eexists. split; [reflexivity|]. cbn. repeat split; auto.
  - now rewrite (proj2 (Nat.eqb_neq _ _) H).
Qed.
Print Assumptions C65_new_taps.
Definition lv4 : list Qc := map ofZ [-3; -1; 1; 3].
Example C65_case : exists e, eq_init 1 1 1 None (Some (ofZ 1 :: [])) (Some lv4) None None = Ok e /\ sized e /\ long_enough e (q [1; 2; -3]) /\ long_enough e (q [1]) /\
  option_map (fun r => map this (fst r)) (match eq_calls e [q [1; 2; -3]; q [1]] with Ok r => Some r | _ => None end) = Some [0; 2; 1; -4]%Q.
Proof.
  eexists. split; [reflexivity|]. split; [|split; [|split]].
  - apply (C65_settings_sized 1 1 1 None (Some (ofZ 1 :: [])) (Some lv4) None None); [reflexivity|discriminate].
  - split; [discriminate|]. cbn. lia.
  - split; [discriminate|]. cbn. lia.
  - vm_compute. reflexivity.
Qed.
Example C65_case_short : exists e, eq_init 1 1 0 None None None None None = Ok e /\ sized e /\ (length (q [5; 6]%Z) < length (e_ffe_vec e))%nat /\
  (exists y e1, eq_call e (q [5; 6]%Z) = Ok (y, e1) /\ eq_call e1 (q [7; 8; 9]) = Raise TypeError).
Proof.
  eexists. split; [reflexivity|]. assert (Z : forall e, eq_init 1 1 0 None None None None None = Ok e -> sized e) by (intros e E; apply (C65_settings_sized _ _ _ _ _ _ _ _ _ E); discriminate).
  split; [now apply Z|]. split; [cbn; lia|]. apply C65_short_chunk_refuted; [now apply Z|reflexivity|discriminate|cbn; lia].
Qed.

(** *** C66: ADC *)
(** The output: the samples at phase, phase + osr/rate, ..., each converted to the nearest number of the format. *)
Theorem C66_conversion : forall a x, adc_good a -> (Z.to_nat (a_phase a) <= length x)%nat ->
  adc_call a x = Ok (map (fun i => converted a (nth i x 0%Qc)) (instants (Z.to_nat (a_phase a)) (adc_step a) (length x))).
Proof. exact adc_call_eq. Qed.
Print Assumptions C66_conversion.
(** Inside the range of the format the error is at most half an integer (before the fractional scaling). *)
Theorem C66_conversion_error : forall a x, adc_good a -> (ofZ (adc_low a) <= x)%Qc -> (x <= ofZ (adc_high a))%Qc ->
  (Qcabs (x - converted a x * pow2 (a_frac a)) <= Q2Qc (1 # 2))%Qc.
Proof.
  intros a x (T & Y & _) H1 H2. assert (TS : ty_signed (a_type a) = negb (a_type a =? "u")%string) by (destruct Y as [E|[E|E]]; rewrite E; reflexivity).
  assert (B : adc_low a <= adc_high a) by (unfold adc_low, adc_high; rewrite <- TS; now apply quant_bounds).
  destruct (quant_error (adc_low a) (adc_high a) 1 x B ltac:(lia)) as (Q1 & _).
  assert (P : pow2 (a_frac a) <> 0%Qc).
  { unfold pow2. destruct (Z.leb_spec 0 (a_frac a)).
    - intros E. change 0%Qc with (ofZ 0) in E. apply ofZ_inj in E. pose proof (Z.pow_pos_nonneg 2 (a_frac a)). lia.
    - intros E. assert (N : ofZ (2 ^ (- a_frac a)) <> 0%Qc) by (change 0%Qc with (ofZ 0); intros E2; apply ofZ_inj in E2; pose proof (Z.pow_pos_nonneg 2 (- a_frac a)); lia).
      apply (f_equal (fun v => v * ofZ (2 ^ (- a_frac a)))%Qc) in E. replace (ofZ 1 / ofZ (2 ^ (- a_frac a)) * ofZ (2 ^ (- a_frac a)))%Qc with (ofZ 1) in E by (field; exact N). rewrite Qcmult_0_l in E. discriminate E. }
  unfold converted. set (s := saturate _ _ _). replace (ofZ s / pow2 (a_frac a) * pow2 (a_frac a))%Qc with (ofZ s) by (field; exact P).
  change (ofZ 1) with 1%Qc in Q1. rewrite Qcmult_1_r in Q1.
  replace (ofZ s) with (ofZ s / 1)%Qc by (field; discriminate). replace (Q2Qc (1 # 2)) with (Q2Qc (1 # 2) / 1)%Qc by (field; discriminate). apply Q1.
  - replace (ofZ (adc_low a) / 1)%Qc with (ofZ (adc_low a)) by (field; discriminate). exact H1.
  - replace (ofZ (adc_high a) / 1)%Qc with (ofZ (adc_high a)) by (field; discriminate). exact H2.
Qed.
Print Assumptions C66_conversion_error.
(** Chunked sampling is whole sampling when the phase is below the sampling distance and the chunks are multiples of it. *)
Theorem C66_chunks : forall a x1 x2, adc_good a -> (Z.to_nat (a_phase a) < adc_step a)%nat -> (length x1 mod adc_step a = 0)%nat ->
  (Z.to_nat (a_phase a) <= length x1)%nat -> (Z.to_nat (a_phase a) <= length x2)%nat ->
  adc_call a (x1 ++ x2) = (u <- adc_call a x1 ;; v <- adc_call a x2 ;; Ok (u ++ v)).
Proof.
  intros a x1 x2 G P M L1 L2. assert (G' := G). destruct G' as (_ & _ & _ & St & _). rewrite !adc_call_eq by (auto; rewrite ?app_length; lia). cbn [bind]. f_equal.
  assert (0 < adc_step a)%nat by (unfold adc_step; lia). rewrite app_length, instants_app, map_app by auto. f_equal.
  - apply map_ext_in. intros i Hi. unfold instants in Hi. apply in_map_iff in Hi. destruct Hi as (k & <- & Hk). apply in_seq in Hk. rewrite app_nth1; [reflexivity|].
    set (st := adc_step a) in *. set (ph := Z.to_nat (a_phase a)) in *. clearbody st ph. assert (Q := Nat.mul_div_le (length x1 - ph + st - 1) st ltac:(lia)). set (d := ((length x1 - ph + st - 1) / st)%nat) in *. clearbody d. nia.
  - rewrite map_map. apply map_ext. intros i. f_equal. rewrite app_nth2 by lia. f_equal. lia.
Qed.
Print Assumptions C66_chunks.
(** (Finding.)  With the default phase osr // 2 and two samples per symbol (osr even), every chunk of k symbols gives
    2 k - 1 samples: the first one is lost at every chunk. *)
Theorem C66_lost_samples_refuted : forall total frac ty st k x, (1 <= total)%nat -> (ty = "u" \/ ty = "s" \/ ty = "ss")%string -> (0 < st)%nat -> (0 < k)%nat ->
  length x = (2 * st * k)%nat ->
  exists out, adc_call (adc_init total frac ty (2 * Z.of_nat st) 2 None) x = Ok out /\ length out = (2 * k - 1)%nat.
Proof.
  intros total frac ty st k x T Y S K L. set (a := adc_init total frac ty (2 * Z.of_nat st) 2 None).
  assert (PH : a_phase a = Z.of_nat st) by (unfold a, adc_init; cbn [a_phase]; rewrite Z.mul_comm, Z.div_mul; lia).
  assert (OR : a_osr a / a_rate a = Z.of_nat st) by (unfold a, adc_init; cbn [a_osr a_rate]; rewrite Z.mul_comm, Z.div_mul; lia).
  assert (G : adc_good a) by (unfold adc_good; rewrite OR, PH; cbn; repeat split; auto; lia).
  eexists. split; [apply adc_call_eq; [exact G|rewrite PH, Nat2Z.id, L; nia]|]. unfold instants, adc_step. rewrite OR, PH, !Nat2Z.id, !map_length, seq_length, L.
  symmetry. apply (Nat.div_unique _ _ _ (st - 1)%nat); [lia|]. nia.
Qed.
Print Assumptions C66_lost_samples_refuted.
Example C66_case : adc_good (adc_init 4 1 "ss" 4 1 None) /\
  match adc_call (adc_init 4 1 "ss" 4 1 None) (q [0; 0; 5; 0; 0; 0; -9; 0; 0; 0; 3; 0]) with Ok l => Some (map this l) | _ => None end = Some [5 # 2; -7 # 2; 3 # 2]%Q.
Proof. split; [unfold adc_good; cbn; repeat split; auto; lia|vm_compute; reflexivity]. Qed.
Example C66_case_chunks : let a := adc_init 4 0 "s" 4 1 None in
  adc_good a /\ (Z.to_nat (a_phase a) < adc_step a)%nat /\ (length (q [1;2;3;4]%Z) mod adc_step a = 0)%nat /\
  match adc_call a (q [1;2;3;4] ++ q [5;6;7;8]) with Ok l => Some (map this l) | _ => None end = Some [3; 7]%Q.
Proof. cbn zeta. split; [unfold adc_good; cbn; repeat split; auto; lia|]. split; [cbn; lia|]. split; [reflexivity|vm_compute; reflexivity]. Qed.

(** *** C67: levels at the two ends *)
(** With the standard levels of a constellation: transmitted levels reach +- amp/2, receiver levels +- rx_factor. *)
Theorem C67_levels : forall c amp f m, amp <> 0%Qc -> mapping_data_init c (map ofZ (get_levels c)) amp f = Done (Ok m) ->
  let top := ofZ (match c with PAM4 => 3 | _ => 1 end) in
  md_levels m = map (fun l => ofZ l / top * (amp / ofZ 2))%Qc (get_levels c) /\ rx_level_vec m = map (fun l => ofZ l / top * f)%Qc (get_levels c).
Proof. intros c amp f m A M top. destruct (rx_levels_eq _ _ _ _ A M) as (E1 & E2 & _). split; [exact E2|exact E1]. Qed.
Print Assumptions C67_levels.
(** Decided levels are demapped to their symbols exactly for the scalings of [scale_fits]: between 2 and 4 for PAM4,
    between 0 and 2 for NRZ, ... *)
Theorem C67_demapping_scale : forall c amp f m, (0 < f)%Qc -> amp <> 0%Qc -> mapping_data_init c (map ofZ (get_levels c)) amp f = Done (Ok m) ->
  (fst (demapping c false (mk_nda [length (get_levels c)] (map this (rx_level_vec m)))) = Ok (vec (map Z.of_nat (seq 0 (length (get_levels c))))) <-> scale_fits c f).
Proof. exact demap_all. Qed.
Print Assumptions C67_demapping_scale.
(** (Finding.)  PAM4 with a scaling below 2, like the 0.75 of the example: the outer symbols are merged with the inner. *)
Theorem C67_example_scale_refuted : forall amp f m, (0 < f)%Qc -> (f < ofZ 2)%Qc -> amp <> 0%Qc -> mapping_data_init PAM4 (map ofZ (get_levels PAM4)) amp f = Done (Ok m) ->
  fst (demapping PAM4 false (mk_nda [4%nat] (map this (rx_level_vec m)))) = Ok (vec [1; 1; 2; 2]).
Proof.
  intros amp f m F1 F2 A M. destruct (rx_levels_eq _ _ _ _ A M) as (E & _ & _). rewrite E. cbn [get_levels map].
  unfold demapping. rewrite (demapping_with_ok _ _ _ false _ [1; 1; 2; 2]%nat); [reflexivity|reflexivity|]. cbn [data].
  assert (F1' : (0 < this f)%Q) by exact F1. assert (F2' : (this f < 2)%Q) by (unfold Qclt in F2; rewrite this_ofZ in F2; exact F2).
  repeat constructor; rewrite (demap_level PAM4); apply round_iff; left; unfold demap_arg; destruct f as [p C]; cbn [this] in *; cbn; unfold Qdiv, inject_Z; cbn; lra.
Qed.
Print Assumptions C67_example_scale_refuted.
(** Without levels: the standard levels are sent whatever the amplitude, and the receiver slices to levels that reach
    +- (top level) * 2 * rx_factor / amplitude. *)
Theorem C67_default_levels : forall c amp f, amp <> 0%Qc ->
  let top := ofZ (match c with PAM4 => 3 | _ => 1 end) in let m := mapping_data_default c amp f in
  md_levels m = map ofZ (get_levels c) /\ rx_level_vec m = map (fun l => ofZ l / top * (top * ofZ 2 * f / amp))%Qc (get_levels c).
Proof.
  intros c amp f A top m. split; [reflexivity|]. unfold rx_level_vec, m, mapping_data_default. cbn [md_levels md_amp md_rx_factor]. rewrite map_map. apply map_ext. intros l.
  assert (T : top <> 0%Qc) by (unfold top; destruct c; discriminate). field. auto.
Qed.
Print Assumptions C67_default_levels.
(** So decided levels are demapped to their symbols exactly if that reach is one of [scale_fits]. *)
Theorem C67_default_scale : forall c amp f, (0 < f)%Qc -> (0 < amp)%Qc ->
  let top := ofZ (match c with PAM4 => 3 | _ => 1 end) in
  (fst (demapping c false (mk_nda [length (get_levels c)] (map this (rx_level_vec (mapping_data_default c amp f))))) = Ok (vec (map Z.of_nat (seq 0 (length (get_levels c))))) <->
   scale_fits c (top * ofZ 2 * f / amp)%Qc).
Proof.
  intros c amp f F A top. assert (A0 : amp <> 0%Qc) by (intros ->; discriminate A).
  destruct (C67_default_levels c amp f A0) as (_ & E). rewrite E. fold top.
  assert (S0 : (0 < top * ofZ 2 * f / amp)%Qc).
  { unfold Qcdiv. assert (I : (0 < / amp)%Qc). { unfold Qclt. cbn. rewrite Qred_correct. apply Qinv_lt_0_compat. exact A. }
    assert (T : (0 < top * ofZ 2)%Qc) by (unfold top; destruct c; reflexivity).
    replace 0%Qc with (0 * / amp)%Qc by ring. apply Qcmult_lt_compat_r; [exact I|]. replace 0%Qc with (0 * f)%Qc by ring. apply Qcmult_lt_compat_r; [exact F|exact T]. }
  destruct (mapping_data_init c (map ofZ (get_levels c)) (ofZ 2) (top * ofZ 2 * f / amp)%Qc) as [[m|e]|] eqn:M; [|destruct c; discriminate M ..].
  pose proof (C67_demapping_scale c (ofZ 2) _ m S0 ltac:(discriminate) M) as K. destruct (C67_levels c (ofZ 2) _ m ltac:(discriminate) M) as (_ & E2). rewrite E2 in K. exact K.
Qed.
Print Assumptions C67_default_scale.
(** (Finding.)  Without levels amp_pp_mv does not change what is sent but divides what the receiver expects: PAM4 with an
    amplitude of more than three times the receiver factor (the example: 750 and 0.75) merges outer and inner symbols. *)
Theorem C67_default_amplitude_refuted : forall amp f, (0 < f)%Qc -> (ofZ 3 * f < amp)%Qc ->
  md_levels (mapping_data_default PAM4 amp f) = md_levels (mapping_data_default PAM4 (ofZ 2) f) /\
  fst (demapping PAM4 false (mk_nda [4%nat] (map this (rx_level_vec (mapping_data_default PAM4 amp f))))) = Ok (vec [1; 1; 2; 2]).
Proof.
  intros amp f F A. split; [reflexivity|].
  assert (P3 : (0 < ofZ 3 * f)%Qc) by (replace 0%Qc with (0 * f)%Qc by ring; apply Qcmult_lt_compat_r; [exact F|reflexivity]).
  assert (AP : (0 < amp)%Qc) by (eapply Qclt_trans; eauto). assert (A0 : amp <> 0%Qc) by (intros ->; discriminate AP).
  assert (I : (0 < / amp)%Qc). { unfold Qclt. cbn. rewrite Qred_correct. apply Qinv_lt_0_compat. exact AP. }
  destruct (C67_default_levels PAM4 amp f A0) as (_ & E). rewrite E.
  set (g := (ofZ 3 * ofZ 2 * f / amp)%Qc) in *.
  assert (G1 : (0 < g)%Qc). { unfold g, Qcdiv. replace 0%Qc with (0 * / amp)%Qc by ring. apply Qcmult_lt_compat_r; [exact I|]. replace 0%Qc with (0 * f)%Qc by ring. apply Qcmult_lt_compat_r; [exact F|reflexivity]. }
  assert (G2 : (g < ofZ 2)%Qc).
  { unfold g, Qcdiv. replace (ofZ 3 * ofZ 2 * f * / amp)%Qc with (ofZ 3 * f * (ofZ 2 * / amp))%Qc by ring. replace (ofZ 2) with (amp * (ofZ 2 * / amp))%Qc at 2 by (field; exact A0).
    apply Qcmult_lt_compat_r; [|exact A]. replace 0%Qc with (0 * / amp)%Qc by ring. apply Qcmult_lt_compat_r; [exact I|reflexivity]. }
  destruct (mapping_data_init PAM4 (map ofZ (get_levels PAM4)) (ofZ 2) g) as [[m|e]|] eqn:M; [|discriminate M ..].
  pose proof (C67_example_scale_refuted (ofZ 2) g m G1 G2 ltac:(discriminate) M) as K. destruct (C67_levels PAM4 (ofZ 2) g m ltac:(discriminate) M) as (_ & E2). rewrite E2 in K. exact K.
Qed.
Print Assumptions C67_default_amplitude_refuted.
Example C67_case_default : (ofZ 3 * (ofZ 3 / ofZ 4) < ofZ 750)%Qc /\ scale_fits PAM4 (ofZ 3 * ofZ 2 * ofZ 1 / ofZ 2)%Qc /\
  map this (rx_level_vec (mapping_data_default PAM4 (ofZ 2) (ofZ 1))) = [-3; -1; 1; 3]%Q.
Proof. split; [reflexivity|]. split; [split; reflexivity|vm_compute; reflexivity]. Qed.
Example C67_case : scale_fits PAM4 (ofZ 3) /\ scale_fits NRZ (ofZ 3 / ofZ 4)%Qc /\ ~ scale_fits PAM4 (ofZ 3 / ofZ 4)%Qc.
Proof. split; [split; reflexivity|]. split; [split; reflexivity|]. intros [H _]. vm_compute in H. discriminate H. Qed.

(** *** C68: the data path of the link *)
(** One chunk: if every converted and amplified sample lies closer to the transmitted level (at receiver scale) than half
    the level spacing, the receiver hands out exactly what the coding stages alone would give. *)
Theorem C68_chunk : forall lms cd m c f amp r p s y x, amp <> 0%Qc -> mapping_data_init c (map ofZ (get_levels c)) amp f = Done (Ok m) -> scale_fits c f -> listening cd m r ->
  encoder cd p = Done (Ok s) -> Forall (fun v => 0 <= v) s -> transmit cd m p = Done (Ok y) -> arrives r (ofZ 2 * f / amp)%Qc (half_spacing c f) y x ->
  exists r', receive lms r x = obind (link cd p) (fun d => Done (Ok (r', d))) /\ listening cd m r' /\ rx_gain r' = rx_gain r /\ rx_adc r' = rx_adc r.
Proof. exact link_chunk. Qed.
Print Assumptions C68_chunk.
(** Any history of chunks: with coding settings that deliver (C58), all patterns come out. *)
Theorem C68_history : forall lms cd m c f amp r ps xs, amp <> 0%Qc -> mapping_data_init c (map ofZ (get_levels c)) amp f = Done (Ok m) -> scale_fits c f -> listening cd m r ->
  Forall (fun p => delivers (link cd p) p) ps ->
  Forall2 (fun p x => exists s y, encoder cd p = Done (Ok s) /\ Forall (fun v => 0 <= v) s /\ transmit cd m p = Done (Ok y) /\ arrives r (ofZ 2 * f / amp)%Qc (half_spacing c f) y x) ps xs ->
  receive_all lms r xs = Done (Ok (map (map inject_Z) ps)).
Proof.
  intros lms cd m c f amp r ps xs A M S L D H. revert r L D H. revert xs. induction ps as [|p ps IH]; intros xs r L D H; inversion H as [|? x ? xs' (s & y & E1 & E2 & E3 & E4) H']; subst; cbn [receive_all map]; [reflexivity|].
  inversion D as [|? ? D1 D2]; subst. destruct (link_chunk lms cd m c f amp r p s y x A M S L E1 E2 E3 E4) as (r' & R & L' & G1 & G2). rewrite R. unfold delivers in D1. rewrite D1. cbn [obind fst snd].
  rewrite (IH xs' r' L' D2); [reflexivity|]. clear - H' G1 G2. revert H'. apply Forall2_ind; [constructor|]. intros q u l l' (s & y & A1 & A2 & A3 & A4 & A5) _ IH. constructor; auto. exists s, y. unfold arrives. rewrite G1, G2. auto.
Qed.
Print Assumptions C68_history.
(** A case: uncoded PAM4, 4 samples per symbol, an attenuated and offset signal. *)
Definition cd68 := mk_cd PAM4 2 8 (mk_flags false false false false) false false false false false false false false false GNone.
Lemma done_show (o : outcome (list Qc)) l : match o with Done (Ok v) => Some (map this v) | _ => None end = Some (map this l) -> o = Done (Ok l).
Proof. destruct o as [[v|e]|]; intros H; inversion H. do 2 f_equal. now apply list_this_eq. Qed.
Example C68_case : exists m e, mapping_data_init PAM4 (map ofZ (get_levels PAM4)) (ofZ 600) (ofZ 3) = Done (Ok m) /\ eq_init 0 0 0 None None None None None = Ok e /\
  let r := receiver_init 4 (adc_init 8 0 "ss" 4 1 None) e m cd68 (ofZ 1) (ofZ 1 / ofZ 10)%Qc in
  listening cd68 m r /\ scale_fits PAM4 (ofZ 3) /\ delivers (link cd68 [1;1;0;0;1;0]) [1;1;0;0;1;0] /\
  encoder cd68 [1;1;0;0;1;0] = Done (Ok [3; 0; 1]) /\ transmit cd68 m [1;1;0;0;1;0] = Done (Ok (map ofZ [300; -300; -100])) /\
  arrives r (ofZ 2 * ofZ 3 / ofZ 600)%Qc (half_spacing PAM4 (ofZ 3)) (map ofZ [300; -300; -100]) (map ofZ [0; 9; 32; 7; 4; -7; -25; -31; 0; -5; -12; 7]) /\
  receive_all None r [map ofZ [0; 9; 32; 7; 4; -7; -25; -31; 0; -5; -12; 7]] = Done (Ok [[1;1;0;0;1;0]%Q]).
Proof.
  eexists. eexists. split; [reflexivity|]. split; [reflexivity|]. intros r. split; [|split; [|split; [|split; [|split; [|split]]]]].
  - unfold listening, adc_good, plain_eq. cbn. repeat split; auto; lia.
  - split; reflexivity.
  - vm_compute. reflexivity.
  - vm_compute. reflexivity.
  - apply done_show. vm_compute. reflexivity.
  - split; [reflexivity|]. intros n Hn. destruct n as [|[|[|n]]]; [vm_compute; reflexivity..|cbn in Hn; lia].
  - vm_compute. reflexivity.
Qed.
