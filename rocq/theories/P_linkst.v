(** Proofs about calls of the example link that may raise. *)
From Coq Require Import Reals String Lia.
From Verif Require P_lms.
From Verif Require Import Py PyQ B_list M_aux M_symbol M_slicer M_filter M_lms M_estim M_channel M_ctle M_sim M_simcheck M_rxloop S_rxloop P_rxloop M_link S_link M_linkst S_linkst.
Import List ListNotations.
Open Scope Z_scope.

Lemma next_ok {S} (s : S) f : next (fine s) f = f s. Proof. reflexivity. Qed.
Lemma handed_ext {S A} (f g : S -> A) p : (forall s, f s = g s) -> handed f p = handed g p.
Proof. intros E. unfold handed. destruct (snd p) as [[?|?]|]; try reflexivity. now rewrite E. Qed.
Lemma handed_next {S A} (f : S -> A) p k : handed f (next p k) = obind (handed (fun s => s) p) (fun s => handed f (k s)).
Proof. destruct p as [s [[[]|e]|]]; reflexivity. Qed.
Lemma handed_once {S} (f : S -> outcome S) s : handed (fun s => s) (at_once f s) = f s.
Proof. unfold at_once. destruct (f s) as [[?|?]|]; reflexivity. Qed.
Lemma obind_ext {A B} (o : outcome A) (f g : A -> outcome B) : (forall x, f x = g x) -> obind o f = obind o g.
Proof. intros E. destruct o as [[?|?]|]; cbn; auto. Qed.

Lemma decide_agree r : handed (fun r => r) (decide r) = Done (slice_stage r).
Proof.
  unfold decide, slice_stage. destruct (eq_call (rx_eq r) (rx_adc_out r)) as [[y e]|x]; [|reflexivity]. cbn [bind fst snd]. cbv zeta. cbn [set_slicer_in rx_slicer_in set_eq rx_levels].
  destruct (slicer _ _) as [s|x]; reflexivity.
Qed.
Lemma adapt_agree f r : handed (fun r => r) (adapt f r) = Done (lms_stage f r).
Proof.
  unfold adapt, lms_stage. destruct (rx_conv_lms r) eqn:C; [|reflexivity]. destruct f as [f|]; [|reflexivity]. cbv zeta.
  destruct (arange (-1 * _) _ 1) as [fi|x]; cbn [bind]; [|reflexivity]. destruct (arange 1 _ 1) as [di|x]; cbn [bind]; [|reflexivity].
  destruct (f _ _ _ _ _) as [[[mse gf] gd]|x]; cbn [bind]; [|reflexivity]. destruct (np_add (e_ffe_vec _) _) as [fv|x]; cbn [bind]; [|reflexivity].
  cbn [set_eq rx_lr]. destruct (np_add (e_dfe_vec _) _) as [dv|x]; cbn [bind]; [|reflexivity]. cbn [set_mse rx_mse].
  destruct (mse_moved mse mse); unfold handed, fine, set_conv_lms, set_mse, set_dfe_vec, set_ffe_vec, set_eq; cbn; rewrite ?C; reflexivity.
Qed.
Lemma digital_agree f r : handed (fun r => r) (digital f r) = digital_stage f r.
Proof.
  unfold digital, digital_stage. rewrite handed_next, decide_agree. apply obind_ext. intros r1. destruct (rx_converge r1); [|reflexivity].
  rewrite handed_next, handed_once. apply obind_ext. intros r2. rewrite handed_next, handed_once. apply obind_ext. intros r3. rewrite handed_next, adapt_agree. apply obind_ext. reflexivity.
Qed.
Lemma extract_agree s : handed (fun s => (rs_rx s, rs_dec s)) (extract s) = obind (extract_data (rs_rx s)) (fun d => Done (Ok (rs_rx s, d))).
Proof.
  unfold extract, extract_data. destruct (fst (demapping _ _ _)) as [d|x]; [|reflexivity]. cbn [obind]. cbv zeta. destruct (decoder _ _) as [[b|x]|]; reflexivity.
Qed.
Lemma extract_rx s : rs_rx (fst (extract s)) = rs_rx s.
Proof. unfold extract. destruct (fst (demapping _ _ _)) as [d|x]; [|reflexivity]. cbv zeta. destruct (decoder _ _) as [[b|x]|]; reflexivity. Qed.
Lemma after_agree f ad s : handed (fun s => (rs_rx s, rs_dec s)) (after_adc f ad s) =
  obind (Done ad) (fun v => obind (digital_stage f (set_adc_out (rs_rx s) v)) (fun r => obind (extract_data r) (fun d => Done (Ok (r, d))))).
Proof.
  unfold after_adc. destruct ad as [v|x]; [|reflexivity]. cbn [obind]. rewrite <- digital_agree. destruct (digital f _) as [r o]. rewrite handed_next.
  destruct o as [[[]|x]|]; [|reflexivity|reflexivity]. unfold handed at 1 3. cbn [snd obind fst]. rewrite extract_agree. reflexivity.
Qed.
Lemma rx_agree f s x : handed (fun s => (rs_rx s, rs_dec s)) (rx_call f s x) = receive f (rs_rx s) x.
Proof.
  unfold rx_call. rewrite after_agree. unfold receive, input_stage. destruct (adc_call _ _) as [v|e]; reflexivity.
Qed.
Lemma link_agree f z normal : full_link_call f (link_of z) normal = handed (fun z => (link_of z, z_prbs z, the_bits z)) (link_call f z normal).
Proof.
  unfold full_link_call, link_call, generate. cbn [fl_gen link_of]. destruct (prbs_gen_next (z_gen z)) as [g [p|e]]; [|reflexivity].
  unfold transmit. cbn [fl_cd fl_md link_of set_tx z_cd z_md]. destruct (encoder _ _) as [[s|e]|]; cbn [obind]; [|reflexivity|reflexivity].
  destruct (mapping _ _ _ _ _) as [m|e]; cbn [obind bind]; [|reflexivity]. rewrite next_ok. unfold through_channel. cbn [set_tx z_ch z_map fl_ch link_of z_gen z_cd z_md].
  destruct (channel_call _ _ _) as [c [[out|]|e]]; [|reflexivity|reflexivity]. rewrite next_ok. unfold through_receiver. cbn [set_rx set_ch z_ch_out set_tx z_ctle z_rx].
  destruct (all_numbers out) as [x|]; [|reflexivity]. cbn [fl_ctle link_of]. destruct (ctle_call _ _) as [[[ct y]|]|e]; cbn [obind]; [|reflexivity|reflexivity].
  cbn [set_ctle z_rx set_rx]. pose proof (after_agree f (adc_callR (rx_adc (rs_rx (remember (z_rx z)))) y) (remember (z_rx z))) as A.
  destruct (after_adc f _ _) as [s1 o] eqn:E. change (rx_adc (rs_rx (remember (z_rx z)))) with (rx_adc (rs_rx (z_rx z))) in A. cbn [fl_rx].
  destruct (adc_callR _ y) as [v|e]; cbn [obind] in A |- *.
  - change (with_adc_out (rs_rx (z_rx z)) v) with (set_adc_out (rs_rx (remember (z_rx z))) v). destruct (digital_stage f _) as [[r|e]|]; cbn [obind] in A |- *.
    + destruct (extract_data r) as [[d|e]|]; cbn [obind] in A |- *; unfold handed in *; cbn [fst snd] in A |- *; destruct o as [[u|e']|]; try discriminate A; try (now injection A as ->); try reflexivity.
      injection A as <- <-. reflexivity.
    + unfold handed in *; cbn [fst snd] in A |- *; destruct o as [[u|e']|]; try discriminate A; now injection A as ->.
    + unfold handed in *; cbn [fst snd] in A |- *; destruct o as [[u|e']|]; try discriminate A; reflexivity.
  - unfold handed in *; cbn [fst snd] in A |- *; destruct o as [[u|e']|]; try discriminate A; now injection A as ->.
Qed.

(** *** The transmitter *)
Lemma next_keeps {S A} (f : S -> A) p k : (forall s, f (fst (k s)) = f s) -> f (fst (next p k)) = f (fst p).
Proof. intros K. destruct p as [s [[[]|e]|]]; [apply K|reflexivity|reflexivity]. Qed.
Definition tx_part (z : link_st) := (z_gen z, z_cd z, z_md z, z_prbs z, z_enc z, z_map z).
Lemma channel_tx normal z : tx_part (fst (through_channel normal z)) = tx_part z.
Proof. unfold through_channel. destruct (channel_call _ _ _) as [c [[out|]|e]]; reflexivity. Qed.
Lemma receiver_tx f z : tx_part (fst (through_receiver f z)) = tx_part z.
Proof. unfold through_receiver. cbv zeta. destruct (all_numbers _); [|reflexivity]. destruct (ctle_call _ _) as [[[c y]|]|e]; [|reflexivity|reflexivity]. destruct (after_adc _ _ _). reflexivity. Qed.
Lemma call_tx f z normal : tx_part (fst (link_call f z normal)) = tx_part (fst (generate z)).
Proof. unfold link_call. apply next_keeps. intros s. rewrite next_keeps; [apply channel_tx|apply receiver_tx]. Qed.
Lemma generate_settings z : z_cd (fst (generate z)) = z_cd z /\ z_md (fst (generate z)) = z_md z.
Proof. unfold generate. destruct (prbs_gen_next _) as [g [p|e]]; [|split; reflexivity]. cbv zeta. destruct (encoder _ _) as [[s|e]|]; [|split; reflexivity|split; reflexivity]. destruct (mapping _ _ _ _ _); split; reflexivity. Qed.
Lemma generate_gen z g p : prbs_gen_next (z_gen z) = (g, Ok p) -> z_gen (fst (generate z)) = g /\ z_prbs (fst (generate z)) = p.
Proof. intros E. unfold generate. rewrite E. cbv zeta. destruct (encoder _ _) as [[s|e]|]; [|split; reflexivity|split; reflexivity]. destruct (mapping _ _ _ _ _); split; reflexivity. Qed.
Lemma call_gen f z normal g p : prbs_gen_next (z_gen z) = (g, Ok p) -> z_gen (fst (link_call f z normal)) = g /\ z_prbs (fst (link_call f z normal)) = p.
Proof.
  intros E. pose proof (call_tx f z normal) as T. destruct (generate_gen z g p E) as (A & B). unfold tx_part in T. injection T as T1 T2 T3 T4 T5 T6. split; congruence.
Qed.
Lemma history_pattern f : forall l z normal g bs, prbs_gen_run (calls l) (z_gen z) = (g, Ok bs) ->
  map (fun p => z_prbs (fst p)) (snd (history f z l normal)) = bs /\ z_gen (fst (history f z l normal)) = g.
Proof.
  induction l as [|d l IH]; intros z normal g bs E.
  - injection E as <- <-. split; reflexivity.
  - destruct d; try (apply IH; exact E). unfold calls in E. cbn [filter length prbs_gen_run] in E. destruct (prbs_gen_next (z_gen z)) as [g1 [c|e]] eqn:N; [|discriminate E].
    destruct (call_gen f z (normal 0%nat) g1 c N) as (A & B). cbn [history]. cbv zeta. cbn [fst snd map]. fold (calls l) in E.
    destruct (prbs_gen_run (calls l) g1) as [g2 [cs|e]] eqn:N2; [|discriminate E]. injection E as <- <-. rewrite <- A in N2. destruct (IH _ (fun i => normal (S i)) _ _ N2) as (C & D). rewrite B, C. split; [reflexivity|exact D].
Qed.

(** *** The analog part *)
Lemma all_numbers_map l : all_numbers (map Some l) = Some l.
Proof. induction l as [|x l IH]; [reflexivity|]. cbn [map all_numbers]. now rewrite IH. Qed.
Lemma call_shape f z normal g p t c x ct y : prbs_gen_next (z_gen z) = (g, Ok p) -> transmit (z_cd z) (z_md z) p = Done (Ok t) ->
  channel_call (z_ch z) (map Qc2R t) normal = (c, Ok (Some (map Some x))) -> ctle_call (z_ctle z) x = Ok (Some (ct, y)) ->
  exists en, let a := after_adc f (adc_callR (rx_adc (rs_rx (z_rx z))) y) (remember (z_rx z)) in
  link_call f z normal = (mk_lst g (z_cd z) (z_md z) p en t c (map Some x) ct y (fst a), snd a).
Proof.
  intros E1 E2 E3 E4. unfold transmit in E2. apply obind_ok in E2. destruct E2 as (en & E2 & E5). exists en. cbv zeta.
  unfold link_call, generate. rewrite E1. cbn [set_tx z_cd z_md z_gen z_map]. rewrite E2. cbn [set_tx z_cd z_md z_gen z_map].
  destruct (mapping _ _ _ _ _) as [m|e]; [|discriminate E5]. injection E5 as <-. rewrite next_ok. unfold through_channel. cbn [set_tx z_ch z_map]. rewrite E3. rewrite next_ok.
  unfold through_receiver. cbn [set_ch set_tx set_rx z_ch_out z_ctle]. rewrite all_numbers_map, E4. cbn [set_ctle z_rx set_rx set_ch set_tx]. change (rx_adc (rs_rx (remember (z_rx z)))) with (rx_adc (rs_rx (z_rx z))).
  destruct (after_adc f _ _) as [s o]. reflexivity.
Qed.
Lemma history_analog f : forall l z normal g bs txs c cs ct ys, prbs_gen_run (calls l) (z_gen z) = (g, Ok bs) -> Forall2 (fun b t => transmit (z_cd z) (z_md z) b = Done (Ok t)) bs txs ->
  channel_calls (z_ch z) (map (map Qc2R) txs) normal = (c, Ok (returned cs)) -> ctle_calls (z_ctle z) cs = Ok (Some (ct, ys)) ->
  let h := history f z l normal in
  map (fun p => z_map (fst p)) (snd h) = txs /\ map (fun p => z_ch_out (fst p)) (snd h) = map (map Some) cs /\ map (fun p => z_ctle_out (fst p)) (snd h) = ys /\
  z_ch (fst h) = c /\ z_ctle (fst h) = ct.
Proof.
  induction l as [|d l IH]; intros z normal g bs txs c cs ct ys E1 E2 E3 E4.
  - injection E1 as <- <-. inversion E2; subst. injection E3 as <- E3. destruct cs; [|discriminate E3]. injection E4 as <- <-. repeat split; reflexivity.
  - destruct d; try (exact (IH (on_rx z _) normal g bs txs c cs ct ys E1 E2 E3 E4)). unfold calls in E1. cbn [filter length prbs_gen_run] in E1. fold (calls l) in E1.
    destruct (prbs_gen_next (z_gen z)) as [g1 [p|e]] eqn:N; [|discriminate E1]. destruct (prbs_gen_run (calls l) g1) as [g2 [bs'|e]] eqn:N2; [|discriminate E1]. injection E1 as <- <-.
    inversion E2 as [|? t ? txs' T1 T2]; subst. cbn [map channel_calls] in E3. destruct (channel_call (z_ch z) (map Qc2R t) (normal 0%nat)) as [c1 [o|e]] eqn:C; [|discriminate E3].
    destruct (channel_calls c1 _ _) as [c2 [os|e]] eqn:C2; [|discriminate E3]. injection E3 as <- E3. destruct cs as [|x cs]; [discriminate E3|]. cbn [returned map] in E3. injection E3 as E3 E3'. subst o os.
    cbn [ctle_calls] in E4. destruct (ctle_call (z_ctle z) x) as [[[ct1 y]|]|e] eqn:CT; cbn [bind] in E4; try discriminate E4. destruct (ctle_calls ct1 cs) as [[[ct2 ys']|]|e] eqn:CT2; cbn [bind] in E4; try discriminate E4. injection E4 as <- <-.
    destruct (call_shape f z (normal 0%nat) g1 p t c1 x ct1 y N T1 C CT) as (en & L). cbv zeta in L. cbn [history]. cbv zeta. rewrite L. cbn [fst snd map]. set (z1 := mk_lst _ _ _ _ _ _ _ _ _ _ _).
    destruct (IH z1 (fun i => normal (S i)) g2 bs' txs' c2 cs ct2 ys' N2 T2 C2 CT2) as (A1 & A2 & A3 & A4 & A5). rewrite A1, A2, A3. repeat split; [exact A4|exact A5].
Qed.

(** *** The receiver outside convergence *)
Definition same_way (r r' : receiver) : Prop :=
  rx_converge r' = rx_converge r /\ rx_gain r' = rx_gain r /\ rx_levels r' = rx_levels r /\ rx_constel r' = rx_constel r /\ rx_cd r' = rx_cd r /\ rx_adc r' = rx_adc r.
Lemma listening_call f s v y e : rx_converge (rs_rx s) = false -> eq_call (rx_eq (rs_rx s)) v = Ok (y, e) ->
  let p := after_adc f (Ok v) s in
  handed rs_dec p = understood (rs_rx s) y /\ rx_eq (rs_rx (fst p)) = e /\ rx_slicer_in (rs_rx (fst p)) = map (fun v => rx_gain (rs_rx s) * v)%Qc y /\ same_way (rs_rx s) (rs_rx (fst p)).
Proof.
  intros C E. cbv zeta. unfold after_adc, digital, decide. cbn [set_adc_out rx_eq rx_adc_out]. rewrite E. cbv zeta. cbn [set_slicer_in set_eq set_adc_out rx_slicer_in rx_levels rx_gain].
  unfold understood. destruct (slicer _ _) as [sl|x]; cbn [obind].
  - rewrite next_ok. cbn [set_slicer_out set_slicer_in set_eq set_adc_out rx_converge]. rewrite C. unfold fine at 1 2 3 4. cbn [next]. unfold extract. cbn [rs_rx set_slicer_out set_slicer_in set_eq set_adc_out rx_constel rx_slicer_out rx_cd rs_dec rs_dem].
    destruct (fst (demapping _ _ _)) as [dm|x]; cbn [obind]; cbv zeta; [destruct (decoder _ _) as [[b|x]|]|]; (repeat split; cbn; auto).
  - cbn [next raised]. repeat split; cbn; auto.
Qed.
Lemma history_listens f : forall l z normal g bs txs c cs ct ys ads ws e, Forall only_listens l -> rx_converge (rs_rx (z_rx z)) = false ->
  prbs_gen_run (calls l) (z_gen z) = (g, Ok bs) -> Forall2 (fun b t => transmit (z_cd z) (z_md z) b = Done (Ok t)) bs txs ->
  channel_calls (z_ch z) (map (map Qc2R) txs) normal = (c, Ok (returned cs)) -> ctle_calls (z_ctle z) cs = Ok (Some (ct, ys)) ->
  Forall2 (fun y v => adc_callR (rx_adc (rs_rx (z_rx z))) y = Ok v) ys ads -> equalised (rx_eq (rs_rx (z_rx z))) ads = Ok (ws, e) ->
  let h := history f z l normal in
  map (handed the_bits) (snd h) = map (understood (rs_rx (z_rx z))) ws /\ map (fun p => rx_slicer_in (rs_rx (z_rx (fst p)))) (snd h) = map (map (fun v => rx_gain (rs_rx (z_rx z)) * v)%Qc) ws /\
  rx_eq (rs_rx (z_rx (fst h))) = e.
Proof.
  induction l as [|d l IH]; intros z normal g bs txs c cs ct ys ads ws e FA NC E1 E2 E3 E4 E5 E6.
  - injection E1 as <- <-. inversion E2; subst. injection E3 as <- E3. destruct cs; [|discriminate E3]. injection E4 as <- <-. inversion E5; subst. injection E6 as <- <-. repeat split; reflexivity.
  - inversion FA as [|? ? [->| ->] FA']; subst.
    2: { specialize (IH (on_rx z (deed_rx DStop)) normal g bs txs c cs ct ys ads ws e FA' eq_refl E1 E2 E3 E4 E5 E6). exact IH. }
    unfold calls in E1. cbn [filter length prbs_gen_run] in E1. fold (calls l) in E1.
    destruct (prbs_gen_next (z_gen z)) as [g1 [p|x]] eqn:N; [|discriminate E1]. destruct (prbs_gen_run (calls l) g1) as [g2 [bs'|x]] eqn:N2; [|discriminate E1]. injection E1 as <- <-.
    inversion E2 as [|? t ? txs' T1 T2]; subst. cbn [map channel_calls] in E3. destruct (channel_call (z_ch z) (map Qc2R t) (normal 0%nat)) as [c1 [o|x]] eqn:C; [|discriminate E3].
    destruct (channel_calls c1 _ _) as [c2 [os|x]] eqn:C2; [|discriminate E3]. injection E3 as <- E3. destruct cs as [|x cs]; [discriminate E3|]. cbn [returned map] in E3. injection E3 as E3 E3'. subst o os.
    cbn [ctle_calls] in E4. destruct (ctle_call (z_ctle z) x) as [[[ct1 y]|]|x'] eqn:CT; cbn [bind] in E4; try discriminate E4. destruct (ctle_calls ct1 cs) as [[[ct2 ys']|]|x'] eqn:CT2; cbn [bind] in E4; try discriminate E4. injection E4 as <- <-.
    inversion E5 as [|? v ? ads' V1 V2]; subst. cbn [equalised] in E6. destruct (eq_call _ v) as [[w e1]|x'] eqn:EQ; cbn [bind fst snd] in E6; try discriminate E6. destruct (equalised e1 ads') as [[ws' e2]|x'] eqn:EQ2; cbn [bind fst snd] in E6; try discriminate E6. injection E6 as <- <-.
    destruct (call_shape f z (normal 0%nat) g1 p t c1 x ct1 y N T1 C CT) as (en & L). cbv zeta in L. rewrite V1 in L. cbn [history]. cbv zeta. rewrite L. cbn [fst snd map].
    destruct (listening_call f (remember (z_rx z)) v w e1 NC EQ) as (K1 & K2 & K3 & K4 & K5 & K6 & K7 & K8 & K9). set (a := after_adc f (Ok v) (remember (z_rx z))) in *. set (z1 := mk_lst _ _ _ _ _ _ _ _ _ _ _).
    assert (R1 : forall q, understood (rs_rx (z_rx z1)) q = understood (rs_rx (z_rx z)) q). { intros q. unfold understood. subst z1. cbn [z_rx]. rewrite K5, K6, K7, K8. reflexivity. }
    specialize (IH z1 (fun i => normal (S i)) g2 bs' txs' c2 cs ct2 ys' ads' ws' e2 FA'). subst z1. cbn [z_rx z_gen z_cd z_md z_ch z_ctle] in IH, R1. rewrite K4, K9, K2 in IH.
    destruct (IH NC N2 T2 C2 CT2 V2 EQ2) as (A1 & A2 & A3). cbv zeta. rewrite A1, A2. split; [|split].
    + f_equal; [exact K1|]. apply map_ext. exact R1.
    + cbn [z_rx]. rewrite K3, K5. reflexivity.
    + exact A3.
Qed.

(** *** What holds of the receiver after every call *)
Lemma decide_keeps r : let r' := fst (decide r) in same_way r r' /\ taps r' = taps r /\ e_pre (rx_eq r') = e_pre (rx_eq r) /\ rx_conv_lms r' = rx_conv_lms r /\ rx_conv_cdr r' = rx_conv_cdr r /\ rx_done r' = rx_done r /\
  rx_phase r' = rx_phase r /\ rx_max_phase r' = rx_max_phase r /\ rx_lr r' = rx_lr r /\ rx_mse r' = rx_mse r /\ rx_adc_out r' = rx_adc_out r /\ rx_adc_last r' = rx_adc_last r.
Proof.
  cbv zeta. unfold decide. destruct (eq_call _ _) as [[y e]|x] eqn:E; [|repeat split; reflexivity]. apply eq_call_pre in E. destruct E as (E1 & E2 & E3 & E4 & E5 & E6). cbv zeta.
  destruct (slicer _ _); repeat split; try reflexivity; unfold taps; cbn; congruence.
Qed.
Lemma gain_fixed r r' : gain_stage r = Done (Ok r') -> rx_constel r' = rx_constel r /\ rx_cd r' = rx_cd r /\ rx_mse r' = rx_mse r.
Proof. unfold gain_stage. destruct (power (rx_levels r)), (power (rx_slicer_in r)); try discriminate. intros H. apply (f_equal (fun o => match o with Done (Ok r) => (rx_constel r, rx_cd r, rx_mse r) | _ => (rx_constel r, rx_cd r, rx_mse r) end)) in H. cbn in H. injection H as -> -> ->. auto. Qed.
Lemma cdr_fixed r r' : cdr_stage r = Done (Ok r') -> rx_constel r' = rx_constel r /\ rx_cd r' = rx_cd r /\ rx_mse r' = rx_mse r.
Proof.
  unfold cdr_stage. destruct (rx_conv_cdr r); intros H; [|injection H as <-; auto]. apply obind_ok in H. destruct H as ([s|] & _ & H); [|discriminate H]. destruct (rx_max_phase r =? 0); [discriminate H|].
  apply (f_equal (fun o => match o with Done (Ok r) => (rx_constel r, rx_cd r, rx_mse r) | _ => (rx_constel r, rx_cd r, rx_mse r) end)) in H. cbn in H. injection H as -> -> ->. auto.
Qed.
Lemma adapt_keeps f r : let r' := fst (adapt f r) in same_way r r' /\ rx_conv_lms r' = rx_conv_lms r /\ rx_conv_cdr r' = rx_conv_cdr r /\ rx_done r' = rx_done r /\
  rx_phase r' = rx_phase r /\ rx_max_phase r' = rx_max_phase r /\ rx_lr r' = rx_lr r /\ (f = None -> r' = r).
Proof.
  cbv zeta. unfold adapt. destruct (rx_conv_lms r) eqn:C; [|repeat split; auto]. destruct f as [f|]; [|repeat split; auto]. cbv zeta.
  destruct (bind _ _) as [[[mse gf] gd]|x]; [|repeat split; auto; discriminate]. destruct (np_add _ _) as [fv|x]; [|repeat split; auto; discriminate].
  cbn [set_eq rx_lr]. destruct (np_add _ _) as [dv|x]; [|repeat split; auto; discriminate]. cbn [set_mse rx_mse]. rewrite mse_moved_self. repeat split; auto; discriminate.
Qed.
Lemma next_inv {S} (P : S -> Prop) p k : P (fst p) -> (forall s, P s -> P (fst (k s))) -> P (fst (next p k)).
Proof. intros A B. destruct p as [s [[[]|e]|]]; cbn [next fst] in *; auto. Qed.
Lemma once_inv {S} (P : S -> Prop) f s : P s -> (forall s', f s = Done (Ok s') -> P s') -> P (fst (at_once f s)).
Proof. intros A B. unfold at_once. destruct (f s) as [[s'|e]|] eqn:E; cbn [fst fine raised]; auto. Qed.
(** Anything that every group of lines preserves. *)
Record steady (f : option lms_fun) (P : receiver -> Prop) : Prop := {
  sd_last : forall r v, P r -> P (set_adc_last r v) ; sd_out : forall r v, P r -> P (set_adc_out r v) ;
  sd_decide : forall r, P r -> P (fst (decide r)) ; sd_gain : forall r r', P r -> gain_stage r = Done (Ok r') -> P r' ;
  sd_cdr : forall r r', P r -> cdr_stage r = Done (Ok r') -> P r' ; sd_adapt : forall r, P r -> P (fst (adapt f r)) ; sd_finish : forall r, rx_converge r = true -> P r -> P (finish_stage r) }.
Lemma digital_inv f P r : steady f P -> P r -> P (fst (digital f r)).
Proof.
  intros D A. unfold digital. apply next_inv; [now apply (sd_decide f P D)|]. intros r1 A1. destruct (rx_converge r1) eqn:C1; [|exact A1].
  assert (W : forall p, P (fst p) /\ rx_converge (fst p) = true -> forall k, (forall r, P r /\ rx_converge r = true -> P (fst (k r))) -> P (fst (next p k))).
  { intros p (X & Y) k H. destruct p as [s [[[]|e]|]]; cbn [next fst] in *; auto. }
  apply W.
  { apply (once_inv (fun r => P r /\ rx_converge r = true)); [auto|]. intros r2 G. split; [now apply (sd_gain f P D r1)|]. destruct (gain_keeps _ _ G) as (-> & _). exact C1. }
  intros r2 (A2 & C2). apply W.
  { apply (once_inv (fun r => P r /\ rx_converge r = true)); [auto|]. intros r3 G. split; [now apply (sd_cdr f P D r2)|]. destruct (cdr_step _ _ G) as (-> & _). exact C2. }
  intros r3 (A3 & C3). apply W.
  { split; [now apply (sd_adapt f P D)|]. destruct (adapt_keeps f r3) as ((-> & _) & _). exact C3. }
  intros r4 (A4 & C4). now apply (sd_finish f P D).
Qed.
Lemma after_inv f P ad s : steady f P -> P (rs_rx s) -> P (rs_rx (fst (after_adc f ad s))).
Proof.
  intros D A. unfold after_adc. destruct ad as [v|e]; [|exact A]. pose proof (digital_inv f P _ D (sd_out f P D _ v A)) as B. destruct (digital f _) as [r o]. cbn [fst] in B.
  apply (next_inv (fun s => P (rs_rx s))); [exact B|]. intros s1 A1. rewrite (extract_rx s1). exact A1.
Qed.
Lemma rx_call_inv f P s x : steady f P -> P (rs_rx s) -> P (rs_rx (fst (rx_call f s x))).
Proof. intros D A. unfold rx_call. apply (after_inv f P); [exact D|]. now apply (sd_last f P D). Qed.
Lemma generate_rx z : z_rx (fst (generate z)) = z_rx z.
Proof. unfold generate. destruct (prbs_gen_next _) as [g [p|e]]; [|reflexivity]. cbv zeta. destruct (encoder _ _) as [[s|e]|]; [|reflexivity|reflexivity]. destruct (mapping _ _ _ _ _); reflexivity. Qed.
Lemma channel_rx normal z : z_rx (fst (through_channel normal z)) = z_rx z.
Proof. unfold through_channel. destruct (channel_call _ _ _) as [c [[out|]|e]]; reflexivity. Qed.
Lemma call_inv f P z normal : steady f P -> P (rs_rx (z_rx z)) -> P (rs_rx (z_rx (fst (link_call f z normal)))).
Proof.
  intros D A. unfold link_call. apply (next_inv (fun z => P (rs_rx (z_rx z)))); [now rewrite generate_rx|]. intros z1 A1. apply (next_inv (fun z => P (rs_rx (z_rx z)))); [now rewrite channel_rx|]. intros z2 A2.
  unfold through_receiver. cbv zeta. assert (A3 : P (rs_rx (remember (z_rx z2)))) by now apply (sd_last f P D). destruct (all_numbers _); [|exact A3]. destruct (ctle_call _ _) as [[[c y]|]|e]; [|exact A3|exact A3].
  cbn [set_ctle z_rx set_rx]. pose proof (after_inv f P (adc_callR (rx_adc (rs_rx (remember (z_rx z2)))) y) _ D A3) as B. destruct (after_adc f _ _) as [s o]. exact B.
Qed.
(** The sampling phase *)
Lemma phase_steady f : steady f phase_ok.
Proof.
  split; intros r; unfold phase_ok; auto.
  - intros A. destruct (decide_keeps r) as (K & _ & _ & _ & _ & _ & K5 & K6 & _). destruct K as (_ & _ & _ & _ & _ & K). rewrite K, K5, K6. exact A.
  - intros r' A G. destruct (gain_keeps _ _ G) as (_ & _ & _ & _ & G5 & G6 & G7 & _). rewrite G5, G6, G7. exact A.
  - intros r' A G. destruct (cdr_step _ _ G) as (_ & _ & _ & C4 & _ & _ & _ & _ & _ & _ & _ & _ & [(_ & ->)|(_ & s & _ & _ & S3 & S4 & S5 & _)]); [exact A|]. split; [exact S5|]. rewrite S4, C4. apply Z.mod_pos_bound. lia.
  - intros A. destruct (adapt_keeps f r) as ((_ & _ & _ & _ & _ & K) & _ & _ & _ & K5 & K6 & _). rewrite K, K5, K6. exact A.
  - intros _ A. destruct (finish_fields r) as (_ & _ & F3 & F4 & F5 & _). rewrite F3, F4, F5. exact A.
Qed.
Lemma deed_phase d r : phase_ok r -> phase_ok (deed_rx d r).
Proof. destruct d; cbn [deed_rx]; auto; unfold retune; [destruct (set_ffe _ _)|destruct (set_dfe _ _)]; auto. Qed.
Lemma history_inv f P (D : steady f P) (Q : deed -> Prop) : (forall d r, Q d -> P r -> P (deed_rx d r)) -> forall l z normal, Forall Q l -> P (rs_rx (z_rx z)) ->
  P (rs_rx (z_rx (fst (history f z l normal)))) /\ Forall (fun p => P (rs_rx (z_rx (fst p)))) (snd (history f z l normal)).
Proof.
  intros H. induction l as [|d l IH]; intros z normal F A; [split; [exact A|constructor]|]. inversion F as [|? ? F1 F2]; subst. destruct d; cbn [history]; try (apply IH; [exact F2|now apply (H _ _ F1)]).
  cbv zeta. pose proof (call_inv f P z (normal 0%nat) D A) as B. destruct (IH _ (fun i => normal (S i)) F2 B) as (C1 & C2). cbn [fst snd]. split; [exact C1|]. constructor; auto.
Qed.
Lemma rx_history_inv f P (D : steady f P) (Q : deed -> Prop) : (forall d r, Q d -> P r -> P (deed_rx d r)) -> forall l s, Forall (fun d => match d with RDo d => Q d | _ => True end) l -> P (rs_rx s) ->
  P (rs_rx (fst (rx_history f s l))) /\ Forall (fun p => P (rs_rx (fst p))) (snd (rx_history f s l)).
Proof.
  intros H. induction l as [|d l IH]; intros s F A; [split; [exact A|constructor]|]. inversion F as [|? ? F1 F2]; subst. destruct d; cbn [rx_history]; [|apply IH; [exact F2|now apply H]].
  cbv zeta. pose proof (rx_call_inv f P s ctle_out D A) as B. destruct (IH _ F2 B) as (C1 & C2). cbn [fst snd]. split; [exact C1|]. constructor; auto.
Qed.

(** *** Calls that adapt without a gradient function *)
Lemma adapting_steady f d : steady f (fun r => adapting r /\ rx_done r = d).
Proof.
  split; intros r; unfold adapting.
  - auto.
  - auto.
  - intros A. destruct (decide_keeps r) as ((K & _) & _ & _ & K2 & _ & K3 & _). rewrite K, K2, K3. exact A.
  - intros r' A G. destruct (gain_keeps _ _ G) as (G1 & G2 & G3 & G4 & _). rewrite G1, G2, G4. exact A.
  - intros r' A G. destruct (cdr_step _ _ G) as (C1 & C2 & C3 & _). rewrite C1, C2, C3. exact A.
  - intros A. destruct (adapt_keeps f r) as ((K & _) & K2 & _ & K3 & _). rewrite K, K2, K3. exact A.
  - intros _ A. rewrite finish_keeps by apply A. exact A.
Qed.
(** All that stays as it is while every call fails. *)
Lemma stuck_steady v : steady None (fun r => adapting r /\ kept r = v).
Proof.
  split; intros r; unfold adapting, kept, settings.
  - auto.
  - auto.
  - intros A. destruct (decide_keeps r) as ((K & _ & K1 & K1' & K1'' & _) & T & _ & K2 & _ & K3 & _ & K4 & K5 & K6 & _). rewrite K, K1, K1', K1'', K2, K3, K4, K5, K6, T. exact A.
  - intros r' A G. destruct (gain_keeps _ _ G) as (G1 & G2 & G3 & G4 & _ & G6 & _ & G8 & G9 & _ & _ & _ & _ & G14 & _). destruct (gain_fixed _ _ G) as (H1 & H2 & H3). unfold taps. rewrite G1, G2, G4, G6, G8, G9, G14, H1, H2, H3. exact A.
  - intros r' A G. destruct (cdr_step _ _ G) as (C1 & C2 & C3 & C4 & _ & C6 & C7 & _ & _ & _ & _ & C12 & _). destruct (cdr_fixed _ _ G) as (H1 & H2 & H3). unfold taps. rewrite C1, C2, C3, C4, C6, C7, C12, H1, H2, H3. exact A.
  - intros A. destruct (adapt_keeps None r) as (_ & _ & _ & _ & _ & _ & _ & K). rewrite (K eq_refl). exact A.
  - intros _ A. rewrite finish_keeps by apply A. exact A.
Qed.
Lemma digital_stuck r : adapting r -> ~ returns (digital None r).
Proof.
  intros (A1 & A2) H. pose proof (digital_agree None r) as E. unfold handed in E. unfold returns in H. rewrite H in E. symmetry in E. destruct (digital_spec _ _ _ E) as (r1 & _ & _ & _ & _ & _ & T). destruct (T A1) as (_ & _ & _ & _ & N & _). now apply N.
Qed.
Lemma after_stuck ad s : adapting (rs_rx s) -> ~ returns (after_adc None ad s) /\ rs_dem (fst (after_adc None ad s)) = rs_dem s /\ rs_dec (fst (after_adc None ad s)) = rs_dec s.
Proof.
  intros A. unfold after_adc. destruct ad as [v|e]; [|split; [discriminate|split; reflexivity]]. pose proof (digital_stuck (set_adc_out (rs_rx s) v) A) as N. destruct (digital None _) as [r o]. unfold returns in N. cbn [snd] in N.
  destruct o as [[[]|e]|]; [congruence| |]; (split; [discriminate|split; reflexivity]).
Qed.
Lemma next_not {S} (p : S * outcome unit) k : (forall s, p = (s, Done (Ok tt)) -> ~ returns (k s)) -> ~ returns (next p k).
Proof. intros H. destruct p as [s [[[]|e]|]]; cbn [next]; [now apply H|discriminate|discriminate]. Qed.
Lemma next_from {S A} (f : S -> A) p k : (forall s, p = (s, Done (Ok tt)) -> f (fst (k s)) = f s) -> f (fst (next p k)) = f (fst p).
Proof. intros H. destruct p as [s [[[]|e]|]]; cbn [next fst]; auto. Qed.
Lemma call_stuck z normal : adapting (rs_rx (z_rx z)) -> let p := link_call None z normal in
  ~ returns p /\ adapting (rs_rx (z_rx (fst p))) /\ kept (rs_rx (z_rx (fst p))) = kept (rs_rx (z_rx z)) /\ rs_dem (z_rx (fst p)) = rs_dem (z_rx z) /\ the_bits (fst p) = the_bits z.
Proof.
  intros A. cbv zeta. destruct (call_inv None _ z normal (stuck_steady (kept (rs_rx (z_rx z)))) (conj A eq_refl)) as (B1 & B2).
  assert (ST : forall z2, z_rx z2 = z_rx z -> ~ returns (through_receiver None z2) /\ rs_dem (z_rx (fst (through_receiver None z2))) = rs_dem (z_rx z) /\ rs_dec (z_rx (fst (through_receiver None z2))) = rs_dec (z_rx z)).
  { intros z2 E. unfold through_receiver. cbv zeta. destruct (all_numbers _); [|split; [discriminate|cbn; rewrite E; split; reflexivity]]. destruct (ctle_call _ _) as [[[c y]|]|e]; [|split; [discriminate|cbn; rewrite E; split; reflexivity]|split; [discriminate|cbn; rewrite E; split; reflexivity]].
    cbn [set_ctle z_rx set_rx]. rewrite E. destruct (after_stuck (adc_callR (rx_adc (rs_rx (remember (z_rx z)))) y) (remember (z_rx z)) A) as (X & Y & Z). destruct (after_adc None _ _) as [s o]. split; [exact X|]. split; [exact Y|exact Z]. }
  unfold link_call. pose proof (generate_rx z) as GR. destruct (generate z) as [z1 [[[]|e]|]] eqn:E; cbn [next fst] in *.
  - pose proof (channel_rx normal z1) as CR. destruct (through_channel normal z1) as [z2 [[[]|e]|]] eqn:E2; cbn [next fst] in *.
    + destruct (ST z2 ltac:(congruence)) as (X & Y & Z). unfold the_bits. unfold link_call in B1, B2. rewrite E in B1, B2. cbn [next] in B1, B2. rewrite E2 in B1, B2. auto.
    + unfold the_bits. rewrite CR, GR. repeat split; auto; try apply A. discriminate.
    + unfold the_bits. rewrite CR, GR. repeat split; auto; try apply A. discriminate.
  - unfold the_bits. rewrite GR. repeat split; auto; try apply A. discriminate.
  - unfold the_bits. rewrite GR. repeat split; auto; try apply A. discriminate.
Qed.
Lemma history_stuck : forall n z normal, adapting (rs_rx (z_rx z)) -> let h := history None z (repeat DCall n) normal in
  Forall (fun p => ~ returns p) (snd h) /\ length (snd h) = n /\ Forall (fun p => the_bits (fst p) = the_bits z /\ kept (rs_rx (z_rx (fst p))) = kept (rs_rx (z_rx z)) /\ adapting (rs_rx (z_rx (fst p)))) (snd h).
Proof.
  induction n as [|n IH]; intros z normal A; [repeat split; constructor|]. cbn [repeat history]. cbv zeta. destruct (call_stuck z (normal 0%nat) A) as (B1 & B2 & B3 & B4 & B5).
  destruct (IH _ (fun i => normal (S i)) B2) as (C1 & C2 & C3). cbn [fst snd length]. split; [constructor; auto|]. split; [now rewrite C2|]. constructor; [auto|]. eapply Forall_impl; [|exact C3]. cbv beta. intros p (X & Y & Z). split; [congruence|]. split; [congruence|exact Z].
Qed.

(** *** A call that adapts without a gradient function, line by line *)
Lemma decide_flag r l c : decide (idle r l c) = let '(r1, o) := decide r in (idle r1 l c, o).
Proof. unfold decide. cbn [idle rx_eq rx_adc_out]. destruct (eq_call _ _) as [[y e]|x]; [|reflexivity]. cbv zeta. cbn [idle set_eq set_slicer_in rx_slicer_in rx_levels rx_gain]. destruct (slicer _ _); reflexivity. Qed.
Lemma adc_vec_length r : (e_pre (rx_eq r) <= length (rx_adc_last r))%nat -> (e_pre (rx_eq r) <= length (rx_adc_out r))%nat -> length (adc_vec r) = length (rx_adc_out r).
Proof. intros A B. destruct (Nat.eq_dec (e_pre (rx_eq r)) 0) as [E|E]; [unfold adc_vec; rewrite E; reflexivity|]. apply adc_vec_delay; [lia|exact A|exact B]. Qed.
Lemma digital_failed r r1 : adapting r -> decide r = (r1, Done (Ok tt)) -> rx_levels r <> [] -> rx_slicer_in r1 <> [] ->
  (rx_conv_cdr r = true -> rx_max_phase r <> 0 /\ (2 <= length (rx_slicer_out r1))%nat /\ length (adc_vec r) = length (rx_slicer_out r1)) ->
  exists r', digital None r = (r', Done (Raise AttributeError)) /\ rx_gain r' = (rx_gain r + ofZ 100 * rx_lr r * (mean_square (rx_levels r) - mean_square (rx_slicer_in r1)))%Qc /\
    rx_slicer_in r' = rx_slicer_in r1 /\ rx_slicer_out r' = rx_slicer_out r1 /\ rx_eq r' = rx_eq r1 /\ rx_adc_out r' = rx_adc_out r.
Proof.
  intros (A1 & A2) D L S C. pose proof (decide_keeps r) as K. rewrite D in K. cbv zeta in K. cbn [fst] in K.
  destruct K as ((K1 & K2 & K3 & _) & T & PR & K4 & K5 & _ & K7 & K8 & K9 & _ & K11 & K12). unfold digital. rewrite D. cbn [next]. rewrite K1, A1.
  assert (G : exists r2, gain_stage r1 = Done (Ok r2)).
  { unfold gain_stage, power. rewrite K3. destruct (rx_levels r); [now elim L|]. destruct (rx_slicer_in r1); [now elim S|]. eexists. reflexivity. }
  destruct G as (r2 & G). unfold at_once at 1. rewrite G. cbn [fine next]. destruct (gain_keeps _ _ G) as (G1 & G2 & G3 & G4 & G5 & G6 & G7 & G8 & G9 & G10 & G11 & G12 & G13 & G14 & G15).
  assert (H : exists r3, cdr_stage r2 = Done (Ok r3)).
  { unfold cdr_stage. rewrite G3, K5. destruct (rx_conv_cdr r); [|eexists; reflexivity]. destruct (C eq_refl) as (C1 & C2 & C3).
    assert (AV : adc_vec r2 = adc_vec r) by (unfold adc_vec; rewrite G14, G13, G12, K11, K12, PR; reflexivity). rewrite AV, G11. rewrite P_lms.mm_eq by lia. cbv zeta. cbn [obind].
    rewrite G6, K8. destruct (Z.eqb_spec (rx_max_phase r) 0) as [|N]; [now elim C1|]. eexists. reflexivity. }
  destruct H as (r3 & H). unfold at_once. rewrite H. cbn [fine next]. destruct (cdr_step _ _ H) as (C1 & C2 & _ & _ & C5 & _ & _ & C8 & C9 & C10 & _ & C12 & _).
  unfold adapt. rewrite C2, G2, K4, A2. cbn [next raised]. exists r3. split; [reflexivity|]. rewrite C5, G15, C8, G10, C9, G11, C12, G14, K2, K3, K9, C10, G12, K11. repeat split; reflexivity.
Qed.
Lemma attempt_after ad s l c : let p := after_adc None ad (remember s) in let quiet := after_adc None ad (remember (quieted s l c)) in let q := rs_rx (fst quiet) in
  adapting (rs_rx s) -> returns quiet -> nothing_else (rs_rx s) q ->
  snd p = Done (Raise AttributeError) /\
  rx_gain (rs_rx (fst p)) = (rx_gain (rs_rx s) + ofZ 100 * rx_lr (rs_rx s) * (mean_square (rx_levels (rs_rx s)) - mean_square (rx_slicer_in q)))%Qc /\
  rx_slicer_in (rs_rx (fst p)) = rx_slicer_in q /\ rx_slicer_out (rs_rx (fst p)) = rx_slicer_out q /\ rx_eq (rs_rx (fst p)) = rx_eq q /\ rs_dec (fst p) = rs_dec s.
Proof.
  cbv zeta. intros A. unfold after_adc. destruct ad as [v|e]; [|discriminate].
  set (r := set_adc_out (set_adc_last (rs_rx s) (rx_adc_out (rs_rx s))) v).
  change (set_adc_out (rs_rx (remember s)) v) with r. change (set_adc_out (rs_rx (remember (quieted s l c))) v) with (idle r l c).
  change (rs_dem (remember (quieted s l c))) with (rs_dem s). change (rs_dec (remember (quieted s l c))) with (rs_dec s).
  change (rs_dem (remember s)) with (rs_dem s). change (rs_dec (remember s)) with (rs_dec s).
  assert (Q : digital None (idle r l c) = let '(r1, o) := decide r in (idle r1 l c, o)).
  { unfold digital. rewrite decide_flag. destruct (decide r) as [r1 [[[]|e]|]]; reflexivity. }
  rewrite Q. destruct (decide r) as [r1 o] eqn:D. destruct o as [[[]|e]|]; [|discriminate|discriminate]. cbn [next]. intros R. rewrite extract_rx. cbn [rs_rx].
  intros (LV & S & C). pose proof (decide_keeps r) as K. rewrite D in K. cbv zeta in K. cbn [fst] in K. destruct K as (_ & _ & PR & _ & _ & _ & _ & _ & _ & _ & K11 & K12).
  destruct (digital_failed r r1) as (r' & E & G & X1 & X2 & X3 & X4).
  - exact A. - exact D. - exact LV. - exact S.
  - intros B. destruct (C B) as (C1 & C2 & C3 & C4 & C5). split; [exact C1|]. split; [exact C2|]. change (rx_adc_out (idle r1 l c)) with (rx_adc_out r1) in C3, C5. rewrite K11 in C3, C5. rewrite adc_vec_length; [symmetry; exact C3|exact C4|exact C5].
  - rewrite E. cbn [next snd fst rs_rx rs_dec]. split; [reflexivity|]. split; [exact G|]. repeat split; assumption || reflexivity.
Qed.
Lemma attempt s x l c : let p := rx_call None s x in let quiet := rx_call None (quieted s l c) x in let q := rs_rx (fst quiet) in
  adapting (rs_rx s) -> returns quiet -> nothing_else (rs_rx s) q ->
  snd p = Done (Raise AttributeError) /\
  rx_gain (rs_rx (fst p)) = (rx_gain (rs_rx s) + ofZ 100 * rx_lr (rs_rx s) * (mean_square (rx_levels (rs_rx s)) - mean_square (rx_slicer_in q)))%Qc /\
  rx_slicer_in (rs_rx (fst p)) = rx_slicer_in q /\ rx_slicer_out (rs_rx (fst p)) = rx_slicer_out q /\ rx_eq (rs_rx (fst p)) = rx_eq q /\ rs_dec (fst p) = rs_dec s.
Proof. exact (attempt_after (adc_call (rx_adc (rs_rx s)) x) s l c). Qed.
Lemma generate_set_rx z s : generate (set_rx z s) = let '(z1, o) := generate z in (set_rx z1 s, o).
Proof. unfold generate. cbn [set_rx z_gen]. destruct (prbs_gen_next _) as [g [p|e]]; [|reflexivity]. cbv zeta. cbn [set_tx set_rx z_cd z_md z_gen]. destruct (encoder _ _) as [[x|e]|]; [|reflexivity|reflexivity]. cbn [set_tx set_rx z_cd z_md z_gen]. destruct (mapping _ _ _ _ _); reflexivity. Qed.
Lemma channel_set_rx normal z s : through_channel normal (set_rx z s) = let '(z1, o) := through_channel normal z in (set_rx z1 s, o).
Proof. unfold through_channel. cbn [set_rx z_ch z_map]. destruct (channel_call _ _ _) as [c [[out|]|e]]; reflexivity. Qed.
Lemma attempt_link z normal l c : let p := link_call None z normal in let quiet := link_call None (set_rx z (quieted (z_rx z) l c)) normal in let q := rs_rx (z_rx (fst quiet)) in let r := rs_rx (z_rx z) in
  adapting r -> returns quiet -> nothing_else r q ->
  snd p = Done (Raise AttributeError) /\ let r' := rs_rx (z_rx (fst p)) in
  rx_gain r' = (rx_gain r + ofZ 100 * rx_lr r * (mean_square (rx_levels r) - mean_square (rx_slicer_in q)))%Qc /\
  rx_slicer_in r' = rx_slicer_in q /\ rx_slicer_out r' = rx_slicer_out q /\ rx_eq r' = rx_eq q /\ the_bits (fst p) = the_bits z.
Proof.
  cbv zeta. intros A. unfold link_call. rewrite generate_set_rx. pose proof (generate_rx z) as GR. destruct (generate z) as [z1 [[[]|e]|]]; cbn [next fst] in *; [|discriminate|discriminate].
  rewrite channel_set_rx. pose proof (channel_rx normal z1) as CR. destruct (through_channel normal z1) as [z2 [[[]|e]|]]; cbn [next fst] in *; [|discriminate|discriminate].
  assert (ER : z_rx z2 = z_rx z) by congruence. unfold through_receiver. cbv zeta. cbn [set_rx z_rx z_ch_out z_ctle]. destruct (all_numbers _); [|discriminate]. destruct (ctle_call _ _) as [[[ct y]|]|e]; [|discriminate|discriminate].
  cbn [set_ctle z_rx set_rx]. rewrite ER. change (rs_rx (remember (quieted (z_rx z) l c))) with (idle (rs_rx (remember (z_rx z))) l c). cbn [idle rx_adc].
  pose proof (attempt_after (adc_callR (rx_adc (rs_rx (remember (z_rx z)))) y) (z_rx z) l c) as T. cbv zeta in T.
  change (rx_adc (rs_rx (remember (quieted (z_rx z) l c)))) with (rx_adc (rs_rx (remember (z_rx z)))).
  destruct (after_adc None _ (remember (z_rx z))) as [s o]. destruct (after_adc None _ (remember (quieted (z_rx z) l c))) as [s' o']. cbn [fst snd set_rx z_rx] in *. intros R N. unfold the_bits. cbn [set_rx z_rx]. exact (T A R N).
Qed.

(** *** Calls that do not return *)
Lemma settings_steady f v : steady f (fun r => settings r = v).
Proof.
  split; intros r; unfold settings; auto.
  - intros A. destruct (decide_keeps r) as ((K & _ & K1 & K1' & K1'' & _) & T & _ & K2 & _ & K3 & _ & K4 & K5 & _). rewrite K1, K1', K1'', K4, K5. exact A.
  - intros r' A G. destruct (gain_keeps _ _ G) as (G1 & G2 & G3 & G4 & _ & G6 & _ & G8 & G9 & _). destruct (gain_fixed _ _ G) as (H1 & H2 & _). rewrite G6, G8, G9, H1, H2. exact A.
  - intros r' A G. destruct (cdr_step _ _ G) as (C1 & C2 & C3 & C4 & _ & C6 & C7 & _). destruct (cdr_fixed _ _ G) as (H1 & H2 & _). rewrite C4, C6, C7, H1, H2. exact A.
  - intros A. destruct (adapt_keeps f r) as ((K & _ & K1 & K1' & K1'' & _) & _ & _ & _ & _ & K6 & K7 & _). rewrite K1, K1', K1'', K6, K7. exact A.
  - intros _ A. unfold finish_stage. destruct (_ && _); exact A.
Qed.
Lemma deed_settings d r : settings (deed_rx d r) = settings r.
Proof. destruct d; try reflexivity; cbn [deed_rx]; unfold retune; [destruct (set_ffe _ _)|destruct (set_dfe _ _)]; reflexivity. Qed.
Lemma extract_dec s : ~ returns (extract s) -> rs_dec (fst (extract s)) = rs_dec s.
Proof. unfold extract. cbv zeta. destruct (fst (demapping _ _ _)) as [d|e]; [|reflexivity]. destruct (decoder _ _) as [[b|e]|]; try reflexivity. intros H. now elim H. Qed.
Lemma next_dec {S A} (g : S -> A) p k : (returns p \/ g (fst p) = g (fst p)) -> ~ returns (next p k) -> (forall s, ~ returns (k s) -> g (fst (k s)) = g s) -> g (fst (next p k)) = g (fst p).
Proof. intros _ N H. destruct p as [s [[[]|e]|]]; cbn [next fst] in *; auto. Qed.
Lemma after_dec f ad s : ~ returns (after_adc f ad s) -> rs_dec (fst (after_adc f ad s)) = rs_dec s.
Proof.
  unfold after_adc. destruct ad as [v|e]; [|reflexivity]. destruct (digital f _) as [r o]. intros N. rewrite (next_dec rs_dec (mk_rs r (rs_dem s) (rs_dec s), o)); [reflexivity|now right|exact N|apply extract_dec].
Qed.
Lemma call_dec f z normal : ~ returns (link_call f z normal) -> the_bits (fst (link_call f z normal)) = the_bits z.
Proof.
  intros N. unfold link_call in *. pose proof (generate_rx z) as GR. destruct (generate z) as [z1 [[[]|e]|]]; cbn [next fst] in *; unfold the_bits; try now rewrite GR.
  pose proof (channel_rx normal z1) as CR. destruct (through_channel normal z1) as [z2 [[[]|e]|]]; cbn [next fst] in *; try now rewrite CR, GR.
  rewrite <- GR, <- CR. clear GR CR. unfold through_receiver in *. cbv zeta in *. destruct (all_numbers _); [|reflexivity]. destruct (ctle_call _ _) as [[[c y]|]|e]; [|reflexivity|reflexivity].
  cbn [set_ctle z_rx set_rx] in *. pose proof (after_dec f (adc_callR (rx_adc (rs_rx (remember (z_rx z2)))) y) (remember (z_rx z2))) as D. destruct (after_adc f _ _) as [s o]. now apply D.
Qed.

(** *** The records of a simulation *)
Lemma gather_records z m zs : records m zs -> records (gather z m) (zs ++ [z]).
Proof. intros (H1 & H2 & H3 & H4 & H5 & H6 & H7 & H8 & H9 & H10 & H11 & H12 & H13 & H14). unfold records, gather. cbn. rewrite H1, H2, H3, H4, H5, H6, H7, H8, H9, H10, H11, H12, H13, H14, !map_app. repeat split; reflexivity. Qed.
Lemma loop_records f : forall k z m normal z' m' e zs, sim_loop f k z m normal = (z', m', e) -> records m zs ->
  exists j tr, (j <= k)%nat /\ history f z (repeat DCall j) normal = (z', tr ++ cut_off z' e) /\ Forall returns tr /\ records m' (zs ++ map fst tr) /\
    (e = Returned -> rx_done (rs_rx (z_rx z')) = true) /\ (e = StillRunning -> length tr = k) /\ (e <> Returned -> Forall (fun p => rx_done (rs_rx (z_rx (fst p))) = false) tr).
Proof.
  induction k as [|k IH]; intros z m normal z' m' e zs H R; cbn [sim_loop] in H; destruct (rx_done (rs_rx (z_rx z))) eqn:E.
  - injection H as <- <- <-. exists 0%nat, []. cbn. rewrite app_nil_r. split; [lia|]; split; [reflexivity|]; split; [constructor|]; split; [exact R|]; repeat apply conj; auto; try discriminate; try (intros; constructor); try (intros N; now elim N).
  - injection H as <- <- <-. exists 0%nat, []. cbn. rewrite app_nil_r. split; [lia|]; split; [reflexivity|]; split; [constructor|]; split; [exact R|]; repeat apply conj; auto; try discriminate; try (intros; constructor).
  - injection H as <- <- <-. exists 0%nat, []. cbn. rewrite app_nil_r. split; [lia|]; split; [reflexivity|]; split; [constructor|]; split; [exact R|]; repeat apply conj; auto; try discriminate; try (intros; constructor); try (intros N; now elim N); lia.
  - destruct (link_call f z (normal 0%nat)) as [z1 [[[]|x]|]] eqn:L.
    + destruct (IH _ _ _ _ _ _ (zs ++ [z1]) H (gather_records _ _ _ R)) as (j & tr & J & HH & F & R' & A & B & C). exists (S j), ((z1, Done (Ok tt)) :: tr). split; [lia|]. split; [cbn [repeat history]; cbv zeta; rewrite L; cbn [fst]; rewrite HH; reflexivity|].
      split; [constructor; [reflexivity|exact F]|]. split; [cbn [map fst]; rewrite <- app_assoc in R'; exact R'|]. split; [exact A|]. split; [intros N; cbn [length]; now rewrite (B N)|]. intros N. constructor; [|now apply C]. cbn [fst].
      destruct k; cbn [sim_loop] in H; destruct (rx_done (rs_rx (z_rx z1))); try reflexivity; injection H as _ _ <-; now elim N.
    + injection H as <- <- <-. exists 1%nat, []. cbn [repeat history]. cbv zeta. rewrite L. cbn. rewrite app_nil_r. split; [lia|]; split; [reflexivity|]; split; [constructor|]; split; [exact R|]; repeat apply conj; auto; try discriminate; try (intros; constructor); lia.
    + injection H as <- <- <-. exists 1%nat, []. cbn [repeat history]. cbv zeta. rewrite L. cbn. rewrite app_nil_r. split; [lia|]; split; [reflexivity|]; split; [constructor|]; split; [exact R|]; repeat apply conj; auto; try discriminate; try (intros; constructor); lia.
Qed.
Lemma converge_records f k z m normal z' m' e : sim_converge f k z m normal = (z', m', e) ->
  (~ returns (link_call f z (normal 0%nat)) /\ m' = m /\ history f z [DCall] normal = (z', cut_off z' e) /\ cut_off z' e <> []) \/
  (returns (link_call f z (normal 0%nat)) /\ exists j tr, (j <= k)%nat /\
     history f z (DCall :: DStart :: repeat DCall j) normal = (z', link_call f z (normal 0%nat) :: tr ++ cut_off z' e) /\ Forall returns tr /\ records m' (map fst tr) /\
     (e = Returned -> rx_done (rs_rx (z_rx z')) = true) /\ (e = StillRunning -> length tr = k)).
Proof.
  unfold sim_converge, returns. destruct (link_call f z (normal 0%nat)) as [z1 [[[]|x]|]] eqn:L; intros H.
  - right. split; [reflexivity|]. destruct (loop_records _ _ _ _ _ _ _ _ [] H) as (j & tr & J & HH & F & R & A & B & _); [repeat split; reflexivity|]. exists j, tr. split; [exact J|]. split; [|auto].
    cbn [history]. cbv zeta. rewrite L. cbn [fst snd]. change (deed_rx DStart) with start_convergence. rewrite HH. reflexivity.
  - left. injection H as <- <- <-. split; [discriminate|]. split; [reflexivity|]. cbn [history]. cbv zeta. rewrite L. split; [reflexivity|discriminate].
  - left. injection H as <- <- <-. split; [discriminate|]. split; [reflexivity|]. cbn [history]. cbv zeta. rewrite L. split; [reflexivity|discriminate].
Qed.
(** It never returns. *)
Lemma loop_never f : forall k z m normal, adapting (rs_rx (z_rx z)) /\ rx_done (rs_rx (z_rx z)) = false -> snd (sim_loop f k z m normal) <> Returned.
Proof.
  induction k as [|k IH]; intros z m normal A; cbn [sim_loop]; rewrite (proj2 A); [discriminate|]. pose proof (call_inv f _ z (normal 0%nat) (adapting_steady f false) A) as B.
  destruct (link_call f z (normal 0%nat)) as [z1 [[[]|x]|]]; cbn [fst snd] in *; [|discriminate|discriminate]. now apply IH.
Qed.
Lemma idle_steady f : steady f (fun r => rx_converge r = false /\ rx_done r = false).
Proof.
  split; intros r.
  - auto.
  - auto.
  - intros A. destruct (decide_keeps r) as ((K & _) & _ & _ & K2 & _ & K3 & _). rewrite K, K3. exact A.
  - intros r' A G. destruct (gain_keeps _ _ G) as (G1 & G2 & G3 & G4 & _). rewrite G1, G4. exact A.
  - intros r' A G. destruct (cdr_step _ _ G) as (C1 & C2 & C3 & _). rewrite C1, C3. exact A.
  - intros A. destruct (adapt_keeps f r) as ((K & _) & K2 & _ & K3 & _). rewrite K, K3. exact A.
  - intros C (A & _). congruence.
Qed.
Lemma converge_never f k z m normal : rx_converge (rs_rx (z_rx z)) = false -> rx_done (rs_rx (z_rx z)) = false -> snd (sim_converge f k z m normal) <> Returned.
Proof.
  intros A B. unfold sim_converge. pose proof (call_inv f _ z (normal 0%nat) (idle_steady f) (conj A B)) as C. destruct (link_call f z (normal 0%nat)) as [z1 [[[]|x]|]]; cbn [fst snd] in *; [|discriminate|discriminate].
  apply loop_never. split; [split; reflexivity|]. exact (proj2 C).
Qed.
(** Without a gradient function the first turn is the last. *)
Lemma converge_package k z m normal : rx_converge (rs_rx (z_rx z)) = false -> rx_done (rs_rx (z_rx z)) = false ->
  let '(z', m', e) := sim_converge None (S k) z m normal in
  (exists x, e = Left x \/ e = NotModelled) /\ (returns (link_call None z (normal 0%nat)) -> m' = mem_empty /\ the_bits z' = the_bits (fst (link_call None z (normal 0%nat))) /\ rx_converge (rs_rx (z_rx z')) = true).
Proof.
  intros A B. unfold sim_converge. pose proof (call_inv None _ z (normal 0%nat) (idle_steady None) (conj A B)) as C. unfold returns. destruct (link_call None z (normal 0%nat)) as [z1 [[[]|x]|]]; cbn [fst snd] in *.
  - cbn [sim_loop]. assert (E : rx_done (rs_rx (z_rx (on_rx z1 start_convergence))) = false) by exact (proj2 C). rewrite E.
    destruct (call_stuck (on_rx z1 start_convergence) (normal 1%nat) (conj eq_refl eq_refl)) as (S1 & S2 & _ & _ & S5). unfold returns in S1. destruct (link_call None _ _) as [z2 [[[]|x]|]]; cbn [fst snd] in *.
    + now elim S1.
    + split; [exists x; now left|]. intros _. split; [reflexivity|]. split; [exact S5|apply S2].
    + split; [exists ValueError; now right|]. intros _. split; [reflexivity|]. split; [exact S5|apply S2].
  - split; [exists x; now left|]. discriminate.
  - split; [exists ValueError; now right|]. discriminate.
Qed.
(** The first chunk of a simulation is the last one. *)
Lemma restart z : rx_converge (rs_rx (z_rx z)) = false -> let r := rs_rx (z_rx z) in set_rx (on_rx z start_convergence) (quieted (z_rx (on_rx z start_convergence)) (rx_conv_lms r) (rx_conv_cdr r)) = z.
Proof. intros C. destruct z as [? ? ? ? ? ? ? ? ? ? [r dm dc]]. destruct r. cbn in *. subst. reflexivity. Qed.
Lemma converge_ends k z m normal : let p0 := link_call None z (normal 0%nat) in let z1 := fst p0 in let r1 := rs_rx (z_rx z1) in let p1 := link_call None z1 (normal 1%nat) in let q := rs_rx (z_rx (fst p1)) in
  rx_converge (rs_rx (z_rx z)) = false -> rx_done (rs_rx (z_rx z)) = false -> returns p0 -> returns p1 -> nothing_else (start_convergence r1) q ->
  exists z', sim_converge None (S k) z m normal = (z', mem_empty, Left AttributeError) /\ the_bits z' = the_bits z1 /\
    rx_gain (rs_rx (z_rx z')) = (rx_gain r1 + ofZ 100 * rx_lr r1 * (mean_square (rx_levels r1) - mean_square (rx_slicer_in q)))%Qc.
Proof.
  cbv zeta. intros A B R0 R1 N. unfold sim_converge. pose proof (call_inv None _ z (normal 0%nat) (idle_steady None) (conj A B)) as C. unfold returns in R0. destruct (link_call None z (normal 0%nat)) as [z1 o]. cbn [fst snd] in *. subst o.
  pose proof (attempt_link (on_rx z1 start_convergence) (normal 1%nat) (rx_conv_lms (rs_rx (z_rx z1))) (rx_conv_cdr (rs_rx (z_rx z1)))) as T. cbv zeta in T. rewrite (restart z1 (proj1 C)) in T.
  destruct (T (conj eq_refl eq_refl) R1 N) as (T1 & T2 & _ & _ & _ & T6). cbn [sim_loop]. assert (E : rx_done (rs_rx (z_rx (on_rx z1 start_convergence))) = false) by exact (proj2 C). rewrite E.
  destruct (link_call None (on_rx z1 start_convergence) (normal 1%nat)) as [z2 o2]. cbn [fst snd] in *. subst o2. exists z2. split; [reflexivity|]. split; [exact T6|exact T2].
Qed.

(** *** What a call leaves in every stage, and what happens between calls *)
Lemma generate_whole z : let z' := fst (generate z) in
  (z_gen z' = fst (prbs_gen_next (z_gen z))) /\
  (z_prbs z' = z_prbs z \/ snd (prbs_gen_next (z_gen z)) = Ok (z_prbs z')) /\
  (z_enc z' = z_enc z \/ encoder (z_cd z) (z_prbs z') = Done (Ok (z_enc z'))) /\
  (z_map z' = z_map z \/ transmit (z_cd z) (z_md z) (z_prbs z') = Done (Ok (z_map z'))).
Proof.
  cbv zeta. unfold generate, transmit. destruct (prbs_gen_next _) as [g [p|e]]; [|cbn; auto]. cbv zeta. cbn [set_tx z_cd z_md z_gen].
  destruct (encoder _ p) as [[s|e]|] eqn:E; [|cbn; auto|cbn; auto].
  destruct (mapping _ _ _ _ _) as [m|e] eqn:M; cbn [fst snd fine raised set_tx z_gen z_prbs z_enc z_map]; rewrite ?E; auto.
  repeat split; auto. right. cbn [obind]. rewrite M. reflexivity.
Qed.
Lemma generate_analog z : let z' := fst (generate z) in z_ch z' = z_ch z /\ z_ch_out z' = z_ch_out z /\ z_ctle z' = z_ctle z /\ z_ctle_out z' = z_ctle_out z /\ z_rx z' = z_rx z.
Proof. cbv zeta. unfold generate. destruct (prbs_gen_next _) as [g [p|e]]; [|cbn; auto 6]. cbv zeta. destruct (encoder _ _) as [[s|e]|]; [|cbn; auto 6|cbn; auto 6]. destruct (mapping _ _ _ _ _); cbn; auto 6. Qed.
Lemma call_whole f z normal : let z' := fst (link_call f z normal) in let ch := channel_call (z_ch z) (map Qc2R (z_map z')) normal in
  z_gen z' = fst (prbs_gen_next (z_gen z)) /\
  (z_prbs z' = z_prbs z \/ snd (prbs_gen_next (z_gen z)) = Ok (z_prbs z')) /\
  (z_enc z' = z_enc z \/ encoder (z_cd z) (z_prbs z') = Done (Ok (z_enc z'))) /\
  (z_map z' = z_map z \/ transmit (z_cd z) (z_md z) (z_prbs z') = Done (Ok (z_map z'))) /\
  (z_ch z' = z_ch z \/ z_ch z' = fst ch) /\
  (z_ch_out z' = z_ch_out z /\ z_rx z' = z_rx z \/ snd ch = Ok (Some (z_ch_out z'))) /\
  (z_ctle z' = z_ctle z /\ z_ctle_out z' = z_ctle_out z \/ exists x, all_numbers (z_ch_out z') = Some x /\ ctle_call (z_ctle z) x = Ok (Some (z_ctle z', z_ctle_out z'))).
Proof.
  cbv zeta. pose proof (call_tx f z normal) as T. unfold tx_part in T. injection T as T1 T2 T3 T4 T5 T6. rewrite T1, T4, T5, T6.
  destruct (generate_whole z) as (G1 & G2 & G3 & G4). destruct (generate_analog z) as (A1 & A2 & A3 & A4 & A5). repeat (split; [assumption|]).
  unfold link_call. destruct (generate z) as [z1 [[[]|e]|]]; cbn [next fst] in *; [|rewrite A1, A2, A3, A4, A5; auto|rewrite A1, A2, A3, A4, A5; auto].
  unfold through_channel. rewrite A1. destruct (channel_call (z_ch z) _ normal) as [c [[out|]|e]]; cbn [next fine raised fst snd]; [|cbn; rewrite A2, A3, A4, A5; auto 6|cbn; rewrite A2, A3, A4, A5; auto 6].
  unfold through_receiver. cbv zeta. cbn [set_ch set_rx z_ch_out z_ctle z_rx]. destruct (all_numbers out) as [x|] eqn:X; [|cbn; rewrite A3, A4; auto 6].
  rewrite A3. destruct (ctle_call (z_ctle z) x) as [[[ct y]|]|e] eqn:Y; [|cbn; rewrite A3, A4; auto 6|cbn; rewrite A3, A4; auto 6].
  destruct (after_adc _ _ _) as [s o]. cbn. repeat split; auto. right. exists x. now rewrite X, Y.
Qed.
Lemma set_rx_same z : set_rx z (z_rx z) = z. Proof. now destruct z. Qed.
Lemma between_calls f : forall l z normal, calls l = 0%nat -> let z' := fst (history f z l normal) in
  snd (history f z l normal) = [] /\ z' = set_rx z (z_rx z') /\ rs_dem (z_rx z') = rs_dem (z_rx z) /\ the_bits z' = the_bits z.
Proof.
  induction l as [|d l IH]; intros z normal C; cbv zeta.
  - cbn. now rewrite set_rx_same.
  - destruct d; cbn [history]; [discriminate C| | | |];
      (match goal with |- context [on_rx z ?g] => destruct (IH (on_rx z g) normal C) as (H1 & H2 & H3 & H4) end;
       repeat split; [exact H1|rewrite H2 at 1; reflexivity|exact H3|exact H4]).
Qed.
Lemma harmless_same r d : harmless r d -> d <> DCall /\ deed_rx d r = r.
Proof.
  intros [(-> & E)|[(v & -> & E)|(v & -> & E)]]; (split; [discriminate|]); cbn [deed_rx].
  - destruct r. cbn in *. now rewrite E.
  - unfold retune, set_ffe. apply Nat.eqb_neq in E. now rewrite E.
  - unfold retune, set_dfe. apply Nat.eqb_neq in E. now rewrite E.
Qed.
Lemma harmless_all f z normal : forall l, Forall (harmless (rs_rx (z_rx z))) l -> history f z l normal = (z, []).
Proof.
  induction l as [|d l IH]; intros H; [reflexivity|]. inversion H as [|? ? Hd Hl]; subst. destruct (harmless_same _ _ Hd) as (N & E).
  assert (O : on_rx z (deed_rx d) = z) by (unfold on_rx; rewrite E; destruct z as [? ? ? ? ? ? ? ? ? ? [? ? ?]]; reflexivity).
  destruct d; [now elim N| | | |]; cbn [history]; rewrite O; exact (IH Hl).
Qed.
