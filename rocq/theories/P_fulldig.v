(** Proofs about the digital part of the whole example link: symbols of chunks, equaliser and slicer over a history. *)
From Coq Require Import String.
From Verif Require Import Py PyQ B_list B_qc M_aux M_symbol M_slicer S_rx P_slicer M_filter S_filter P_filter Prop_filter P_map P_symbol M_sim S_sim P_sim M_rxloop S_rxloop P_rxloop S_rxparts P_rxparts P_rxlink M_link.
From Coq Require Import QArith Qcanon Qabs Qround Lqa.
Import List.
Open Scope Z_scope.

(** * Bits of symbols *)
Definition sym_bits (cd : coding_data) (k : nat) (v : Z) : list Z :=
  if (k =? 1)%nat then [if pn_inv (cflags cd) then 1 - v else v] else unmod_row (cflags cd) (map (bit_test v) (seq 0 k)).
Definition row_flags (cd : coding_data) (k n : nat) : Prop :=
  k = 1%nat \/ n <> 1%nat \/ (inv_msb (cflags cd) = false /\ inv_lsb (cflags cd) = false /\ bit_order_inv (cflags cd) = false).
Lemma sym_bits_length cd k v : length (sym_bits cd k v) = k.
Proof. unfold sym_bits. destruct (Nat.eqb_spec k 1) as [->|]; [reflexivity|]. now rewrite unmod_row_length, lsb_bits_length. Qed.
Lemma over1_one q : (q == 1)%Q -> over1 q = false /\ is_int q = true.
Proof. intros H. split; [apply over1_false; rewrite H; apply Qle_refl|apply (is_int_Z _ 1); exact H]. Qed.
Lemma over1_more q k : (2 <= k)%nat -> (q == inject_Z (Z.of_nat k))%Q -> over1 q = true /\ is_int q = true /\ Qfloor q = Z.of_nat k.
Proof. intros H E. split; [apply over1_true; rewrite E; unfold Qlt, inject_Z; cbn; lia|]. split; [now apply (is_int_Z _ (Z.of_nat k))|now apply Qfloor_nat]. Qed.
Lemma dec_rows cd k s : (1 <= k)%nat -> (bps cd == inject_Z (Z.of_nat k))%Q -> row_flags cd k (length s) -> dec_symbols cd s = Ok (concat (map (sym_bits cd k) s)).
Proof.
  intros Hk E F. unfold dec_symbols. destruct (Nat.eq_dec k 1) as [->|K1].
  - destruct (over1_one _ E) as [-> ->]. f_equal. unfold sym_bits. cbn [Nat.eqb]. clear. destruct (pn_inv _); induction s as [|v s IH]; cbn [map concat app]; congruence.
  - destruct (over1_more _ k ltac:(lia) E) as (-> & _ & ->). rewrite symbol2bin_rows; [|lia|destruct F as [F|F]; [lia|exact F]].
    do 2 f_equal. apply map_ext. intros v. unfold sym_bits. now rewrite (proj2 (Nat.eqb_neq _ _) K1).
Qed.
Lemma enc_rows cd k p n : (1 <= k)%nat -> (bps cd == inject_Z (Z.of_nat k))%Q -> bits p -> length p = (n * k)%nat ->
  exists s, enc_symbols cd p = Ok s /\ concat (map (sym_bits cd k) s) = p /\ length s = n /\ Forall (fun v => 0 <= v < 2 ^ Z.of_nat k) s.
Proof.
  intros Hk E B L. unfold enc_symbols. destruct (Nat.eq_dec k 1) as [->|K1].
  - destruct (over1_one _ E) as [-> ->]. eexists. split; [reflexivity|]. change (2 ^ Z.of_nat 1) with 2. unfold sym_bits. cbn [Nat.eqb]. rewrite Nat.mul_1_r in L. destruct (pn_inv _).
    + rewrite map_map, map_length. split; [|split; [exact L|]].
      * clear. induction p as [|v p IH]; cbn [map concat app]; [reflexivity|]. f_equal; [lia|exact IH].
      * apply Forall_forall. intros v Hv. apply in_map_iff in Hv. destruct Hv as (b & <- & Hb). unfold bits in B. rewrite Forall_forall in B. specialize (B b Hb). unfold isbit in B. lia.
    + split; [|split; [exact L|]].
      * clear. induction p as [|v p IH]; cbn [map concat app]; congruence.
      * eapply Forall_impl; [|exact B]. unfold isbit. intros; lia.
  - destruct (over1_more _ k ltac:(lia) E) as (-> & -> & ->).
    destruct (bin2symbol_value k p (cflags cd) Hk) as (s & E1 & L1 & _ & R1). rewrite E1. rewrite L, Nat.div_mul in L1 by lia.
    exists s. split; [reflexivity|]. split; [|split; [exact L1|now apply R1]].
    rewrite bin2symbol_rows in E1 by lia. injection E1 as <-. rewrite map_map. transitivity (concat (chunks k p)).
    + f_equal. rewrite <- (map_id (chunks k p)) at 2. apply map_ext_in. intros r Hr. assert (R := chunks_rows k p ltac:(lia)). assert (B1 := chunks_bits k p B).
      rewrite Forall_forall in R, B1. specialize (R r Hr). specialize (B1 r Hr). cbn beta in R. unfold sym_bits. rewrite (proj2 (Nat.eqb_neq _ _) K1).
      rewrite enc_row_eq, R, bits_of_val by (rewrite ?mod_row_length; auto using mod_row_bits). apply unmod_mod. lia.
    + rewrite chunks_concat_full by lia. apply firstn_all2. rewrite L, Nat.div_mul by lia. lia.
Qed.

(** Without codes the encoder makes symbols of the bits, the decoder bits of the symbols. *)
Lemma enc_plain cd p : no_symbol_code cd -> binary_codes cd = codes [] -> encoder cd p = Done (enc_symbols cd p).
Proof.
  intros [G D] C. use_codes C. unfold encoder. chain. unfold enc_symcode. rewrite G, D. cbn [step]. destruct (enc_symbols cd p); reflexivity.
Qed.
Lemma dec_plain cd s : no_symbol_code cd -> binary_codes cd = codes [] -> decoder cd s = Done (y <- dec_symbols cd s ;; Ok (map inject_Z y)).
Proof.
  intros [G D] C. use_codes C. unfold decoder, dec_symcode. rewrite G, D. cbn [step obind]. destruct (dec_symbols cd s) as [y|e]; cbn [obind bind]; [|reflexivity]. chain. reflexivity.
Qed.
Lemma transmit_levels cd m c p s amp f : amp <> 0%Qc -> mapping_data_init c (map ofZ (get_levels c)) amp f = Done (Ok m) -> encoder cd p = Done (Ok s) ->
  Forall (fun v => 0 <= v < Z.of_nat (length (get_levels c))) s -> transmit cd m p = Done (Ok (map (fun v => nth (Z.to_nat v) (md_levels m) 0%Qc) s)).
Proof.
  intros A M E R. destruct (rx_levels_eq _ _ _ _ A M) as (_ & EM & EC). unfold transmit. rewrite E. cbn [obind]. unfold mapping. rewrite EC, EM, !map_length, Nat.eqb_refl. cbn [bind data shape vec].
  rewrite <- EM. unfold np_take. rewrite (map_res_ok _ (fun v => nth (Z.to_nat v) (md_levels m) 0%Qc)); [reflexivity|].
  intros v Hv. rewrite Forall_forall in R. specialize (R v Hv). rewrite <- (Z2Nat.id v) at 1 by lia. apply np_get_nth. rewrite EM, map_length. lia.
Qed.

(** * Decisions *)
Definition decide (lvs : list Qc) (x : Qc) : nat := match slice_index lvs x with Ok k => k | Raise _ => 0%nat end.
Lemma decide_level lvs x : lvs <> [] -> (decide lvs x < length lvs)%nat /\ sliced lvs x = nth (decide lvs x) lvs 0%Qc.
Proof. intros N. destruct (slice_index_ok lvs x N) as (k & E & L & _). unfold decide, sliced. rewrite E. auto. Qed.
Definition scaled_levels (c : constellation) (f : Qc) : list Qc := map (fun l => (ofZ l / ofZ (top_level c) * f)%Qc) (get_levels c).
Lemma scaled_nonempty c f : scaled_levels c f <> [].
Proof. destruct c; discriminate. Qed.
Lemma scaled_nth c f j : (j < length (get_levels c))%nat -> nth j (scaled_levels c f) 0%Qc = (ofZ (nth j (get_levels c) 0%Z) / ofZ (top_level c) * f)%Qc.
Proof. intros Hj. unfold scaled_levels. rewrite (map_nth_lt _ _ _ 0%Z) by auto. reflexivity. Qed.
Lemma decide_range c f x : (decide (scaled_levels c f) x < length (get_levels c))%nat.
Proof. destruct (decide_level (scaled_levels c f) x (scaled_nonempty c f)) as [H _]. unfold scaled_levels in H at 2. now rewrite map_length in H. Qed.
Lemma decide_close c f i x : scale_fits c f -> (i < length (get_levels c))%nat -> (Qcabs (x - nth i (scaled_levels c f) 0) < half_spacing c f)%Qc -> decide (scaled_levels c f) x = i.
Proof.
  intros S Hi H. assert (F := scale_pos _ _ S). destruct (decide_level (scaled_levels c f) x (scaled_nonempty c f)) as [R E].
  assert (NT := scaled_nth c f).
  rewrite NT in H by exact Hi. pose proof (nearest_unique _ _ _ _ (sliced_nearest _ x (scaled_nonempty c f)) (nearest_close c f i x F Hi H)) as U. rewrite E, NT in U by apply decide_range.
  destruct (Nat.eq_dec (decide (scaled_levels c f) x) i) as [|N]; auto. exfalso. pose proof (spacing c f _ i F (decide_range c f x) Hi N) as SP. rewrite U in SP. pose proof (half_pos c f F) as HP. clear - SP HP.
  match type of SP with (_ <= Qcabs ?e)%Qc => replace e with 0%Qc in SP by ring end. rewrite (Qcabs_pos 0 (Qcle_refl 0)) in SP. qlra.
Qed.
Lemma demap_decided c f sin : scale_fits c f ->
  fst (demapping c false (mk_nda [length (map (sliced (scaled_levels c f)) sin)] (map this (map (sliced (scaled_levels c f)) sin)))) = Ok (vec (map (fun x => Z.of_nat (decide (scaled_levels c f) x)) sin)).
Proof.
  intros S. unfold demapping. rewrite (demapping_with_ok _ _ _ false _ (map (decide (scaled_levels c f)) sin)).
  - cbn [shape]. rewrite map_map. unfold vec. now rewrite !map_length.
  - cbn [data shape]. rewrite !map_length. cbn. lia.
  - cbn [data]. rewrite map_map. induction sin as [|x l IH]; cbn [map]; constructor; auto. split; [apply decide_range|].
    destruct (decide_level (scaled_levels c f) x (scaled_nonempty c f)) as [_ ->]. rewrite scaled_nth by apply decide_range. rewrite demap_level. apply scale_all; [exact S|apply decide_range].
Qed.

(** One chunk through equaliser, slicer and decoder of a receiver outside convergence. *)
Definition steady (c : constellation) (f : Qc) (cd : coding_data) (r : receiver) : Prop :=
  rx_converge r = false /\ rx_levels r = scaled_levels c f /\ rx_constel r = c /\ rx_cd r = cd.
Definition digital (lms : option lms_fun) (r : receiver) (ad : list Qc) : outcome (receiver * list Q) :=
  obind (digital_stage lms (with_adc_out r ad)) (fun r => obind (extract_data r) (fun d => Done (Ok (r, d)))).
Lemma digital_chunk lms c f cd r ad y e' : scale_fits c f -> steady c f cd r -> eq_call (rx_eq r) ad = Ok (y, e') ->
  exists r', digital lms r ad = obind (decoder cd (map (fun v => Z.of_nat (decide (scaled_levels c f) (rx_gain r * v)%Qc)) y)) (fun d => Done (Ok (r', d))) /\
    steady c f cd r' /\ rx_eq r' = e' /\ rx_adc r' = rx_adc r /\ rx_gain r' = rx_gain r.
Proof.
  intros S (C & L & K & D) E. unfold digital, digital_stage, slice_stage, with_adc_out. cbn [rx_eq rx_adc_out rx_gain rx_levels]. rewrite E. cbn [bind fst snd].
  set (sin := map (fun v => (rx_gain r * v)%Qc) y). rewrite L.
  rewrite slicer_12; [|unfold wf_nda; cbn; lia|apply scaled_nonempty|left; eexists; reflexivity].
  cbn [bind obind rx_converge]. rewrite C. cbn [obind data vec shape slicer_levels]. unfold extract_data. cbn [rx_constel rx_slicer_out rx_cd]. rewrite K, demap_decided by auto. cbn [obind data vec]. rewrite D.
  eexists. split; [unfold sin; rewrite map_map; reflexivity|]. unfold steady. cbn [rx_converge rx_levels rx_constel rx_cd rx_eq rx_adc rx_gain]. repeat split; auto.
Qed.

(** * A history of chunks *)
Lemma eq_call_length e x y e' : sized e -> x <> [] -> eq_call e x = Ok (y, e') -> length y = length x.
Proof.
  intros (L1 & L2 & L3 & L4 & L5) N E. unfold eq_call in E. destruct (Nat.eqb_spec (e_dfe e) 0) as [D|D]; destruct (Nat.eqb_spec (length (e_ffe_vec e)) 1) as [F|F]; cbn [andb] in E.
  - destruct (e_ffe_vec e) as [|t [|? ?]] eqn:EV; try discriminate F. cbn [ffe_dfe length Nat.eqb bind] in E. injection E as <- _. apply map_length.
  - destruct (C41_ffe_only x (e_ffe_vec e) (e_levels e) 1 0 (Some (e_zi_ffe e)) None N) as (w & Y1 & Y2 & _); [lia|apply some_len; congruence|]. rewrite Y1 in E. cbn [bind] in E. injection E as <- _. exact Y2.
  - destruct (L5 ltac:(lia)) as (l & EL & NE).
    destruct (C41_ffe_dfe_equation x (e_ffe_vec e) (e_dfe_vec e) (e_levels e) 1 0 None (Some (e_zi_dfe e))) as (si & so & zo & Q1 & Q2 & _); auto; try lia; try discriminate.
    { destruct (e_ffe_vec e); [discriminate F|discriminate]. } { intros X. rewrite X in L3. cbn in L3. lia. } { rewrite EL. exact NE. } { apply some_len. congruence. }
    rewrite Q2, F in E. cbn [Nat.eqb bind] in E. injection E as <- _. apply Q1.
  - destruct (L5 ltac:(lia)) as (l & EL & NE).
    destruct (C41_ffe_dfe_equation x (e_ffe_vec e) (e_dfe_vec e) (e_levels e) 1 0 (Some (e_zi_ffe e)) (Some (e_zi_dfe e))) as (si & so & zo & Q1 & Q2 & _); auto; try lia.
    { intros X. rewrite X in L1. cbn in L1. lia. } { intros X. rewrite X in L3. cbn in L3. lia. } { rewrite EL. exact NE. } { apply some_len. congruence. } { apply some_len. congruence. }
    rewrite Q2, (proj2 (Nat.eqb_neq _ _) F) in E. cbn [bind] in E. injection E as <- _. apply Q1.
Qed.
Fixpoint eq_outs (e : eq_state) (cs : list (list Qc)) : res (list (list Qc)) :=
  match cs with
  | [] => Ok []
  | c :: cs' => r <- eq_call e c ;; w <- eq_outs (snd r) cs' ;; Ok (fst r :: w)
  end.
Lemma eq_outs_concat cs : forall e c, sized e -> long_enough e c -> Forall (long_enough e) cs ->
  exists ys r, eq_outs e (c :: cs) = Ok ys /\ map (@length Qc) ys = map (@length Qc) (c :: cs) /\ eq_call e (concat (c :: cs)) = Ok r /\ fst r = concat ys.
Proof.
  induction cs as [|c2 cs IH]; intros e c S L F.
  - destruct (eq_call_streams e c c S L L) as (s1 & e1 & s2 & e2 & A & _). exists [s1], (s1, e1). cbn [eq_outs concat]. rewrite !app_nil_r, A. cbn [bind fst snd eq_outs map].
    rewrite (eq_call_length e c s1 e1) by (auto; apply L). auto.
  - inversion F as [|? ? F1 F2]; subst. change (concat (c :: c2 :: cs)) with (c ++ concat (c2 :: cs)).
    destruct (eq_call_streams e c (concat (c2 :: cs)) S L) as (s1 & e1 & s2 & e2 & A1 & A2 & A3 & S1); [now apply long_enough_app|].
    assert (K : forall y, long_enough e y -> long_enough e1 y) by (intros y; eapply long_enough_keeps; exact A1).
    destruct (IH e1 c2 S1 (K _ F1)) as (ys & r & B1 & B2 & B3 & B4); [eapply Forall_impl; [|exact F2]; exact K|]. rewrite A2 in B3. injection B3 as <-. cbn [fst] in B4.
    exists (s1 :: ys), (s1 ++ s2, e2). change (eq_outs e (c :: c2 :: cs)) with (r <- eq_call e c ;; w <- eq_outs (snd r) (c2 :: cs) ;; Ok (fst r :: w)). rewrite A1. cbn [bind fst snd]. rewrite B1. cbn [bind].
    split; [reflexivity|]. split; [cbn [map] in *; rewrite B2; f_equal; apply (eq_call_length e c s1 e1 S (proj1 L) A1)|]. split; [exact A3|]. cbn [fst concat]. now rewrite B4.
Qed.
Fixpoint digital_run (lms : option lms_fun) (r : receiver) (ads : list (list Qc)) : outcome (receiver * list (list Q)) :=
  match ads with
  | [] => Done (Ok (r, []))
  | a :: ads' => obind (digital lms r a) (fun p => obind (digital_run lms (fst p) ads') (fun q => Done (Ok (fst q, snd p :: snd q))))
  end.
(** Every chunk is decided and decoded by itself; what comes out depends on the equaliser outputs only. *)
Lemma digital_history lms c f cd : scale_fits c f ->
  forall ads r ys, steady c f cd r -> eq_outs (rx_eq r) ads = Ok ys ->
  exists r', digital_run lms r ads = obind (decode_all cd (map (map (fun v => Z.of_nat (decide (scaled_levels c f) (rx_gain r * v)%Qc))) ys)) (fun ds => Done (Ok (r', ds))) /\
    steady c f cd r' /\ rx_adc r' = rx_adc r /\ rx_gain r' = rx_gain r.
Proof.
  intros S. induction ads as [|a ads IH]; intros r ys St E; cbn [eq_outs digital_run] in *.
  - injection E as <-. exists r. auto.
  - apply bind_ok in E. destruct E as ((y & e1) & E1 & E). apply bind_ok in E. destruct E as (w & E2 & E). injection E as <-. cbn [fst snd] in *.
    destruct (digital_chunk lms c f cd r a y e1 S St E1) as (r1 & D1 & St1 & Q1 & Q2 & Q3). rewrite D1. cbn [map decode_all].
    rewrite <- Q1 in E2. destruct (IH r1 w St1 E2) as (r' & D2 & St2 & Q4 & Q5). exists r'. rewrite Q3 in D2.
    destruct (decoder cd _) as [[d|e]|]; cbn [obind fst snd]; [|split; [reflexivity|]; repeat split; try apply St2; congruence..].
    rewrite D2. destruct (decode_all cd _) as [[ds|e]|]; cbn [obind fst snd]; (split; [reflexivity|]; repeat split; try apply St2; congruence).
Qed.
(** Without codes every chunk of symbols gives its bits. *)
Lemma decode_plain cd k : no_symbol_code cd -> binary_codes cd = codes [] -> (1 <= k)%nat -> (bps cd == inject_Z (Z.of_nat k))%Q ->
  forall rs, Forall (fun y => row_flags cd k (length y)) rs -> decode_all cd rs = Done (Ok (map (fun y => map inject_Z (concat (map (sym_bits cd k) y))) rs)).
Proof.
  intros N C Hk B. induction 1 as [|y rs F1 F2 IH]; cbn [decode_all map]; [reflexivity|]. rewrite dec_plain, (dec_rows cd k) by auto. cbn [bind obind]. rewrite IH. reflexivity.
Qed.
