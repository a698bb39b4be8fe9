(** Proofs about the whole example link. *)
From Coq Require Import Reals Lra Lia String Qreals.
From Verif Require Import Py PyQ B_list B_qc M_aux M_symbol M_slicer S_rx P_slicer M_filter S_filter M_prbs S_prbs P_prbs M_sim S_sim P_sim M_simcheck S_simcheck P_prbs_gen P_checker P_simcheck M_rxloop S_rxparts S_rxloop P_rxloop P_rxparts P_rxlink M_link P_fulldig.
From Verif Require Import M_delay P_delay M_soft M_channel S_channel P_channel P_pulse P_dft M_ctle S_ctle P_ctle S_link P_link Prop_link S_full.
From Coq Require Import QArith Qcanon.
Import List.
Open Scope R_scope.

(** * The ADC on real samples *)
Lemma Qc2R_ofZ z : Qc2R (ofZ z) = IZR z.
Proof. unfold Qc2R, ofZ. cbn [this Q2Qc]. rewrite (Qeq_eqR _ _ (Qred_correct _)). unfold Q2R, inject_Z. cbn [Qnum Qden]. field. Qed.
Lemma argminR_spec l : forall (f : nat -> R) best bi i, (forall j, (j < length l)%nat -> nth j l 0 = f (i + j)%nat) -> best = f bi -> (bi < i)%nat -> (forall j, (j < i)%nat -> best <= f j) ->
  let k := argminR_from best bi i l in (k < i + length l)%nat /\ forall j, (j < i + length l)%nat -> f k <= f j.
Proof.
  induction l as [|x l IH]; intros f best bi i H B L M; cbn [argminR_from length].
  - split; [lia|]. intros j Hj. rewrite <- B. apply M. lia.
  - assert (X : x = f i) by (specialize (H 0%nat ltac:(cbn; lia)); rewrite Nat.add_0_r in H; exact H).
    assert (H' : forall j, (j < length l)%nat -> nth j l 0 = f (Datatypes.S i + j)%nat) by (intros j Hj; specialize (H (Datatypes.S j) ltac:(cbn; lia)); rewrite Nat.add_succ_r in H; exact H).
    destruct (Rlt_dec x best) as [Lt|Ge].
    + destruct (IH f x i (Datatypes.S i) H' X ltac:(lia)) as [P Q]; [intros j Hj; destruct (Nat.eq_dec j i) as [->|]; [lra|apply Rle_trans with best; [lra|apply M; lia]]|].
      split; [lia|]. intros j Hj. apply Q. lia.
    + destruct (IH f best bi (Datatypes.S i) H' B ltac:(lia)) as [P Q]; [intros j Hj; destruct (Nat.eq_dec j i) as [->|]; [rewrite <- X; lra|apply M; lia]|].
      split; [lia|]. intros j Hj. apply Q. lia.
Qed.
Lemma nearest_indexR_spec levels x : levels <> [] -> (nearest_indexR levels x < length levels)%nat /\
  forall j, (j < length levels)%nat -> Rabs (x - Qc2R (nth (nearest_indexR levels x) levels (ofZ 0))) <= Rabs (x - Qc2R (nth j levels (ofZ 0))).
Proof.
  intros N. unfold nearest_indexR. destruct levels as [|l0 levels]; [congruence|]. cbn [map].
  set (f := fun j => Rabs (x - Qc2R (nth j (l0 :: levels) (ofZ 0)))).
  destruct (argminR_spec (map (fun l => Rabs (x - Qc2R l)) levels) f (Rabs (x - Qc2R l0)) 0 1) as [P Q].
  - intros j Hj. rewrite map_length in Hj. rewrite (map_nth_lt _ _ _ (ofZ 0)) by auto. reflexivity.
  - reflexivity.
  - lia.
  - intros j Hj. replace j with 0%nat by lia. unfold f. cbn [nth]. lra.
  - rewrite map_length in *. split; [cbn [length]; lia|]. intros j Hj. apply Q. cbn [length] in Hj. lia.
Qed.
Definition codes_of (a : adc_state) : list Z := map (fun i => adc_low a + Z.of_nat i)%Z (seq 0 (Z.to_nat (adc_high a - adc_low a + 1))).
Definition codeR (a : adc_state) (v : R) : Z := nth (nearest_indexR (map ofZ (codes_of a)) v) (codes_of a) 0%Z.
Lemma codeR_nearest a v : (adc_low a <= adc_high a)%Z -> nearest_code a v (codeR a v).
Proof.
  intros H. assert (L : length (codes_of a) = Z.to_nat (adc_high a - adc_low a + 1)) by (unfold codes_of; now rewrite map_length, seq_length).
  assert (N : map ofZ (codes_of a) <> []) by (intros X; apply (f_equal (@length Qc)) in X; rewrite map_length in X; cbn [length] in X; lia).
  destruct (nearest_indexR_spec _ v N) as [I M]. rewrite map_length in I, M.
  assert (NT : forall j, (j < length (codes_of a))%nat -> nth j (map ofZ (codes_of a)) (ofZ 0) = ofZ (nth j (codes_of a) 0%Z) /\ nth j (codes_of a) 0%Z = (adc_low a + Z.of_nat j)%Z).
  { intros j Hj. split; [now apply (map_nth_lt ofZ)|]. unfold codes_of. rewrite nth_map_seq by (unfold codes_of in Hj; rewrite map_length, seq_length in Hj; exact Hj). reflexivity. }
  unfold codeR. set (k := nearest_indexR _ v) in *. destruct (NT k I) as [Q1 Q2]. split; [rewrite Q2; lia|].
  intros z' Hz. specialize (M (Z.to_nat (z' - adc_low a)) ltac:(lia)). destruct (NT (Z.to_nat (z' - adc_low a)) ltac:(lia)) as [Q3 Q4].
  rewrite Q1, Q3, !Qc2R_ofZ, Q4 in M. replace (adc_low a + Z.of_nat (Z.to_nat (z' - adc_low a)))%Z with z' in M by lia. exact M.
Qed.
Lemma adc_callR_spec a o ph N y : adc_good a -> a_rate a = 1%Z -> a_osr a = Z.of_nat o -> a_phase a = Z.of_nat ph -> (ph < o)%nat -> length y = (N * o)%nat ->
  (adc_low a <= adc_high a)%Z /\ adc_callR a y = Ok (map (fun q => ofZ (codeR a (nth (ph + q * o)%nat y 0%R)) / pow2 (a_frac a))%Qc (seq 0 N)).
Proof.
  intros (T & Y & R & St & P) Ra Os Ph Lt Ly. unfold adc_callR. rewrite Ra, Z.div_1_r. cbn [Z.eqb]. unfold arange. rewrite Os, Ph. destruct (Z.eqb_spec (Z.of_nat o) 0); [lia|]. cbn [bind].
  assert (CNT : Z.to_nat (- ((Z.of_nat ph - Z.of_nat (length y)) / Z.of_nat o)) = N).
  { rewrite Ly. assert (E : (Z.of_nat ph - Z.of_nat (N * o))%Z = (Z.of_nat ph + (- Z.of_nat N) * Z.of_nat o)%Z) by lia. rewrite E, Z.div_add, Z.div_small by lia. lia. }
  rewrite CNT. destruct (quant_levels_eq (a_total a) 0 (a_type a) T Y (or_intror I)) as [E LH].
  assert (TS : ty_signed (a_type a) = negb (a_type a =? "u")%string) by (destruct Y as [E'|[E'|E']]; rewrite E'; reflexivity). rewrite TS in E, LH.
  change (q_low (a_total a) (negb (a_type a =? "u")%string) (a_type a =? "ss")%string) with (adc_low a) in *. change (q_high (a_total a) (negb (a_type a =? "u")%string)) with (adc_high a) in *.
  split; [exact LH|]. unfold np_take. rewrite (map_res_ok _ (fun z => nth (Z.to_nat z) y 0)).
  2:{ intros z Hz. apply in_map_iff in Hz. destruct Hz as (k & <- & Hk). apply in_seq in Hk. replace (Z.of_nat ph + Z.of_nat k * Z.of_nat o)%Z with (Z.of_nat (ph + k * o)) by lia. rewrite Nat2Z.id. apply np_get_nth. rewrite Ly. nia. }
  cbn [bind]. rewrite E. cbn [bind]. fold (codes_of a).
  assert (EL : map (fun k => (ofZ k / ofZ (2 ^ Z.max 0 0))%Qc) (codes_of a) = map ofZ (codes_of a)).
  { apply map_ext. intros k. change (ofZ (2 ^ Z.max 0 0)) with 1%Qc. field. discriminate. }
  rewrite EL. destruct (Nat.eqb_spec (length (map ofZ (codes_of a))) 0) as [X|X]; [exfalso; unfold codes_of in X; rewrite !map_length, seq_length in X; lia|].
  f_equal. rewrite !map_map. apply map_ext_in. intros q Hq. apply in_seq in Hq. replace (Z.to_nat (Z.of_nat ph + Z.of_nat q * Z.of_nat o)) with (ph + q * o)%nat by lia.
  f_equal. unfold codeR. change (ofZ 0) with (ofZ 0%Z). rewrite map_nth. reflexivity.
Qed.

(** * Sampling instants without inter-symbol interference *)
Lemma clean_samples pulse beta o s ph D p : (1 <= o)%nat -> (1 <= s)%nat -> (ph < o)%nat -> clean_sampling pulse beta o s ph D -> P_pulse.shape pulse beta p ->
  forall x j, (D <= j < length x)%nat -> pulse_sum p x o s (ph + j * o) = nth (j - D) x 0.
Proof.
  intros Ho Hs Hp C Sh x j Hj. destruct C as [[-> ->]|(Q & -> & ->)].
  - assert (p = rect_at) as -> by (destruct Sh as [E|E|E B|E B]; try discriminate E; reflexivity). rewrite rect_sum by auto.
    pose proof (Nat.div_mod o 2 ltac:(lia)) as HD. pose proof (Nat.mod_upper_bound o 2 ltac:(lia)) as HM. set (h := (o / 2)%nat) in *. set (m := (o mod 2)%nat) in *. clearbody h m.
    destruct (Nat.leb_spec o (ph + h)) as [H1|H1].
    + destruct (Nat.ltb_spec (ph + j * o) (o * s - h)) as [H2|H2]; [exfalso; nia|]. f_equal. symmetry. apply (Nat.div_unique _ _ _ (ph + h - o)); [lia|nia].
    + destruct (Nat.ltb_spec (ph + j * o) (o * s - h)) as [H2|H2]; [exfalso; nia|]. f_equal. symmetry. apply (Nat.div_unique _ _ _ (ph + h)); [lia|nia].
  - replace (0 + j * o)%nat with (o * s + (j - s) * o)%nat by nia. apply nyquist_sum; auto; try lia.
    + destruct Sh as [E|E|E B|E B]; destruct Q as [Q|[Q B']]; try congruence; [apply sinc_0|apply rcos_0].
    + intros z Hz. destruct Sh as [E|E|E B|E B]; destruct Q as [Q|[Q B']]; try congruence; [apply sinc_int|apply rcos_int]; auto.
Qed.

(** * The stages of the link over a history *)
Lemma obind_ok {A B} (o : outcome A) (f : A -> outcome B) b : obind o f = Done (Ok b) -> exists x, o = Done (Ok x) /\ f x = Done (Ok b).
Proof. destruct o as [[x|e]|]; cbn [obind]; intros H; try discriminate H. eauto. Qed.
Lemma digital_keeps lms r ad r1 d : digital lms r ad = Done (Ok (r1, d)) -> rx_converge r = false -> rx_adc r1 = rx_adc r /\ rx_converge r1 = false.
Proof.
  intros E C. unfold digital in E. apply obind_ok in E. destruct E as (r2 & E & E2). apply obind_ok in E2. destruct E2 as (d' & _ & E2). injection E2 as -> _.
  unfold digital_stage in E. apply obind_ok in E. destruct E as (r3 & E3 & E). injection E3 as E3. unfold slice_stage in E3. apply bind_ok in E3. destruct E3 as (o & _ & E3). apply bind_ok in E3. destruct E3 as (so & _ & E3). injection E3 as <-.
  cbn [rx_converge with_adc_out] in E. rewrite C in E. injection E as <-. cbn. auto.
Qed.
Lemma all_numbers_some l : all_numbers (map Some l) = Some l.
Proof. induction l as [|x l IH]; [reflexivity|]. cbn [map all_numbers]. now rewrite IH. Qed.
(** The link with any channel stage: [st i c x] is what call [i] of the channel object [c] does to the chunk [x]. *)
Definition stage := nat -> channel -> list R -> channel * res (option (list (option R))).
Fixpoint stage_calls (st : stage) (c : channel) (chunks : list (list R)) : channel * res (list (option (list (option R)))) :=
  match chunks with
  | [] => (c, Ok [])
  | x :: xs => match st 0%nat c x with
               | (c1, Ok y) => match stage_calls (fun i => st (S i)) c1 xs with (c2, Ok ys) => (c2, Ok (y :: ys)) | (c2, Raise e) => (c2, Raise e) end
               | (c1, Raise e) => (c1, Raise e)
               end
  end.
Definition via_call (call : channel -> list R -> channel * res (option (list (option R)))) (lms : option lms_fun) (l : full_link) : outcome (full_link * list Z * list Q) :=
  match prbs_gen_next (fl_gen l) with
  | (_, Raise e) => Done (Raise e)
  | (g, Ok bits) =>
    obind (transmit (fl_cd l) (fl_md l) bits) (fun tx =>
    match call (fl_ch l) (map Qc2R tx) with
    | (_, Raise e) => Done (Raise e)
    | (_, Ok None) => Unmodelled
    | (ch, Ok (Some out)) =>
      match all_numbers out with
      | None => Unmodelled
      | Some x =>
        obind (Done (ctle_call (fl_ctle l) x)) (fun c =>
        match c with
        | None => Unmodelled
        | Some (ct, y) =>
          obind (Done (adc_callR (rx_adc (fl_rx l)) y)) (fun ad =>
          obind (digital_stage lms (with_adc_out (fl_rx l) ad)) (fun r =>
          obind (extract_data r) (fun d => Done (Ok (mk_link g (fl_cd l) (fl_md l) ch ct r, bits, d)))))
        end)
      end
    end)
  end.
Fixpoint via_run (st : stage) (lms : option lms_fun) (n : nat) (l : full_link) : outcome (full_link * list (list Z) * list (list Q)) :=
  match n with
  | O => Done (Ok (l, [], []))
  | S n => obind (via_call (st 0%nat) lms l) (fun p =>
           let '(l1, b, d) := p in
           obind (via_run (fun i => st (S i)) lms n l1) (fun q => let '(l2, bs, ds) := q in Done (Ok (l2, b :: bs, d :: ds))))
  end.
Definition plain (normal : nat -> nat -> R) : stage := fun i c x => channel_call c x (normal i).
Lemma calls_plain : forall xs c normal, stage_calls (plain normal) c xs = channel_calls c xs normal.
Proof.
  induction xs as [|x xs IH]; intros c normal; [reflexivity|]. cbn [stage_calls channel_calls]. unfold plain at 1. destruct (channel_call c x (normal 0%nat)) as (c1 & [y|e]); auto.
  change (fun i => plain normal (S i)) with (plain (fun i => normal (S i))). now rewrite IH.
Qed.
Lemma obind_ext {A B} (x : outcome A) (f g : A -> outcome B) : (forall a, f a = g a) -> obind x f = obind x g.
Proof. intros H. destruct x as [[a|e]|]; cbn [obind]; auto. Qed.
Lemma run_plain lms : forall n l normal, via_run (plain normal) lms n l = full_link_run lms n l normal.
Proof.
  induction n as [|n IH]; intros l normal; [reflexivity|]. cbn [via_run full_link_run]. change (via_call (plain normal 0%nat) lms l) with (full_link_call lms l (normal 0%nat)).
  apply obind_ext. intros ((l1, b), d). change (fun i => plain normal (S i)) with (plain (fun i => normal (S i))). now rewrite IH.
Qed.
Lemma run_stages lms : forall n l (st : stage) bs txs cs ys ads g' ch' ct',
  prbs_gen_run n (fl_gen l) = (g', Ok bs) ->
  Forall2 (fun b t => transmit (fl_cd l) (fl_md l) b = Done (Ok t)) bs txs ->
  stage_calls st (fl_ch l) (map (map Qc2R) txs) = (ch', Ok (returned cs)) ->
  ctle_calls (fl_ctle l) cs = Ok (Some (ct', ys)) ->
  Forall2 (fun y ad => adc_callR (rx_adc (fl_rx l)) y = Ok ad) ys ads ->
  rx_converge (fl_rx l) = false ->
  via_run st lms n l = obind (digital_run lms (fl_rx l) ads) (fun p => Done (Ok (mk_link g' (fl_cd l) (fl_md l) ch' ct' (fst p), bs, snd p))).
Proof.
  induction n as [|n IH]; intros l st bs txs cs ys ads g' ch' ct' G T C Q A K.
  - cbn [prbs_gen_run] in G. injection G as <- <-. inversion T; subst. cbn [map stage_calls] in C. injection C as <- C. destruct cs; [|discriminate C]. cbn [ctle_calls] in Q. injection Q as <- <-. inversion A; subst. destruct l; reflexivity.
  - cbn [prbs_gen_run] in G. destruct (prbs_gen_next (fl_gen l)) as (g1 & [b|e]) eqn:G1; [|discriminate G]. destruct (prbs_gen_run n g1) as (g2 & [bs'|e]) eqn:G2; [|discriminate G]. injection G as -> <-.
    inversion T as [|? t ? txs' T1 T2]; subst. cbn [map stage_calls] in C. destruct (st 0%nat (fl_ch l) (map Qc2R t)) as (c1 & [y|e]) eqn:C1; [|discriminate C].
    destruct (stage_calls (fun i => st (Datatypes.S i)) c1 (map (map Qc2R) txs')) as (c2 & [w|e]) eqn:C2; [|discriminate C]. injection C as -> C. destruct cs as [|x cs]; [discriminate C|]. cbn [returned map] in C. injection C as -> ->.
    cbn [ctle_calls] in Q. apply bind_ok in Q. destruct Q as ([(ct1 & y1)|] & Q1 & Q); [|discriminate Q]. apply bind_ok in Q. destruct Q as ([(ct2 & ys1)|] & Q2 & Q); [|discriminate Q]. injection Q as -> <-.
    inversion A as [|? ad ? ads' A1 A2]; subst. cbn [digital_run].
    cbn [via_run]. unfold via_call. rewrite G1, T1. cbn [obind]. rewrite C1, all_numbers_some, Q1. cbn [obind]. rewrite A1. cbn [obind].
    destruct (digital lms (fl_rx l) ad) as [[(r1 & d1)|e]|] eqn:D1; unfold digital in D1.
    + destruct (digital_keeps lms _ _ _ _ D1 K) as [K1 K2]. apply obind_ok in D1. destruct D1 as (r3 & D3 & D4). rewrite D3. cbn [obind]. apply obind_ok in D4. destruct D4 as (d3 & D4 & D5). injection D5 as -> ->. rewrite D4. cbn [obind fst snd].
      rewrite (IH (mk_link g1 (fl_cd l) (fl_md l) c1 ct1 r1) _ bs' txs' cs ys1 ads' g' ch' ct'); auto; [|cbn [fl_rx]; rewrite K1; exact A2]. cbn [fl_rx fl_cd fl_md].
      destruct (digital_run lms r1 ads') as [[(r2 & ds)|e]|]; reflexivity.
    + destruct (digital_stage lms _) as [[r3|e3]|]; cbn [obind] in *; try congruence. destruct (extract_data r3) as [[d3|e3]|]; cbn [obind] in *; congruence.
    + destruct (digital_stage lms _) as [[r3|e3]|]; cbn [obind] in *; try congruence. destruct (extract_data r3) as [[d3|e3]|]; cbn [obind] in *; congruence.
Qed.

(** * From bits to bits *)
Lemma firstn_rows {A} (f : A -> list Z) k : (forall v, length (f v) = k) -> forall q x, concat (map f (firstn q x)) = firstn (q * k) (concat (map f x)).
Proof.
  intros H. induction q as [|q IH]; intros [|v x]; cbn [firstn map concat Nat.mul]; auto; [now rewrite firstn_nil|]. rewrite IH, firstn_app, H. rewrite (firstn_all2 (f v)) by (rewrite H; lia). do 2 f_equal. lia.
Qed.
Lemma concat_const_nth {A} (d : A) k (m : list (list A)) i q : Forall (fun r => length r = k) m -> (i < length m)%nat -> (q < k)%nat -> nth (i * k + q) (concat m) d = nth q (nth i m []) d.
Proof.
  intros H Hi Hq. rewrite (concat_nth_const d k) by (auto; nia). rewrite Nat.add_comm, Nat.mod_add, Nat.div_add, Nat.mod_small, Nat.div_small by lia. reflexivity.
Qed.
Lemma uncoded_codes cd c k n : uncoded cd c k n -> no_symbol_code cd /\ binary_codes cd = codes [].
Proof. intros (H1 & H2 & H3 & H4 & H5 & H6 & H7 & H8 & H9 & _). split; [split; assumption|]. unfold binary_codes. rewrite H3, H4, H5, H6, H7, H8, H9. reflexivity. Qed.
Lemma pow2_nat_Z k : Z.of_nat (2 ^ k) = (2 ^ Z.of_nat k)%Z.
Proof. induction k as [|k IH]; [reflexivity|]. rewrite Nat2Z.inj_succ, Z.pow_succ_r by lia. cbn [Nat.pow]. lia. Qed.
Lemma encode_chunks cd c nb N m amp f : carries cd c nb N -> amp <> 0%Qc -> mapping_data_init c (map ofZ (get_levels c)) amp f = Done (Ok m) ->
  forall bs, Forall (fun b => bits b /\ length b = nb) bs ->
  exists ss, Forall2 (fun b t => transmit cd m b = Done (Ok t)) bs (map (map (fun v => nth (Z.to_nat v) (md_levels m) 0%Qc)) ss) /\
    Forall2 (fun b s => encoder cd b = Done (Ok s)) bs ss /\ length ss = length bs /\ Forall (fun s => length s = N) ss /\ Forall (fun v => (0 <= v < Z.of_nat (length (get_levels c)))%Z) (concat ss).
Proof.
  intros U A M. induction bs as [|b bs IH]; intros F.
  - exists []. cbn [map concat length]. repeat split; constructor.
  - inversion F as [|? ? [B L] F']; subst. destruct (IH F') as (ss & I1 & I2 & I3 & I4 & I5). destruct (U b B eq_refl) as (s & E1 & E3 & E4).
    exists (s :: ss). cbn [map concat length]. rewrite I3. split; [|repeat split; try constructor; auto; apply Forall_app; auto].
    constructor; auto. now apply (transmit_levels cd m c b s amp f).
Qed.
Lemma uncoded_carries cd c k N : uncoded cd c k N -> carries cd c (N * k) N.
Proof.
  intros U b B L. destruct (uncoded_codes _ _ _ _ U) as [NS NB]. destruct U as (_ & _ & _ & _ & _ & _ & _ & _ & _ & Hk & HN & Hb & HL & HF).
  destruct (enc_rows cd k b N Hk Hb B L) as (s & E1 & _ & E3 & E4). rewrite <- pow2_nat_Z, <- HL in E4. exists s. rewrite enc_plain, E1 by auto. auto.
Qed.
Lemma uncoded_bits cd c k N : uncoded cd c k N -> forall bs ss, Forall (fun b => bits b /\ length b = (N * k)%nat) bs -> Forall2 (fun b s => encoder cd b = Done (Ok s)) bs ss -> concat (map (sym_bits cd k) (concat ss)) = concat bs.
Proof.
  intros U. destruct (uncoded_codes _ _ _ _ U) as [NS NB]. destruct U as (_ & _ & _ & _ & _ & _ & _ & _ & _ & Hk & HN & Hb & HL & HF).
  intros bs ss F F2. induction F2 as [|b s bs ss E _ IH]; [reflexivity|]. inversion F as [|? ? [B L] F']; subst. cbn [concat]. rewrite map_app, concat_app, IH by auto. f_equal.
  destruct (enc_rows cd k b N Hk Hb B L) as (s' & E1 & E2 & _). rewrite enc_plain, E1 in E by auto. injection E as <-. exact E2.
Qed.
Lemma link_core lms c nb N cd m amp f a e lv pre post dfe g d o ph D n l (st : stage) bs g' :
  (1 <= N)%nat -> carries cd c nb N -> amp <> 0%Qc -> mapping_data_init c (map ofZ (get_levels c)) amp f = Done (Ok m) -> scale_fits c f ->
  adc_good a -> a_rate a = 1%Z -> a_osr a = Z.of_nat o -> a_phase a = Z.of_nat ph -> (ph < o)%nat ->
  eq_init pre post dfe None None lv None None = Ok e -> lv <> Some [] -> (dfe = 0%nat -> (1 <= pre + post)%nat -> (pre + post + 1 <= N)%nat) ->
  0 <= g -> eye_open a m g (g * d) ->
  fl_cd l = cd -> fl_md l = m -> rx_adc (fl_rx l) = a -> rx_eq (fl_rx l) = e -> rx_gain (fl_rx l) = ofZ 1 -> steady c f cd (fl_rx l) ->
  prbs_gen_run n (fl_gen l) = (g', Ok bs) -> length bs = n -> Forall (fun b => bits b /\ length b = nb) bs ->
  (forall xs, Forall (fun x => x <> []) xs -> ctle_calls (fl_ctle l) xs = Ok (Some (fl_ctle l, map (map (Rmult g)) xs))) ->
  (forall txs, Forall2 (fun b t => transmit cd m b = Done (Ok t)) bs txs -> Forall (fun t => length t = N) txs -> exists ch' cs, stage_calls st (fl_ch l) (map (map Qc2R) txs) = (ch', Ok (returned cs)) /\
     length cs = length txs /\ Forall (fun x => length x = (N * o)%nat) cs /\
     forall j, (D <= j < n * N)%nat -> Rabs (nth (ph + j * o) (concat cs) 0 - Qc2R (nth (j - D) (concat txs) 0%Qc)) <= d) ->
  exists l' ss rs start, Forall2 (fun b s => encoder cd b = Done (Ok s)) bs ss /\ via_run st lms n l = obind (decode_all cd rs) (fun ds => Done (Ok (l', bs, ds))) /\
    length rs = n /\ Forall (fun x => length x = N) rs /\ length start = (D + pre)%nat /\ Forall (fun v => (0 <= v < Z.of_nat (length (get_levels c)))%Z) start /\
    length (concat ss) = (n * N)%nat /\ concat rs = firstn (n * N) (start ++ concat ss).
Proof.
  intros HN U A M SF AG AR AO AP PO EI LV LE G0 EYE Ecd Emd Ead Eeq Ega St GR Lb FB CT CH.
  destruct (encode_chunks cd c nb N m amp f U A M bs FB) as (ss & T1 & T2 & T3 & T4 & T5). set (lvl := fun v => nth (Z.to_nat v) (md_levels m) 0%Qc) in *.
  destruct (rx_levels_eq _ _ _ _ A M) as (EL & EM & EC). assert (ERF : md_rx_factor m = f).
  { unfold mapping_data_init in M. destruct (map ofZ (get_levels c)); [discriminate M|]. destruct (Qceqb _ _); [discriminate M|]. injection M as <-. reflexivity. }
  destruct (CH _ T1) as (ch' & cs & C1 & C2 & C3 & C4). { apply Forall_forall. intros t Ht. apply in_map_iff in Ht. destruct Ht as (s & <- & Hs). rewrite map_length. rewrite Forall_forall in T4. now apply T4. }
  rewrite map_length, T3, Lb in C2. set (ys := map (map (Rmult g)) cs).
  assert (NE : Forall (fun x => x <> []) cs). { eapply Forall_impl; [|exact C3]. intros x Hx ->. cbn [length] in Hx. nia. }
  pose proof (CT cs NE) as Q. fold ys in Q.
  assert (Ly : Forall (fun y => length y = (N * o)%nat) ys). { apply Forall_forall. intros y Hy. apply in_map_iff in Hy. destruct Hy as (x & <- & Hx). rewrite map_length. rewrite Forall_forall in C3. now apply C3. }
  set (conv := fun v : R => (ofZ (codeR a v) / pow2 (a_frac a))%Qc). set (sample := fun y : list R => map (fun q => conv (nth (ph + q * o)%nat y 0%R)) (seq 0 N)).
  assert (LH : (adc_low a <= adc_high a)%Z) by (apply (adc_callR_spec a o ph 0 [] AG AR AO AP PO eq_refl)).
  assert (AD : Forall2 (fun y ad => adc_callR a y = Ok ad) ys (map sample ys)).
  { clear - Ly AG AR AO AP PO. induction Ly as [|y l' Hy _ IH]; cbn [map]; constructor; auto. now apply (adc_callR_spec a o ph N). }
  assert (LA : Forall (fun x => length x = N) (map sample ys)). { apply Forall_forall. intros x Hx. apply in_map_iff in Hx. destruct Hx as (y & <- & _). unfold sample. now rewrite map_length, seq_length. }
  assert (EO : exists zs, eq_outs e (map sample ys) = Ok zs /\ map (@length Qc) zs = map (@length Qc) (map sample ys) /\
    forall j, (j < n * N)%nat -> nth j (concat zs) 0%Qc = if (j <? pre)%nat then 0%Qc else nth (j - pre) (concat (map sample ys)) 0%Qc).
  { destruct (map sample ys) as [|x xs] eqn:EX.
    - exists []. repeat split; auto. intros j Hj. exfalso. apply (f_equal (@length (list Qc))) in EX. unfold ys in EX. rewrite !map_length, C2 in EX. cbn [length] in EX. subst n. lia.
    - assert (SZ := eq_init_sized _ _ _ _ _ _ _ _ _ EI LV). assert (LO : Forall (long_enough e) (x :: xs)).
      { eapply Forall_impl; [|exact LA]. intros w Hw. split; [intros ->; cbn [length] in Hw; lia|]. destruct SZ as (Z1 & _). destruct (eq_init_spec pre post dfe None None lv None None) as [I1 I2].
        assert (e_dfe e = dfe /\ e_pre e = pre /\ e_post e = post) as (D1 & D2 & D3).
        { unfold eq_init in EI. cbn [checked bind] in EI. destruct (_ && _)%bool in EI; [discriminate EI|]. injection EI as <-. auto. }
        rewrite D1, Z1, D2, D3, Hw. intros X1 X2. apply LE; auto; lia. }
      inversion LO as [|? ? LO1 LO2]; subst x0 l0. destruct (eq_outs_concat xs e x SZ LO1 LO2) as (zs & r & Z1 & Z2 & Z3 & Z4). exists zs. split; [exact Z1|]. split; [exact Z2|].
      intros j Hj. assert (NC : concat (x :: xs) <> []) by (destruct LO1 as [NX _]; destruct x; [congruence|discriminate]).
      destruct (default_delays pre post dfe lv e (concat (x :: xs)) EI LV NC) as (y & e' & Y1 & Y2 & Y3). rewrite Z3 in Y1. injection Y1 as ->. cbn [fst] in Z4. subst y. apply Y3.
      rewrite (concat_length_const N) by exact LA. rewrite <- EX. unfold ys. rewrite !map_length, C2. exact Hj. }
  destruct EO as (zs & Z1 & Z2 & Z3).
  assert (Lz : Forall (fun x => length x = N) zs).
  { clear - Z2 LA. revert zs Z2. induction LA as [|x l' Hx _ IH]; intros [|z zs] Z2; cbn [map] in Z2; try discriminate Z2; constructor; injection Z2 as Z2 Z3; [congruence|now apply IH]. }
  assert (Ln : length zs = n). { apply (f_equal (@length nat)) in Z2. unfold ys in Z2. rewrite !map_length in Z2. congruence. }
  rewrite <- Eeq in Z1. destruct (digital_history lms c f cd SF (map sample ys) (fl_rx l) zs St Z1) as (r' & DR & _).
  rewrite Ega in DR. set (dec := fun v => Z.of_nat (decide (scaled_levels c f) (ofZ 1 * v)%Qc)) in *.
  set (st0 := firstn (D + pre) (map dec (concat zs) ++ repeat 0%Z (D + pre))).
  exists (mk_link g' (fl_cd l) (fl_md l) ch' (fl_ctle l) r'), ss, (map (map dec) zs), st0.
  assert (LST : length st0 = (D + pre)%nat). { unfold st0. rewrite firstn_length, app_length, repeat_length. lia. }
  assert (LS : length (concat ss) = (n * N)%nat) by (rewrite (concat_length_const N) by exact T4; now rewrite T3, Lb).
  split; [exact T2|]. split; [|split; [now rewrite map_length|split; [|split; [exact LST|split; [|split; [exact LS|]]]]]].
  - rewrite (run_stages lms n l st bs (map (map lvl) ss) cs ys (map sample ys) g' ch' (fl_ctle l)); rewrite ?Ecd, ?Emd, ?Ead; eauto; [|apply St]. rewrite DR.
    destruct (decode_all cd _) as [[ds|er]|]; reflexivity.
  - apply Forall_forall. intros x Hx. apply in_map_iff in Hx. destruct Hx as (y & <- & Hy). rewrite map_length. rewrite Forall_forall in Lz. now apply Lz.
  - unfold st0. apply Forall_firstn, Forall_app. split; apply Forall_forall; intros v Hv.
    + apply in_map_iff in Hv. destruct Hv as (x & <- & _). unfold dec. pose proof (decide_range c f (ofZ 1 * x)%Qc) as DC. lia.
    + apply repeat_spec in Hv. subst v. pose proof (decide_range c f 0%Qc). lia.
  - rewrite <- concat_map.
    assert (LC : length (concat zs) = (n * N)%nat) by (rewrite (concat_length_const N) by exact Lz; now rewrite Ln).
      apply (nth_ext_def 0%Z); [rewrite map_length, firstn_length, app_length, LST, LC, LS; lia|]. intros j Hj. rewrite map_length, LC in Hj. rewrite nth_firstn by exact Hj.
      destruct (Nat.lt_ge_cases j (D + pre)) as [J|J].
      + rewrite app_nth1 by (rewrite LST; exact J). unfold st0. rewrite nth_firstn by exact J. rewrite app_nth1 by (rewrite map_length, LC; exact Hj). reflexivity.
      + rewrite app_nth2 by (rewrite LST; exact J). rewrite LST. rewrite (map_nth_lt _ _ _ 0%Qc) by (rewrite LC; exact Hj). rewrite Z3 by exact Hj. destruct (Nat.ltb_spec j pre); [lia|].
        set (w := (j - pre)%nat). assert (Hw : (D <= w < n * N)%nat) by (unfold w; lia). replace (j - (D + pre))%nat with (w - D)%nat by (unfold w; lia).
        specialize (C4 w Hw). set (s := nth (w - D) (concat ss) 0%Z).
        assert (RS : (0 <= s < Z.of_nat (length (get_levels c)))%Z) by (rewrite Forall_forall in T5; apply T5, nth_In; rewrite LS; lia).
        assert (ET : nth (w - D) (concat (map (map lvl) ss)) 0%Qc = nth (Z.to_nat s) (md_levels m) 0%Qc).
        { rewrite <- concat_map, (map_nth_lt _ _ _ 0%Z) by (rewrite LS; lia). reflexivity. }
        rewrite ET in C4.
        assert (ES : nth w (concat (map sample ys)) 0%Qc = conv (g * nth (ph + w * o) (concat cs) 0)).
        { pose proof (Nat.div_mod w N ltac:(lia)) as WD. pose proof (Nat.mod_upper_bound w N ltac:(lia)) as WM. set (i := (w / N)%nat) in *. set (q := (w mod N)%nat) in *. clearbody i q.
          assert (Hi : (i < n)%nat) by nia. replace w with (i * N + q)%nat by lia. rewrite (concat_const_nth 0%Qc N) by (auto; unfold ys; rewrite !map_length, C2; exact Hi).
          unfold ys. rewrite map_map. rewrite (map_nth_lt _ _ _ []) by (rewrite C2; exact Hi). unfold sample at 1. rewrite nth_map_seq by exact WM. cbn [Nat.add]. f_equal.
          replace (ph + (i * N + q) * o)%nat with (i * (N * o) + (ph + q * o))%nat by ring. assert (ph + q * o < N * o)%nat by nia. rewrite (concat_const_nth 0 (N * o)) by (auto; rewrite C2; exact Hi).
          rewrite Forall_forall in C3. rewrite (map_nth_lt _ _ _ 0); [reflexivity|]. rewrite C3; [assumption|]. apply nth_In. now rewrite C2. }
        rewrite ES. unfold dec. rewrite (decide_close c f (Z.to_nat s)); [lia|exact SF|lia|].
        set (v := g * nth (ph + w * o) (concat cs) 0). specialize (EYE (Z.to_nat s) v (codeR a v)). rewrite EC, ERF, EL in EYE. change (ofZ 0) with 0%Qc in EYE.
        replace (ofZ 1 * conv v)%Qc with (conv v) by (change (ofZ 1) with 1%Qc; ring). apply EYE; [lia| |now apply codeR_nearest].
        unfold v. replace (_ - _) with (g * (nth (ph + w * o) (concat cs) 0 - Qc2R (nth (Z.to_nat s) (md_levels m) 0%Qc))) by ring. rewrite Rabs_mult, (Rabs_right g) by lra. now apply Rmult_le_compat_l.
Qed.

(** * The channel *)
Lemma pulse_channel c o s ph D N normal : (1 <= N)%nat -> (ph < o)%nat -> channel_sized c o s -> ch_type c = "pulse"%string -> ch_pulse_zi c = repeat 0 (2 * (o * s) - 1) ->
  clean_sampling (ch_pulse c) (ch_rolloff c) o s ph D -> forall xs, Forall (fun x => length x = N) xs ->
  exists c' cs, channel_calls c xs normal = (c', Ok (returned cs)) /\ length cs = length xs /\ Forall (fun x => length x = (N * o)%nat) cs /\
    forall j, (D <= j < length xs * N)%nat -> nth (ph + j * o) (concat cs) 0 = nth (j - D) (concat xs) 0.
Proof.
  intros HN Hph S T Z0 CS xs F. destruct xs as [|x xs].
  - exists c, []. repeat split; auto. intros j Hj. cbn [length] in Hj. lia.
  - assert (NE : Forall (fun x => x <> []) (x :: xs)) by (eapply Forall_impl; [|exact F]; intros y Hy ->; cbn [length] in Hy; lia).
    assert (Lt : linear_type c) by (left; exact T). destruct (calls_concat o s xs c x normal (normal 0%nat) S Lt NE) as (c' & cs & E1 & E2 & _ & E3).
    exists c', cs. split; [exact E1|]. assert (LC : length cs = length (x :: xs)) by (apply (f_equal (@length nat)) in E2; now rewrite !map_length in E2). split; [exact LC|].
    assert (FC : Forall (fun x => length x = (N * o)%nat) cs).
    { clear - E2 F. revert cs E2. induction F as [|y l Hy _ IH]; intros [|z cs] E2; cbn [map] in E2; try discriminate E2; constructor; injection E2 as E2 E3; [now rewrite E2, Hy|now apply IH]. }
    split; [exact FC|]. assert (NC : concat (x :: xs) <> []) by (inversion NE; subst; cbn [concat]; intros X; apply app_eq_nil in X as [-> _]; congruence).
    destruct (call_ok c o s (concat (x :: xs)) (normal 0%nat) S Lt NC) as (p & y & pz & z & P & Lp & Ly & C & _ & R).
    destruct R as [(_ & -> & _)|(X & _)]; [|congruence]. rewrite E3 in C. injection C as _ C.
    assert (INJ : forall l l' : list R, map Some l = map Some l' -> l = l') by (induction l as [|q l IH']; intros [|q' l'] X; try discriminate; auto; injection X as -> X; f_equal; auto).
    apply INJ in C. subst p. destruct S as (Ho & Hs & Eo & Es & HP & Lz & _). destruct (usable_shape _ _ HP) as (p & Sh).
    destruct (pulse_shape_spec (concat (x :: xs)) o s _ _ p (ch_pulse_zi c) Ho Hs Sh NC Lz) as (y' & zo & P' & _ & _ & V & _). rewrite P in P'. injection P' as <- _.
    intros j Hj. assert (LX : length (concat (x :: xs)) = (length (x :: xs) * N)%nat) by now apply concat_length_const.
    rewrite V by (rewrite LX; nia). rewrite Z0, nth_zeros. rewrite (clean_samples _ _ o s ph D p Ho Hs Hph CS Sh) by (rewrite LX; lia). ring.
Qed.
Lemma noise_free_pulse c : (ch_type c = "pulse" \/ ch_type c = "awgn")%string -> ch_type (noise_free c) = "pulse"%string.
Proof. intros [H|H]; unfold noise_free; cbn [ch_type]; rewrite H; reflexivity. Qed.
Lemma returned_inj cs cs' : returned cs = returned cs' -> cs = cs'.
Proof.
  assert (INJ : forall l l' : list R, map Some l = map Some l' -> l = l') by (induction l as [|q l IH']; intros [|q' l'] X; try discriminate; auto; injection X as -> X; f_equal; auto).
  revert cs'. induction cs as [|x cs IH]; intros [|x' cs'] E; try discriminate E; auto. cbn [returned map] in E. injection E as E1 E2. f_equal; auto.
Qed.
Lemma within_lengths d xs ys N : within d xs ys -> Forall (fun y => length y = N) ys -> length xs = length ys /\ Forall (fun x => length x = N) xs /\
  ((0 < N)%nat -> forall j, (j < length ys * N)%nat -> Rabs (nth j (concat xs) 0 - nth j (concat ys) 0) <= d).
Proof.
  intros W F. assert (H : length xs = length ys /\ Forall (fun x => length x = N) xs).
  { induction W as [|x y xs ys [L _] W IH]; [auto|]. inversion F; subst. destruct (IH H2) as [A B]. split; [cbn; congruence|]. constructor; congruence. }
  destruct H as [H1 H2]. split; auto. split; auto. intros P j Hj.
  rewrite (concat_nth_const 0 N xs) by (auto; rewrite ?(concat_length_const N) by auto; rewrite ?H1; auto). rewrite (concat_nth_const 0 N ys) by (auto; rewrite ?(concat_length_const N) by auto; auto).
  set (i := (j / N)%nat). assert (Hi : (i < length ys)%nat) by (apply Nat.div_lt_upper_bound; lia). assert (Hq : (j mod N < N)%nat) by (apply Nat.mod_upper_bound; lia).
  assert (Q : forall i, (i < length ys)%nat -> forall q, (q < length (nth i xs []))%nat -> Rabs (nth q (nth i xs []) 0 - nth q (nth i ys []) 0) <= d).
  { clear - W. induction W as [|x y xs ys [_ H] _ IH]; intros [|i] Hi q Hq; cbn [length nth] in *; try lia; auto. apply IH; auto; lia. }
  apply Q; [exact Hi|]. rewrite Forall_forall in H2. rewrite H2; [exact Hq|]. apply nth_In. rewrite H1. exact Hi.
Qed.

(** * The link *)
Lemma link_ready s nb D d : good_path s D d -> (ls_type s = "pulse" \/ ls_type s = "awgn")%string ->
  exists l, ls_link_of s nb = Ok l /\ channel_sized (fl_ch l) (ls_osr s) (ls_span s) /\ ch_type (fl_ch l) = ls_type s /\ ch_pulse_zi (fl_ch l) = repeat 0 (2 * (ls_osr s * ls_span s) - 1) /\
    ch_pulse (fl_ch l) = ls_pulse s /\ ch_rolloff (fl_ch l) = ls_rolloff s /\
    fl_gen l = prbs_gen_init (prbs_data_init (ls_prbs s) nb (ls_seed s)) /\ fl_cd l = ls_cd s /\ fl_md l = ls_map s /\
    fl_ctle l = ctle_init (ls_zeros s) (ls_poles s) (ls_dc s) (ls_fs s) (Z.of_nat (ls_osr s)) None /\
    fl_rx l = receiver_init (Z.of_nat (ls_osr s)) (ls_adc s) (ls_eq s) (ls_map s) (ls_cd s) (ofZ 1 / ofZ 1024)%Qc (ofZ 1).
Proof.
  intros (_ & _ & _ & _ & _ & Hs & Hp & CS & _) _.
  assert (UP : usable_pulse (ls_pulse s) (ls_rolloff s)). { destruct CS as [[-> _]|([->|[-> B]] & _)]; [left|right; left|right; right]; auto. }
  unfold ls_link_of, full_link_init, channel_init, channel_data_init. cbn [chd_zi chd_iir chd_fir chd_pulse_zi chd_span chd_osr chd_pulse chd_rolloff chd_type chd_snr length Nat.max]. unfold np_zerosR.
  change (Z.of_nat 1 - 1 <? 0)%Z with false. cbn [bind]. destruct (Z.ltb_spec (Z.of_nat (ls_span s) * Z.of_nat (ls_osr s) * 2 - 1) 0); [nia|]. cbn [bind].
  eexists. split; [reflexivity|]. cbn [fl_ch fl_gen fl_cd fl_md fl_ctle fl_rx ch_type ch_pulse_zi ch_pulse ch_rolloff].
  replace (Z.to_nat (Z.of_nat (ls_span s) * Z.of_nat (ls_osr s) * 2 - 1)) with (2 * (ls_osr s * ls_span s) - 1)%nat by nia.
  split; [|repeat split; auto]. unfold channel_sized. cbn [ch_osr ch_span ch_pulse ch_rolloff ch_pulse_zi ch_iir ch_fir ch_zi]. rewrite repeat_length. split; [lia|]. repeat (split; [now auto|]). exists [1]. split; [reflexivity|].
  unfold usable. cbn [coef_list nth length]. split; [discriminate|]. split; [discriminate|]. split; [lra|]. reflexivity.
Qed.
(** What the stage [st] returns in [n] calls of the link differs by at most [d] from what the channel does without noise. *)
Definition disturbed_at_most (d : R) (st : stage) (l : full_link) (n N : nat) : Prop :=
  forall g bs txs, prbs_gen_run n (fl_gen l) = (g, Ok bs) -> Forall2 (fun b t => transmit (fl_cd l) (fl_md l) b = Done (Ok t)) bs txs -> Forall (fun t => length t = N) txs ->
  exists c1 c2 cs clean normal, stage_calls st (fl_ch l) (map (map Qc2R) txs) = (c1, Ok (returned cs)) /\ channel_calls (noise_free (fl_ch l)) (map (map Qc2R) txs) normal = (c2, Ok (returned clean)) /\ within d cs clean.
Lemma link_symbols_via lms s nb D d n (st : stage) l : good_path s D d -> carries (ls_cd s) (ls_constel s) nb (ls_symbols s) -> (ls_type s = "pulse" \/ ls_type s = "awgn")%string -> 0 <= d -> ls_link_of s nb = Ok l ->
  disturbed_at_most d st l n (ls_symbols s) ->
  exists l' bs ss rs start g, prbs_gen_run n (prbs_gen_init (prbs_data_init (ls_prbs s) nb (ls_seed s))) = (g, Ok bs) /\ length bs = n /\ Forall (fun b => bits b /\ length b = nb) bs /\
    Forall2 (fun b s0 => encoder (ls_cd s) b = Done (Ok s0)) bs ss /\ via_run st lms n l = obind (decode_all (ls_cd s) rs) (fun ds => Done (Ok (l', bs, ds))) /\
    length rs = n /\ Forall (fun x => length x = ls_symbols s) rs /\ length start = (D + ls_pre s)%nat /\ Forall (fun v => (0 <= v < Z.of_nat (length (get_levels (ls_constel s))))%Z) start /\
    length (concat ss) = (n * ls_symbols s)%nat /\ concat rs = firstn (n * ls_symbols s) (start ++ concat ss).
Proof.
  intros GS U TY Hd EL NO. destruct (link_ready s nb D d GS TY) as (l0 & E0 & S & T & Z0 & Pu & Ro & Ge & Ecd & Emd & Ect & Erx). rewrite EL in E0. injection E0 as <-.
  destruct GS as (SE & A & SF & M & HN & Hs & Hp & CS & Nz & Fz & PE & Fs & Gn & To & Fo & EI & LV & LE & EYE).
  set (N := ls_symbols s) in *. set (o := ls_osr s) in *.
  set (sd := match ls_seed s with Some v => v | None => repeat 1%Z (prbs_value (ls_prbs s)) end).
  assert (SD : pd_seed (prbs_data_init (ls_prbs s) nb (ls_seed s)) = sd). { unfold sd. destruct (ls_seed s); [reflexivity|]. cbn [prbs_data_init pd_seed]. apply ones_map. }
  assert (SDok : length sd = prbs_value (ls_prbs s) /\ bits sd). { unfold sd. destruct (ls_seed s); [exact SE|]. destruct (ones_seed (ls_prbs s)) as (X & Y & _). auto. }
  destruct (gen_run (ls_prbs s) n (prbs_gen_init (prbs_data_init (ls_prbs s) nb (ls_seed s)))) as (g & bs & R1 & R2 & R3 & _ & _ & R6); [reflexivity|cbn [prbs_gen_init pg_seed]; rewrite SD; apply SDok|cbn [prbs_gen_init pg_seed]; rewrite SD; apply SDok|].
  cbn [prbs_gen_init pg_chunk pg_seed prbs_data_init pd_chunk] in R3.
  assert (FB : Forall (fun b => bits b /\ length b = nb) bs).
  { assert (BC : bits (concat bs)). { cbn [prbs_gen_init pg_seed] in R6. rewrite gen_char in R6; [injection R6 as <- _; apply outbits_bits|rewrite SD; apply SDok|rewrite SD; apply SDok]. }
    apply Forall_forall. intros b Hb. split; [|rewrite Forall_forall in R3; exact (R3 b Hb)]. unfold bits in *. rewrite Forall_forall in *. intros v Hv. apply BC. apply in_concat. eauto. }
  assert (G0 : 0 <= linear_gain (ls_dc s)) by (unfold linear_gain; left; apply exp_pos).
  assert (MF : md_constel (ls_map s) = ls_constel s /\ rx_level_vec (ls_map s) = scaled_levels (ls_constel s) (ls_rx_factor s)) by (destruct (rx_levels_eq _ _ _ _ A M) as (X & _ & Y); split; [exact Y|exact X]).
  destruct (link_core lms (ls_constel s) nb N (ls_cd s) (ls_map s) (ls_amp s) (ls_rx_factor s) (ls_adc s) (ls_eq s) (ls_levels s) (ls_pre s) (ls_post s) (ls_dfe s) (linear_gain (ls_dc s)) d o (ls_phase s) D n l st bs g) as (l' & ss & rs & start & F1 & F2 & F3 & F4 & F5 & F6 & F7 & F8); auto.
  - unfold adc_good, ls_adc, adc_init. cbn [a_total a_type a_rate a_osr a_phase]. rewrite Z.div_1_r. fold o. repeat split; auto; lia.
  - now rewrite Erx.
  - now rewrite Erx.
  - now rewrite Erx.
  - rewrite Erx. unfold steady, receiver_init. cbn [rx_converge rx_levels rx_constel rx_cd]. repeat split; apply MF.
  - now rewrite Ge.
  - intros xs Fx. rewrite Ect. pose proof (fun z p d f o' x a b c e g => Prop_link.C70_matched z p d f o' x a b c e g) as CM. apply CM; auto. apply Rmult_lt_0_compat; auto. apply IZR_lt. lia.
  - intros txs Ft Lt. assert (Lx : length txs = n) by (clear - Ft R2; revert n R2; induction Ft; cbn [length]; intros; subst; auto; f_equal; eauto).
    assert (FX : Forall (fun x => length x = N) (map (map Qc2R) txs)). { apply Forall_forall. intros x Hx. apply in_map_iff in Hx. destruct Hx as (t & <- & Ht). rewrite map_length. rewrite Forall_forall in Lt. now apply Lt. }
    assert (CX : forall j, nth j (concat (map (map Qc2R) txs)) 0 = Qc2R (nth j (concat txs) 0%Qc)).
    { intros j. rewrite <- concat_map. replace 0 with (Qc2R 0%Qc) at 1 by exact (Qc2R_ofZ 0). apply map_nth. }
    assert (CN : clean_sampling (ch_pulse (noise_free (fl_ch l))) (ch_rolloff (noise_free (fl_ch l))) o (ls_span s) (ls_phase s) D) by (unfold noise_free; cbn [ch_pulse ch_rolloff]; rewrite Pu, Ro; exact CS).
    assert (NA := NO g bs txs). rewrite Ge in NA. specialize (NA R1). rewrite Ecd, Emd in NA. destruct (NA Ft Lt) as (c1 & c2 & cs & cl & normal & N1 & N2 & N3).
    destruct (pulse_channel (noise_free (fl_ch l)) o (ls_span s) (ls_phase s) D N normal HN Hp (noise_free_sized _ _ _ S)) with (xs := map (map Qc2R) txs) as (c' & cs' & C1 & C2 & C3 & C4); auto.
    { apply noise_free_pulse. rewrite T. exact TY. }
    rewrite C1 in N2. injection N2 as _ N2. apply returned_inj in N2. subst cl. rewrite map_length in C2, C4. destruct (within_lengths d cs cs' (N * o) N3 C3) as (W1 & W2 & W3).
    exists c1, cs. split; [exact N1|]. split; [congruence|]. split; [exact W2|]. intros j Hj. rewrite <- CX, <- C4 by (rewrite Lx; exact Hj). apply W3; [unfold o; nia|]. rewrite C2, Lx. assert (ls_phase s < o)%nat by exact Hp. nia.
  - exists l', bs, ss, rs, start, g. repeat split; auto.
Qed.
Lemma within_refl d : 0 <= d -> forall xs, within d xs xs.
Proof. intros Hd. induction xs as [|x xs IH]; constructor; auto. split; auto. intros j Hj. replace (_ - _) with 0 by ring. rewrite Rabs_R0. exact Hd. Qed.
Lemma pulse_noise_free : forall xs c normal, ch_type c = "pulse"%string -> exists c1, channel_calls (noise_free c) xs normal = (c1, snd (channel_calls c xs normal)).
Proof.
  induction xs as [|x xs IH]; intros c normal T; [eexists; reflexivity|]. cbn [channel_calls]. unfold channel_call at 1 2. cbn [noise_free ch_osr ch_span ch_pulse ch_rolloff ch_pulse_zi ch_zi].
  destruct (pulse_shape _ _ _ _ _ _) as [(p & pz)|e]; [|eexists; reflexivity]. cbn [ch_with ch_type]. rewrite noise_free_pulse, T by auto. change ("pulse" =? "pulse")%string with true. cbv iota.
  change (ch_with (noise_free c) pz (ch_zi c)) with (noise_free (ch_with c pz (ch_zi c))).
  destruct (IH (ch_with c pz (ch_zi c)) (fun i => normal (Datatypes.S i)) T) as (c1 & ->). destruct (channel_calls _ _ _) as (c2 & [w|e]); eexists; reflexivity.
Qed.
Lemma plain_disturbed s nb D d n normal l : good_path s D d -> (ls_type s = "pulse" \/ ls_type s = "awgn")%string -> 0 <= d -> ls_link_of s nb = Ok l ->
  (ls_type s = "awgn"%string -> link_noise_at_most d l n normal) -> disturbed_at_most d (plain normal) l n (ls_symbols s).
Proof.
  intros GS TY Hd EL NO g bs txs R F2 Lt. destruct (link_ready s nb D d GS TY) as (l0 & E0 & S & T & Z0 & Pu & Ro & _). rewrite EL in E0. injection E0 as <-.
  destruct GS as (SE & A & SF & M & HN & Hs & Hp & CS & _). rewrite calls_plain. destruct TY as [TY|TY].
  - assert (FX : Forall (fun x => length x = ls_symbols s) (map (map Qc2R) txs)). { apply Forall_forall. intros x Hx. apply in_map_iff in Hx. destruct Hx as (t & <- & Ht). rewrite map_length. rewrite Forall_forall in Lt. now apply Lt. }
    destruct (pulse_channel (fl_ch l) (ls_osr s) (ls_span s) (ls_phase s) D (ls_symbols s) normal HN Hp S) with (xs := map (map Qc2R) txs) as (c' & cs & C1 & _); auto; try congruence.
    destruct (pulse_noise_free (map (map Qc2R) txs) (fl_ch l) normal ltac:(congruence)) as (c1 & E1). rewrite C1 in E1. exists c', c1, cs, cs, normal. repeat split; auto. now apply within_refl.
  - destruct (NO TY g bs txs R F2) as (c1 & c2 & cs & cl & N1 & N2 & N3). exists c1, c2, cs, cl, normal. auto.
Qed.
Lemma link_symbols lms s nb D d n normal l : good_path s D d -> carries (ls_cd s) (ls_constel s) nb (ls_symbols s) -> (ls_type s = "pulse" \/ ls_type s = "awgn")%string -> 0 <= d -> ls_link_of s nb = Ok l ->
  (ls_type s = "awgn"%string -> link_noise_at_most d l n normal) ->
  exists l' bs ss rs start g, prbs_gen_run n (prbs_gen_init (prbs_data_init (ls_prbs s) nb (ls_seed s))) = (g, Ok bs) /\ length bs = n /\ Forall (fun b => bits b /\ length b = nb) bs /\
    Forall2 (fun b s0 => encoder (ls_cd s) b = Done (Ok s0)) bs ss /\ full_link_run lms n l normal = obind (decode_all (ls_cd s) rs) (fun ds => Done (Ok (l', bs, ds))) /\
    length rs = n /\ Forall (fun x => length x = ls_symbols s) rs /\ length start = (D + ls_pre s)%nat /\ Forall (fun v => (0 <= v < Z.of_nat (length (get_levels (ls_constel s))))%Z) start /\
    length (concat ss) = (n * ls_symbols s)%nat /\ concat rs = firstn (n * ls_symbols s) (start ++ concat ss).
Proof.
  intros GS U TY Hd EL NO. rewrite <- run_plain. apply (link_symbols_via lms s nb D d); auto. now apply (plain_disturbed s nb D).
Qed.
Lemma link_delivers_via lms s D d n (st : stage) l : good_settings s D d -> (ls_type s = "pulse" \/ ls_type s = "awgn")%string -> 0 <= d -> ls_link s = Ok l ->
  disturbed_at_most d st l n (ls_symbols s) ->
  exists l' bs ds start g, via_run st lms n l = Done (Ok (l', bs, ds)) /\ prbs_gen_run n (prbs_gen_init (prbs_data_init (ls_prbs s) (ls_symbols s * ls_bits s) (ls_seed s))) = (g, Ok bs) /\
    length start = ((D + ls_pre s) * ls_bits s)%nat /\ bits start /\ length ds = n /\ Forall (fun x => length x = (ls_symbols s * ls_bits s)%nat) ds /\
    concat ds = map inject_Z (firstn (n * (ls_symbols s * ls_bits s)) (start ++ concat bs)).
Proof.
  intros [GP U] TY Hd EL NO. destruct (link_symbols_via lms s _ D d n st l GP (uncoded_carries _ _ _ _ U) TY Hd EL NO) as (l' & bs & ss & rs & start & g & A1 & A2 & A3 & A4 & A5 & A6 & A7 & A8 & A9 & A10 & A11).
  set (k := ls_bits s) in *. set (N := ls_symbols s) in *. assert (T2 := uncoded_bits _ _ _ _ U bs ss A3 A4). destruct (uncoded_codes _ _ _ _ U) as [NS NB]. destruct U as (_ & _ & _ & _ & _ & _ & _ & _ & _ & Hk & HN & Hb & HL & HF).
  rewrite (decode_plain (ls_cd s) k NS NB Hk Hb) in A5; [|eapply Forall_impl; [|exact A7]; intros z Hz; cbn beta in Hz; unfold row_flags; rewrite Hz; exact HF]. cbn [obind] in A5.
  assert (SL := sym_bits_length (ls_cd s) k). exists l', bs, (map (fun y => map inject_Z (concat (map (sym_bits (ls_cd s) k) y))) rs), (concat (map (sym_bits (ls_cd s) k) start)), g.
  assert (RW : forall y, length (concat (map (sym_bits (ls_cd s) k) y)) = (length y * k)%nat).
  { intros y. rewrite (concat_length_const k); [now rewrite map_length|]. apply Forall_forall. intros r Hr. apply in_map_iff in Hr. destruct Hr as (v & <- & _). apply SL. }
  split; [exact A5|]. split; [exact A1|]. split; [now rewrite RW, A8|]. split; [|split; [now rewrite map_length|split]].
  - apply bits_concat, Forall_forall. intros r Hr. apply in_map_iff in Hr. destruct Hr as (v & <- & Hv). rewrite Forall_forall in A9. specialize (A9 v Hv). rewrite HL, pow2_nat_Z in A9. unfold sym_bits. destruct (Nat.eqb_spec k 1) as [E1|K1].
    + rewrite E1 in A9. change (2 ^ Z.of_nat 1)%Z with 2%Z in A9. constructor; [|constructor]. unfold isbit. destruct (pn_inv _); lia.
    + apply P_symbol.unmod_row_bits, P_symbol.lsb_bits_bits.
  - apply Forall_forall. intros x Hx. apply in_map_iff in Hx. destruct Hx as (y & <- & Hy). rewrite map_length, RW. rewrite Forall_forall in A7. now rewrite (A7 y Hy).
  - assert (CD : forall rs, concat (map (fun y => map inject_Z (concat (map (sym_bits (ls_cd s) k) y))) rs) = map inject_Z (concat (map (sym_bits (ls_cd s) k) (concat rs)))).
    { clear. induction rs as [|z zs IH]; [reflexivity|]. cbn [map concat]. now rewrite IH, !map_app, concat_app, map_app. }
    rewrite CD, A11. f_equal. rewrite (firstn_rows (sym_bits (ls_cd s) k) k) by exact SL. rewrite map_app, concat_app, T2. f_equal. ring.
Qed.
Lemma link_delivers lms s D d n normal l : good_settings s D d -> (ls_type s = "pulse" \/ ls_type s = "awgn")%string -> 0 <= d -> ls_link s = Ok l ->
  (ls_type s = "awgn"%string -> link_noise_at_most d l n normal) ->
  exists l' bs ds start g, full_link_run lms n l normal = Done (Ok (l', bs, ds)) /\ prbs_gen_run n (prbs_gen_init (prbs_data_init (ls_prbs s) (ls_symbols s * ls_bits s) (ls_seed s))) = (g, Ok bs) /\
    length start = ((D + ls_pre s) * ls_bits s)%nat /\ bits start /\ length ds = n /\ Forall (fun x => length x = (ls_symbols s * ls_bits s)%nat) ds /\
    concat ds = map inject_Z (firstn (n * (ls_symbols s * ls_bits s)) (start ++ concat bs)).
Proof.
  intros G TY Hd EL NO. rewrite <- run_plain. apply (link_delivers_via lms s D d); auto. now apply (plain_disturbed s (ls_symbols s * ls_bits s) D); try apply G.
Qed.

(** * The bit error rate of the received chunks *)
Lemma chunk_of_concat {A} (L : nat) (ds : list (list A)) c d0 : Forall (fun x => length x = L) ds -> (c < length ds)%nat -> nth c ds d0 = firstn L (skipn (c * L) (concat ds)).
Proof.
  revert c. induction ds as [|x ds IH]; intros c F H; cbn [length] in H; [lia|]. inversion F; subst. destruct c as [|c]; cbn [nth concat Nat.mul].
  - cbn [skipn]. rewrite firstn_app, Nat.sub_diag, firstn_all. cbn [firstn]. now rewrite app_nil_r.
  - rewrite skipn_app, skipn_all2 by lia. replace (length x + c * length x - length x)%nat with (c * length x)%nat by lia. cbn [app]. apply IH; auto. lia.
Qed.
Lemma received_chunk t sd L n q start bs ds g c : live_seed t sd -> prbs_gen_run n (mk_pg (get_polynomial t) L sd) = (g, Ok bs) -> length start = q -> length ds = n -> Forall (fun x => length x = L) ds ->
  concat ds = map inject_Z (firstn (n * L) (start ++ concat bs)) -> (c < n)%nat -> (q <= c * L)%nat ->
  exists u w, live_seed t u /\ prbs_from t u w L /\ length w = L /\ nth c ds [] = map inject_Z w.
Proof.
  intros LS R Ls Ld F E Hc Hq. destruct (gen_run t n (mk_pg (get_polynomial t) L sd) eq_refl (proj1 LS) (proj1 (proj2 LS))) as (g' & l & R1 & _ & _ & _ & _ & G). rewrite R in R1. injection R1 as <- <-.
  cbn [pg_chunk pg_seed] in G. rewrite gen_char in G by apply LS. injection G as G _.
  set (a := (c * L - q)%nat). set (p := get_polynomial t) in *. exists (Nat.iter a (lfsr_step p) sd), (outbits p (Nat.iter a (lfsr_step p) sd) L).
  assert (LU : live_seed t (Nat.iter a (lfsr_step p) sd)) by now apply live_iter. split; [exact LU|]. split; [now apply outbits_from|]. split; [apply outbits_length|].
  rewrite (chunk_of_concat L) by (auto; lia). rewrite E, skipn_map, firstn_map. f_equal. rewrite <- G.
  rewrite skipn_firstn_comm, firstn_firstn. assert ((c + 1) * L <= n * L)%nat by (apply Nat.mul_le_mono_r; lia). rewrite Nat.min_l by nia.
  rewrite skipn_app, skipn_all2 by lia. cbn [app]. rewrite Ls. fold a.
  replace (n * L)%nat with (a + (L + (n * L - a - L)))%nat by (unfold a; nia). rewrite outbits_app, skipn_app, skipn_all2 by (rewrite outbits_length; lia). rewrite outbits_length, Nat.sub_diag. cbn [skipn app].
  rewrite outbits_app, firstn_app, firstn_all2 by (rewrite outbits_length; lia). rewrite outbits_length, Nat.sub_diag. cbn [firstn]. apply app_nil_r.
Qed.

(** * Sampling between the symbols *)
Lemma rcos_even b t : rcos_at b (- t) = rcos_at b t.
Proof.
  unfold rcos_at. replace (2 * b * - t) with (- (2 * b * t)) by ring. rewrite Rabs_Ropp. destruct (Req_EM_T _ 1); auto. rewrite sinc_even. replace (PI * b * - t) with (- (PI * b * t)) by ring. rewrite cos_neg. f_equal. f_equal. ring.
Qed.
Lemma middle_cancels (p : R -> R) (x : list R) h s j : (1 <= h)%nat -> (1 <= s)%nat -> (forall t, p (- t) = p t) ->
  (forall i, (S i < length x)%nat -> nth (S i) x 0 = - nth i x 0) -> (2 * s - 1 <= j < length x)%nat -> pulse_sum p x (2 * h) s (h + j * (2 * h)) = 0.
Proof.
  intros Hh Hs Ev Al Hj. set (o := (2 * h)%nat). unfold pulse_sum.
  set (f := fun i => _). replace (length x) with ((j + 1 - 2 * s) + (2 * s + (length x - (j + 1))))%nat by lia. rewrite !sum_upto_split.
  rewrite (sum_upto_0 f) at 1 by (intros i Hi; unfold f; destruct (Nat.ltb_spec (h + j * o - i * o) (2 * (o * s))) as [X|X]; [exfalso; unfold o in *; nia|rewrite Bool.andb_false_r; ring]).
  rewrite (sum_upto_0 (fun k => f (j + 1 - 2 * s + (2 * s + k))%nat)) by (intros i Hi; unfold f; destruct (Nat.leb_spec ((j + 1 - 2 * s + (2 * s + i)) * o) (h + j * o)) as [X|X]; [exfalso; unfold o in *; nia|cbn [andb]; ring]).
  set (F := fun k => f (j + 1 - 2 * s + k)%nat).
  assert (AL : forall d i, (i + d < length x)%nat -> nth (i + d) x 0 = (-1) ^ d * nth i x 0).
  { induction d as [|d IH]; intros i Hi; [rewrite Nat.add_0_r; cbn; ring|]. replace (i + S d)%nat with (S (i + d)) by lia. rewrite Al, IH by lia. cbn [pow]. ring. }
  assert (A2 : forall i i', (i < length x)%nat -> (i' < length x)%nat -> Nat.odd (i + i') = true -> nth i x 0 = - nth i' x 0).
  { assert (B : forall i i', (i <= i')%nat -> (i' < length x)%nat -> Nat.odd (i + i') = true -> nth i' x 0 = - nth i x 0).
    { intros i i' H1 H2 O. replace i' with (i + (i' - i))%nat by lia. rewrite AL by lia. assert (OD : Nat.odd (i' - i) = true). { replace (i + i')%nat with (i' - i + 2 * i)%nat in O by lia. now rewrite Nat.odd_add_mul_2 in O. }
      apply Nat.odd_spec in OD. destruct OD as (q & ->). rewrite Nat.add_1_r, pow_1_odd. ring. }
    intros i i' H1 H2 O. destruct (Nat.le_ge_cases i i') as [H|H]; [rewrite (B i i' H H2 O); ring|apply B; auto; now rewrite Nat.add_comm]. }
  assert (FV : forall k, (k < 2 * s)%nat -> F k = p (INR s - 1 / 2 - INR k) * nth (j + 1 - 2 * s + k) x 0).
  { intros k Hk. unfold F, f. set (i := (j + 1 - 2 * s + k)%nat). replace ((i * o <=? h + j * o) && (h + j * o - i * o <? 2 * (o * s)))%nat with true.
    2:{ symmetry. apply andb_true_intro. split; [apply Nat.leb_le|apply Nat.ltb_lt]; unfold i, o; nia. }
    f_equal. f_equal. rewrite !minus_IZR, <- !INR_IZR_INZ. unfold i, o. rewrite plus_INR, !mult_INR, plus_INR, minus_INR, plus_INR, mult_INR by lia. change (INR 2) with 2. change (INR 1) with 1. field.
    apply not_0_INR. lia. }
  assert (Z0 : sum_upto F (2 * s) = - sum_upto F (2 * s)).
  { replace (- sum_upto F (2 * s)) with ((-1) * sum_upto F (2 * s)) by ring. rewrite <- sum_upto_scale. rewrite sum_upto_rev at 1. apply sum_upto_ext. intros k Hk. rewrite !FV by lia.
    replace (INR s - 1 / 2 - INR (2 * s - 1 - k)) with (- (INR s - 1 / 2 - INR k)) by (rewrite !minus_INR, mult_INR by lia; change (INR 2) with 2; change (INR 1) with 1; field).
    rewrite Ev. rewrite (A2 (j + 1 - 2 * s + (2 * s - 1 - k))%nat (j + 1 - 2 * s + k)%nat) by (try lia; apply Nat.odd_spec; exists (j - s)%nat; lia). ring. }
  lra.
Qed.

(** * Size of the noise *)
Lemma squares_about m l : sumR (map (fun x => (x - m) ^ 2) l) = sumR (map (fun x => x * x) l) - 2 * m * sumR l + INR (length l) * (m * m).
Proof. unfold sumR. induction l as [|x l IH]; cbn [map fold_right length]; [cbn; ring|]. rewrite IH, S_INR. ring. Qed.
Lemma squares_bound A l : Forall (fun x => Rabs x <= A) l -> sumR (map (fun x => x * x) l) <= INR (length l) * (A * A).
Proof.
  unfold sumR. induction 1 as [|x l Hx _ IH]; cbn [map fold_right length]; [cbn; lra|]. rewrite S_INR. assert (x * x <= A * A). { destruct (Rcase_abs x) as [C|C]; [rewrite Rabs_left in Hx by auto|rewrite Rabs_right in Hx by auto]; nra. } lra.
Qed.
Lemma noise_std_bound l snr A : (2 <= length l)%nat -> Forall (fun x => Rabs x <= A) l -> 0 <= noise_std l snr <= sqrt (2 * (A * A) / Rpower 10 (snr / 10)).
Proof.
  intros L F. split; [apply sqrt_pos|]. unfold noise_std. apply sqrt_le_1_alt. assert (P : 0 < Rpower 10 (snr / 10)) by apply exp_pos. apply Rmult_le_compat_r; [left; now apply Rinv_0_lt_compat|].
  unfold sig_power_hat, var1. rewrite squares_about. pose proof (squares_bound A l F) as SB. set (m := meanR l). assert (N : 2 <= INR (length l)) by (apply (le_INR 2); auto).
  assert (M : sumR l = INR (length l) * m) by (unfold m, meanR; field; lra). rewrite M. set (n := INR (length l)) in *. set (q := sumR (map _ l)) in *. apply (Rmult_le_reg_r (n - 1)); [lra|].
  replace (((q - 2 * m * (n * m) + n * (m * m)) / (n - 1) + m ^ 2) * (n - 1)) with (q - m * m) by (field; lra). pose proof (Rle_0_sqr m) as Q1. pose proof (Rle_0_sqr A) as Q2. unfold Rsqr in *.
  assert (0 <= (n - 2) * (A * A)) by (apply Rmult_le_pos; lra). lra.
Qed.
Lemma rect_bounded x o s A y zo : (1 <= o)%nat -> (1 <= s)%nat -> x <> [] -> 0 <= A -> Forall (fun v => Rabs v <= A) x ->
  forall beta, pulse_shape x (Z.of_nat o) (Z.of_nat s) "rect" beta (Some (repeat 0 (2 * (o * s) - 1))) = Ok (y, zo) -> Forall (fun v => Rabs v <= A) y.
Proof.
  intros Ho Hs Nx HA F beta E. destruct (pulse_shape_spec x o s "rect" beta rect_at (repeat 0 (2 * (o * s) - 1)) Ho Hs (shape_rect _ _ eq_refl) Nx (repeat_length _ _)) as (y' & z' & E' & Ly & _ & V & _).
  rewrite E in E'. injection E' as <- <-. apply Forall_forall. intros v Hv. destruct (In_nth _ _ 0 Hv) as (i & Hi & <-). rewrite V by lia. rewrite nth_zeros, Rplus_0_l, rect_sum by auto.
  destruct (_ <? _)%nat; [rewrite Rabs_R0; exact HA|]. destruct (Nat.lt_ge_cases ((i - (o * s - o / 2)) / o) (length x)) as [H|H]; [|rewrite nth_overflow, Rabs_R0 by auto; exact HA].
  rewrite Forall_forall in F. apply F. now apply nth_In.
Qed.
Lemma rect_noise c o s A B snr N xs normal : (2 <= N * o)%nat -> channel_sized c o s -> ch_pulse_zi c = repeat 0 (2 * (o * s) - 1) -> ch_pulse c = "rect"%string -> ch_type c = "awgn"%string -> ch_snr c = Some snr ->
  0 <= A -> 0 <= B -> Forall (fun x => length x = N /\ Forall (fun v => Rabs v <= A) x) xs -> (forall i k, Rabs (normal i k) <= B) ->
  noise_at_most (sqrt (2 * (A * A) / Rpower 10 (snr / 10)) * B) c xs normal.
Proof.
  intros HN S Z0 P T Sn HA HB F NB. set (d := _ * B). destruct xs as [|x xs]; [exists c, (noise_free c), [], []; repeat split; constructor|].
  assert (NE : Forall (fun x => x <> []) (x :: xs)) by (eapply Forall_impl; [|exact F]; intros y [Hy _] ->; cbn [length] in Hy; nia).
  assert (NC : concat (x :: xs) <> []) by (inversion NE; subst; cbn [concat]; intros X; apply app_eq_nil in X as [-> _]; congruence).
  destruct (calls_concat o s xs (noise_free c) x normal (fun _ => 0) (noise_free_sized _ _ _ S) (noise_free_linear _ (or_introl T)) NE) as (c0 & cs & A1 & A2 & _ & A3).
  destruct (noisy_calls o s snr _ _ _ _ _ S Sn (or_introl T) NE A1) as (c' & B1 & _).
  assert (LC : Forall (fun y => length y = (N * o)%nat) cs).
  { clear - A2 F. revert A2 F. generalize (x :: xs). intros l. revert l. induction cs as [|y cs IH]; intros [|z l] E F; cbn [map] in E; try discriminate E; constructor; injection E as E1 E2; inversion F; subst; [rewrite E1; now destruct H1 as [-> _]|eauto]. }
  assert (BC : Forall (fun v => Rabs v <= A) (concat cs)).
  { destruct (call_ok (noise_free c) o s (concat (x :: xs)) (fun _ => 0) (noise_free_sized _ _ _ S) (noise_free_linear _ (or_introl T)) NC) as (p & y & pz & z & Q & _ & _ & C & _ & R).
    destruct R as [(_ & -> & _)|(X & _)]; [|rewrite noise_free_pulse in X by auto; discriminate]. rewrite A3 in C. injection C as _ C.
    assert (INJ : forall l l' : list R, map Some l = map Some l' -> l = l') by (induction l as [|q l IH']; intros [|q' l'] X; try discriminate; auto; injection X as -> X; f_equal; auto).
    apply INJ in C. subst p. destruct S as (Ho & Hs & Eo & Es & _). cbn [noise_free ch_osr ch_span ch_pulse ch_rolloff ch_pulse_zi] in Q. rewrite P, Z0 in Q. apply (rect_bounded _ o s A _ _ Ho Hs NC HA) in Q; auto.
    rewrite Forall_forall in *. intros v Hv. apply in_concat in Hv. destruct Hv as (w & Hw & Hv). destruct (F w Hw) as [_ G]. rewrite Forall_forall in G. auto. }
  set (noisy := map (fun i => map (fun k => nth k (nth i cs []) 0 + (0 + noise_std (nth i cs []) snr * normal i k)) (seq 0 (length (nth i cs [])))) (seq 0 (length cs))).
  exists c', c0, noisy, cs. split.
  { rewrite B1. f_equal. f_equal. unfold returned, noisy. rewrite map_map. apply map_ext_in. intros i Hi. apply in_seq in Hi. f_equal. unfold awgn. rewrite map_map. apply map_ext. intros k.
    rewrite Forall_forall in LC. rewrite (LC (nth i cs [])) by (apply nth_In; lia). destruct (Nat.eqb_spec (N * o) 1); [lia|]. reflexivity. }
  split; [exact A1|]. unfold within.
  assert (G : forall (l : list nat), (forall i, In i l -> (i < length cs)%nat) -> Forall2 (fun y w => length y = length w /\ forall j, (j < length y)%nat -> Rabs (nth j y 0 - nth j w 0) <= d)
     (map (fun i => map (fun k => nth k (nth i cs []) 0 + (0 + noise_std (nth i cs []) snr * normal i k)) (seq 0 (length (nth i cs [])))) l) (map (fun i => nth i cs []) l)).
  { induction l as [|i l IH]; intros HI; [constructor|]. cbn [map]. constructor; [|apply IH; intros; apply HI; now right]. rewrite map_length, seq_length. split; auto. intros j Hj. rewrite nth_map_seq by auto. cbn [Nat.add].
    assert (Hi : (i < length cs)%nat) by (apply HI; now left). set (w := nth i cs []) in *. assert (Iw : In w cs) by (apply nth_In; auto).
    replace (nth j w 0 + (0 + noise_std w snr * normal i j) - nth j w 0) with (noise_std w snr * normal i j) by ring.
    destruct (noise_std_bound w snr A) as [S0 S1]. { rewrite Forall_forall in LC. now rewrite (LC w Iw). } { rewrite Forall_forall in *. intros v Hv. apply BC. apply in_concat. eauto. }
    rewrite Rabs_mult, (Rabs_right (noise_std w snr)) by lra. unfold d. apply Rmult_le_compat; auto. apply Rabs_pos. }
  specialize (G (seq 0 (length cs))). replace (map (fun i => nth i cs []) (seq 0 (length cs))) with cs in G; [apply G; intros i Hi; apply in_seq in Hi; lia|].
  apply (nth_ext_def []); [now rewrite map_length, seq_length|]. intros i Hi. rewrite nth_map_seq by auto. reflexivity.
Qed.
