(** Proofs about links built from settings, and about the settings shipped with the example. *)
From Coq Require Import Reals String Lia Lra QArith Qcanon.
From Verif Require Import Py PyQ B_list B_qc M_aux M_symbol M_linear M_conv S_conv P_conv P_convdec M_channel S_channel M_ctle S_ctle M_prbs P_checker M_sim S_sim S_coded M_simcheck P_simcheck M_rxloop S_rxparts P_rxparts M_link S_link M_linkst S_linkst P_linkst S_works P_works P_hears Prop_conv Prop_sim.
Import List ListNotations.
Open Scope Z_scope.

(** * From settings to links *)
Lemma settings_consistent t seed cd md pulse ty fir rolloff snr ct a e nb N o s : sound_settings t seed cd md pulse ty fir rolloff snr ct a e nb N o s ->
  exists l, full_link_init (prbs_data_init t nb seed) cd md (channel_data_init pulse (Z.of_nat s) ty fir None rolloff (Z.of_nat o) snr None None) ct a e = Ok l /\
    consistent (link_new l) nb N o s /\ rx_levels (fl_rx l) = rx_level_vec md /\ rx_constel (fl_rx l) = md_constel md /\ rx_eq (fl_rx l) = e /\ rx_done (fl_rx l) = false /\ rx_max_phase (fl_rx l) = ct_osr ct /\
    fl_gen l = prbs_gen_init (prbs_data_init t nb seed) /\ fl_cd l = cd.
Proof.
  intros (SE & HN & Ho & Hs & CA & HE & LL & RD & UP & NF & TY & CT & AD & EQ).
  unfold full_link_init, channel_init, channel_data_init. cbn [chd_zi chd_iir chd_fir chd_pulse_zi chd_span chd_osr chd_pulse chd_rolloff chd_type chd_snr length]. unfold np_zerosR.
  set (b := match fir with None => [1%R] | Some b => b end). assert (Nb : b <> []) by (unfold b; destruct fir; [congruence|discriminate]).
  destruct (Z.ltb_spec (Z.of_nat (Nat.max 1 (length b)) - 1) 0); [lia|]. cbn [bind]. destruct (Z.ltb_spec (Z.of_nat s * Z.of_nat o * 2 - 1) 0); [nia|]. cbn [bind].
  eexists. split; [reflexivity|]. unfold link_new, rx_new. cbn [fl_ch fl_gen fl_cd fl_md fl_ctle fl_rx].
  split; [|unfold receiver_init; cbn [rx_levels rx_constel rx_eq rx_done rx_max_phase]; repeat split].
  unfold consistent. cbn [z_gen z_cd z_md z_ch z_ctle z_rx rs_rx receiver_init rx_adc rx_eq rx_levels rx_constel rx_cd rx_converge prbs_gen_init pg_poly pg_seed pg_chunk prbs_data_init pd_poly pd_seed pd_chunk]. cbv zeta.
  assert (SD : length (match seed with Some v => v | None => map (fun _ => 1) (get_polynomial t) end) = prbs_value t /\ bits (match seed with Some v => v | None => map (fun _ => 1) (get_polynomial t) end)).
  { destruct seed as [v|]; [exact SE|]. rewrite ones_map. destruct (ones_seed t) as (X & Y & _). auto. }
  split; [exists t; split; [reflexivity|apply SD]|]. split; [apply SD|]. split; [reflexivity|]. split; [exact HN|]. split; [exact CA|]. split; [exact LL|].
  split; [|split; [exact CT|split; [exact AD|split; [exact EQ|split; [|split; [exact RD|split; [exact HE|reflexivity]]]]]]].
  - split; [|cbn [ch_type ch_snr]; exact TY]. unfold channel_sized. cbn [ch_osr ch_span ch_pulse ch_rolloff ch_pulse_zi ch_iir ch_fir ch_zi]. rewrite !repeat_length. repeat (split; [first [assumption|reflexivity]|]). split; [nia|].
    exists [1%R]. split; [reflexivity|]. unfold usable. cbn [coef_list nth length]. split; [exact Nb|]. split; [discriminate|]. split; [lra|]. lia.
  - intros X. apply (f_equal (@length Qc)) in X. unfold rx_level_vec in X. rewrite map_length, LL in X. destruct (md_constel md); discriminate X.
Qed.

(** * The shipped settings *)
(** example_simulation/constants.py:9-11, 25-26 and config_file.py:20: levels of PAM4, 750 mV, receiver factor 0.75. *)
Definition shipped_map : outcome mapping_data := mapping_data_init PAM4 (map ofZ (get_levels PAM4)) (ofZ 750) (ofZ 3 / ofZ 4)%Qc.
(** constants.py:40-42 and config_file.py:39 *)
Definition shipped_ctle : ctle_obj := ctle_init [5 * 10 ^ 8; 11 * 10 ^ 9]%R [1 * 10 ^ 9; 20 * 10 ^ 9; 25 * 10 ^ 9]%R (- 10)%R (53125 * 10 ^ 6)%R 64 None.
(** constants.py:46-49 and config_file.py:40 *)
Definition shipped_adc : adc_state := adc_init 8 6 "ss" 64 1 None.
(** constants.py:53-57, 68 and config_file.py:41-42 *)
Definition shipped_eq : res eq_state := eq_init 4 27 1 None None (Some (map ofZ (get_levels PAM4))) None None.
(** constants.py and config_file.py: the link; [fir] stands for the coefficients read from the file (config_file.py:24-27),
    the numbers 0.35 and 0.75 are taken as they are written.  The jitter of the pulse shaping is zero. *)
Definition shipped_link (fir : list R) : outcome full_link :=
  obind shipped_map (fun md => obind (Done shipped_eq) (fun e =>
  Done (full_link_init (prbs_data_init PRBS13 64 None) (shipped true) md (channel_data_init "rcos" 8 "isi_awgn" (Some fir) None (35 / 100)%R 64 (Some 10%R) None None) shipped_ctle shipped_adc e))).

Lemma shipped_stage : symbol_stage (shipped true) PAM4 2 64 /\ binary_stage (shipped true) (64 * 2) /\ carries (shipped true) PAM4 64 64.
Proof.
  destruct C22_case as (CS & TS & _). assert (SS : symbol_stage (shipped true) PAM4 2 64).
  { split; [lia|]. split; [reflexivity|]. split; [reflexivity|]. split; [right; left; discriminate|]. intros _. reflexivity. }
  split; [exact SS|]. split.
  - right. right. split; [reflexivity|]. exists code_rsc. split; [reflexivity|]. split; [exact CS|]. split; [exact TS|]. split; [reflexivity|]. cbn. lia.
  - apply (conv_carries (shipped true) PAM4 2 64 code_rsc 64 SS); auto; try reflexivity. lia.
Qed.
Lemma below_ratio k a b : (0 < b -> k * b < a -> k < a / b)%R.
Proof. intros B H. apply (Rmult_lt_reg_r b); [exact B|]. unfold Rdiv. rewrite Rmult_assoc, Rinv_l by lra. lra. Qed.
Lemma shipped_design : ctle_sized shipped_ctle.
Proof.
  split; [|reflexivity]. unfold shipped_ctle, ctle_init. cbn [ct_zeros ct_poles ct_gain ct_fs ct_osr]. unfold design.
  split; [discriminate|]. split; [discriminate|]. split; [repeat constructor; lra|]. split; [repeat constructor; lra|]. split; [lra|].
  assert (G : (1 / 10 <= linear_gain (-10))%R).
  { unfold linear_gain. replace (1 / 10)%R with (Rpower 10 (Ropp 1)) by (rewrite Rpower_Ropp, Rpower_1 by lra; lra). apply Rle_Rpower; lra. }
  unfold corner_at, prod_R. cbn [map fold_right]. rewrite !Rabs_pos_eq by lra.
  set (g := linear_gain (-10)) in *. clearbody g.
  match goal with |- (_ < g * ?a / ?b)%R => assert (A : (1 / 1000 < a / b)%R) end.
  { apply below_ratio; lra. }
  unfold Rdiv in *. rewrite Rmult_assoc. match goal with |- (_ < g * ?q)%R => set (w := q) in * end. clearbody w. assert (1 / 10 * (1 / 1000) <= g * w)%R by (apply Rmult_le_compat; lra). lra.
Qed.

Lemma shipped_map_eq : exists md, shipped_map = Done (Ok md) /\ md_constel md = PAM4 /\ length (md_levels md) = 4%nat /\ rx_level_vec md = map (fun k => ofZ k / ofZ 4)%Qc [-3; -1; 1; 3].
Proof.
  unfold shipped_map. destruct (mapping_data_init PAM4 (map ofZ (get_levels PAM4)) (ofZ 750) (ofZ 3 / ofZ 4)%Qc) as [[md|e]|] eqn:E; [|vm_compute in E; discriminate E..].
  exists md. destruct (rx_levels_eq PAM4 (ofZ 750) (ofZ 3 / ofZ 4)%Qc md) as (L & M & C); [discriminate|exact E|]. split; [reflexivity|]. split; [exact C|]. split; [rewrite M; reflexivity|]. rewrite L. cbn [get_levels map].
  repeat (apply (f_equal2 cons); [apply Qc_is_canon; vm_compute; reflexivity|]). reflexivity.
Qed.
Lemma shipped_sound fir : fir <> [] -> exists md e, shipped_map = Done (Ok md) /\ shipped_eq = Ok e /\ md_constel md = PAM4 /\ rx_level_vec md = map (fun k => ofZ k / ofZ 4)%Qc [-3; -1; 1; 3] /\ e_pre e = 4%nat /\
  sound_settings PRBS13 None (shipped true) md "rcos" "isi_awgn" (Some fir) (35 / 100)%R (Some 10%R) shipped_ctle shipped_adc e 64 64 64 8.
Proof.
  intros NF. destruct shipped_map_eq as (md & E & C & L & V). destruct shipped_eq as [e|x] eqn:EE; [|vm_compute in EE; discriminate EE]. exists md, e. repeat (split; [first [exact E|exact C|exact V|reflexivity]|]).
  assert (PE : e_pre e = 4%nat /\ e_post e = 27%nat /\ e_dfe e = 1%nat). { unfold shipped_eq, eq_init in EE. cbn [checked bind] in EE. cbn in EE. injection EE as <-. auto. }
  split; [apply PE|]. destruct shipped_stage as (S1 & S2 & S3). unfold sound_settings. rewrite C.
  split; [exact I|]. do 3 (split; [lia|]). split; [exact S3|]. split; [apply (hears_all _ _ 2); auto; lia|]. split; [rewrite L; reflexivity|].
  split; [rewrite V; repeat constructor; eexists; vm_compute; reflexivity|]. split; [right; right; split; [lra|auto]|]. split; [congruence|]. split; [right; right; split; [reflexivity|right; lia]|].
  split; [exact shipped_design|]. split; [|split; [unfold shipped_eq in EE; eapply eq_init_sized; [exact EE|discriminate]|intros X; destruct PE as (_ & _ & Y); lia]].
  split; [|repeat split; vm_compute; reflexivity]. unfold adc_good, shipped_adc, adc_init. cbn [a_total a_type a_rate a_osr a_phase]. repeat split; auto; try lia; vm_compute; congruence.
Qed.
Lemma shipped_consistent fir : fir <> [] -> exists l, shipped_link fir = Done (Ok l) /\ consistent (link_new l) 64 64 64 8 /\ rx_constel (fl_rx l) = PAM4 /\
  rx_levels (fl_rx l) = map (fun k => ofZ k / ofZ 4)%Qc [-3; -1; 1; 3] /\ e_pre (rx_eq (fl_rx l)) = 4%nat /\ rx_done (fl_rx l) = false /\ rx_max_phase (fl_rx l) = 64 /\
  fl_gen l = prbs_gen_init (prbs_data_init PRBS13 64 None) /\ fl_cd l = shipped true.
Proof.
  intros NF. destruct (shipped_sound fir NF) as (md & e & E1 & E2 & C & V & P & S). destruct (settings_consistent _ _ _ _ _ _ _ _ _ _ _ _ _ _ _ _ S) as (l & El & K & L1 & L2 & L3 & L4 & L5 & L6 & L7).
  exists l. unfold shipped_link. rewrite E1, E2. cbn [obind]. change 8 with (Z.of_nat 8). change 64 with (Z.of_nat 64) at 1. rewrite El. split; [reflexivity|]. split; [exact K|]. rewrite L1, L2, L3, L4, L5, L6, L7. repeat (split; [first [assumption|reflexivity]|]). reflexivity.
Qed.
(** Every symbol the shipped receiver reads is one of the two inner ones. *)
Lemma inner_only r v : rx_constel r = PAM4 -> rx_levels r = map (fun k => ofZ k / ofZ 4)%Qc [-3; -1; 1; 3] -> reads r v -> v = 1 \/ v = 2.
Proof.
  intros C L (lv & I & E). rewrite C in E. rewrite L in I. cbn [map In] in I. destruct I as [<-|[<-|[<-|[<-|[]]]]]; vm_compute in E; injection E as <-; auto.
Qed.

(** The first chunk of the shipped transmitter has outer symbols. *)
Lemma shipped_first : exists g p en, prbs_gen_next (prbs_gen_init (prbs_data_init PRBS13 64 None)) = (g, Ok p) /\ encoder (shipped true) p = Done (Ok en) /\ existsb (fun v => v =? 3) en = true.
Proof. vm_compute. do 3 eexists. repeat split. Qed.
Lemma first_symbols f z normal g p en : prbs_gen_next (z_gen z) = (g, Ok p) -> encoder (z_cd z) p = Done (Ok en) -> z_enc (fst (link_call f z normal)) = en.
Proof.
  intros Eg Een. pose proof (f_equal (fun q => snd (fst q)) (call_tx f z normal)) as W. unfold tx_part in W. cbn [fst snd] in W. rewrite W.
  unfold generate. rewrite Eg. cbv zeta. cbn [set_tx z_cd z_md]. rewrite Een. destruct (mapping _ _ _ _ _); reflexivity.
Qed.
(** * Levels *)
Lemma fits_readable c amp f m : amp <> 0%Qc -> scale_fits c f -> mapping_data_init c (map ofZ (get_levels c)) amp f = Done (Ok m) ->
  md_constel m = c /\ length (md_levels m) = length (get_levels c) /\ Forall (readable c) (rx_level_vec m).
Proof.
  intros A F M. destruct (rx_levels_eq c amp f m A M) as (L & V & C). split; [exact C|]. split; [rewrite V; apply map_length|]. rewrite L. apply Forall_forall. intros lv Hl. apply in_map_iff in Hl. destruct Hl as (k & <- & Hk).
  apply (In_nth _ _ 0) in Hk. destruct Hk as (i & Hi & <-). unfold readable, demapping, demapping_with. cbn [fst data map shape]. unfold np_take. cbn [map_res]. rewrite demap_level, (scale_all c f i F Hi).
  assert (G : np_get (map Z.of_nat (seq 0 (length (get_levels c)))) (Z.of_nat i) = Ok (Z.of_nat i)).
  { unfold np_get, np_index. rewrite map_length, seq_length. destruct (Z.leb_spec 0 (Z.of_nat i)); [|lia]. destruct (Z.ltb_spec (Z.of_nat i) (Z.of_nat (length (get_levels c)))); [|lia]. cbn [andb]. rewrite Nat2Z.id.
    rewrite nth_error_map, (nth_error_nth' _ 0%nat) by (rewrite seq_length; exact Hi). cbn [option_map]. now rewrite seq_nth. }
  rewrite G. cbn [bind]. eexists. reflexivity.
Qed.
