(** C82: links with consistent settings never raise, and what that means for the shipped example. *)
From Coq Require Import Reals String Lia Lra QArith Qcanon.
From Verif Require Import Py PyQ B_list M_aux M_symbol M_linear M_conv S_conv M_prbs M_sim S_sim S_coded P_coded M_simcheck M_rxloop S_rxparts P_rxparts M_ctle S_ctle M_link S_link P_full M_linkst S_linkst S_works P_works P_hears P_shipped Prop_conv Prop_sim.
Import List ListNotations.
Open Scope Z_scope.

(** One call: it returns, and the link stays consistent. *)
Theorem C82_call : forall lms z normal nb N o s, consistent z nb N o s ->
  let p := link_call lms z normal in returns p /\ consistent (fst p) nb N o s /\ filled (fst p) nb N o.
Proof. intros lms z normal nb N o s C. destruct (works_call lms z normal nb N o s C) as (R & K & F & _). auto. Qed.
Print Assumptions C82_call.

(** Any history of calls, new taps and switching the convergence off. *)
Theorem C82_history : forall lms nb N o s l z normal, Forall does_not_start l -> consistent z nb N o s ->
  let h := history lms z l normal in
  consistent (fst h) nb N o s /\ length (snd h) = calls l /\ Forall (fun p => returns p /\ filled (fst p) nb N o /\ same_levels z (fst p)) (snd h).
Proof. exact works_history. Qed.
Print Assumptions C82_history.

(** Settings that give a consistent link. *)
Theorem C82_settings : forall t seed cd md pulse ty fir rolloff snr ct a e nb N o s, sound_settings t seed cd md pulse ty fir rolloff snr ct a e nb N o s ->
  exists l, full_link_init (prbs_data_init t nb seed) cd md (channel_data_init pulse (Z.of_nat s) ty fir None rolloff (Z.of_nat o) snr None None) ct a e = Ok l /\ consistent (link_new l) nb N o s.
Proof. intros t seed cd md pulse ty fir rolloff snr ct a e nb N o s S. destruct (settings_consistent _ _ _ _ _ _ _ _ _ _ _ _ _ _ _ _ S) as (l & E & C & _). eauto. Qed.
Print Assumptions C82_settings.

(** Codes whose decoder returns for every chunk of symbols. *)
Theorem C82_codes : forall cd c k N, (1 <= N)%nat -> symbol_stage cd c k N -> binary_stage cd (N * k) -> hears cd c N.
Proof. exact hears_all. Qed.
Print Assumptions C82_codes.
(** A convolutional code, with or without the codes on symbols, carries whole numbers of codewords. *)
Theorem C82_conv_carries : forall cd c k N g T, symbol_stage cd c k N -> binary_codes cd = codes [6%nat] -> gmat cd = GDict g -> code_shape g -> check_valid_conv [] g = Ok tt -> (1 <= T)%nat ->
  (N * k = T * n_out g)%nat -> carries cd c (T * length (gen g)) N.
Proof. exact conv_carries. Qed.
Print Assumptions C82_conv_carries.
(** Receiver factors with which every level is read as its own symbol. *)
Theorem C82_levels : forall c amp f m, amp <> ofZ 0 -> scale_fits c f -> mapping_data_init c (map ofZ (get_levels c)) amp f = Done (Ok m) ->
  md_constel m = c /\ length (md_levels m) = length (get_levels c) /\ Forall (readable c) (rx_level_vec m).
Proof. intros c amp f m A. apply fits_readable. exact A. Qed.
Print Assumptions C82_levels.

(** The shipped link, whatever the channel's coefficients, the noise, the gradient function and the history. *)
Theorem C82_shipped : forall fir, fir <> [] -> exists l, shipped_link fir = Done (Ok l) /\
  forall lms ds normal, Forall does_not_start ds ->
  let h := history lms (link_new l) ds normal in length (snd h) = calls ds /\ Forall (fun p => returns p /\ filled (fst p) 64 64 64) (snd h).
Proof.
  intros fir NF. destruct (shipped_consistent fir NF) as (l & E & C & _). exists l. split; [exact E|]. intros lms ds normal D. destruct (works_history lms 64 64 64 8 ds (link_new l) normal D C) as (_ & L & F).
  split; [exact L|]. eapply Forall_impl; [|exact F]. intros p (A & B & _). auto.
Qed.
Print Assumptions C82_shipped.

(** (Finding.) perform_convergence never gets past its first turn on a link without a gradient function, which is how the
    example builds every receiver: whatever the consistent settings, the channel and the noise, it raises AttributeError
    with nothing recorded. *)
Theorem C82_converge_refuted : forall k z m normal nb N o s, consistent z nb N o s -> (2 <= N)%nat -> (e_pre (rx_eq (rs_rx (z_rx z))) <= N)%nat ->
  rx_done (rs_rx (z_rx z)) = false -> rx_max_phase (rs_rx (z_rx z)) <> 0 -> exists z', sim_converge None (S k) z m normal = (z', mem_empty, Left AttributeError).
Proof. exact works_converge. Qed.
Print Assumptions C82_converge_refuted.

(** (Finding.) So does the simulation shipped with the package, for every channel and every noise. *)
Theorem C82_shipped_converge_refuted : forall fir k m normal, fir <> [] -> exists l z', shipped_link fir = Done (Ok l) /\ sim_converge None (S k) (link_new l) m normal = (z', mem_empty, Left AttributeError).
Proof.
  intros fir k m normal NF. destruct (shipped_consistent fir NF) as (l & E & C & _ & _ & P & D & M & _). exists l.
  destruct (works_converge k (link_new l) m normal 64 64 64 8 C) as (z' & K); [lia|unfold link_new, rx_new; cbn [z_rx rs_rx]; rewrite P; lia|exact D|unfold link_new, rx_new; cbn [z_rx rs_rx]; rewrite M; discriminate|]. exists z'. auto.
Qed.
Print Assumptions C82_shipped_converge_refuted.

(** (Finding.) The receiver factor 0.75 of the shipped settings puts all four slicer levels next to the two inner levels of
    the demapping: whatever the channel, the noise and the taps, the decoder of the shipped link only ever gets the
    symbols 1 and 2. *)
Theorem C82_shipped_symbols_refuted : forall fir, fir <> [] -> exists l, shipped_link fir = Done (Ok l) /\
  forall lms ds normal, Forall does_not_start ds -> Forall (fun p => Forall (fun v => v = 1 \/ v = 2) (rs_dem (z_rx (fst p)))) (snd (history lms (link_new l) ds normal)).
Proof.
  intros fir NF. destruct (shipped_consistent fir NF) as (l & E & C & K & V & _). exists l. split; [exact E|]. intros lms ds normal D. destruct (works_history lms 64 64 64 8 ds (link_new l) normal D C) as (_ & _ & F).
  eapply Forall_impl; [|exact F]. intros p (_ & Fp & L1 & L2). destruct Fp as (_ & _ & _ & _ & _ & _ & _ & _ & _ & _ & Rp). eapply Forall_impl; [|exact Rp]. intros v. apply inner_only; [rewrite L2; exact K|rewrite L1; exact V].
Qed.
Print Assumptions C82_shipped_symbols_refuted.

(** (Finding.) Already the first chunk of the shipped link cannot arrive: the transmitter sends outer symbols, and whatever
    the channel and the noise the symbols of the receiver differ from those sent. *)
Theorem C82_shipped_first_refuted : forall fir, fir <> [] -> exists l, shipped_link fir = Done (Ok l) /\
  forall lms normal, let z := fst (link_call lms (link_new l) normal) in In 3 (z_enc z) /\ ~ In 3 (rs_dem (z_rx z)).
Proof.
  intros fir NF. destruct (shipped_consistent fir NF) as (l & E & C & K & V & _ & _ & _ & G & CD). exists l. split; [exact E|]. intros lms normal. cbv zeta. split.
  - destruct shipped_first as (g & p & en & E1 & E2 & E3). rewrite (first_symbols lms (link_new l) normal g p en); [|unfold link_new; cbn [z_gen]; rewrite G; exact E1|unfold link_new; cbn [z_cd]; rewrite CD; exact E2].
    apply existsb_exists in E3. destruct E3 as (v & I & Ev). apply Z.eqb_eq in Ev. now subst v.
  - destruct (works_call lms (link_new l) normal 64 64 64 8 C) as (_ & _ & F & _ & L1 & L2 & _). destruct F as (_ & _ & _ & _ & _ & _ & _ & _ & _ & _ & Rp). intros I. rewrite Forall_forall in Rp. apply Rp, inner_only in I; [lia|rewrite L2; exact K|rewrite L1; exact V].
Qed.
Print Assumptions C82_shipped_first_refuted.

(** *** Cases *)
(** The shipped settings are sound for every channel, e.g. one with a precursor; the history has calls and new taps. *)
Example C82_case : exists l, shipped_link [1 / 50; 15 / 100; 1 / 25]%R = Done (Ok l) /\ consistent (link_new l) 64 64 64 8 /\ Forall does_not_start [DCall; DDfe [ofZ 1]; DCall; DStop; DCall] /\
  calls [DCall; DDfe [ofZ 1]; DCall; DStop; DCall] = 3%nat /\ (2 <= 64)%nat /\ e_pre (rx_eq (fl_rx l)) = 4%nat /\ rx_done (fl_rx l) = false /\ rx_max_phase (fl_rx l) <> 0.
Proof.
  destruct (shipped_consistent [1 / 50; 15 / 100; 1 / 25]%R) as (l & E & C & _ & _ & P & D & M & _); [discriminate|]. exists l. split; [exact E|]. split; [exact C|]. split; [repeat constructor; discriminate|]. split; [reflexivity|]. split; [lia|]. split; [exact P|]. split; [exact D|]. rewrite M. discriminate.
Qed.
Example C82_case_settings : exists md e, sound_settings PRBS13 None (shipped true) md "rcos" "isi_awgn" (Some [1 / 50; 15 / 100; 1 / 25]%R) (35 / 100)%R (Some 10%R) shipped_ctle shipped_adc e 64 64 64 8.
Proof. destruct (shipped_sound [1 / 50; 15 / 100; 1 / 25]%R) as (md & e & _ & _ & _ & _ & _ & S); [discriminate|]. exists md, e. exact S. Qed.
(** PAM4 with gray and differential coding on symbols and a differential code on bits. *)
Example C82_case_codes : let cd := setting PAM4 2 noflags true true [0%nat] 64 GNone in symbol_stage cd PAM4 2 8 /\ binary_stage cd (8 * 2).
Proof. cbv zeta. split; [split; [lia|]; split; [reflexivity|]; split; [reflexivity|]; split; [right; left; discriminate|intros _; reflexivity]|right; left; split; [reflexivity|lia]]. Qed.
Example C82_case_conv : symbol_stage (shipped true) PAM4 2 64 /\ binary_codes (shipped true) = codes [6%nat] /\ code_shape code_rsc /\ check_valid_conv [] code_rsc = Ok tt /\ (64 * 2 = 64 * n_out code_rsc)%nat.
Proof. destruct shipped_stage as (S & _). split; [exact S|]. split; [reflexivity|]. destruct C22_case as (CS & _). split; [exact CS|]. split; reflexivity. Qed.
Example C82_case_levels : scale_fits PAM4 (ofZ 3) /\ exists m, mapping_data_init PAM4 (map ofZ (get_levels PAM4)) (ofZ 750) (ofZ 3) = Done (Ok m).
Proof. split; [vm_compute; split; discriminate || reflexivity|eexists; vm_compute; reflexivity]. Qed.
