(** Vocabulary for the statements about calls of the example link that may raise. *)
From Coq Require Import Reals String.
From Verif Require Import Py PyQ M_aux M_symbol M_slicer M_channel M_ctle M_sim M_simcheck M_rxloop M_link S_link M_linkst.
Import List ListNotations.
Open Scope Z_scope.

(** What a call hands out: [f] of the objects it leaves if it returns, otherwise its exception. *)
Definition handed {S A} (f : S -> A) (p : S * outcome unit) : outcome A :=
  match snd p with Done (Ok _) => Done (Ok (f (fst p))) | Done (Raise e) => Done (Raise e) | Unmodelled => Unmodelled end.
Definition returns {S} (p : S * outcome unit) : Prop := snd p = Done (Ok tt).
(** The link of M_link.v inside. *)
Definition link_of (z : link_st) : full_link := mk_link (z_gen z) (z_cd z) (z_md z) (z_ch z) (z_ctle z) (rs_rx (z_rx z)).
Definition the_bits (z : link_st) : list Q := rs_dec (z_rx z).
(** The number of calls in a list of deeds. *)
Definition calls (l : list deed) : nat := length (filter (fun d => match d with DCall => true | _ => false end) l).
(** Calls, and the convergence switched off again. *)
Definition only_listens (d : deed) : Prop := d = DCall \/ d = DStop.
(** The chunks [cs] equalised one after the other, chunk by chunk. *)
Fixpoint equalised (e : eq_state) (cs : list (list Qc)) : res (list (list Qc) * eq_state) :=
  match cs with
  | [] => Ok ([], e)
  | c :: cs => r <- eq_call e c ;; w <- equalised (snd r) cs ;; Ok (fst r :: fst w, snd w)
  end.
(** What the receiver makes of one equalised chunk: amplified, sliced, demapped, decoded. *)
Definition understood (r : receiver) (y : list Qc) : outcome (list Q) :=
  obind (Done (slicer (Arr (vec (map (fun v => rx_gain r * v)%Qc y))) (Some (rx_levels r)))) (fun s =>
  obind (Done (fst (demapping (rx_constel r) false (mk_nda [length (data s)] (map this (data s)))))) (fun d => decoder (rx_cd r) (data d))).
(** The parts of the receiver that only the adaptation changes. *)
Definition taps (r : receiver) : list Qc * list Qc := (e_ffe_vec (rx_eq r), e_dfe_vec (rx_eq r)).
(** The records of a simulation are those of the links [zs], one entry each. *)
Definition records (m : memory) (zs : list link_st) : Prop :=
  let rx z := rs_rx (z_rx z) in
  m_prbs m = map z_prbs zs /\ m_enc m = map z_enc zs /\ m_map m = map z_map zs /\ m_ch_out m = map z_ch_out zs /\ m_ctle_out m = map z_ctle_out zs /\
  m_adc_out m = map (fun z => rx_adc_out (rx z)) zs /\ m_slicer_in m = map (fun z => rx_slicer_in (rx z)) zs /\ m_slicer_out m = map (fun z => rx_slicer_out (rx z)) zs /\
  m_dem m = map (fun z => rs_dem (z_rx z)) zs /\ m_dec m = map the_bits zs /\
  m_phase m = map (fun z => rx_phase (rx z)) zs /\ m_mse m = map (fun z => rx_mse (rx z)) zs /\
  m_ffe m = map (fun z => fst (taps (rx z))) zs /\ m_dfe m = map (fun z => snd (taps (rx z))) zs.
(** Both parts of the convergence that need a gradient are on. *)
Definition adapting (r : receiver) : Prop := rx_converge r = true /\ rx_conv_lms r = true.
(** The same receiver, not converging. *)
Definition idle (r : receiver) (lms cdr : bool) : receiver :=
  mk_rx (rx_adc r) (rx_eq r) (rx_gain r) (rx_constel r) (rx_levels r) (rx_cd r) (rx_adc_out r) (rx_adc_last r) (rx_slicer_in r) (rx_slicer_out r)
     (rx_mse r) false lms cdr (rx_done r) (rx_lr r) (rx_phase r) (rx_max_phase r).
Definition quieted (s : rx_st) (lms cdr : bool) : rx_st := mk_rs (idle (rs_rx s) lms cdr) (rs_dem s) (rs_dec s).
(** The conditions under which nothing before the gradient function stops the call of [r], read off the receiver [q]
    after the call without convergence. *)
Definition nothing_else (r q : receiver) : Prop :=
  rx_levels r <> [] /\ rx_slicer_in q <> [] /\
  (rx_conv_cdr r = true -> rx_max_phase r <> 0 /\ (2 <= length (rx_slicer_out q))%nat /\ length (rx_slicer_out q) = length (rx_adc_out q) /\
    (e_pre (rx_eq r) <= length (rx_adc_out r))%nat /\ (e_pre (rx_eq r) <= length (rx_adc_out q))%nat).
(** What no call changes, and what no call changes as long as it does not return. *)
Definition settings (r : receiver) := (rx_levels r, rx_constel r, rx_cd r, rx_lr r, rx_max_phase r).
Definition kept (r : receiver) := (taps r, rx_mse r, rx_done r, settings r).
(** The call that ended the simulation, if one did. *)
Definition cut_off (z : link_st) (e : ending) : list (link_st * outcome unit) :=
  match e with Left x => [(z, Done (Raise x))] | NotModelled => [(z, Unmodelled)] | _ => [] end.
(** What a user can do to a receiver [r] between calls without effect: switching off a convergence that is off, and taps
    of the wrong number. *)
Definition harmless (r : receiver) (d : deed) : Prop :=
  (d = DStop /\ rx_converge r = false) \/ (exists v, d = DFfe v /\ length v <> length (e_ffe_vec (rx_eq r))) \/ (exists v, d = DDfe v /\ length v <> e_dfe (rx_eq r)).
