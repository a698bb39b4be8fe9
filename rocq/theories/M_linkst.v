(** Model of what a call of the example link leaves behind, whether it returns or raises, and of the records of a
    simulation: Transmitter.generate (example_simulation/simulation_parts/transmitter.py:92-113), Channel (simulation_parts/
    channel.py:35-54), Receiver (simulation_parts/receiver.py:155-265), FullLink.__call__ (simulation_parts/full_link.py:
    24-41), Memory (analyzer/analyzer_classes.py:4-37) and Simulation (simulation_parts/simulation.py:6-48).
    M_link.v and M_rxloop.v give the result of a call; here every attribute is assigned at its own line, so that the
    objects are known when an exception leaves the call.  The attributes ending in _last other than adc_out_last are
    never read and are left out; FullLink.chunk, ch_out and decoded_bits hold the same objects as Tx.mapped_prbs_chunk,
    Ch.ch_out and Rx.decoded_chunk after the first successful call and are left out.  The plots of
    simulation.py:39-48 are not modelled. *)
From Coq Require Import Reals String.
From Verif Require Import Py PyQ M_aux M_symbol M_slicer M_filter M_lms M_estim M_channel M_ctle M_sim M_simcheck M_rxloop M_link.
Import List ListNotations.
Open Scope Z_scope.

(** A statement: the objects afterwards and how it ended. *)
Definition fine {S} (s : S) : S * outcome unit := (s, Done (Ok tt)).
Definition raised {S} (s : S) (e : exn) : S * outcome unit := (s, Done (Raise e)).
Definition next {S} (p : S * outcome unit) (f : S -> S * outcome unit) : S * outcome unit :=
  match p with (s, Done (Ok _)) => f s | (s, o) => (s, o) end.
(** A group of lines that assigns only after everything that can raise. *)
Definition at_once {S} (f : S -> outcome S) (s : S) : S * outcome unit :=
  match f s with Done (Ok s') => fine s' | Done (Raise e) => raised s e | Unmodelled => (s, Unmodelled) end.

(** Assignments to single attributes of the receiver. *)
Definition set_adc_last (r : receiver) (v : list Qc) : receiver :=
  mk_rx (rx_adc r) (rx_eq r) (rx_gain r) (rx_constel r) (rx_levels r) (rx_cd r) (rx_adc_out r) v (rx_slicer_in r) (rx_slicer_out r)
     (rx_mse r) (rx_converge r) (rx_conv_lms r) (rx_conv_cdr r) (rx_done r) (rx_lr r) (rx_phase r) (rx_max_phase r).
Definition set_adc_out (r : receiver) (v : list Qc) : receiver :=
  mk_rx (rx_adc r) (rx_eq r) (rx_gain r) (rx_constel r) (rx_levels r) (rx_cd r) v (rx_adc_last r) (rx_slicer_in r) (rx_slicer_out r)
     (rx_mse r) (rx_converge r) (rx_conv_lms r) (rx_conv_cdr r) (rx_done r) (rx_lr r) (rx_phase r) (rx_max_phase r).
Definition set_eq (r : receiver) (e : eq_state) : receiver :=
  mk_rx (rx_adc r) e (rx_gain r) (rx_constel r) (rx_levels r) (rx_cd r) (rx_adc_out r) (rx_adc_last r) (rx_slicer_in r) (rx_slicer_out r)
     (rx_mse r) (rx_converge r) (rx_conv_lms r) (rx_conv_cdr r) (rx_done r) (rx_lr r) (rx_phase r) (rx_max_phase r).
Definition set_slicer_in (r : receiver) (v : list Qc) : receiver :=
  mk_rx (rx_adc r) (rx_eq r) (rx_gain r) (rx_constel r) (rx_levels r) (rx_cd r) (rx_adc_out r) (rx_adc_last r) v (rx_slicer_out r)
     (rx_mse r) (rx_converge r) (rx_conv_lms r) (rx_conv_cdr r) (rx_done r) (rx_lr r) (rx_phase r) (rx_max_phase r).
Definition set_slicer_out (r : receiver) (v : list Qc) : receiver :=
  mk_rx (rx_adc r) (rx_eq r) (rx_gain r) (rx_constel r) (rx_levels r) (rx_cd r) (rx_adc_out r) (rx_adc_last r) (rx_slicer_in r) v
     (rx_mse r) (rx_converge r) (rx_conv_lms r) (rx_conv_cdr r) (rx_done r) (rx_lr r) (rx_phase r) (rx_max_phase r).
Definition set_mse (r : receiver) (v : option Qc) : receiver :=
  mk_rx (rx_adc r) (rx_eq r) (rx_gain r) (rx_constel r) (rx_levels r) (rx_cd r) (rx_adc_out r) (rx_adc_last r) (rx_slicer_in r) (rx_slicer_out r)
     v (rx_converge r) (rx_conv_lms r) (rx_conv_cdr r) (rx_done r) (rx_lr r) (rx_phase r) (rx_max_phase r).
Definition set_conv_lms (r : receiver) (b : bool) : receiver :=
  mk_rx (rx_adc r) (rx_eq r) (rx_gain r) (rx_constel r) (rx_levels r) (rx_cd r) (rx_adc_out r) (rx_adc_last r) (rx_slicer_in r) (rx_slicer_out r)
     (rx_mse r) (rx_converge r) b (rx_conv_cdr r) (rx_done r) (rx_lr r) (rx_phase r) (rx_max_phase r).
(** The user may also switch the convergence off. *)
Definition set_converge (r : receiver) (b : bool) : receiver :=
  mk_rx (rx_adc r) (rx_eq r) (rx_gain r) (rx_constel r) (rx_levels r) (rx_cd r) (rx_adc_out r) (rx_adc_last r) (rx_slicer_in r) (rx_slicer_out r)
     (rx_mse r) b (rx_conv_lms r) (rx_conv_cdr r) (rx_done r) (rx_lr r) (rx_phase r) (rx_max_phase r).
Definition set_ffe_vec (e : eq_state) (v : list Qc) : eq_state := mk_eq (e_pre e) (e_post e) (e_dfe e) (e_levels e) v (e_dfe_vec e) (e_zi_ffe e) (e_zi_dfe e).
Definition set_dfe_vec (e : eq_state) (v : list Qc) : eq_state := mk_eq (e_pre e) (e_post e) (e_dfe e) (e_levels e) (e_ffe_vec e) v (e_zi_ffe e) (e_zi_dfe e).

(** receiver.py:204-205: the memories of the equaliser are unpacked from the result of ffe_dfe, after everything in it
    that can raise. *)
Definition decide (r : receiver) : receiver * outcome unit :=
  match eq_call (rx_eq r) (rx_adc_out r) with
  | Raise e => raised r e
  | Ok (y, e) =>
    let r := set_slicer_in (set_eq r e) (map (fun v => rx_gain r * v)%Qc y) in
    match slicer (Arr (vec (rx_slicer_in r))) (Some (rx_levels r)) with
    | Raise e => raised r e
    | Ok s => fine (set_slicer_out r (data s))
    end
  end.
(** receiver.py:238-249: the FFE taps are written before the DFE taps are. *)
Definition adapt (lms_grad : option lms_fun) (r : receiver) : receiver * outcome unit :=
  if rx_conv_lms r then
    match lms_grad with
    | None => raised r AttributeError
    | Some f =>
      let e := rx_eq r in
      match (ffe_idx <- arange (-1 * Z.of_nat (e_pre e)) (Z.of_nat (e_post e) + 1) 1 ;;
             dfe_idx <- arange 1 (Z.of_nat (e_dfe e) + 1) 1 ;;
             f (adc_vec r) (map (fun v => rx_gain r * v)%Qc (rx_slicer_in r)) (rx_levels r) ffe_idx dfe_idx) with
      | Raise x => raised r x
      | Ok (mse, gf, gd) =>
        match np_add (e_ffe_vec e) (map (fun v => ofZ (-1) * rx_lr r * v)%Qc gf) with
        | Raise x => raised r x
        | Ok fv =>
          let r := set_eq r (set_ffe_vec e fv) in
          match np_add (e_dfe_vec e) (map (fun v => ofZ (-1) * rx_lr r * v)%Qc gd) with
          | Raise x => raised r x
          | Ok dv =>
            let r := set_mse (set_eq r (set_dfe_vec (rx_eq r) dv)) mse in
            fine (if mse_moved mse (rx_mse r) then set_conv_lms r false else r)
          end
        end
      end
    end
  else fine r.
(** receiver.py:201-252 *)
Definition digital (lms_grad : option lms_fun) (r : receiver) : receiver * outcome unit :=
  next (decide r) (fun r =>
  if rx_converge r then
    next (at_once gain_stage r) (fun r => next (at_once cdr_stage r) (fun r => next (adapt lms_grad r) (fun r => fine (finish_stage r))))
  else fine r).
(** The receiver with what it holds of the last data. *)
Record rx_st := mk_rs { rs_rx : receiver ; rs_dem : list Z ; rs_dec : list Q }.
(** receiver.py:254-259 *)
Definition extract (s : rx_st) : rx_st * outcome unit :=
  let r := rs_rx s in
  match fst (demapping (rx_constel r) false (mk_nda [length (rx_slicer_out r)] (map this (rx_slicer_out r)))) with
  | Raise e => raised s e
  | Ok d =>
    let s := mk_rs r (data d) (rs_dec s) in
    match decoder (rx_cd r) (data d) with
    | Done (Ok b) => fine (mk_rs r (rs_dem s) b)
    | Done (Raise e) => raised s e
    | Unmodelled => (s, Unmodelled)
    end
  end.
(** receiver.py:199-200, 261-265, with the result of the ADC *)
Definition after_adc (lms_grad : option lms_fun) (samples : res (list Qc)) (s : rx_st) : rx_st * outcome unit :=
  match samples with
  | Raise e => raised s e
  | Ok v => let '(r, o) := digital lms_grad (set_adc_out (rs_rx s) v) in next (mk_rs r (rs_dem s) (rs_dec s), o) extract
  end.
(** receiver.py:196-199: the output of the last call is remembered first. *)
Definition remember (s : rx_st) : rx_st := mk_rs (set_adc_last (rs_rx s) (rx_adc_out (rs_rx s))) (rs_dem s) (rs_dec s).
(** receiver.py:261-265 from the output of the CTLE on, with exact samples *)
Definition rx_call (lms_grad : option lms_fun) (s : rx_st) (ctle_out : list Qc) : rx_st * outcome unit :=
  after_adc lms_grad (adc_call (rx_adc (rs_rx s)) ctle_out) (remember s).
(** receiver.py:155-176 *)
Definition rx_new (r : receiver) : rx_st := mk_rs r [0] [0%Q].

(** The link with what it holds of the last chunk. *)
Record link_st := mk_lst {
  z_gen : prbs_gen ; z_cd : coding_data ; z_md : mapping_data ; z_prbs : list Z ; z_enc : list Z ; z_map : list Qc ;
  z_ch : channel ; z_ch_out : list (option R) ; z_ctle : ctle_obj ; z_ctle_out : list R ; z_rx : rx_st }.
Definition set_tx (z : link_st) (g : prbs_gen) (p e : list Z) (m : list Qc) : link_st :=
  mk_lst g (z_cd z) (z_md z) p e m (z_ch z) (z_ch_out z) (z_ctle z) (z_ctle_out z) (z_rx z).
Definition set_ch (z : link_st) (c : channel) (out : list (option R)) : link_st :=
  mk_lst (z_gen z) (z_cd z) (z_md z) (z_prbs z) (z_enc z) (z_map z) c out (z_ctle z) (z_ctle_out z) (z_rx z).
Definition set_ctle (z : link_st) (c : ctle_obj) (out : list R) : link_st :=
  mk_lst (z_gen z) (z_cd z) (z_md z) (z_prbs z) (z_enc z) (z_map z) (z_ch z) (z_ch_out z) c out (z_rx z).
Definition set_rx (z : link_st) (r : rx_st) : link_st :=
  mk_lst (z_gen z) (z_cd z) (z_md z) (z_prbs z) (z_enc z) (z_map z) (z_ch z) (z_ch_out z) (z_ctle z) (z_ctle_out z) r.
(** full_link.py:6-16, transmitter.py:93-102, channel.py:18: the link just built. *)
Definition link_new (l : full_link) : link_st :=
  let n := pg_chunk (fl_gen l) in
  mk_lst (fl_gen l) (fl_cd l) (fl_md l) (repeat 0 n) (repeat 0 n) (repeat (ofZ 0) n) (fl_ch l) [] (fl_ctle l) [0%R] (rx_new (fl_rx l)).
(** transmitter.py:104-110 *)
Definition generate (z : link_st) : link_st * outcome unit :=
  match prbs_gen_next (z_gen z) with
  | (g, Raise e) => raised (set_tx z g (z_prbs z) (z_enc z) (z_map z)) e
  | (g, Ok p) =>
    let z := set_tx z g p (z_enc z) (z_map z) in
    match encoder (z_cd z) p with
    | Done (Raise e) => raised z e
    | Unmodelled => (z, Unmodelled)
    | Done (Ok s) =>
      let z := set_tx z (z_gen z) p s (z_map z) in
      match mapping Qcopp (map ofZ (get_levels (md_constel (z_md z)))) (Some (md_levels (z_md z))) false (vec s) with
      | Raise e => raised z e
      | Ok m => fine (set_tx z (z_gen z) p s (data m))
      end
    end
  end.
(** full_link.py:35, channel.py:35-54: an unknown type leaves ch_out alone and hands on None (not modelled). *)
Definition through_channel (normal : nat -> R) (z : link_st) : link_st * outcome unit :=
  match channel_call (z_ch z) (map Qc2R (z_map z)) normal with
  | (c, Raise e) => raised (set_ch z c (z_ch_out z)) e
  | (c, Ok None) => (set_ch z c (z_ch_out z), Unmodelled)
  | (c, Ok (Some out)) => fine (set_ch z c out)
  end.
(** full_link.py:38-41, receiver.py:195-199, 261-265 *)
Definition through_receiver (lms_grad : option lms_fun) (z : link_st) : link_st * outcome unit :=
  let z := set_rx z (remember (z_rx z)) in
  match all_numbers (z_ch_out z) with
  | None => (z, Unmodelled)
  | Some x =>
    match ctle_call (z_ctle z) x with
    | Raise e => raised z e
    | Ok None => (z, Unmodelled)
    | Ok (Some (c, y)) =>
      let z := set_ctle z c y in
      let '(s, o) := after_adc lms_grad (adc_callR (rx_adc (rs_rx (z_rx z))) y) (z_rx z) in (set_rx z s, o)
    end
  end.
(** full_link.py:31-41 *)
Definition link_call (lms_grad : option lms_fun) (z : link_st) (normal : nat -> R) : link_st * outcome unit :=
  next (generate z) (fun z => next (through_channel normal z) (through_receiver lms_grad)).

(** What a user does with a link: call it, start the convergence (full_link.py:24-29), switch it off (Rx.converge =
    False), give new taps (receiver.py:51-61).  Exceptions are caught; the draws of the k-th call are [normal k]. *)
Inductive deed := DCall | DStart | DStop | DFfe (v : list Qc) | DDfe (v : list Qc).
Definition on_rx (z : link_st) (f : receiver -> receiver) : link_st := set_rx z (mk_rs (f (rs_rx (z_rx z))) (rs_dem (z_rx z)) (rs_dec (z_rx z))).
Definition retune (f : eq_state -> res eq_state) (r : receiver) : receiver := match f (rx_eq r) with Ok e => set_eq r e | Raise _ => r end.
Definition deed_rx (d : deed) (r : receiver) : receiver :=
  match d with
  | DCall => r
  | DStart => start_convergence r
  | DStop => set_converge r false
  | DFfe v => retune (fun e => set_ffe e v) r
  | DDfe v => retune (fun e => set_dfe e v) r
  end.
(** The final objects, and the objects and the outcome after every call. *)
Fixpoint history (lms : option lms_fun) (z : link_st) (l : list deed) (normal : nat -> nat -> R) : link_st * list (link_st * outcome unit) :=
  match l with
  | [] => (z, [])
  | DCall :: l => let p := link_call lms z (normal 0%nat) in let q := history lms (fst p) l (fun i => normal (S i)) in (fst q, p :: snd q)
  | d :: l => history lms (on_rx z (deed_rx d)) l normal
  end.
(** The same of a receiver by itself, fed with CTLE outputs. *)
Inductive rx_deed := RCall (ctle_out : list Qc) | RDo (d : deed).
Fixpoint rx_history (lms : option lms_fun) (s : rx_st) (l : list rx_deed) : rx_st * list (rx_st * outcome unit) :=
  match l with
  | [] => (s, [])
  | RCall x :: l => let p := rx_call lms s x in let q := rx_history lms (fst p) l in (fst q, p :: snd q)
  | RDo d :: l => rx_history lms (mk_rs (deed_rx d (rs_rx s)) (rs_dem s) (rs_dec s)) l
  end.

(** analyzer_classes.py:4-37 *)
Record memory := mk_mem {
  m_prbs : list (list Z) ; m_enc : list (list Z) ; m_map : list (list Qc) ; m_ch_out : list (list (option R)) ; m_ctle_out : list (list R) ;
  m_adc_out : list (list Qc) ; m_slicer_in : list (list Qc) ; m_slicer_out : list (list Qc) ; m_dem : list (list Z) ; m_dec : list (list Q) ;
  m_phase : list Z ; m_mse : list (option Qc) ; m_ffe : list (list Qc) ; m_dfe : list (list Qc) }.
Definition mem_empty : memory := mk_mem [] [] [] [] [] [] [] [] [] [] [] [] [] [].
(** simulation.py:12-27 *)
Definition gather (z : link_st) (m : memory) : memory :=
  let r := rs_rx (z_rx z) in
  mk_mem (m_prbs m ++ [z_prbs z]) (m_enc m ++ [z_enc z]) (m_map m ++ [z_map z]) (m_ch_out m ++ [z_ch_out z]) (m_ctle_out m ++ [z_ctle_out z])
    (m_adc_out m ++ [rx_adc_out r]) (m_slicer_in m ++ [rx_slicer_in r]) (m_slicer_out m ++ [rx_slicer_out r]) (m_dem m ++ [rs_dem (z_rx z)]) (m_dec m ++ [rs_dec (z_rx z)])
    (m_phase m ++ [rx_phase r]) (m_mse m ++ [rx_mse r]) (m_ffe m ++ [e_ffe_vec (rx_eq r)]) (m_dfe m ++ [e_dfe_vec (rx_eq r)]).
(** How perform_convergence ends: it returns, or an exception leaves it, or it is still running after the turns looked at. *)
Inductive ending := Returned | Left (e : exn) | StillRunning | NotModelled.
Fixpoint sim_loop (lms : option lms_fun) (k : nat) (z : link_st) (m : memory) (normal : nat -> nat -> R) : link_st * memory * ending :=
  if rx_done (rs_rx (z_rx z)) then (z, m, Returned) else
  match k with
  | O => (z, m, StillRunning)
  | S k => match link_call lms z (normal 0%nat) with
           | (z, Done (Ok _)) => sim_loop lms k z (gather z m) (fun i => normal (S i))
           | (z, Done (Raise e)) => (z, m, Left e)
           | (z, Unmodelled) => (z, m, NotModelled)
           end
  end.
(** simulation.py:29-38 *)
Definition sim_converge (lms : option lms_fun) (k : nat) (z : link_st) (m : memory) (normal : nat -> nat -> R) : link_st * memory * ending :=
  match link_call lms z (normal 0%nat) with
  | (z, Done (Ok _)) => sim_loop lms k (on_rx z start_convergence) mem_empty (fun i => normal (S i))
  | (z, Done (Raise e)) => (z, m, Left e)
  | (z, Unmodelled) => (z, m, NotModelled)
  end.
