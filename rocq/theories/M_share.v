(** Model of the tap arrays that the settings object, the caller and every receiver of the example link share:
    FfeDfeData (example_simulation/simulation_parts/data_objects.py:90-132), FfeDfe.__init__, set_ffe and set_dfe
    (simulation_parts/receiver.py:37-61), Receiver.__init__ and the in-place update of the taps (receiver.py:155-193,
    238-249).  M_rxloop.v copies the taps into the receiver; here they are objects in a store and the settings, the
    receivers and the caller hold references to them.  The taps are the only arrays of the settings that any method
    writes into: memories, phases and chunks are rebound to new objects (receiver.py:16-20, 63-83, 195-259), and the
    encoder copies the pattern (transmitter.py:49).  A call that raises ends the script; an unknown object is a KeyError. *)
From Coq Require Import String.
From Verif Require Import Py PyQ M_aux M_symbol M_slicer M_filter M_lms M_estim M_sim M_rxloop.
Import List.
Open Scope Z_scope.

(** What the caller can pass as taps: a numpy array of floats or of integers, a list (or tuple). *)
Inductive akind := KFloat | KInt | KList.
Record cell := mk_cell { c_kind : akind ; c_vals : list Qc }.
(** The store; references are positions, a new object takes the next one. *)
Definition heap := list cell.
Definition hget (h : heap) (p : nat) : list Qc := match nth_error h p with Some c => c_vals c | None => [] end.
Fixpoint hset (h : heap) (p : nat) (c : cell) : heap :=
  match h, p with [], _ => [] | _ :: h, O => c :: h | x :: h, S p => x :: hset h p c end.
(** [x += d] for the float array [d] of receiver.py:242-243: a float array is overwritten; adding floats to an integer array in place
    is refused (UFuncTypeError, a TypeError); a list has no in-place addition with an array and the name is bound to the
    new array of the sum.  The result is the store and the object the name is bound to afterwards. *)
Definition iadd (h : heap) (p : nat) (d : list Qc) : res (heap * nat) :=
  match nth_error h p with
  | None => Raise KeyError
  | Some c =>
    match c_kind c with
    | KInt => Raise TypeError
    | KFloat => s <- np_add (c_vals c) d ;; Ok (hset h p (mk_cell KFloat s), p)
    | KList => s <- np_add (c_vals c) d ;; Ok (h ++ [mk_cell KFloat s], length h)
    end
  end.

(** A receiver object: its own state, and the tap objects it holds.  The taps inside [ro_rx] are never read. *)
Record rx_obj := mk_ro { ro_rx : receiver ; ro_ffe : nat ; ro_dfe : nat }.
Definition with_taps (r : receiver) (fv dv : list Qc) : receiver :=
  let e := rx_eq r in
  mk_rx (rx_adc r) (mk_eq (e_pre e) (e_post e) (e_dfe e) (e_levels e) fv dv (e_zi_ffe e) (e_zi_dfe e)) (rx_gain r) (rx_constel r) (rx_levels r) (rx_cd r)
    (rx_adc_out r) (rx_adc_last r) (rx_slicer_in r) (rx_slicer_out r) (rx_mse r) (rx_converge r) (rx_conv_lms r) (rx_conv_cdr r) (rx_done r) (rx_lr r) (rx_phase r) (rx_max_phase r).
(** The receiver with the taps it sees now. *)
Definition view (h : heap) (o : rx_obj) : receiver := with_taps (ro_rx o) (hget h (ro_ffe o)) (hget h (ro_dfe o)).

(** The settings a receiver is built from: data_objects.py:90-132 for the equaliser; the others are never written. *)
Record settings := mk_st {
  st_osr : Z ; st_adc : adc_state ; st_eq : eq_state ; st_ffe : nat ; st_dfe : nat ; st_md : mapping_data ; st_cd : coding_data ; st_lr : Qc ; st_gain : Qc }.
(** data_objects.py:90-132: taps given by the caller are kept as they are, not copied; None makes new float arrays. *)
Definition eq_settings (h : heap) (pre post dfe : nat) (ffe_vec dfe_vec : option nat) (levels zi_ffe zi_dfe : option (list Qc)) : res (heap * eq_state * nat * nat) :=
  e <- eq_init pre post dfe (option_map (hget h) ffe_vec) (option_map (hget h) dfe_vec) levels zi_ffe zi_dfe ;;
  let '(h1, p) := match ffe_vec with Some p => (h, p) | None => (h ++ [mk_cell KFloat (e_ffe_vec e)], length h) end in
  let '(h2, q) := match dfe_vec with Some q => (h1, q) | None => (h1 ++ [mk_cell KFloat (e_dfe_vec e)], length h1) end in
  Ok (h2, e, p, q).
(** receiver.py:38-49, 155-193: the receiver keeps the objects of the settings. *)
Definition new_receiver (s : settings) : rx_obj :=
  mk_ro (receiver_init (st_osr s) (st_adc s) (st_eq s) (st_md s) (st_cd s) (st_lr s) (st_gain s)) (st_ffe s) (st_dfe s).

(** receiver.py:238-249 on the store: [r] is the receiver of this call. *)
Definition share_lms (lms_grad : option lms_fun) (h : heap) (p q : nat) (r : receiver) : res (heap * nat * nat * receiver) :=
  if rx_conv_lms r then
    match lms_grad with
    | None => Raise AttributeError
    | Some f =>
      let e := rx_eq r in
      ffe_idx <- arange (-1 * Z.of_nat (e_pre e)) (Z.of_nat (e_post e) + 1) 1 ;;
      dfe_idx <- arange 1 (Z.of_nat (e_dfe e) + 1) 1 ;;
      g <- f (adc_vec r) (map (fun v => rx_gain r * v)%Qc (rx_slicer_in r)) (rx_levels r) ffe_idx dfe_idx ;;
      let '(mse, gf, gd) := g in
      a <- iadd h p (map (fun v => ofZ (-1) * rx_lr r * v)%Qc gf) ;;
      b <- iadd (fst a) q (map (fun v => ofZ (-1) * rx_lr r * v)%Qc gd) ;;
      let last := mse in
      Ok (fst b, snd a, snd b,
          mk_rx (rx_adc r) e (rx_gain r) (rx_constel r) (rx_levels r) (rx_cd r)
            (rx_adc_out r) (rx_adc_last r) (rx_slicer_in r) (rx_slicer_out r) last (rx_converge r)
            (if mse_moved mse last then false else rx_conv_lms r) (rx_conv_cdr r) (rx_done r) (rx_lr r) (rx_phase r) (rx_max_phase r))
    end
  else Ok (h, p, q, r).
(** receiver.py:201-252 *)
Definition share_digital (lms_grad : option lms_fun) (h : heap) (p q : nat) (r : receiver) : outcome (heap * nat * nat * receiver) :=
  obind (Done (slice_stage r)) (fun r =>
  if rx_converge r then
    obind (gain_stage r) (fun r => obind (cdr_stage r) (fun r => obind (Done (share_lms lms_grad h p q r)) (fun x =>
    let '(h, p, q, r) := x in Done (Ok (h, p, q, finish_stage r)))))
  else Done (Ok (h, p, q, r))).
(** receiver.py:261-265 *)
Definition share_receive (lms_grad : option lms_fun) (h : heap) (o : rx_obj) (ctle_out : list Qc) : outcome (heap * rx_obj * list Q) :=
  obind (Done (input_stage (view h o) ctle_out)) (fun r =>
  obind (share_digital lms_grad h (ro_ffe o) (ro_dfe o) r) (fun x =>
  let '(h, p, q, r) := x in obind (extract_data r) (fun d => Done (Ok (h, mk_ro r p q, d))))).

(** A script: receivers built from the settings and calls on them, in any order.  receiver.py:51-61: set_ffe and set_dfe
    keep the caller's object. *)
Inductive cmd :=
| New (s : nat)
| Call (i : nat) (ctle_out : list Qc)
| Start (i : nat)
| SetFfe (i : nat) (p : nat)
| SetDfe (i : nat) (p : nat).
Record world := mk_world { w_heap : heap ; w_settings : list settings ; w_objs : list rx_obj }.
Fixpoint replace {A} (l : list A) (i : nat) (x : A) : list A :=
  match l, i with [], _ => [] | _ :: l, O => x :: l | y :: l, S i => y :: replace l i x end.
(** One command: the new world, and the bits if it was a call. *)
Definition exec (f : option lms_fun) (w : world) (c : cmd) : outcome (world * option (nat * list Q)) :=
  match c with
  | New s => match nth_error (w_settings w) s with
             | None => Done (Raise KeyError)
             | Some s => Done (Ok (mk_world (w_heap w) (w_settings w) (w_objs w ++ [new_receiver s]), None))
             end
  | Call i x => match nth_error (w_objs w) i with
                | None => Done (Raise KeyError)
                | Some o => obind (share_receive f (w_heap w) o x) (fun y =>
                            let '(h, o, d) := y in Done (Ok (mk_world h (w_settings w) (replace (w_objs w) i o), Some (i, d))))
                end
  | Start i => match nth_error (w_objs w) i with
               | None => Done (Raise KeyError)
               | Some o => Done (Ok (mk_world (w_heap w) (w_settings w) (replace (w_objs w) i (mk_ro (start_convergence (ro_rx o)) (ro_ffe o) (ro_dfe o))), None))
               end
  | SetFfe i p => match nth_error (w_objs w) i, nth_error (w_heap w) p with
                  | Some o, Some _ =>
                    Done (_ <- set_ffe (rx_eq (view (w_heap w) o)) (hget (w_heap w) p) ;;
                          Ok (mk_world (w_heap w) (w_settings w) (replace (w_objs w) i (mk_ro (ro_rx o) p (ro_dfe o))), None))
                  | _, _ => Done (Raise KeyError)
                  end
  | SetDfe i p => match nth_error (w_objs w) i, nth_error (w_heap w) p with
                  | Some o, Some _ =>
                    Done (_ <- set_dfe (rx_eq (view (w_heap w) o)) (hget (w_heap w) p) ;;
                          Ok (mk_world (w_heap w) (w_settings w) (replace (w_objs w) i (mk_ro (ro_rx o) (ro_ffe o) p)), None))
                  | _, _ => Done (Raise KeyError)
                  end
  end.
Definition opt_list {A} (o : option A) : list A := match o with Some x => [x] | None => [] end.
Fixpoint exec_all (f : option lms_fun) (w : world) (script : list cmd) : outcome (world * list (nat * list Q)) :=
  match script with
  | [] => Done (Ok (w, []))
  | c :: l => obind (exec f w c) (fun x => let '(w1, o) := x in
              obind (exec_all f w1 l) (fun y => let '(w2, os) := y in Done (Ok (w2, opt_list o ++ os))))
  end.
