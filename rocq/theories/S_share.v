(** Vocabulary for the statements about receivers that share their taps. *)
From Verif Require Import Py PyQ M_aux M_lms M_sim M_rxloop M_share.
Import List ListNotations.
Open Scope Z_scope.

(** What happens to one receiver, by itself (M_rxloop.v: the taps are values). *)
Inductive own := OCall (ctle_out : list Qc) | OStart | OFfe (v : list Qc) | ODfe (v : list Qc).
Definition with_eq (r : receiver) (e : eq_state) : receiver :=
  mk_rx (rx_adc r) e (rx_gain r) (rx_constel r) (rx_levels r) (rx_cd r) (rx_adc_out r) (rx_adc_last r) (rx_slicer_in r) (rx_slicer_out r)
    (rx_mse r) (rx_converge r) (rx_conv_lms r) (rx_conv_cdr r) (rx_done r) (rx_lr r) (rx_phase r) (rx_max_phase r).
Fixpoint alone (f : option lms_fun) (r : receiver) (l : list own) : outcome (receiver * list (list Q)) :=
  match l with
  | [] => Done (Ok (r, []))
  | OCall x :: l => obind (receive f r x) (fun y => obind (alone f (fst y) l) (fun z => Done (Ok (fst z, snd y :: snd z))))
  | OStart :: l => alone f (start_convergence r) l
  | OFfe v :: l => obind (Done (set_ffe (rx_eq r) v)) (fun e => alone f (with_eq r e) l)
  | ODfe v :: l => obind (Done (set_dfe (rx_eq r) v)) (fun e => alone f (with_eq r e) l)
  end.
(** The commands of a script that concern receiver [i], with the taps the objects in [h] stand for. *)
Definition concerns (h : heap) (i : nat) (c : cmd) : list own :=
  match c with
  | New _ => []
  | Call j x => if (j =? i)%nat then [OCall x] else []
  | Start j => if (j =? i)%nat then [OStart] else []
  | SetFfe j p => if (j =? i)%nat then [OFfe (hget h p)] else []
  | SetDfe j p => if (j =? i)%nat then [ODfe (hget h p)] else []
  end.
Definition own_part (h : heap) (i : nat) (script : list cmd) : list own := flat_map (concerns h i) script.
Definition bits_of (i : nat) (outs : list (nat * list Q)) : list (list Q) := flat_map (fun o => if (fst o =? i)%nat then [snd o] else []) outs.
Definition news (script : list cmd) : nat := length (filter (fun c => match c with New _ => true | _ => false end) script).

(** No call of the script reaches an update of the taps: there is no gradient function, or nobody ever starts converging. *)
Definition never_adapts (f : option lms_fun) (w : world) (script : list cmd) : Prop :=
  f = None \/ (Forall (fun o => rx_converge (ro_rx o) = false) (w_objs w) /\ Forall (fun c => match c with Start _ => False | _ => True end) script).
(** The objects a command binds a receiver to. *)
Definition binds (ss : list settings) (c : cmd) : list nat :=
  match c with
  | New s => match nth_error ss s with Some s => [st_ffe s; st_dfe s] | None => [] end
  | SetFfe _ p | SetDfe _ p => [p]
  | _ => []
  end.
(** Every object the world and the script speak of exists. *)
Definition sound (w : world) (script : list cmd) : Prop :=
  Forall (fun o => (ro_ffe o < length (w_heap w))%nat /\ (ro_dfe o < length (w_heap w))%nat) (w_objs w) /\
  Forall (fun c => Forall (fun p => (p < length (w_heap w))%nat) (binds (w_settings w) c)) script.
(** The script does not give receiver [i] other taps. *)
Definition keeps_taps (i : nat) (c : cmd) : Prop := match c with SetFfe j _ | SetDfe j _ => j <> i | _ => True end.
(** Nobody but receiver [i] holds the object [p], now or later in the script. *)
Definition nobody_else (w : world) (script : list cmd) (i p : nat) : Prop :=
  (forall j o, j <> i -> nth_error (w_objs w) j = Some o -> ro_ffe o <> p /\ ro_dfe o <> p) /\
  Forall (fun c => ~ In p (binds (w_settings w) c)) script.
(** Taps that are a list, or a float array that nobody else holds. *)
Definition private (w : world) (script : list cmd) (i p : nat) : Prop :=
  exists c, nth_error (w_heap w) p = Some c /\ (c_kind c = KList \/ (c_kind c = KFloat /\ nobody_else w script i p)).
Definition private_taps (w : world) (script : list cmd) (i : nat) (o : rx_obj) : Prop :=
  private w script i (ro_ffe o) /\ private w script i (ro_dfe o) /\
  (ro_ffe o <> ro_dfe o \/ exists v, nth_error (w_heap w) (ro_ffe o) = Some (mk_cell KList v)).

(** The gradient function the receiver evidently means, ddlms_grad (CommDspy/rx/least_mean_squares.py:4-68), with its
    three results; a nan is left out. *)
Definition intended_lms : lms_fun := fun input output levels ffe_idx dfe_idx =>
  r <- ddlms_grad input output (Some levels) ffe_idx dfe_idx None ;;
  match r with
  | LossBoth mse gf gd =>
    let val o := match o with Some x => x | None => ofZ 0 end in Ok (mse, map val gf, map val gd)
  | _ => Raise ValueError
  end.
