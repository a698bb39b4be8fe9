(** Vocabulary for C77: chunks with jitter. *)
From Coq Require Import Reals String.
From Verif Require Import Py PyQ B_list M_sim M_simcheck M_rxloop S_rxparts M_link M_chanjit S_jitter S_link S_full.
Import List.
Open Scope R_scope.

(** [out] is [y] (with [o] samples per symbol) read at displaced times: all samples of symbol [j] are read from the spline
    through [y] at their own time plus sigma times [draw j].  (By C73_spline there is exactly one such spline if [y] has at
    least four samples.) *)
Definition jittered (o : nat) (sigma : R) (draw : nat -> R) (y out : list R) : Prop :=
  length out = length y /\
  forall f, is_spline (/ INR o) y f -> forall k, (k < length y)%nat -> nth k out 0 = f (INR k / INR o + sigma * draw (k / o)%nat).
(** Each chunk on its own. *)
Definition jittered_chunks (o : nat) (sigma : R) (draw : nat -> nat -> R) (ys outs : list (list R)) : Prop :=
  length outs = length ys /\ forall i, (i < length ys)%nat -> jittered o sigma (draw i) (nth i ys []) (nth i outs []).
(** The channel reduced to its pulse shaping. *)
Definition pulse_only (c : channel) : channel :=
  mk_ch (ch_pulse c) (ch_span c) (ch_rolloff c) "pulse" (ch_fir c) (ch_iir c) (ch_osr c) (ch_snr c) (ch_pulse_zi c) (ch_zi c).
(** Chunks that jitter can be applied to. *)
Definition long_chunks (o : nat) (xs : list (list R)) : Prop := Forall (fun x => (4 <= length x * o)%nat) xs.
(** Jitter and noise in [n] calls of the link, with [N] symbols per chunk, change no sample of the channel output by more than
    [d]. *)
Definition link_disturbance_at_most (d sigma : R) (l : full_link) (n N : nat) (jit normal : nat -> nat -> R) : Prop :=
  forall g bs txs, prbs_gen_run n (fl_gen l) = (g, Ok bs) -> Forall2 (fun b t => transmit (fl_cd l) (fl_md l) b = Done (Ok t)) bs txs -> Forall (fun t => length t = N) txs ->
  exists c1 c2 cs clean, channel_calls_rj sigma (fl_ch l) (map (map Qc2R) txs) jit normal = (c1, Ok (returned cs)) /\
    channel_calls (noise_free (fl_ch l)) (map (map Qc2R) txs) normal = (c2, Ok (returned clean)) /\ within d cs clean.
