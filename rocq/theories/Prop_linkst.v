(** C80: what calls of the example link leave behind when they raise, and what a simulation records.  Proofs are in
    P_linkst.v. *)
From Coq Require Import Reals String.
From Verif Require Import Py PyQ B_list M_aux M_symbol M_slicer M_filter M_lms M_estim M_channel M_ctle M_prbs M_sim M_simcheck M_rxloop S_rxloop P_rxloop M_link S_link M_linkst S_linkst P_linkst.
From Coq Require Import QArith Qcanon.
Import List ListNotations.
Open Scope Z_scope.

(** *** The same link *)
(** Seen from outside, the calls are those of the link of C71, C74, C75 and C78 and of the receiver of C59. *)
Theorem C80_same_result : forall f, (forall z normal, full_link_call f (link_of z) normal = handed (fun z => (link_of z, z_prbs z, the_bits z)) (link_call f z normal)) /\
  (forall s x, handed (fun s => (rs_rx s, rs_dec s)) (rx_call f s x) = receive f (rs_rx s) x).
Proof. intros f. split; [apply link_agree|apply rx_agree]. Qed.
Print Assumptions C80_same_result.

(** *** Histories in which any call may raise *)
(** Whatever the user does in between and however the calls end: the k-th call sends the k-th chunk of the pattern. *)
Theorem C80_pattern : forall f l z normal g bs, prbs_gen_run (calls l) (z_gen z) = (g, Ok bs) ->
  map (fun p => z_prbs (fst p)) (snd (history f z l normal)) = bs /\ z_gen (fst (history f z l normal)) = g.
Proof. exact history_pattern. Qed.
Print Assumptions C80_pattern.
(** The channel and the CTLE filter one continuous signal, whatever happens in the receiver behind them. *)
Theorem C80_analog : forall f l z normal g bs txs c cs ct ys, prbs_gen_run (calls l) (z_gen z) = (g, Ok bs) -> Forall2 (fun b t => transmit (z_cd z) (z_md z) b = Done (Ok t)) bs txs ->
  channel_calls (z_ch z) (map (map Qc2R) txs) normal = (c, Ok (returned cs)) -> ctle_calls (z_ctle z) cs = Ok (Some (ct, ys)) ->
  let h := history f z l normal in
  map (fun p => z_map (fst p)) (snd h) = txs /\ map (fun p => z_ch_out (fst p)) (snd h) = map (map Some) cs /\ map (fun p => z_ctle_out (fst p)) (snd h) = ys /\
  z_ch (fst h) = c /\ z_ctle (fst h) = ct.
Proof. exact history_analog. Qed.
Print Assumptions C80_analog.
(** Outside convergence a call that raises in the slicer, the demapping or the decoder disturbs no other call: every
    call hands out what the receiver makes of its own part of the continuously equalised signal. *)
Theorem C80_listening : forall f l z normal g bs txs c cs ct ys ads ws e, Forall only_listens l -> rx_converge (rs_rx (z_rx z)) = false ->
  prbs_gen_run (calls l) (z_gen z) = (g, Ok bs) -> Forall2 (fun b t => transmit (z_cd z) (z_md z) b = Done (Ok t)) bs txs ->
  channel_calls (z_ch z) (map (map Qc2R) txs) normal = (c, Ok (returned cs)) -> ctle_calls (z_ctle z) cs = Ok (Some (ct, ys)) ->
  Forall2 (fun y v => adc_callR (rx_adc (rs_rx (z_rx z))) y = Ok v) ys ads -> equalised (rx_eq (rs_rx (z_rx z))) ads = Ok (ws, e) ->
  let h := history f z l normal in
  map (handed the_bits) (snd h) = map (understood (rs_rx (z_rx z))) ws /\ map (fun p => rx_slicer_in (rs_rx (z_rx (fst p)))) (snd h) = map (map (fun v => rx_gain (rs_rx (z_rx z)) * v)%Qc) ws /\
  rx_eq (rs_rx (z_rx (fst h))) = e.
Proof. exact history_listens. Qed.
Print Assumptions C80_listening.
(** The sampling phase stays in range and stays the one of the ADC, in every history, also where a converging call was
    left half-way; no call ever changes the levels, the constellation, the coding settings, the learning rate or osr. *)
Theorem C80_always : forall f l z normal, let h := history f z l normal in let r := rs_rx (z_rx z) in
  (phase_ok r -> phase_ok (rs_rx (z_rx (fst h))) /\ Forall (fun p => phase_ok (rs_rx (z_rx (fst p)))) (snd h)) /\
  settings (rs_rx (z_rx (fst h))) = settings r /\ Forall (fun p => settings (rs_rx (z_rx (fst p))) = settings r) (snd h).
Proof.
  intros f l z normal h r. assert (T : Forall (fun _ : deed => True) l) by (apply Forall_forall; auto). split.
  - intros A. exact (history_inv f phase_ok (phase_steady f) (fun _ => True) (fun d r _ => deed_phase d r) l z normal T A).
  - apply (history_inv f _ (settings_steady f (settings r)) (fun _ => True)); auto. intros d r0 _ E. now rewrite deed_settings.
Qed.
Print Assumptions C80_always.
(** A call that does not return leaves the received bits of the last call that did. *)
Theorem C80_last_bits : forall f z normal, ~ returns (link_call f z normal) -> the_bits (fst (link_call f z normal)) = the_bits z.
Proof. exact call_dec. Qed.
Print Assumptions C80_last_bits.
(** Whatever happens, what a call leaves in every stage is what was there or the whole output of the stage for this call. *)
Theorem C80_whole : forall f z normal, let z' := fst (link_call f z normal) in let ch := channel_call (z_ch z) (map Qc2R (z_map z')) normal in
  z_gen z' = fst (prbs_gen_next (z_gen z)) /\
  (z_prbs z' = z_prbs z \/ snd (prbs_gen_next (z_gen z)) = Ok (z_prbs z')) /\
  (z_enc z' = z_enc z \/ encoder (z_cd z) (z_prbs z') = Done (Ok (z_enc z'))) /\
  (z_map z' = z_map z \/ transmit (z_cd z) (z_md z) (z_prbs z') = Done (Ok (z_map z'))) /\
  (z_ch z' = z_ch z \/ z_ch z' = fst ch) /\
  (z_ch_out z' = z_ch_out z /\ z_rx z' = z_rx z \/ snd ch = Ok (Some (z_ch_out z'))) /\
  (z_ctle z' = z_ctle z /\ z_ctle_out z' = z_ctle_out z \/ exists x, all_numbers (z_ch_out z') = Some x /\ ctle_call (z_ctle z) x = Ok (Some (z_ctle z', z_ctle_out z'))).
Proof. exact call_whole. Qed.
Print Assumptions C80_whole.
(** Between calls the user touches nothing but the receiver, and not the received data; switching off a convergence that is
    off and taps of the wrong number change nothing at all; starting and switching off leaves the two inner flags on. *)
Theorem C80_between : forall f l z normal,
  (calls l = 0%nat -> let z' := fst (history f z l normal) in
    snd (history f z l normal) = [] /\ z' = set_rx z (z_rx z') /\ rs_dem (z_rx z') = rs_dem (z_rx z) /\ the_bits z' = the_bits z) /\
  (Forall (harmless (rs_rx (z_rx z))) l -> history f z l normal = (z, [])) /\
  history f z [DStart; DStop] normal = (set_rx z (quieted (z_rx z) true true), []).
Proof. intros f l z normal. split; [|split]; [exact (between_calls f l z normal)|exact (harmless_all f z normal l)|reflexivity]. Qed.
Print Assumptions C80_between.

(** *** Convergence with the package as it is (no function lms_grad) *)
(** No call returns any more; the bits, the taps, the loss and the flags stay what they were, over any number of calls. *)
Theorem C80_stuck : forall n z normal, adapting (rs_rx (z_rx z)) -> let h := history None z (repeat DCall n) normal in
  Forall (fun p => ~ returns p) (snd h) /\ length (snd h) = n /\ Forall (fun p => the_bits (fst p) = the_bits z /\ kept (rs_rx (z_rx (fst p))) = kept (rs_rx (z_rx z)) /\ adapting (rs_rx (z_rx (fst p)))) (snd h).
Proof. exact history_stuck. Qed.
Print Assumptions C80_stuck.
(** If the call would return without convergence, it raises AttributeError, after the gain has been moved. *)
Theorem C80_attempt : forall z normal lms cdr, let p := link_call None z normal in let quiet := link_call None (set_rx z (quieted (z_rx z) lms cdr)) normal in let q := rs_rx (z_rx (fst quiet)) in let r := rs_rx (z_rx z) in
  adapting r -> returns quiet -> nothing_else r q ->
  snd p = Done (Raise AttributeError) /\ let r' := rs_rx (z_rx (fst p)) in
  rx_gain r' = (rx_gain r + ofZ 100 * rx_lr r * (mean_square (rx_levels r) - mean_square (rx_slicer_in q)))%Qc /\
  rx_slicer_in r' = rx_slicer_in q /\ rx_slicer_out r' = rx_slicer_out q /\ rx_eq r' = rx_eq q /\ the_bits (fst p) = the_bits z.
Proof. exact attempt_link. Qed.
Print Assumptions C80_attempt.
(** The same of the receiver alone, fed with exact samples. *)
Theorem C80_attempt_receiver : forall s x lms cdr, let p := rx_call None s x in let quiet := rx_call None (quieted s lms cdr) x in let q := rs_rx (fst quiet) in
  adapting (rs_rx s) -> returns quiet -> nothing_else (rs_rx s) q ->
  snd p = Done (Raise AttributeError) /\
  rx_gain (rs_rx (fst p)) = (rx_gain (rs_rx s) + ofZ 100 * rx_lr (rs_rx s) * (mean_square (rx_levels (rs_rx s)) - mean_square (rx_slicer_in q)))%Qc /\
  rx_slicer_in (rs_rx (fst p)) = rx_slicer_in q /\ rx_slicer_out (rs_rx (fst p)) = rx_slicer_out q /\ rx_eq (rs_rx (fst p)) = rx_eq q /\ rs_dec (fst p) = rs_dec s.
Proof. exact attempt. Qed.
Print Assumptions C80_attempt_receiver.

Definition ex_cd := mk_cd PAM4 2 4 (mk_flags false false false false) false false false false false false false false false GNone.
Definition ex_levels : list Qc := map ofZ [-3; -1; 1; 3].
Definition ex_rx : option rx_st :=
  match mapping_data_init PAM4 ex_levels (ofZ 2) (ofZ 3), eq_init 1 1 1 None None (Some ex_levels) None None with
  | Done (Ok m), Ok e => Some (rx_new (receiver_init 2 (adc_init 8 1 "ss" 2 1 (Some 0)) e m ex_cd (ofZ 1 / ofZ 1024)%Qc (ofZ 1)))
  | _, _ => None
  end.
(** Outcome, bits and gain after every call. *)
Definition ex_view (p : rx_st * outcome unit) : bool * list Q * Q :=
  (match snd p with Done (Ok _) => true | _ => false end, rs_dec (fst p), this (rx_gain (rs_rx (fst p)))).
Definition ex_run (l : list rx_deed) : option (list (bool * list Q * Q)) := option_map (fun s => map ex_view (snd (rx_history None s l))) ex_rx.
Definition silence : list Qc := map ofZ [0; 0; 0; 0; 0; 0; 0; 0].
Definition signal : list Qc := map ofZ [3; 0; 3; 0; -3; 0; 3; 0].
(** (Finding.)  A convergence that was left by the exception is not undone by switching it off again.  A receiver that
    has been asked once to converge, has raised and has been switched back, and one that has only been called, are given
    the same three chunks: the gain of the first is 381/256 instead of 1 and the two hand out different bits. *)
Theorem C80_attempt_stays_refuted :
  ex_run [RCall silence; RCall silence; RCall signal] = Some [(true, [1; 0; 1; 0; 1; 0; 1; 0]%Q, 1%Q); (true, [1; 0; 1; 0; 1; 0; 1; 0]%Q, 1%Q); (true, [1; 0; 0; 1; 0; 1; 1; 0]%Q, 1%Q)] /\
  ex_run [RCall silence; RDo DStart; RCall silence; RDo DStop; RCall signal] = Some [(true, [1; 0; 1; 0; 1; 0; 1; 0]%Q, 1%Q); (false, [1; 0; 1; 0; 1; 0; 1; 0]%Q, (381 # 256)%Q); (true, [1; 0; 1; 1; 1; 1; 0; 0]%Q, (381 # 256)%Q)].
Proof. vm_compute. split; reflexivity. Qed.
Print Assumptions C80_attempt_stays_refuted.

(** *** The records of a simulation *)
(** Either the first call did not return, then the records are the old ones; or they are exactly what the link held after
    each completed turn of the loop, in order, the start-up call and the turn that raised not among them. *)
Theorem C80_records : forall f k z m normal z' m' e, sim_converge f k z m normal = (z', m', e) ->
  (~ returns (link_call f z (normal 0%nat)) /\ m' = m /\ history f z [DCall] normal = (z', cut_off z' e) /\ cut_off z' e <> []) \/
  (returns (link_call f z (normal 0%nat)) /\ exists j tr, (j <= k)%nat /\
     history f z (DCall :: DStart :: repeat DCall j) normal = (z', link_call f z (normal 0%nat) :: tr ++ cut_off z' e) /\ Forall returns tr /\ records m' (map fst tr) /\
     (e = Returned -> rx_done (rs_rx (z_rx z')) = true) /\ (e = StillRunning -> length tr = k)).
Proof. exact converge_records. Qed.
Print Assumptions C80_records.
(** The recorded pattern is the sent pattern without its first chunk. *)
Theorem C80_recorded_pattern : forall f k z m normal z' m' e g bs, sim_converge f k z m normal = (z', m', e) -> returns (link_call f z (normal 0%nat)) ->
  prbs_gen_run (S k) (z_gen z) = (g, Ok bs) -> m_prbs m' = firstn (length (m_prbs m')) (tl bs).
Proof.
  intros f k z m normal z' m' e g bs H R G. destruct (converge_records _ _ _ _ _ _ _ _ H) as [(N & _)|(_ & j & tr & J & HH & F & RE & _)]; [now elim N|]. destruct RE as (P & _). rewrite P, !map_length, map_map.
  assert (C : forall n, calls (repeat DCall n) = n). { induction n as [|n IH]; [reflexivity|]. unfold calls in *. cbn [repeat filter length]. now rewrite IH. }
  assert (CC : calls (DCall :: DStart :: repeat DCall j) = S j). { unfold calls in *. cbn [filter length]. now rewrite C. }
  assert (PR : forall n q g0 g1 l, prbs_gen_run (n + q) g0 = (g1, Ok l) -> exists g2, prbs_gen_run n g0 = (g2, Ok (firstn n l))).
  { clear. induction n as [|n IH]; intros q g0 g1 l E; [exists g0; reflexivity|]. cbn [Nat.add prbs_gen_run] in *. destruct (prbs_gen_next g0) as [g2 [c|e]]; [|discriminate E]. destruct (prbs_gen_run (n + q) g2) as [g3 [cs|e]] eqn:E2; [|discriminate E].
    injection E as <- <-. destruct (IH _ _ _ _ E2) as (g4 & E4). rewrite E4. exists g4. reflexivity. }
  replace (S k) with (S j + (k - j))%nat in G by lia. destruct (PR _ _ _ _ _ G) as (g2 & G2). rewrite <- CC in G2. destruct (history_pattern f _ z normal _ _ G2) as (HP & _). rewrite HH in HP. cbn [snd map] in HP. rewrite CC in HP.
  destruct bs as [|b bs]; [discriminate HP|]. cbn [firstn tl] in *. injection HP as _ HP. rewrite map_app in HP.
  assert (L : length (map (fun p => z_prbs (fst p)) tr) = length tr) by apply map_length. rewrite <- L. apply (f_equal (firstn (length (map (fun p => z_prbs (fst p)) tr)))) in HP. rewrite firstn_app, Nat.sub_diag, firstn_all, firstn_O, app_nil_r in HP. rewrite HP at 1.
  rewrite firstn_firstn. f_equal. assert (LE : (length (map (fun p => z_prbs (fst p)) tr) <= j)%nat). { apply (f_equal (@length _)) in HP. rewrite firstn_length in HP. pose proof (firstn_le_length j bs). lia. } lia.
Qed.
Print Assumptions C80_recorded_pattern.
(** (Finding.)  Whatever the settings, the channel and the gradient function, perform_convergence of a link that is not
    converging yet does not return. *)
Theorem C80_never_returns_refuted : forall f k z m normal, rx_converge (rs_rx (z_rx z)) = false -> rx_done (rs_rx (z_rx z)) = false -> snd (sim_converge f k z m normal) <> Returned.
Proof. exact converge_never. Qed.
Print Assumptions C80_never_returns_refuted.
(** (Finding.)  With the package as it is an exception leaves it in the first turn of the loop at the latest, the records
    are empty and the receiver is left converging. *)
Theorem C80_package_refuted : forall k z m normal, rx_converge (rs_rx (z_rx z)) = false -> rx_done (rs_rx (z_rx z)) = false ->
  let '(z', m', e) := sim_converge None (S k) z m normal in
  (exists x, e = Left x \/ e = NotModelled) /\ (returns (link_call None z (normal 0%nat)) -> m' = mem_empty /\ the_bits z' = the_bits (fst (link_call None z (normal 0%nat))) /\ rx_converge (rs_rx (z_rx z')) = true).
Proof. exact converge_package. Qed.
Print Assumptions C80_package_refuted.
(** (Finding.)  If the link carries two chunks, the exception is an AttributeError, and the gain has moved. *)
Theorem C80_attribute_error_refuted : forall k z m normal, let p0 := link_call None z (normal 0%nat) in let z1 := fst p0 in let r1 := rs_rx (z_rx z1) in let p1 := link_call None z1 (normal 1%nat) in let q := rs_rx (z_rx (fst p1)) in
  rx_converge (rs_rx (z_rx z)) = false -> rx_done (rs_rx (z_rx z)) = false -> returns p0 -> returns p1 -> nothing_else (start_convergence r1) q ->
  exists z', sim_converge None (S k) z m normal = (z', mem_empty, Left AttributeError) /\ the_bits z' = the_bits z1 /\
    rx_gain (rs_rx (z_rx z')) = (rx_gain r1 + ofZ 100 * rx_lr r1 * (mean_square (rx_levels r1) - mean_square (rx_slicer_in q)))%Qc.
Proof. exact converge_ends. Qed.
Print Assumptions C80_attribute_error_refuted.

(** *** Cases *)
(** The hypotheses of C80_attempt_receiver hold for the second call of the finding. *)
Example C80_case_attempt : match ex_rx with
  | Some s => let s1 := fst (rx_history None s [RCall silence; RDo DStart]) in let quiet := rx_call None (quieted s1 false false) silence in let q := rs_rx (fst quiet) in
      rx_converge (rs_rx s1) = true /\ rx_conv_lms (rs_rx s1) = true /\ rx_conv_cdr (rs_rx s1) = true /\ snd quiet = Done (Ok tt) /\ length (rx_levels (rs_rx s1)) = 4%nat /\ length (rx_slicer_in q) = 4%nat /\
      rx_max_phase (rs_rx s1) = 2 /\ length (rx_slicer_out q) = 4%nat /\ length (rx_adc_out q) = 4%nat /\ e_pre (rx_eq (rs_rx s1)) = 1%nat /\ length (rx_adc_out (rs_rx s1)) = 4%nat
  | None => False end.
Proof. vm_compute. repeat split; reflexivity. Qed.
(** Four deeds with three calls; the pattern of three chunks of a PRBS7 generator. *)
Example C80_case_pattern : calls [DCall; DStart; DCall; DStop; DCall] = 3%nat /\ Forall only_listens [DCall; DStop; DCall] /\
  match prbs_gen_run 3 (prbs_gen_init (prbs_data_init PRBS7 4 None)) with (_, Ok bs) => bs = [[0; 0; 0; 0]; [0; 0; 1; 0]; [0; 0; 0; 0]] | _ => False end.
Proof. split; [reflexivity|]. split; [apply Forall_forall; intros d [<-|[<-|[<-|[]]]]; unfold only_listens; auto|]. vm_compute. reflexivity. Qed.
(** A gradient function that writes the FFE taps and then fails on the DFE taps (a gradient of the wrong length): the
    call raises ValueError with half of the taps moved. *)
Definition ex_short : lms_fun := fun _ _ _ fi _ => Ok (Some (ofZ 0), map (fun _ => ofZ 1) fi, []).
Example C80_case_half : match ex_rx with
  | Some s => match snd (rx_history (Some ex_short) s [RCall silence; RDo DStart; RCall silence]) with
              | [_; (s2, Done (Raise ValueError))] => map this (fst (taps (rs_rx s2))) = [-1 # 1024; 1023 # 1024; -1 # 1024]%Q /\ map this (snd (taps (rs_rx s2))) = [0]%Q
              | _ => False end
  | None => False end.
Proof. vm_compute. split; reflexivity. Qed.
(** Switching off and taps of the wrong number are harmless for the receiver of the finding, which is not converging. *)
Example C80_case_harmless : match ex_rx with
  | Some s => Forall (harmless (rs_rx s)) [DStop; DFfe [ofZ 1; ofZ 2]; DDfe []; DStop] /\ ~ harmless (rs_rx s) DStart
  | None => False end.
Proof.
  vm_compute ex_rx. cbv iota. split.
  - repeat (apply Forall_cons; [|]); try apply Forall_nil; try (left; split; reflexivity); right; [left|right]; eexists; (split; [reflexivity|]); cbn; discriminate.
  - intros [(H & _)|[(v & H & _)|(v & H & _)]]; discriminate H.
Qed.
