(** C56: the eye diagram. *)
From Coq Require Import Reals Lra String.
From Verif Require Import Py B_list M_delay S_delay P_delay Prop_delay M_eye S_eye P_eye.
Import List.
Open Scope R_scope.

(** Without interpolation entry (k, c) of the eye is the number of samples at phase c mod osr whose value lies in the k-th of
    [quantization] equal intervals of [-fs, fs]. *)
Theorem C56_bins : forall (s : list num) osr_in osr fs q, (1 <= osr <= osr_in)%nat -> (length s mod osr = 0)%nat -> 0 < fs -> (1 <= q)%nat ->
  exists eye amp, eye_diagram s osr_in osr fs q false = Ok (eye, amp) /\
    length eye = q /\ Forall (fun row => length row = (2 * osr)%nat) eye /\
    forall k c, (k < q)%nat -> (c < 2 * osr)%nat -> exists n, entry eye k c = INR n /\
      counts (fun i => in_interval fs q k (nth i s None)) (at_phase (length s) osr (c mod osr)) n.
Proof.
  intros s osr_in osr fs q Ho M Hf Hq. assert (F : folded s osr_in osr = Ok s).
  { unfold folded. now replace (osr_in <? osr)%nat with false by (symmetry; apply Nat.ltb_ge; lia). }
  rewrite (eye_ok s osr_in osr fs q false s F) by (auto; lia). do 2 eexists. split; [reflexivity|]. unfold out_of. split; [now rewrite map_length, seq_length|]. split.
  - apply Forall_forall. intros row Hr. apply in_map_iff in Hr. destruct Hr as (k & <- & _). unfold eye_row. rewrite app_length, map_length, seq_length. lia.
  - intros k c Hk Hc. rewrite eye_entry by auto. eexists. split; [reflexivity|]. now apply bin_count_spec.
Qed.
Print Assumptions C56_bins.
(** Two symbols of two samples: the first phase is always 1/2, the second one -1/2 and 1; 1 is counted in the last interval. *)
Example C56_bins_example : exists eye amp, eye_diagram [Some (1/2); Some (-1/2); Some (1/2); Some 1] 2 2 1 2 false = Ok (eye, amp) /\
  entry eye 1 0 = 2 /\ entry eye 0 0 = 0 /\ entry eye 0 1 = 1 /\ entry eye 1 1 = 1.
Proof.
  destruct (C56_bins [Some (1/2); Some (-1/2); Some (1/2); Some 1] 2 2 1 2) as (eye & amp & E & _ & _ & H); [lia|reflexivity|lra|lia|].
  exists eye, amp. split; auto.
  assert (A0 : at_phase 4 2 0 = [0; 2]%nat) by reflexivity. assert (A1 : at_phase 4 2 1 = [1; 3]%nat) by reflexivity.
  assert (I0 : forall v, in_interval 1 2 0 (Some v) <-> -1 <= v < 0).
  { intros v. unfold in_interval, edge. cbn [INR]. split; [intros (w & [= <-] & H1 & [H2|[H2 _]]); [lra|lia]|intros [H1 H2]; exists v; split; auto; split; [lra|left; lra]]. }
  assert (I1 : forall v, in_interval 1 2 1 (Some v) <-> 0 <= v <= 1).
  { intros v. unfold in_interval, edge. cbn [INR]. split; [intros (w & [= <-] & H1 & [H2|[H2 H3]]); lra|intros [H1 H2]; exists v; split; auto; split; [lra|]]. destruct (Req_dec v 1); [right; auto|left; lra]. }
  assert (U : forall k c n, (k < 2)%nat -> (c < 4)%nat -> counts (fun i => in_interval 1 2 k (nth i [Some (1/2); Some (-1/2); Some (1/2); Some 1] None)) (at_phase 4 2 (c mod 2)) n -> entry eye k c = INR n).
  { intros k c n Hk Hc Hn. destruct (H k c Hk Hc) as (m & -> & Hm). f_equal. eapply counts_unique; eauto. }
  change 2 with (INR 2). change 1 with (INR 1). change 0 with (INR 0). repeat split; apply U; auto; cbn [Nat.modulo Nat.divmod fst snd Nat.sub]; rewrite ?A0, ?A1.
  - constructor; [apply I1; cbn [nth]; lra|]. constructor; [apply I1; cbn [nth]; lra|constructor].
  - constructor 3; [cbn [nth]; rewrite I0; lra|]. constructor 3; [cbn [nth]; rewrite I0; lra|constructor].
  - constructor; [apply I0; cbn [nth]; lra|]. constructor 3; [cbn [nth]; rewrite I0; lra|constructor].
  - constructor 3; [cbn [nth]; rewrite I1; lra|]. constructor; [apply I1; cbn [nth]; lra|constructor].
Qed.
(** Each column adds up to the number of samples of its phase inside [-fs, fs], and the second UI repeats the first. *)
Theorem C56_conserved : forall (s : list num) osr_in osr fs q eye amp, (1 <= osr <= osr_in)%nat -> (length s mod osr = 0)%nat -> 0 < fs -> (1 <= q)%nat ->
  eye_diagram s osr_in osr fs q false = Ok (eye, amp) ->
  (forall c, (c < 2 * osr)%nat -> exists n, column_sum eye c = INR n /\ counts (fun i => in_range fs (nth i s None)) (at_phase (length s) osr (c mod osr)) n) /\
  (forall k c, (k < q)%nat -> (c < osr)%nat -> entry eye k (osr + c) = entry eye k c).
Proof.
  intros s osr_in osr fs q eye amp Ho M Hf Hq E. assert (F : folded s osr_in osr = Ok s).
  { unfold folded. now replace (osr_in <? osr)%nat with false by (symmetry; apply Nat.ltb_ge; lia). }
  rewrite (eye_ok s osr_in osr fs q false s F) in E by (auto; lia). injection E as <- _. unfold out_of. split.
  - intros c Hc. rewrite eye_column_sum by auto. eexists. split; [reflexivity|]. apply (counts_map (fun i => nth i s None) (in_range fs)). apply bins_total; auto.
  - intros k c Hk Hc. rewrite !eye_entry by (auto; lia). f_equal. f_equal. replace (osr + c)%nat with (c + 1 * osr)%nat by lia. apply Nat.mod_add. lia.
Qed.
Print Assumptions C56_conserved.
Example C56_conserved_example : exists eye amp, eye_diagram [Some 0; Some 3] 1 1 1 2 false = Ok (eye, amp) /\ column_sum eye 0 = 1.
Proof.
  destruct (C56_bins [Some 0; Some 3] 1 1 1 2) as (eye & amp & E & _); [lia|reflexivity|lra|lia|]. exists eye, amp. split; auto.
  destruct (C56_conserved [Some 0; Some 3] 1 1 1 2 eye amp ltac:(lia) eq_refl Rlt_0_1 ltac:(lia) E) as [H _]. destruct (H 0%nat) as (n & -> & Hn); [lia|].
  change (at_phase (length [Some 0; Some 3]) 1 (0 mod 1)) with [0; 1]%nat in Hn.
  assert (X : counts (fun i => in_range 1 (nth i [Some 0; Some 3] None)) [0; 1]%nat 1).
  { constructor; [exists 0; cbn [nth]; split; [auto|lra]|]. constructor 3; [cbn [nth]; intros (v & [= <-] & H1); lra|constructor]. }
  rewrite (counts_unique _ _ _ _ Hn X). reflexivity.
Qed.
(** Finding: samples outside of the "clipping value" are dropped, not clipped to it. *)
Theorem C56_clip_refuted : forall fs q v, 0 < fs -> (1 <= q)%nat -> fs < Rabs v -> exists eye amp,
  eye_diagram [Some v] 1 1 fs q false = Ok (eye, amp) /\ column_sum eye 0 = 0.
Proof.
  intros fs q v Hf Hq Hv. destruct (C56_bins [Some v] 1 1 fs q) as (eye & amp & E & _); [lia|reflexivity|auto|auto|]. exists eye, amp. split; auto.
  destruct (C56_conserved [Some v] 1 1 fs q eye amp ltac:(lia) eq_refl Hf Hq E) as [H _]. destruct (H 0%nat) as (n & -> & Hn); [lia|].
  assert (X : counts (fun i => in_range fs (nth i [Some v] None)) (at_phase (length [Some v]) 1 (0 mod 1)) 0).
  { apply counts_none. intros i Hi. change (at_phase _ _ _) with [0%nat] in Hi. destruct Hi as [<-|[]]. intros (w & [= <-] & H1). unfold Rabs in Hv. destruct (Rcase_abs v); lra. }
  now rewrite (counts_unique _ _ _ _ Hn X).
Qed.
Print Assumptions C56_clip_refuted.
(** The eye of a concatenation of whole symbols is the sum of the eyes. *)
Theorem C56_streaming : forall (s1 s2 : list num) osr_in osr fs q, (1 <= osr <= osr_in)%nat -> (length s1 mod osr = 0)%nat -> (length s2 mod osr = 0)%nat -> 0 < fs -> (1 <= q)%nat ->
  exists e1 e2 e12 amp, eye_diagram s1 osr_in osr fs q false = Ok (e1, amp) /\ eye_diagram s2 osr_in osr fs q false = Ok (e2, amp) /\
    eye_diagram (s1 ++ s2) osr_in osr fs q false = Ok (e12, amp) /\
    forall k c, (k < q)%nat -> (c < 2 * osr)%nat -> entry e12 k c = entry e1 k c + entry e2 k c.
Proof.
  intros s1 s2 osr_in osr fs q Ho M1 M2 Hf Hq.
  assert (F : forall s, folded s osr_in osr = Ok s).
  { intros s. unfold folded. now replace (osr_in <? osr)%nat with false by (symmetry; apply Nat.ltb_ge; lia). }
  assert (M12 : (length (s1 ++ s2) mod osr = 0)%nat) by (rewrite app_length, Nat.add_mod, M1, M2 by lia; apply Nat.mod_small; lia).
  rewrite (eye_ok s1 osr_in osr fs q false s1), (eye_ok s2 osr_in osr fs q false s2), (eye_ok (s1 ++ s2) osr_in osr fs q false (s1 ++ s2)) by (auto; lia).
  do 4 eexists. split; [reflexivity|]. split; [reflexivity|]. split; [reflexivity|]. intros k c Hk Hc. unfold out_of. rewrite !eye_entry by auto.
  rewrite bin_count_app, plus_INR; auto. apply Nat.mod_upper_bound. lia.
Qed.
Print Assumptions C56_streaming.
Example C56_streaming_example : exists e1 e2 e12 amp, eye_diagram [Some 0; Some 1] 2 2 1 4 false = Ok (e1, amp) /\ eye_diagram [Some 1; Some 1] 2 2 1 4 false = Ok (e2, amp) /\
    eye_diagram ([Some 0; Some 1] ++ [Some 1; Some 1]) 2 2 1 4 false = Ok (e12, amp) /\ forall k c, (k < 4)%nat -> (c < 2 * 2)%nat -> entry e12 k c = entry e1 k c + entry e2 k c.
Proof. apply C56_streaming; auto; try lia. lra. Qed.
(** Log scale: ten to the entry is the count plus 0.1; an empty bin is -1. *)
Theorem C56_log : forall (s : list num) osr_in osr fs q, (1 <= osr <= osr_in)%nat -> (length s mod osr = 0)%nat -> 0 < fs -> (1 <= q)%nat ->
  exists lin log amp, eye_diagram s osr_in osr fs q false = Ok (lin, amp) /\ eye_diagram s osr_in osr fs q true = Ok (log, amp) /\
    forall k c, (k < q)%nat -> (c < 2 * osr)%nat ->
      Rpower 10 (entry log k c) = entry lin k c + 1 / 10 /\ (entry log k c = -1 <-> entry lin k c = 0).
Proof.
  intros s osr_in osr fs q Ho M Hf Hq. assert (F : folded s osr_in osr = Ok s).
  { unfold folded. now replace (osr_in <? osr)%nat with false by (symmetry; apply Nat.ltb_ge; lia). }
  rewrite (eye_ok s osr_in osr fs q false s), (eye_ok s osr_in osr fs q true s) by (auto; lia). do 3 eexists. split; [reflexivity|]. split; [reflexivity|].
  intros k c Hk Hc. unfold out_of. rewrite eye_entry by auto.
  assert (E : entry (map (map (fun v => log10 (v + 1 / 10))) (map (eye_row fs q s osr) (seq 0 q))) k c = log10 (INR (bin_count fs q s osr k (c mod osr)) + 1 / 10)).
  { unfold entry. rewrite map_map, nth_map_seq by auto. rewrite (map_nth_lt _ _ _ 0) by (unfold eye_row; rewrite app_length, map_length, seq_length; lia). now rewrite row_entry. }
  rewrite E. set (n := INR _). assert (Hn : 0 <= n) by apply pos_INR. clearbody n. clear E.
  assert (L10 : ln 10 <> 0) by (rewrite <- ln_1; intros X; apply ln_inv in X; lra).
  assert (P : Rpower 10 (log10 (n + 1 / 10)) = n + 1 / 10).
  { unfold Rpower, log10. replace (ln (n + 1 / 10) / ln 10 * ln 10) with (ln (n + 1 / 10)) by (field; auto). apply exp_ln. lra. }
  split; auto. split.
  - intros H. rewrite H in P. unfold Rpower in P. replace (-1 * ln 10) with (- ln 10) in P by lra. rewrite exp_Ropp, exp_ln in P by lra. lra.
  - intros ->. unfold log10. replace (0 + 1 / 10) with (/ 10) by lra. rewrite ln_Rinv by lra. field. auto.
Qed.
Print Assumptions C56_log.
(** The amplitude axis runs linearly from -fs to fs, and value k lies in (the closure of) interval k. *)
Theorem C56_axis : forall (s : list num) osr_in osr fs q lg eye amp, 0 < fs -> eye_diagram s osr_in osr fs q lg = Ok (eye, amp) ->
  length amp = q /\ nth 0 amp (-fs) = - fs /\ ((2 <= q)%nat -> nth (q - 1) amp 0 = fs) /\
  (forall k, (S k < q)%nat -> nth (S k) amp 0 - nth k amp 0 = 2 * fs / INR (q - 1)) /\
  (forall k, (k < q)%nat -> edge fs q k <= nth k amp 0 <= edge fs q (S k)).
Proof.
  intros s osr_in osr fs q lg eye amp Hf E.
  assert (A : amp = linspace (-1 * fs) fs q).
  { unfold eye_diagram in E. destruct (if (osr_in <? osr)%nat then _ else _) as [u|]; cbn [bind] in E; [|discriminate]. destruct (reshape_rows osr u); cbn [bind] in E; [|discriminate].
    destruct (map_res _ _); cbn [bind] in E; [|discriminate]. now injection E. }
  subst amp. clear E. unfold linspace. split; [now rewrite map_length, seq_length|]. split; [|split; [|split]].
  - destruct q as [|q]; [reflexivity|]. rewrite nth_map_seq by lia. cbn [INR]. rewrite Rmult_0_l. lra.
  - intros H. rewrite nth_map_seq by lia. cbn [Nat.add]. field. apply not_0_INR. lia.
  - intros k Hk. rewrite !nth_map_seq by lia. cbn [Nat.add]. cbn [Nat.add]. rewrite S_INR. field. apply not_0_INR. lia.
  - intros k Hk. rewrite nth_map_seq by auto. cbn [Nat.add]. destruct (Nat.eq_dec q 1) as [->|Hq].
    + assert (k = 0)%nat by lia. subst k. cbn [INR Nat.sub]. unfold edge. cbn [INR]. lra.
    + assert (H1 : 0 < INR (q - 1)) by (apply lt_0_INR; lia). assert (Eq : INR q = INR (q - 1) + 1) by (rewrite <- S_INR; f_equal; lia).
      assert (Hkq : INR k <= INR (q - 1)) by (apply le_INR; lia). pose proof (pos_INR k) as K0. unfold edge. rewrite S_INR, Eq. set (m := INR (q - 1)) in *. set (x := INR k) in *. clearbody m x.
      assert (D : forall a b, a <= b -> - fs + 2 * fs * a <= - fs + 2 * fs * b) by (intros a b H; apply Rplus_le_compat_l, Rmult_le_compat_l; lra).
      replace (-1 * fs + x * ((fs - -1 * fs) / m)) with (- fs + 2 * fs * (x / m)) by (field; lra). split; apply D.
      * apply Rmult_le_reg_r with (m * (m + 1)); [nra|]. replace (x / (m + 1) * (m * (m + 1))) with (x * m) by (field; lra). replace (x / m * (m * (m + 1))) with (x * (m + 1)) by (field; lra). nra.
      * apply Rmult_le_reg_r with (m * (m + 1)); [nra|]. replace ((x + 1) / (m + 1) * (m * (m + 1))) with ((x + 1) * m) by (field; lra). replace (x / m * (m * (m + 1))) with (x * (m + 1)) by (field; lra). nra.
Qed.
Print Assumptions C56_axis.
(** Finding: the axis values are not the centres of the intervals they label: the first one is the lower edge of its
    interval and the last one the upper edge. *)
Theorem C56_axis_refuted : forall fs q, 0 < fs -> (2 <= q)%nat -> exists eye amp, eye_diagram [Some 0] 1 1 fs q false = Ok (eye, amp) /\
  nth 0 amp 0 = edge fs q 0 /\ nth (q - 1) amp 0 = edge fs q q /\ nth 0 amp 0 <> (edge fs q 0 + edge fs q 1) / 2.
Proof.
  intros fs q Hf Hq. destruct (C56_bins [Some 0] 1 1 fs q) as (eye & amp & E & _); [lia|reflexivity|auto|lia|]. exists eye, amp. split; auto.
  destruct (C56_axis _ _ _ _ _ _ _ _ Hf E) as (L & A0 & A1 & _). specialize (A1 Hq). rewrite edge_0, edge_q by lia.
  assert (E0 : nth 0 amp 0 = - fs) by (rewrite <- A0; apply nth_indep; lia). repeat split; auto. rewrite E0. unfold edge. cbn [INR].
  assert (0 < 1 / INR q) by (apply Rdiv_lt_0_compat; [lra|apply lt_0_INR; lia]). assert (0 < fs * (1 / INR q)) by now apply Rmult_lt_0_compat. lra.
Qed.
Print Assumptions C56_axis_refuted.

(** With osr_diag = u * osr_in the input must be a whole number of symbols.  Column j*u of the eye counts the original
    samples whose index is j + osr_in/2 modulo osr_in, and column j*u+t the sinc interpolated values t/u samples later; the last osr_in (and the first
    osr_in/2) samples are lost. *)
Theorem C56_interpolated : forall (x : list R) osr_in u fs q, (1 <= osr_in)%nat -> (2 <= u)%nat -> (osr_in <= length x)%nat -> (length x mod osr_in = 0)%nat -> 0 < fs -> (1 <= q)%nat ->
  exists eye amp, eye_diagram (map Some x) osr_in (u * osr_in) fs q false = Ok (eye, amp) /\
    length eye = q /\ Forall (fun row => length row = (2 * (u * osr_in))%nat) eye /\
    (forall k j, (k < q)%nat -> (j < osr_in)%nat -> exists n, entry eye k (j * u) = INR n /\
       counts (fun r => in_interval fs q k (Some (nth (osr_in / 2 + r) x 0))) (at_phase (length x - osr_in) osr_in j) n) /\
    (forall k j t, (k < q)%nat -> (j < osr_in)%nat -> (1 <= t < u)%nat -> exists n, entry eye k (j * u + t) = INR n /\
       counts (fun r => in_interval fs q k (Some (sinc_interpolation x osr_in u t r))) (at_phase (length x - osr_in) osr_in j) n).
Proof.
  intros x osr_in u fs q Hi Hu Hl M Hf Hq. destruct (folded_interpolated x osr_in u Hi Hu Hl) as (temp & F & Lt & R0 & Rt).
  pose proof (Nat.div_mod (length x) osr_in ltac:(lia)) as D. rewrite M in D. set (m := (length x / osr_in)%nat) in *. clearbody m.
  assert (Hm : (1 <= m)%nat) by nia. assert (Lx : (length x - osr_in = (m - 1) * osr_in)%nat) by nia. rewrite Lx in *.
  assert (Lt2 : (length temp = (m - 1) * (u * osr_in))%nat) by lia. assert (Ho : (1 <= u * osr_in)%nat) by nia.
  rewrite (eye_ok (map Some x) osr_in (u * osr_in) fs q false temp F); auto; [|rewrite Lt2; apply Nat.mod_mul; lia].
  do 2 eexists. split; [reflexivity|]. unfold out_of. split; [now rewrite map_length, seq_length|]. split.
  { apply Forall_forall. intros row Hr. apply in_map_iff in Hr. destruct Hr as (k & <- & _). unfold eye_row. rewrite app_length, map_length, seq_length. lia. }
  assert (G : forall k j t, (k < q)%nat -> (j < osr_in)%nat -> (t < u)%nat -> exists n, entry (map (eye_row fs q temp (u * osr_in)) (seq 0 q)) k (j * u + t) = INR n /\
     counts (fun r => in_interval fs q k (nth (r * u + t) temp None)) (at_phase ((m - 1) * osr_in) osr_in j) n).
  { intros k j t Hk Hj Ht. assert (Hc : (j * u + t < u * osr_in)%nat) by nia. rewrite eye_entry by (auto; lia). eexists. split; [reflexivity|]. rewrite (Nat.mod_small _ _ Hc).
    pose proof (bin_count_spec fs q temp (u * osr_in) k (j * u + t) Hf Hk) as B. rewrite Lt2, phase_positions in B by auto. rewrite phase_positions by auto.
    apply counts_map. apply (proj1 (counts_map _ _ _ _)) in B. eapply counts_ext; [|exact B]. intros r _. cbv beta. replace (r * (u * osr_in) + (j * u + t))%nat with ((r * osr_in + j) * u + t)%nat by lia. tauto. }
  split.
  - intros k j Hk Hj. destruct (G k j 0%nat Hk Hj ltac:(lia)) as (n & En & Cn). exists n. rewrite Nat.add_0_r in En. split; auto. eapply counts_ext; [|exact Cn].
    intros r Hr. cbv beta. apply filter_In in Hr. destruct Hr as [Hr _]. apply in_seq in Hr. rewrite Nat.add_0_r, R0 by lia. tauto.
  - intros k j t Hk Hj Ht. destruct (G k j t Hk Hj ltac:(lia)) as (n & En & Cn). exists n. split; auto. eapply counts_ext; [|exact Cn].
    intros r Hr. cbv beta. apply filter_In in Hr. destruct Hr as [Hr _]. apply in_seq in Hr. rewrite Rt by lia. tauto.
Qed.
Print Assumptions C56_interpolated.
(** Finding: interpolation moves the sampling phase by half a symbol: with two samples per symbol, first sample 1/2 and
    second sample -1/2, column 0 holds the positive samples without interpolation and the negative ones with it. *)
Theorem C56_phase_refuted : exists x e1 a1 e2 a2,
  eye_diagram (map Some x) 2 2 1 2 false = Ok (e1, a1) /\ eye_diagram (map Some x) 2 4 1 2 false = Ok (e2, a2) /\
  entry e1 1 0 = 2 /\ entry e1 0 0 = 0 /\ entry e2 1 0 = 0 /\ entry e2 0 0 = 1.
Proof.
  exists [1 / 2; - (1 / 2); 1 / 2; - (1 / 2)]. set (x := [_; _; _; _]).
  destruct (C56_bins (map Some x) 2 2 1 2) as (e1 & a1 & E1 & _ & _ & H1); [lia|reflexivity|lra|lia|].
  destruct (C56_interpolated x 2 2 1 2) as (e2 & a2 & E2 & _ & _ & H2 & _); [lia|lia|cbn; lia|reflexivity|lra|lia|].
  exists e1, a1, e2, a2. split; auto. split; auto.
  assert (I0 : forall v, in_interval 1 2 0 (Some v) <-> -1 <= v < 0).
  { intros v. unfold in_interval, edge. cbn [INR]. split; [intros (w & [= <-] & H3 & [H4|[H4 _]]); [lra|lia]|intros [H3 H4]; exists v; split; auto; split; [lra|left; lra]]. }
  assert (I1 : forall v, in_interval 1 2 1 (Some v) <-> 0 <= v <= 1).
  { intros v. unfold in_interval, edge. cbn [INR]. split; [intros (w & [= <-] & H3 & [H4|[H4 H5]]); lra|intros [H3 H4]; exists v; split; auto; split; [lra|]]. destruct (Req_dec v 1); [right; auto|left; lra]. }
  assert (U1 : forall k n, (k < 2)%nat -> counts (fun i => in_interval 1 2 k (nth i (map Some x) None)) [0; 2]%nat n -> entry e1 k 0 = INR n).
  { intros k n Hk Hn. destruct (H1 k 0%nat Hk ltac:(lia)) as (m & -> & Hm). f_equal. eapply counts_unique; eauto. }
  assert (U2 : forall k n, (k < 2)%nat -> counts (fun r => in_interval 1 2 k (Some (nth (2 / 2 + r) x 0))) [0%nat] n -> entry e2 k 0 = INR n).
  { intros k n Hk Hn. destruct (H2 k 0%nat Hk ltac:(lia)) as (m & Em & Hm). rewrite Nat.mul_0_l in Em. rewrite Em. f_equal. eapply counts_unique; eauto. }
  repeat split.
  - rewrite (U1 1%nat 2%nat); auto. constructor; [apply I1; cbn; lra|]. constructor; [apply I1; cbn; lra|constructor].
  - rewrite (U1 0%nat 0%nat); auto. constructor 3; [cbn [nth map x]; rewrite I0; lra|]. constructor 3; [cbn [nth map x]; rewrite I0; lra|constructor].
  - rewrite (U2 1%nat 0%nat); auto. constructor 3; [change (nth (2 / 2 + 0) x 0) with (- (1/2)); rewrite I1; lra|constructor].
  - rewrite (U2 0%nat 1%nat); auto. constructor 2; [change (nth (2 / 2 + 0) x 0) with (- (1/2)); rewrite I0; lra|constructor].
Qed.
Print Assumptions C56_phase_refuted.
(** Refusals. *)
Theorem C56_refusals : forall (s : list num) osr_in osr fs q lg,
  (osr = 0%nat -> eye_diagram s osr_in osr fs q lg = Raise ValueError) /\
  ((1 <= osr)%nat -> osr_in = 0%nat -> eye_diagram s osr_in osr fs q lg = Raise ZeroDivisionError) /\
  ((1 <= osr <= osr_in)%nat -> (length s mod osr <> 0)%nat \/ q = 0%nat \/ fs < 0 -> eye_diagram s osr_in osr fs q lg = Raise ValueError) /\
  (forall (x : list R) u, s = map Some x -> (1 <= osr_in)%nat -> (2 <= u)%nat -> osr = (u * osr_in)%nat -> (length x < osr_in)%nat \/ (length x mod osr_in <> 0)%nat ->
     eye_diagram s osr_in osr fs q lg = Raise ValueError).
Proof.
  intros s osr_in osr fs q lg. split; [|split; [|split]].
  - intros ->. reflexivity.
  - intros Ho ->. unfold eye_diagram. now replace (0 <? osr)%nat with true by (symmetry; apply Nat.ltb_lt; lia).
  - intros Ho H. unfold eye_diagram. replace (osr_in <? osr)%nat with false by (symmetry; apply Nat.ltb_ge; lia). cbn [bind]. unfold reshape_rows.
    replace (osr =? 0)%nat with false by (symmetry; apply Nat.eqb_neq; lia). destruct (Nat.eqb_spec (length s mod osr) 0) as [M|M]; auto. cbn [bind]. destruct H as [H|H]; [contradiction|].
    destruct osr as [|o]; [lia|]. cbn [seq map_res]. unfold histogram at 1. destruct (Nat.eqb_spec q 0) as [Q|Q]; auto. destruct H as [H|H]; [contradiction|].
    destruct (Rlt_dec fs (-1 * fs)); [reflexivity|lra].
  - intros x u -> Hi Hu -> H. destruct (Nat.lt_ge_cases (length x) osr_in) as [L|L].
    + unfold eye_diagram. replace (osr_in <? u * osr_in)%nat with true by (symmetry; apply Nat.ltb_lt; nia). replace (osr_in =? 0)%nat with false by (symmetry; apply Nat.eqb_neq; lia).
      destruct (C49_errors (map Some x) (u * osr_in / osr_in) osr_in "sinc" 0) as [E _]. rewrite E by (now rewrite map_length). reflexivity.
    + destruct H as [H|H]; [lia|]. destruct (folded_interpolated x osr_in u Hi Hu L) as (temp & F & Lt & _). unfold eye_diagram. fold (folded (map Some x) osr_in (u * osr_in)). rewrite F. cbn [bind].
      unfold reshape_rows. replace (u * osr_in =? 0)%nat with false by (symmetry; apply Nat.eqb_neq; nia). rewrite Lt, (Nat.mul_comm _ u), Nat.mul_mod_distr_l by lia.
      replace (u * ((length x - osr_in) mod osr_in) =? 0)%nat with false; auto. symmetry. apply Nat.eqb_neq. intros X. apply H.
      assert (X0 : ((length x - osr_in) mod osr_in = 0)%nat) by nia. replace (length x) with (length x - osr_in + 1 * osr_in)%nat by lia. now rewrite Nat.mod_add by lia.
Qed.
Print Assumptions C56_refusals.
(** Finding: fs_value = 0 does not give an empty eye: numpy widens the range to [-1/2, 1/2] while the axis is all zeros. *)
Theorem C56_zero_scale_refuted : forall (s : list num) osr_in osr q lg, (1 <= osr <= osr_in)%nat -> (length s mod osr = 0)%nat -> (1 <= q)%nat ->
  exists eye amp0 amp, eye_diagram s osr_in osr 0 q lg = Ok (eye, amp0) /\ eye_diagram s osr_in osr (1 / 2) q lg = Ok (eye, amp) /\ amp0 = repeat 0 q.
Proof.
  intros s osr_in osr q lg Ho M Hq. unfold eye_diagram. replace (osr_in <? osr)%nat with false by (symmetry; apply Nat.ltb_ge; lia). cbn [bind]. unfold reshape_rows.
  replace (osr =? 0)%nat with false by (symmetry; apply Nat.eqb_neq; lia). rewrite (proj2 (Nat.eqb_eq _ _) M). cbn [bind].
  assert (E : forall a, histogram a q (-1 * 0) 0 = histogram a q (-1 * (1 / 2)) (1 / 2)).
  { intros a. unfold histogram. replace (q =? 0)%nat with false by (symmetry; apply Nat.eqb_neq; lia). destruct (Rlt_dec 0 (-1 * 0)); [lra|]. destruct (Rlt_dec (1 / 2) (-1 * (1 / 2))); [lra|].
    destruct (Req_EM_T (-1 * 0) 0) as [_|X]; [|exfalso; apply X; ring]. destruct (Req_EM_T (-1 * (1 / 2)) (1 / 2)); [lra|]. now replace (-1 * 0 - 1 / 2) with (-1 * (1 / 2)) by lra; replace (0 + 1 / 2) with (1 / 2) by lra. }
  assert (EM : forall l, map_res (fun ii => histogram (map (fun row => nth ii row None) (chunks osr s)) q (-1 * 0) 0) l = map_res (fun ii => histogram (map (fun row => nth ii row None) (chunks osr s)) q (-1 * (1 / 2)) (1 / 2)) l).
  { induction l as [|i l IH]; auto. cbn [map_res]. now rewrite IH, E. }
  rewrite EM. assert (OK : forall l, exists c, map_res (fun ii => histogram (map (fun row => nth ii row None) (chunks osr s)) q (-1 * (1 / 2)) (1 / 2)) l = Ok c).
  { intros l. eexists. apply map_res_ok. intros i _. unfold histogram. replace (q =? 0)%nat with false by (symmetry; apply Nat.eqb_neq; lia). destruct (Rlt_dec (1 / 2) (-1 * (1 / 2))); [lra|].
    destruct (Req_EM_T (-1 * (1 / 2)) (1 / 2)); [lra|]. instantiate (1 := fun ii => map (fun k => length (filter (in_hist (-1 * (1/2)) (1/2) q k) (map (fun row => nth ii row None) (chunks osr s)))) (seq 0 q)). reflexivity. }
  destruct (OK (seq 0 osr)) as [c ->]. cbn [bind]. do 3 eexists. split; [reflexivity|]. split; [reflexivity|].
  unfold linspace. apply (nth_ext_def 0); [now rewrite map_length, seq_length, repeat_length|]. intros i Hi. rewrite map_length, seq_length in Hi. rewrite nth_map_seq by auto. rewrite nth_repeat. unfold Rdiv. ring.
Qed.
Print Assumptions C56_zero_scale_refuted.
Example C56_refusal_example : eye_diagram [Some 0; Some 1; Some 2] 2 2 1 4 false = Raise ValueError /\ eye_diagram (map Some [0; 1; 2]) 2 4 1 4 false = Raise ValueError.
Proof.
  split; [apply (C56_refusals [Some 0; Some 1; Some 2] 2 2 1 4 false); [lia|left; cbn; lia]|].
  destruct (C56_refusals (map Some [0; 1; 2]) 2 4 1 4 false) as (_ & _ & _ & H). apply (H [0; 1; 2] 2%nat); auto. right. cbn. lia.
Qed.
