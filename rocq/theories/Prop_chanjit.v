(** C77: the channel object with random jitter, and the link with such a channel. *)
From Coq Require Import Reals Lra Lia String Permutation.
From Verif Require Import Py PyQ B_list B_qc M_aux M_symbol M_prbs S_prbs M_sim S_sim M_simcheck S_simcheck P_prbs_gen P_checker P_simcheck M_rxloop S_rxparts P_rxparts P_rxlink M_link P_fulldig.
From Verif Require Import M_delay M_channel S_channel P_channel P_pulse M_ctle S_ctle S_link P_link S_full P_full Prop_link Prop_full M_jitter S_jitter P_jitter Prop_jitter M_chanjit S_chanjit P_chanjit.
From Coq Require Import QArith Qcanon.
Import List.
Open Scope R_scope.

(** A standard deviation of at most 1e-8 means no jitter, for the channel and for the link. *)
Theorem C77_no_jitter : forall sigma jit normal, Rabs sigma <= 1e-8 ->
  (forall c xs, channel_calls_rj sigma c xs jit normal = channel_calls c xs normal) /\
  (forall lms n l, full_link_run_rj sigma lms n l jit normal = full_link_run lms n l normal).
Proof.
  intros sigma jit normal H.
  assert (P : forall x o s pulse beta g zi, pulse_shape_rj x o s pulse beta sigma g zi = pulse_shape x o s pulse beta zi).
  { intros. unfold pulse_shape_rj. destruct (pulse_shape _ _ _ _ _ _) as [[y zo]|e]; auto. cbn [bind]. unfold close0. destruct (Rle_dec _ _); auto. exfalso. lra. }
  assert (C : forall c x g n, channel_call_rj sigma c x g n = channel_call c x n) by (intros; unfold channel_call_rj, channel_call; now rewrite P).
  split.
  - intros c xs. revert c jit normal. induction xs as [|x xs IH]; intros c jit normal; [reflexivity|]. cbn [channel_calls_rj channel_calls]. rewrite C. destruct (channel_call c x (normal 0%nat)) as (c1 & [y|e]); auto. now rewrite IH.
  - intros lms n. revert jit normal. induction n as [|n IH]; intros jit normal l; [reflexivity|]. cbn [full_link_run_rj full_link_run].
    assert (E : full_link_call_rj sigma lms l (jit 0%nat) (normal 0%nat) = full_link_call lms l (normal 0%nat)).
    { unfold full_link_call_rj, full_link_call. destruct (prbs_gen_next (fl_gen l)) as (g & [b|e]); auto. apply obind_ext. intros tx. now rewrite C. }
    rewrite E. apply obind_ext. intros ((l1, b), d). now rewrite IH.
Qed.
Print Assumptions C77_no_jitter.
(** The memory after any history is that of the same history without jitter, and every chunk returned is the chunk without
    jitter read at displaced times.  Noise is added to that. *)
Theorem C77_pulse : forall c o s sigma xs jit normal, channel_sized c o s -> ch_type c = "pulse"%string -> 1e-8 < Rabs sigma -> long_chunks o xs ->
  exists c' ys outs, channel_calls c xs normal = (c', Ok (returned ys)) /\ channel_calls_rj sigma c xs jit normal = (c', Ok (returned outs)) /\ jittered_chunks o sigma jit ys outs.
Proof. intros c o s sigma xs jit normal S T Sg F. destruct (history_pulse o s sigma Sg xs c jit normal S T F) as (c' & ys & outs & C1 & C2 & JJ & _). exists c', ys, outs. auto. Qed.
Print Assumptions C77_pulse.
Theorem C77_awgn : forall c o s sigma snr xs jit normal, channel_sized c o s -> ch_type c = "awgn"%string -> ch_snr c = Some snr -> 1e-8 < Rabs sigma -> long_chunks o xs ->
  exists c' c0 w ys outs, channel_calls c xs normal = (c', Ok w) /\ channel_calls (noise_free c) xs normal = (c0, Ok (returned ys)) /\ jittered_chunks o sigma jit ys outs /\
    channel_calls_rj sigma c xs jit normal = (c', Ok (map (fun i => Some (awgn (nth i outs []) snr (normal i))) (seq 0 (length outs)))).
Proof. intros c o s sigma snr xs jit normal S T N Sg F. destruct (history_awgn o s sigma snr Sg xs c jit normal S T N F) as (c' & ys & outs & C1 & C0 & C2 & JJ & _). exists c', (noise_free c'). eexists. exists ys, outs. split; [exact C1|]. split; [exact C0|]. split; [exact JJ|exact C2]. Qed.
Print Assumptions C77_awgn.
(** With inter-symbol interference the filter runs over the jittered chunks as over one signal. *)
Theorem C77_isi : forall c o s sigma a xs jit normal, channel_sized c o s -> ch_type c = "isi_awgn"%string -> ch_snr c = None -> ch_iir c = Some a -> 1e-8 < Rabs sigma -> long_chunks o xs -> xs <> [] ->
  exists c' c0 ys outs zs, channel_calls (pulse_only c) xs normal = (c0, Ok (returned ys)) /\ jittered_chunks o sigma jit ys outs /\
    channel_calls_rj sigma c xs jit normal = (c', Ok (returned zs)) /\ map (@length R) zs = map (@length R) outs /\
    difference_equation (ch_fir c) a (ch_zi c) (concat outs) (concat zs) /\ ch_pulse_zi c' = ch_pulse_zi c0.
Proof.
  intros c o s sigma a xs jit normal S T N Ia Sg F Nx. destruct (history_isi o s sigma a Sg xs c jit normal S T N Ia F) as (c' & c0 & ys & outs & zs & C1 & C2 & JJ & LL & LZ & PZ & LF).
  exists c', c0, ys, outs, zs. split; [exact C1|]. split; [exact JJ|]. split; [exact C2|]. split; [exact LZ|]. split; [|exact PZ].
  specialize (LF Nx). destruct S as (_ & _ & _ & _ & _ & _ & a' & Ea & Us). rewrite Ia in Ea. injection Ea as <-. pose proof (usable_lf _ _ _ Us) as LS.
  assert (No : concat outs <> []).
  { pose proof (jittered_lengths _ _ _ _ _ JJ) as JL. rewrite LL in JL. destruct xs as [|x xs]; [congruence|]. destruct outs as [|u outs]; [discriminate JL|]. cbn [map concat] in *. injection JL as JL _. inversion F; subst. intros X. apply app_eq_nil in X as [-> _]. cbn [length] in JL. lia. }
  destruct (lfilter_spec _ _ _ _ LS No) as (y' & z' & F' & L1 & _ & D & _). rewrite LF in F'. injection F' as <- <-. split; auto. intros n Hn. rewrite D at 1 by auto. rewrite conv_upto, fb_conv. destruct LS as (_ & _ & A0 & _). field. exact A0.
Qed.
Print Assumptions C77_isi.
Lemma jittered_unique o sigma d1 d2 y o1 o2 : (1 <= o)%nat -> (4 <= length y)%nat -> (forall j, d1 j = d2 j) -> jittered o sigma d1 y o1 -> jittered o sigma d2 y o2 -> o1 = o2.
Proof.
  intros Ho L E [L1 V1] [L2 V2]. apply (nth_ext_def 0); [congruence|]. rewrite L1. intros k Hk. assert (P : 0 < / INR o) by (apply Rinv_0_lt_compat, lt_0_INR; lia). pose proof (cubic_is_spline _ y P L) as SP.
  rewrite (V1 _ SP k Hk), (V2 _ SP k Hk), E. reflexivity.
Qed.
(** The jitter of a chunk shows in that chunk only, unless the channel has inter-symbol interference. *)
Theorem C77_own_draws : forall c o s sigma xs jit jit' normal, channel_sized c o s -> (ch_type c = "pulse" \/ (ch_type c = "awgn" /\ ch_snr c <> None))%string -> 1e-8 < Rabs sigma -> long_chunks o xs ->
  exists c' w w', channel_calls_rj sigma c xs jit normal = (c', Ok w) /\ channel_calls_rj sigma c xs jit' normal = (c', Ok w') /\ length w = length xs /\ length w' = length xs /\
    forall i, (forall j, jit i j = jit' i j) -> nth i w None = nth i w' None.
Proof.
  intros c o s sigma xs jit jit' normal S T Sg F. pose proof S as (Ho & _).
  assert (SAME : forall ys o1 o2, map (@length R) ys = map (fun x => (length x * o)%nat) xs -> jittered_chunks o sigma jit ys o1 -> jittered_chunks o sigma jit' ys o2 -> length o1 = length xs /\ length o2 = length xs /\ forall i, (forall j, jit i j = jit' i j) -> nth i o1 [] = nth i o2 []).
  { intros ys o1 o2 LL [L1 J1] [L2 J2]. assert (LX : length ys = length xs) by (apply (f_equal (@length nat)) in LL; now rewrite !map_length in LL). split; [congruence|]. split; [congruence|]. intros i E. destruct (Nat.lt_ge_cases i (length ys)) as [Hi|Hi]; [|rewrite !nth_overflow by lia; reflexivity].
    apply (jittered_unique o sigma (jit i) (jit' i) (nth i ys [])); auto. apply (f_equal (fun l => nth i l 0%nat)) in LL. rewrite !(map_nth_lt _ _ _ []) in LL by lia. rewrite LL. unfold long_chunks in F. rewrite Forall_forall in F. apply F, nth_In. lia. }
  destruct T as [T|[T N]].
  - destruct (history_pulse o s sigma Sg xs c jit normal S T F) as (c1 & ys & o1 & C1 & C2 & J1 & LL). destruct (history_pulse o s sigma Sg xs c jit' normal S T F) as (c1' & ys' & o2 & C1' & C2' & J2 & _).
    rewrite C1 in C1'. injection C1' as <- E. apply returned_inj in E. subst ys'. destruct (SAME ys o1 o2 LL J1 J2) as (L1 & L2 & E). exists c1, (returned o1), (returned o2). unfold returned. rewrite !map_length. split; [exact C2|]. split; [exact C2'|]. split; auto. split; auto. intros i Hi. specialize (E i Hi).
    destruct (Nat.lt_ge_cases i (length xs)) as [Q|Q]; [|rewrite !nth_overflow by (rewrite map_length; lia); reflexivity]. rewrite !(map_nth_lt _ _ _ []) by lia. now rewrite E.
  - destruct (ch_snr c) as [snr|] eqn:Sn; [|congruence]. destruct (history_awgn o s sigma snr Sg xs c jit normal S T Sn F) as (c1 & ys & o1 & C1 & C0 & C2 & J1 & LL). destruct (history_awgn o s sigma snr Sg xs c jit' normal S T Sn F) as (c1' & ys' & o2 & C1' & C0' & C2' & J2 & _).
    rewrite C0 in C0'. apply (f_equal snd) in C0'. cbn [snd] in C0'. injection C0' as E. apply returned_inj in E. subst ys'. rewrite C1 in C1'. injection C1' as <-. destruct (SAME ys o1 o2 LL J1 J2) as (L1 & L2 & E). do 3 eexists. split; [exact C2|]. split; [exact C2'|]. rewrite !map_length, !seq_length. split; auto. split; auto. intros i Hi. specialize (E i Hi).
    destruct (Nat.lt_ge_cases i (length xs)) as [Q|Q]; [|rewrite !nth_overflow by (rewrite map_length, seq_length; lia); reflexivity]. rewrite !nth_map_seq by lia. cbn [Nat.add]. now rewrite E.
Qed.
Print Assumptions C77_own_draws.
Lemma polynomial_spline h y p : (forall k, (k < length y)%nat -> nth k y 0 = value p (INR k * h)) -> is_spline h y (value p).
Proof.
  intros Hy. split; [intros j Hj; symmetry; apply Hy; auto|]. destruct p as [a b c d].
  exists (fun i => let t := INR i * h in mk_cubic (a + b * t + c * t ^ 2 + d * t ^ 3) (b + 2 * c * t + 3 * d * t ^ 2) (c + 3 * d * t) d).
  cbn zeta. unfold value, slope, bend. cbn [ca cb cc cd]. repeat split; intros; try rewrite plus_INR; cbn [INR]; try ring.
Qed.
(** One sample per symbol, two taps. *)
Definition ex77_c : channel := mk_ch "rect" 1 0 "isi_awgn" [1; 1] (Some [1]) 1 None [0] [0].
Lemma ex77_sized : channel_sized ex77_c 1 1.
Proof. split; [lia|]. split; [lia|]. do 2 (split; [reflexivity|]). split; [left; reflexivity|]. split; [reflexivity|]. exists [1]. split; [reflexivity|]. split; [discriminate|]. split; [discriminate|]. split; [cbn; lra|reflexivity]. Qed.
Lemma ex77_out draw normal : exists c' z1 z2 v, channel_calls_rj 1 ex77_c [ex_x; ex_x] (fun i j => if (i =? 0)%nat then draw j else 0) normal = (c', Ok (returned [z1; z2])) /\ nth 0 z2 0 = v + value ex_p (3 + draw 3%nat) /\ v = -1.
Proof.
  assert (L : long_chunks 1 [ex_x; ex_x]) by (repeat constructor; cbn; lia). assert (Sg : 1e-8 < Rabs 1) by (rewrite Rabs_R1; lra).
  set (jit := fun i j => if (i =? 0)%nat then draw j else 0).
  destruct (history_isi 1 1 1 [1] Sg [ex_x; ex_x] ex77_c jit normal ex77_sized eq_refl eq_refl eq_refl L) as (c' & c0 & ys & outs & zs & C1 & C2 & JJ & LL & LZ & PZ & LF).
  destruct (C77_isi ex77_c 1 1 1 [1] [ex_x; ex_x] jit normal ex77_sized eq_refl eq_refl eq_refl Sg L ltac:(discriminate)) as (d' & d0 & ys' & outs' & zs' & D1 & JJ' & D2 & LZ' & DE & _).
  rewrite C2 in D2. injection D2 as <- D2. apply returned_inj in D2. subst zs'. rewrite C1 in D1. injection D1 as <- D1. apply returned_inj in D1. subst ys'. clear outs JJ LF LZ. rename outs' into outs. rename JJ' into JJ.
  destruct (rect_symbols ex_x 0 ltac:(discriminate)) as (y & zo & E & Ly & FY). cbn [ex_x length] in Ly. rewrite (pulse_shape_none _ 1 1) in E by lia. change (repeat 0 (2 * (1 * 1) - 1)) with [0] in E.
  destruct (rect_symbols (ex_x ++ ex_x) 0 ltac:(discriminate)) as (yy & zz & EE & LYY & FYY). rewrite (pulse_shape_none _ 1 1) in EE by lia. change (repeat 0 (2 * (1 * 1) - 1)) with [0] in EE.
  assert (UP : usable_pulse "rect" 0) by (left; reflexivity).
  destruct (pulse_streams "rect" 0 1 1 ex_x ex_x [0] (le_n 1) (le_n 1) ltac:(discriminate) ltac:(discriminate) UP eq_refl) as (p1 & q1 & p2 & q2 & P1 & LP1 & LQ1 & P2 & P3). rewrite P1 in E. injection E as <- <-. rewrite P3 in EE. injection EE as <- <-.
  cbn [channel_calls] in C1. unfold channel_call in C1. cbn [pulse_only ex77_c ch_osr ch_span ch_pulse ch_rolloff ch_pulse_zi ch_type ch_with ch_zi ch_fir ch_iir ch_snr] in C1. change 1%Z with (Z.of_nat 1) in C1. rewrite P1 in C1. cbn [ch_osr ch_span ch_pulse ch_rolloff ch_pulse_zi ch_type ch_with ch_zi ch_fir ch_iir ch_snr] in C1. change ("pulse" =? "pulse")%string with true in C1. cbv iota in C1. cbn [ch_osr ch_span ch_pulse ch_rolloff ch_pulse_zi ch_type ch_with ch_zi ch_fir ch_iir ch_snr] in C1. cbn [pulse_only ex77_c ch_osr ch_span ch_pulse ch_rolloff] in C1. change 1%Z with (Z.of_nat 1) in C1. rewrite P2 in C1. cbn [ch_type pulse_only] in C1. change ("pulse" =? "pulse")%string with true in C1. cbv iota in C1.
  injection C1 as _ C1. destruct ys as [|y1 [|y2 [|]]]; try discriminate C1. unfold returned in C1. cbn [map] in C1. injection C1 as X1 X2. apply some_inj in X1, X2. subst p1 p2.
  destruct JJ as [JL J]. destruct outs as [|u1 [|u2 [|]]]; try discriminate JL. destruct zs as [|z1 [|z2 [|]]]; try discriminate LZ'. cbn [map] in LZ'. injection LZ' as M1 M2.
  exists c', z1, z2, (nth 0 u2 0). split; [exact C2|]. pose proof (J 0%nat ltac:(cbn; lia)) as [K1 V1]. pose proof (J 1%nat ltac:(cbn; lia)) as [K2 V2]. cbn [nth] in *.
  assert (LY2 : length y2 = 4%nat) by (rewrite app_length in LYY; cbn [ex_x length app] in LYY; lia).
  assert (N : forall k, (k < length y1)%nat -> nth k y1 0 = value ex_p (INR k * / INR 1)).
  { intros k Hk. rewrite FY by (cbn [ex_x length]; lia). rewrite Ly in Hk. unfold value, ex_p, ex_x. cbn [ca cb cc cd]. do 4 (destruct k as [|k]; [cbn [nth INR]; field|]). lia. }
  assert (U3 : nth 3 u1 0 = value ex_p (3 + draw 3%nat)). { rewrite (V1 _ (polynomial_spline _ _ _ N) 3%nat) by lia. f_equal. change (3 / 1)%nat with 3%nat. unfold jit. cbn [Nat.eqb INR]. field. }
  assert (U0 : nth 0 u2 0 = -1).
  { destruct (C73_spline (/ INR 1) y2 ltac:(cbn; lra) ltac:(lia)) as (f & SP & _). rewrite (V2 _ SP 0%nat) by lia. unfold jit. cbn [Nat.eqb]. destruct SP as [SP _]. specialize (SP 0%nat ltac:(lia)). replace (INR 0 / INR 1 + 1 * 0) with (INR 0 * / INR 1) by (cbn; field). rewrite SP.
    specialize (FYY 4%nat ltac:(cbn; lia)). rewrite app_nth2 in FYY by lia. rewrite Ly in FYY. exact FYY. }
  split; [|exact U0]. destruct DE as [_ DE]. assert (L1 : length u1 = 4%nat) by lia. assert (L2 : length u2 = 4%nat) by lia. specialize (DE 4%nat). cbn [concat] in DE. rewrite !app_nil_r, app_length, L1, L2 in DE. specialize (DE ltac:(lia)).
  cbn [ex77_c ch_fir ch_zi sum_upto nth] in DE. rewrite (app_nth2 z1 z2) in DE by lia. replace (4 - length z1)%nat with 0%nat in DE by lia.
  change (4 - 0)%nat with 4%nat in DE. change (4 - 1)%nat with 3%nat in DE. rewrite (app_nth2 u1 u2 0 (n := 4)) in DE by lia. rewrite (app_nth1 u1 u2 0 (n := 3)) in DE by lia. rewrite L1 in DE. change (4 - 4)%nat with 0%nat in DE. rewrite U3 in DE. lra.
Qed.
(** (Finding.) With inter-symbol interference the jitter of one chunk reaches the next: the draws for the first chunk change
    the first sample of the second. *)
Theorem C77_isi_own_draws_refuted : ~ forall c o s sigma xs jit jit' normal c1 c2 w w', channel_sized c o s -> ch_type c = "isi_awgn"%string -> ch_snr c = None -> 1e-8 < Rabs sigma -> long_chunks o xs ->
  channel_calls_rj sigma c xs jit normal = (c1, Ok w) -> channel_calls_rj sigma c xs jit' normal = (c2, Ok w') -> forall i, (forall j, jit i j = jit' i j) -> nth i w None = nth i w' None.
Proof.
  intros H. destruct (ex77_out (fun _ => 0) (fun _ _ => 0)) as (c1 & z1 & z2 & v & E1 & V1 & X1). destruct (ex77_out (fun _ => / 2) (fun _ _ => 0)) as (c2 & u1 & u2 & v' & E2 & V2 & X2).
  specialize (H ex77_c 1%nat 1%nat 1 [ex_x; ex_x] _ _ _ c1 c2 _ _ ex77_sized eq_refl eq_refl ltac:(rewrite Rabs_R1; lra) ltac:(repeat constructor; cbn; lia) E1 E2 1%nat (fun j => eq_refl)).
  unfold returned in H. cbn [map nth] in H. injection H as H. apply some_inj in H. subst u2. rewrite V1 in V2. subst v v'. unfold value, ex_p in V2. cbn [ca cb cc cd] in V2. lra.
Qed.
Print Assumptions C77_isi_own_draws_refuted.
(** Chunks of less than four samples are refused with jitter and leave the object as it was. *)
Theorem C77_short : forall c o s sigma x jit normal, channel_sized c o s -> 1e-8 < Rabs sigma -> x <> [] -> (length x * o < 4)%nat ->
  channel_call_rj sigma c x jit normal = (c, Raise ValueError).
Proof.
  intros c o s sigma x jit normal (Ho & Hs & Eo & Es & HP & Lz & _) Sg Nx L. unfold channel_call_rj. rewrite Eo, Es. pose proof (C73_defined x o s _ _ sigma jit _ Ho Hs Nx Lz HP Sg) as D. replace (4 <=? length x * o)%nat with false in D by (symmetry; apply Nat.leb_gt; auto). now rewrite D.
Qed.
Print Assumptions C77_short.
(** Displacements of at most [J] symbols, not more than one sample, change no sample by more than 26 osr J times the peak, at
    the ends of the chunk too. *)
Theorem C77_small : forall o sigma draw y out peak J, (1 <= o)%nat -> (4 <= length y)%nat -> jittered o sigma draw y out -> Forall (fun v => Rabs v <= peak) y -> (forall j, Rabs (sigma * draw j) <= J) -> INR o * J <= 1 ->
  forall k, (k < length y)%nat -> Rabs (nth k out 0 - nth k y 0) <= 26 * (INR o * J) * peak.
Proof. intros. eapply jittered_near; eauto. Qed.
Print Assumptions C77_small.

(** *** The link *)
Theorem C77_link : forall lms s D d sigma, good_settings s D d -> (ls_type s = "pulse" \/ ls_type s = "awgn")%string -> 0 <= d ->
  exists l, ls_link s = Ok l /\ forall n jit normal, link_disturbance_at_most d sigma l n (ls_symbols s) jit normal ->
  let L := (ls_symbols s * ls_bits s)%nat in
  exists l' bs ds start, full_link_run_rj sigma lms n l jit normal = Done (Ok (l', bs, ds)) /\
    (exists g, prbs_gen_run n (prbs_gen_init (prbs_data_init (ls_prbs s) L (ls_seed s))) = (g, Ok bs)) /\
    length start = ((D + ls_pre s) * ls_bits s)%nat /\ bits start /\ length ds = n /\ Forall (fun x => length x = L) ds /\
    concat ds = map inject_Z (firstn (n * L) (start ++ concat bs)).
Proof.
  intros lms s D d sigma G T Hd. destruct (link_ready s (ls_symbols s * ls_bits s) D d (proj1 G) T) as (l & E & _). exists l. split; [exact E|]. intros n jit normal NO L.
  destruct (link_delivers_via lms s D d n (rj_stage sigma jit normal) l G T Hd E) as (l' & bs & ds & start & g & A1 & A2 & A3 & A4 & A5 & A6 & A7).
  - intros g bs txs R F2 Lt. rewrite calls_rj. destruct (NO g bs txs R F2 Lt) as (c1 & c2 & cs & cl & N1 & N2 & N3). exists c1, c2, cs, cl, normal. auto.
  - rewrite run_rj in A1. exists l', bs, ds, start. repeat split; eauto.
Qed.
Print Assumptions C77_link.
(** ... and the checker counts no error. *)
Theorem C77_error_free : forall lms s D d sigma, good_settings s D d -> (ls_type s = "pulse" \/ ls_type s = "awgn")%string -> 0 <= d ->
  match ls_seed s with Some v => v <> repeat 0%Z (prbs_value (ls_prbs s)) | None => True end ->
  exists l, ls_link s = Ok l /\ forall n jit normal, link_disturbance_at_most d sigma l n (ls_symbols s) jit normal ->
  exists l' bs ds, full_link_run_rj sigma lms n l jit normal = Done (Ok (l', bs, ds)) /\ length ds = n /\
    forall c ck, (c < n)%nat -> (D + ls_pre s <= c * ls_symbols s)%nat -> counts_for (ls_prbs s) ck ->
    exists w, nth c ds [] = map inject_Z w /\ length w = (ls_symbols s * ls_bits s)%nat /\
      ck_errors (fst (check_ber ck w)) = ck_errors ck /\ ck_symbols (fst (check_ber ck w)) = (ck_symbols ck + Z.of_nat (length w))%Z /\ snd (check_ber ck w) = Ok (0 # Pos.of_nat (length w))%Q.
Proof.
  intros lms s D d sigma G T Hd LS. destruct (C77_link lms s D d sigma G T Hd) as (l & E & H). exists l. split; [exact E|]. intros n jit normal NO. set (L := (ls_symbols s * ls_bits s)%nat).
  destruct (H n jit normal NO) as (l' & bs & ds & start & A1 & (g & A2) & A3 & A4 & A5 & A6 & A7). fold L in A2, A6, A7. exists l', bs, ds. split; [exact A1|]. split; [exact A5|].
  intros c ck Hc Hq CF. set (sd := match ls_seed s with Some v => v | None => repeat 1%Z (prbs_value (ls_prbs s)) end).
  assert (SL : live_seed (ls_prbs s) sd). { destruct G as ((SE & _) & _). unfold sd, live_seed. destruct (ls_seed s) as [v|]; [destruct SE; auto|]. apply ones_seed. }
  assert (EG : prbs_gen_init (prbs_data_init (ls_prbs s) L (ls_seed s)) = mk_pg (get_polynomial (ls_prbs s)) L sd).
  { unfold prbs_gen_init, prbs_data_init, sd. cbn [pd_poly pd_chunk pd_seed]. destruct (ls_seed s); [reflexivity|]. now rewrite ones_map. }
  rewrite EG in A2. assert (LP : (1 <= L)%nat) by (destruct G as (_ & U); destruct U as (_ & _ & _ & _ & _ & _ & _ & _ & _ & H1 & H2 & _); unfold L; nia).
  destruct (received_chunk _ sd L n _ start bs ds g c SL A2 A3 A5 A6 A7 Hc) as (u & w & U1 & U2 & U3 & U4); [unfold L; nia|]. exists w. split; [exact U4|]. split; [exact U3|].
  rewrite <- U3 in U2. assert (Nw : w <> []) by (intros ->; cbn [length] in U3; lia). rewrite (check_clean _ ck u w CF U1 U2 Nw). cbn [fst snd ck_errors ck_symbols]. auto.
Qed.
Print Assumptions C77_error_free.
Lemma sent_bounded s D d A l n g bs txs : good_settings s D d -> (ls_type s = "pulse" \/ ls_type s = "awgn")%string -> ls_link s = Ok l -> Forall (fun v => Rabs (Qc2R v) <= A) (md_levels (ls_map s)) ->
  prbs_gen_run n (fl_gen l) = (g, Ok bs) -> Forall2 (fun b t => transmit (fl_cd l) (fl_md l) b = Done (Ok t)) bs txs -> Forall (fun x => length x = ls_symbols s /\ Forall (fun v => Rabs v <= A) x) (map (map Qc2R) txs).
Proof.
  intros G TY E FL R F2. destruct (link_ready s (ls_symbols s * ls_bits s) D d (proj1 G) TY) as (l0 & E0 & S & T' & Z0 & Pu & Ro & Ge & Ecd & Emd & _). unfold ls_link in E. rewrite E in E0. injection E0 as <-.
  destruct G as ((SE & NA & SF & M & _) & U).
  set (L := (ls_symbols s * ls_bits s)%nat) in *. set (sd := match ls_seed s with Some v => v | None => repeat 1%Z (prbs_value (ls_prbs s)) end).
  assert (EG : prbs_gen_init (prbs_data_init (ls_prbs s) L (ls_seed s)) = mk_pg (get_polynomial (ls_prbs s)) L sd).
  { unfold prbs_gen_init, prbs_data_init, sd. cbn [pd_poly pd_chunk pd_seed]. destruct (ls_seed s); [reflexivity|]. now rewrite ones_map. }
  assert (SDok : length sd = prbs_value (ls_prbs s) /\ bits sd). { unfold sd. destruct (ls_seed s); [exact SE|]. destruct (ones_seed (ls_prbs s)) as (X & Y & _). auto. }
  rewrite Ge, EG in R. destruct (gen_run (ls_prbs s) n (mk_pg (get_polynomial (ls_prbs s)) L sd) eq_refl (proj1 SDok) (proj2 SDok)) as (g' & bs' & R1 & R2 & R3 & _ & _ & R6). rewrite R in R1. injection R1 as <- <-. cbn [pg_chunk pg_seed] in *.
  assert (FB : Forall (fun b => bits b /\ length b = L) bs).
  { assert (BC : bits (concat bs)). { rewrite gen_char in R6 by apply SDok. injection R6 as <- _. apply outbits_bits. }
    apply Forall_forall. intros b Hb. split; [|rewrite Forall_forall in R3; exact (R3 b Hb)]. unfold bits in *. rewrite Forall_forall in *. intros v Hv. apply BC. apply in_concat. eauto. }
  destruct (encode_chunks (ls_cd s) (ls_constel s) L (ls_symbols s) (ls_map s) (ls_amp s) (ls_rx_factor s) (uncoded_carries _ _ _ _ U) NA M bs FB) as (ss & T1 & _ & _ & T4 & T5). rewrite Ecd, Emd in F2.
  assert (EX : txs = map (map (fun v => nth (Z.to_nat v) (md_levels (ls_map s)) 0%Qc)) ss).
  { clear - F2 T1. set (q := map _ ss) in *. clearbody q. revert q T1. induction F2 as [|b t bs txs Hb _ IH]; intros q T1; inversion T1; subst; auto. rewrite Hb in H1. injection H1 as <-. f_equal. auto. }
  subst txs. apply Forall_forall. intros x Hx. rewrite map_map in Hx. apply in_map_iff in Hx. destruct Hx as (v & <- & Hv). rewrite !map_length. rewrite Forall_forall in T4. split; [now apply T4|].
  apply Forall_forall. intros y Hy. rewrite map_map in Hy. apply in_map_iff in Hy. destruct Hy as (w & <- & Hw). rewrite Forall_forall in FL. apply FL. apply nth_In. destruct (rx_levels_eq _ _ _ _ NA M) as (_ & EM & _).
  rewrite EM, map_length. rewrite Forall_forall in T5. specialize (T5 w). assert (IN : In w (concat ss)) by (apply in_concat; eauto). specialize (T5 IN). lia.
Qed.
(** How large the disturbance is: with the rectangular pulse, transmitted levels of at most [A], jitter of at most [J] symbols,
    which is not more than one sample, and noise draws of at most [B]. *)
Theorem C77_jitter : forall s D d sigma A B J l n jit normal, good_settings s D d -> ls_pulse s = "rect"%string -> (4 <= ls_symbols s * ls_osr s)%nat -> ls_link s = Ok l -> 1e-8 < Rabs sigma ->
  0 <= A -> 0 <= B -> 0 <= J -> INR (ls_osr s) * J <= 1 -> Forall (fun v => Rabs (Qc2R v) <= A) (md_levels (ls_map s)) -> (forall i j, Rabs (sigma * jit i j) <= J) -> (forall i k, Rabs (normal i k) <= B) ->
  let e := 26 * (INR (ls_osr s) * J) * A in
  (ls_type s = "pulse"%string -> link_disturbance_at_most e sigma l n (ls_symbols s) jit normal) /\
  (forall snr, ls_type s = "awgn"%string -> ls_snr s = Some snr -> link_disturbance_at_most (e + sqrt (2 * ((A + e) * (A + e)) / Rpower 10 (snr / 10)) * B) sigma l n (ls_symbols s) jit normal).
Proof.
  intros s D d sigma A B J l n jit normal G P L4 E Sg HA HB HJ OJ FL DJ NB e.
  assert (K : (ls_type s = "pulse" \/ ls_type s = "awgn")%string -> channel_sized (fl_ch l) (ls_osr s) (ls_span s) /\ ch_pulse_zi (fl_ch l) = repeat 0 (2 * (ls_osr s * ls_span s) - 1) /\ ch_pulse (fl_ch l) = "rect"%string /\ ch_type (fl_ch l) = ls_type s /\ ch_snr (fl_ch l) = ls_snr s).
  { intros TY. destruct (link_ready s (ls_symbols s * ls_bits s) D d (proj1 G) TY) as (l0 & E0 & S & T' & Z0 & Pu & Ro & Ge & Ecd & Emd & _). pose proof E as E1. unfold ls_link in E. rewrite E in E0. injection E0 as <-. repeat split; auto; try congruence; try apply S.
    clear - E1. unfold ls_link, ls_link_of, full_link_init, channel_init, channel_data_init in E1. cbn [chd_zi chd_iir chd_fir chd_pulse_zi chd_span chd_osr chd_pulse chd_rolloff chd_type chd_snr length Nat.max] in E1.
    destruct (np_zerosR _) as [z|]; [|discriminate E1]. cbn [bind] in E1. destruct (np_zerosR _) as [z'|]; [|discriminate E1]. cbn [bind] in E1. injection E1 as <-. reflexivity. }
  split; [intros TY|intros snr TY Sn]; (destruct (K ltac:(auto)) as (S & Z0 & Pu & T & N)); intros g bs txs R F2 Lt;
    (assert (F : Forall (fun x => (4 <= length x * ls_osr s)%nat /\ Forall (fun v => Rabs v <= A) x) (map (map Qc2R) txs)) by (eapply Forall_impl; [|apply (sent_bounded s D d A l n g bs txs G ltac:(auto) E FL R F2)]; intros x [-> H]; auto)).
  - apply (disturbed_pulse (fl_ch l) (ls_osr s) (ls_span s) A J sigma); auto. congruence.
  - apply (disturbed_awgn (fl_ch l) (ls_osr s) (ls_span s) A J sigma); auto; congruence.
Qed.
Print Assumptions C77_jitter.
(** The settings of C71_case: jitter of up to a thousandth of a symbol and noise draws of up to 1.7. *)
Example C77_case : good_settings ex71 0 31 /\ ls_type ex71 = "awgn"%string /\ forall l n jit normal, ls_link ex71 = Ok l -> (forall i j, Rabs (1 / 1000 * jit i j) <= 1 / 1000) -> (forall i k, Rabs (normal i k) <= 1.7) ->
  link_disturbance_at_most (26 * (2 * (1 / 1000)) * 96 + sqrt (2 * ((96 + 26 * (2 * (1 / 1000)) * 96) * (96 + 26 * (2 * (1 / 1000)) * 96)) / Rpower 10 (20 / 10)) * 1.7) (1 / 1000) l n 3 jit normal /\
  26 * (2 * (1 / 1000)) * 96 + sqrt (2 * ((96 + 26 * (2 * (1 / 1000)) * 96) * (96 + 26 * (2 * (1 / 1000)) * 96)) / Rpower 10 (20 / 10)) * 1.7 <= 31.
Proof.
  split; [exact ex71_good|]. split; [reflexivity|]. intros l n jit normal E DJ NB. split.
  - assert (FL : Forall (fun v => Rabs (Qc2R v) <= 96) (md_levels (ls_map ex71))).
    { cbn [ls_map ex71 md_levels map]. repeat constructor; rewrite Qc2R_ofZ; [rewrite Rabs_left by lra|rewrite Rabs_left by lra|rewrite Rabs_right by lra|rewrite Rabs_right by lra]; lra. }
    apply (proj2 (C77_jitter ex71 0 31 (1 / 1000) 96 1.7 (1 / 1000) l n jit normal ex71_good eq_refl ltac:(cbn; lia) E ltac:(rewrite Rabs_right; lra) ltac:(lra) ltac:(lra) ltac:(lra) ltac:(cbn; lra) FL DJ NB) 20 eq_refl eq_refl).
  - replace (20 / 10) with (INR 2) by (cbn; field). rewrite Rpower_pow by lra. assert (SQ : sqrt (2 * ((96 + 26 * (2 * (1 / 1000)) * 96) * (96 + 26 * (2 * (1 / 1000)) * 96)) / 10 ^ 2) <= 14.4). { rewrite <- (sqrt_square 14.4) by lra. apply sqrt_le_1_alt. lra. }
    lra.
Qed.
